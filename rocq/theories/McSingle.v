(** Proofs for C84 and C85: one surface, the start and the cache. *)
From Coq Require Import List ZArith QArith Bool Arith Lia Permutation Relations.
From Verif Require Import McModel McSpec McProofs McMesh.
Import ListNotations.
Open Scope Z_scope.

(** ** The search *)
Lemma valid_cell size p : valid size p = true <-> cell size p.
Proof.
  destruct p as [[x y] z]. cbn [valid]. rewrite !andb_true_iff, !Z.leb_le, !Z.ltb_lt. split.
  - intros H d. destruct d as [|[|d]]; cbn [coordinate]; lia.
  - intros C. assert (A := C 0%nat). assert (B := C 1%nat). assert (D := C 2%nat). cbn [coordinate] in *. lia.
Qed.
Lemma existsb_peq p l : existsb (peq p) l = true <-> In p l.
Proof. rewrite existsb_exists. split; [intros (q & Q' & E); apply peq_eq in E; subst; exact Q'|intros I; exists p; split; [exact I|apply peq_eq; reflexivity]]. Qed.
(** What adding neighbours does to the queue and the marks. *)
Lemma add_spec size : forall ps fr mk fr' mk', fold_left (add_and_mark size) ps (fr, mk) = (fr', mk') -> exists new, fr' = fr ++ new /\ (forall p, In p mk' <-> In p mk \/ In p new) /\ NoDup new /\
  (forall p, In p new -> In p ps /\ cell size p /\ ~ In p mk) /\ (forall p, In p ps -> cell size p -> In p mk').
Proof.
  induction ps as [|p ps IH]; intros fr mk fr' mk' E.
  - injection E as <- <-. exists []. rewrite app_nil_r. split; [reflexivity|]. split; [intros p; cbn; tauto|]. split; [constructor|]. split; [intros p []|intros p []].
  - cbn [fold_left] in E. unfold add_and_mark at 2 in E. cbn [fst snd] in E. destruct (valid size p) eqn:V; cbn [negb] in E.
    2: { destruct (IH _ _ _ _ E) as (new & A & B & ND & C & D). exists new. split; [exact A|]. split; [exact B|]. split; [exact ND|]. split; [intros q I; destruct (C q I) as [? ?]; split; [right; assumption|assumption]|]. intros q [->|I] CQ; [apply valid_cell in CQ; congruence|apply D; assumption]. }
    destruct (existsb (peq p) mk) eqn:M.
    + apply existsb_peq in M. destruct (IH _ _ _ _ E) as (new & A & B & ND & C & D). exists new. split; [exact A|]. split; [exact B|]. split; [exact ND|]. split; [intros q I; destruct (C q I) as [? ?]; split; [right; assumption|assumption]|]. intros q [->|I] CQ; [apply B; left; exact M|apply D; assumption].
    + destruct (IH _ _ _ _ E) as (new & A & B & ND & C & D). exists (p :: new). rewrite <- app_assoc in A. cbn [app] in A. split; [exact A|]. split; [intros q; rewrite B; cbn [In]; tauto|]. split; [constructor; [intros I; destruct (C p I) as (_ & _ & X); apply X; left; reflexivity|exact ND]|]. split.
      * intros q [<-|I]; [split; [left; reflexivity|]; split; [apply valid_cell, V|intros I; apply existsb_peq in I; congruence]|]. destruct (C q I) as (X & Y & Z0). split; [right; exact X|]. split; [exact Y|]. intros I'. apply Z0. right. exact I'.
      * intros q [<-|I] CQ; [apply B; left; left; reflexivity|apply D; assumption].
Qed.
Definition met (f : point -> Z) (iso : Z) (c : point) : bool := match loc (bits_of f iso c) with [] => false | _ => true end.
Lemma met_meets f iso c : met f iso c = true <-> meets f iso c.
Proof. rewrite meets_loc. unfold met. destruct (loc (bits_of f iso c)); split; congruence. Qed.
(** The state: cells done (in order), queue and marks. *)
Record inv (size : Z) (f : point -> Z) (iso : Z) (start : point) (ps fr mk : list point) (found : bool) : Prop := Inv {
  i_nodup : NoDup (ps ++ fr);
  i_mark : forall p, In p mk <-> In p (ps ++ fr);
  i_cell : forall p, In p (ps ++ fr) -> cell size p;
  i_start : In start (ps ++ fr);
  i_found : found = existsb (met f iso) ps;
  i_grow : forall c c', In c ps -> meets f iso c \/ found = false -> beside c c' -> cell size c' -> In c' (ps ++ fr);
  i_from : meets f iso start -> (ps = [] /\ fr = [start]) \/ (found = true /\ forall c, In c (ps ++ fr) -> c = start \/ exists c', same_surface size f iso start c' /\ beside c' c) }.
Lemma surface_meets size f iso start c : meets f iso start -> same_surface size f iso start c -> meets f iso c.
Proof. intros M S0. apply clos_rt_rtn1 in S0. destruct S0 as [|c c' [_ [_ X]] _]; assumption. Qed.
Lemma spread_spec {V} (vert : point -> point -> V) size f iso start : forall fuel ps fr mk found, 0 <= size -> inv size f iso start ps fr mk found -> (Z.to_nat (size * size * size) <= fuel + length ps)%nat ->
  exists qs mk' found', spread fuel vert size f iso fr mk found (flat_map (fun c => map (tmap (vat vert c)) (loc (bits_of f iso c))) ps) = Some (Some (flat_map (fun c => map (tmap (vat vert c)) (loc (bits_of f iso c))) qs)) /\ inv size f iso start qs [] mk' found'.
Proof.
  induction fuel as [|fuel IH]; intros ps fr mk found SZ I FU.
  - destruct fr as [|c fr]; [exists ps, mk, found; split; [reflexivity|exact I]|]. exfalso. assert (L := NoDup_incl_length (i_nodup _ _ _ _ _ _ _ _ I) (fun p X => proj2 (in_cells size p) (i_cell _ _ _ _ _ _ _ _ I p X))). rewrite cells_length, app_length in L by exact SZ. cbn [length] in L. lia.
  - destruct fr as [|c fr]; [exists ps, mk, found; split; [reflexivity|exact I]|]. cbn [spread]. rewrite polygonise_spec. cbv zeta.
    set (some := match map (tmap (vat vert c)) (loc (bits_of f iso c)) with [] => false | _ => true end). assert (SM : some = met f iso c) by (unfold some, met; destruct (loc (bits_of f iso c)); reflexivity). clearbody some.
    set (found' := found || some). destruct (if some || negb found' then fold_left (add_and_mark size) (around c) (fr, mk) else (fr, mk)) as [fr' mk'] eqn:ES. cbn [fst snd].
    replace (flat_map (fun c => map (tmap (vat vert c)) (loc (bits_of f iso c))) ps ++ map (tmap (vat vert c)) (loc (bits_of f iso c))) with (flat_map (fun c => map (tmap (vat vert c)) (loc (bits_of f iso c))) (ps ++ [c])) by (rewrite flat_map_app; cbn [flat_map]; rewrite app_nil_r; reflexivity).
    apply IH; [exact SZ| |rewrite app_length; cbn [length]; lia].
    assert (FD : found' = existsb (met f iso) (ps ++ [c])) by (rewrite existsb_app; cbn [existsb]; rewrite orb_false_r, <- (i_found _ _ _ _ _ _ _ _ I), <- SM; reflexivity).
    assert (NW : exists new, fr' = fr ++ new /\ (forall p, In p mk' <-> In p mk \/ In p new) /\ NoDup new /\ (forall p, In p new -> beside c p /\ cell size p /\ ~ In p mk /\ (some || negb found' = true)) /\ (some || negb found' = true -> forall p, beside c p -> cell size p -> In p mk')).
    { destruct (some || negb found') eqn:G; [|injection ES as <- <-; exists []; rewrite app_nil_r; split; [reflexivity|]; split; [intros p; cbn; tauto|]; split; [constructor|]; split; [intros p []|discriminate]].
      destruct (add_spec size _ _ _ _ _ ES) as (new & A & B & ND & C & D). exists new. split; [exact A|]. split; [exact B|]. split; [exact ND|]. split; [intros p P; destruct (C p P) as (X & Y & Z0); apply beside_around in X; auto|intros _ p P; apply D, beside_around, P]. }
    clear ES. destruct NW as (new & -> & MK & ND & NEW & ALL). assert (RE : forall p, In p ((ps ++ [c]) ++ fr ++ new) <-> In p (ps ++ c :: fr) \/ In p new) by (intros p; rewrite <- app_assoc; cbn [app]; rewrite !in_app_iff; cbn [In]; rewrite in_app_iff; tauto).
    constructor.
    + replace ((ps ++ [c]) ++ fr ++ new) with ((ps ++ c :: fr) ++ new) by (rewrite <- !app_assoc; reflexivity). apply nodup_app_disj; [exact (i_nodup _ _ _ _ _ _ _ _ I)|exact ND|]. intros p X Y. destruct (NEW p Y) as (_ & _ & Z0 & _). apply Z0, (i_mark _ _ _ _ _ _ _ _ I), X.
    + intros p. rewrite RE, MK, (i_mark _ _ _ _ _ _ _ _ I). tauto.
    + intros p P. apply RE in P. destruct P as [P|P]; [apply (i_cell _ _ _ _ _ _ _ _ I), P|apply (NEW p P)].
    + apply RE. left. exact (i_start _ _ _ _ _ _ _ _ I).
    + exact FD.
    + intros b b' B G BB CB. apply RE. apply in_app_or in B. destruct B as [B|[<-|[]]].
      * left. apply (i_grow _ _ _ _ _ _ _ _ I b b' B); [|exact BB|exact CB]. destruct G as [G|G]; [left; exact G|right]. unfold found' in G. apply orb_false_iff in G. apply G.
      * assert (GG : some || negb found' = true) by (destruct G as [G|G]; [apply met_meets in G; rewrite SM, G; reflexivity|rewrite G; apply orb_true_r]). assert (X := ALL GG b' BB CB). apply MK in X. rewrite (i_mark _ _ _ _ _ _ _ _ I) in X. exact X.
    + intros M. right. destruct (i_from _ _ _ _ _ _ _ _ I M) as [[EP EF]|[EF FR]].
      * injection EF as -> ->. subst ps. assert (MS : some = true) by (rewrite SM; apply met_meets, M). split; [unfold found'; rewrite MS; apply orb_true_r|]. intros p P. apply RE in P. destruct P as [[<-|[]]|P]; [left; reflexivity|]. right. exists start. split; [apply rt_refl|apply (NEW p P)].
      * split; [unfold found'; rewrite EF; reflexivity|]. intros p P. apply RE in P. destruct P as [P|P]; [apply FR, P|]. right. exists c. destruct (NEW p P) as (BP & CP & _ & GG). split; [|exact BP]. assert (MC : meets f iso c) by (apply met_meets; rewrite <- SM; unfold found' in GG; rewrite EF in GG; cbn [orb negb] in GG; rewrite orb_false_r in GG; exact GG).
        destruct (FR c) as [->|(c' & SC & BC)]; [apply in_or_app; right; left; reflexivity|apply rt_refl|]. eapply rt_trans; [exact SC|]. apply rt_step. split; [exact BC|]. split; [apply (i_cell _ _ _ _ _ _ _ _ I); apply in_or_app; right; left; reflexivity|exact MC].
Qed.
Lemma first_inv size f iso start : cell size start -> inv size f iso start [] [start] [start] false.
Proof.
  intros C. constructor; cbn [app]; try reflexivity.
  - constructor; [intros []|constructor].
  - intros p [<-|[]]. exact C.
  - left. reflexivity.
  - intros c c' [].
  - intros _. left. auto.
Qed.
Lemma cell_size size c : cell size c -> 0 < size. Proof. intros C. specialize (C 0%nat). lia. Qed.
Lemma single_spec {V} (vert : point -> point -> V) size f iso start fuel : cell size start -> (Z.to_nat (size * size * size) <= fuel)%nat ->
  exists qs mk found, single_surface fuel vert size f iso start = Some (Some (flat_map (fun c => map (tmap (vat vert c)) (loc (bits_of f iso c))) qs)) /\ inv size f iso start qs [] mk found.
Proof. intros C FU. unfold single_surface. assert (P := cell_size _ _ C). destruct (spread_spec vert size f iso start fuel [] [start] [start] false ltac:(lia) (first_inv size f iso start C) ltac:(cbn [length]; lia)) as (qs & mk & found & E & I). exists qs, mk, found. split; [exact E|exact I]. Qed.
Lemma filter_flat {V} (vert : point -> point -> V) f iso qs : flat_map (fun c => map (tmap (vat vert c)) (loc (bits_of f iso c))) (filter (met f iso) qs) = flat_map (fun c => map (tmap (vat vert c)) (loc (bits_of f iso c))) qs.
Proof. induction qs as [|c qs IH]; [reflexivity|]. cbn [filter flat_map]. unfold met at 1. destruct (loc (bits_of f iso c)) eqn:E; [exact IH|]. cbn [flat_map]. rewrite E, IH. reflexivity. Qed.
(** Whatever the start, the result is the surface in a complete set of cells. *)
Lemma single_complete {V} (vert : point -> point -> V) size f iso start fuel : cell size start -> (Z.to_nat (size * size * size) <= fuel)%nat ->
  exists cs ts, single_surface fuel vert size f iso start = Some (Some ts) /\ gather vert f iso cs = Some ts /\ NoDup cs /\ (forall c, In c cs -> cell size c /\ meets f iso c) /\ complete size f iso cs.
Proof.
  intros C FU. destruct (single_spec vert size f iso start fuel C FU) as (qs & mk & found & E & I). exists (filter (met f iso) qs), (flat_map (fun c => map (tmap (vat vert c)) (loc (bits_of f iso c))) qs). split; [exact E|]. split; [rewrite gather_spec, filter_flat; reflexivity|]. destruct I as [ND MK CC ST FD GR FR]. rewrite app_nil_r in *.
  split; [apply NoDup_filter, ND|]. split; [intros c X; apply filter_In in X; destruct X as [X Y]; split; [apply CC, X|apply met_meets, Y]|]. intros c c' X M B CB MB. apply filter_In in X. destruct X as [X _]. apply filter_In. split; [apply (GR c c'); auto|apply met_meets, MB].
Qed.
(** From a cell with a surface, exactly this surface. *)
Lemma single_component {V} (vert : point -> point -> V) size f iso start fuel : cell size start -> meets f iso start -> (Z.to_nat (size * size * size) <= fuel)%nat ->
  exists cs ts, single_surface fuel vert size f iso start = Some (Some ts) /\ gather vert f iso cs = Some ts /\ NoDup cs /\ (forall c, In c cs <-> same_surface size f iso start c).
Proof.
  intros C M FU. destruct (single_spec vert size f iso start fuel C FU) as (qs & mk & found & E & I). exists (filter (met f iso) qs), (flat_map (fun c => map (tmap (vat vert c)) (loc (bits_of f iso c))) qs). split; [exact E|]. split; [rewrite gather_spec, filter_flat; reflexivity|]. destruct I as [ND MK CC ST FD GR FR]. rewrite app_nil_r in *. split; [apply NoDup_filter, ND|]. intros c. rewrite filter_In, met_meets. split.
  - intros [X Y]. destruct (FR M) as [[_ F]|[_ F]]; [discriminate|]. destruct (F c X) as [->|(c' & SC & B)]; [apply rt_refl|]. eapply rt_trans; [exact SC|]. apply rt_step. split; [exact B|]. split; [apply CC, X|exact Y].
  - intros SC. split; [|apply (surface_meets size f iso start c M SC)]. assert (SC' := SC). apply clos_rt_rtn1 in SC'. induction SC' as [|c c' [B [CB MB]] SC' IH]; [exact ST|]. assert (SC0 : same_surface size f iso start c) by (apply clos_rtn1_rt, SC'). apply (GR c c'); [apply IH, SC0|left; apply (surface_meets size f iso start c M SC0)|exact B|exact CB].
Qed.
(** The grid of cells is connected. *)
Lemma connected size (P : point -> Prop) start : cell size start -> P start -> (forall c c', P c -> beside c c' -> cell size c' -> P c') -> forall c, cell size c -> P c.
Proof.
  intros CS PS CL. assert (WALK : forall d, (d < 3)%nat -> forall n c, cell size c -> P c -> (forall k, 0 <= k <= Z.of_nat n -> coordinate d c + k < size -> P (plus3 c (let '(x, y, z) := unit d in (k * x, k * y, k * z)))) /\ (forall k, 0 <= k <= Z.of_nat n -> 0 <= coordinate d c - k -> P (plus3 c (let '(x, y, z) := unit d in (- k * x, - k * y, - k * z))))).
  { intros d D n c CC PC. assert (CE : forall s, s = 1 \/ s = -1 -> forall k, 0 <= k -> forall c, beside (plus3 c (let '(x, y, z) := unit d in (s * k * x, s * k * y, s * k * z))) (plus3 c (let '(x, y, z) := unit d in (s * (k + 1) * x, s * (k + 1) * y, s * (k + 1) * z)))).
    { clear - D. intros s S0 k K [[x y] z]. apply beside_around. unfold around. apply in_map_iff. exists (let '(a, b, c) := unit d in (s * a, s * b, s * c)). split; [destruct (unit d) as [[a b] c]; cbn [plus3]; p3|]. destruct (lt3 d D) as [->|[->| ->]], S0 as [->| ->]; cbn; tauto. }
    assert (CC' : forall s k, 0 <= coordinate d c + s * k < size -> cell size (plus3 c (let '(x, y, z) := unit d in (s * k * x, s * k * y, s * k * z)))).
    { intros s k H. refine (proj1 (all_coordinates (fun z => 0 <= z < size) _) _). intros d' D'. rewrite coordinate_plus. assert (X := CC d'). destruct (lt3 d D) as [->|[->| ->]], (lt3 d' D') as [->|[->| ->]]; cbn [unit coordinate] in *; lia. }
    split; intros k [K1 K2].
    - clear K2. revert k K1. apply (natlike_ind (fun k => coordinate d c + k < size -> P (plus3 c (let '(x, y, z) := unit d in (k * x, k * y, k * z))))).
      + intros _. replace (plus3 c (let '(x, y, z) := unit d in (0 * x, 0 * y, 0 * z))) with c by (destruct c as [[? ?] ?], (unit d) as [[? ?] ?]; cbn [plus3]; p3). exact PC.
      + intros k K IH H. assert (B := CE 1 (or_introl eq_refl) k K c). assert (T := CC' 1 (k + 1)). rewrite !Z.mul_1_l in *. unfold Z.succ in *. apply (CL _ _ (IH ltac:(lia)) B). apply T. assert (X := CC d). lia.
    - clear K2. revert k K1. apply (natlike_ind (fun k => 0 <= coordinate d c - k -> P (plus3 c (let '(x, y, z) := unit d in (- k * x, - k * y, - k * z))))).
      + intros _. replace (plus3 c (let '(x, y, z) := unit d in (- 0 * x, - 0 * y, - 0 * z))) with c by (destruct c as [[? ?] ?], (unit d) as [[? ?] ?]; cbn [plus3]; p3). exact PC.
      + intros k K IH H. assert (B := CE (-1) (or_intror eq_refl) k K c). assert (T := CC' (-1) (k + 1)). replace (-1 * k) with (- k) in * by lia. replace (-1 * (k + 1)) with (- Z.succ k) in * by lia. apply (CL _ _ (IH ltac:(lia)) B). apply T. assert (X := CC d). lia. }
  assert (MOVE : forall d, (d < 3)%nat -> forall c v, cell size c -> P c -> 0 <= v < size -> P (plus3 c (let '(x, y, z) := unit d in ((v - coordinate d c) * x, (v - coordinate d c) * y, (v - coordinate d c) * z)))).
  { intros d D c v CC PC VR. destruct (WALK d D (Z.to_nat size) c CC PC) as [W1 W2]. assert (X := CC d). destruct (Z.le_ge_cases (coordinate d c) v).
    - apply W1; lia.
    - assert (W := W2 (coordinate d c - v) ltac:(lia) ltac:(lia)). replace (- (coordinate d c - v)) with (v - coordinate d c) in W by lia. exact W. }
  intros [[x y] z] C. destruct start as [[a b] c]. assert (X := C 0%nat). assert (Y := C 1%nat). assert (Z1 := C 2%nat). assert (XA := CS 0%nat). assert (YA := CS 1%nat). assert (ZA := CS 2%nat). cbn [coordinate] in *.
  assert (M3 : forall x y z, 0 <= x < size -> 0 <= y < size -> 0 <= z < size -> cell size (x, y, z)) by (intros ? ? ? ? ? ? d; destruct d as [|[|d]]; cbn [coordinate]; assumption).
  assert (P1 := MOVE 0%nat ltac:(lia) (a, b, c) x CS PS X). cbn [unit coordinate plus3] in P1. replace (a + (x - a) * 1, b + (x - a) * 0, c + (x - a) * 0) with (x, b, c) in P1 by p3.
  assert (P2 := MOVE 1%nat ltac:(lia) (x, b, c) y (M3 _ _ _ X YA ZA) P1 Y). cbn [unit coordinate plus3] in P2. replace (x + (y - b) * 0, b + (y - b) * 1, c + (y - b) * 0) with (x, y, c) in P2 by p3.
  assert (P3 := MOVE 2%nat ltac:(lia) (x, y, c) z (M3 _ _ _ X Y ZA) P2 Z1). cbn [unit coordinate plus3] in P3. replace (x + (z - c) * 0, y + (z - c) * 0, c + (z - c) * 1) with (x, y, z) in P3 by p3. exact P3.
Qed.
(** If there is a surface at all, some surface is found. *)
Lemma single_finds {V} (vert : point -> point -> V) size f iso start fuel ts : cell size start -> (Z.to_nat (size * size * size) <= fuel)%nat -> single_surface fuel vert size f iso start = Some (Some ts) -> (ts = [] <-> forall c, cell size c -> ~ meets f iso c).
Proof.
  intros C FU E. destruct (single_spec vert size f iso start fuel C FU) as (qs & mk & found & E' & I). rewrite E in E'. injection E' as ->. destruct I as [ND MK CC ST FD GR FR]. rewrite app_nil_r in *. split.
  - intros EM. assert (NM : forall c, In c qs -> ~ meets f iso c). { intros c X M. apply meets_loc in M. apply M. clear - EM X. induction qs as [|q qs IH]; [destruct X|]. cbn [flat_map] in EM. apply app_eq_nil in EM. destruct EM as [E1 E2]. destruct X as [->|X]; [destruct (loc (bits_of f iso c)); [reflexivity|discriminate]|apply IH; assumption]. }
    assert (FF : found = false). { rewrite FD. destruct (existsb (met f iso) qs) eqn:X; [|reflexivity]. apply existsb_exists in X. destruct X as (c & X & Y). apply met_meets in Y. exfalso. apply (NM c X Y). }
    intros c CX M. apply (NM c); [|exact M]. apply (connected size (fun c => In c qs) start C ST); [|exact CX]. intros b b' B BB CB. apply (GR b b'); auto.
  - intros NM. clear - NM CC. induction qs as [|q qs IH]; [reflexivity|]. cbn [flat_map]. rewrite IH by (intros; apply CC; right; assumption). rewrite app_nil_r. destruct (loc (bits_of f iso q)) eqn:X; [reflexivity|]. exfalso. apply (NM q); [apply CC; left; reflexivity|]. apply meets_loc. congruence.
Qed.
(** ** The start *)
Lemma quot_range a len n : 0 < len -> 0 < n -> (Z.quot a len + n < 2 * n <-> a < n * len) /\ (0 <= Z.quot a len + n <-> - (n + 1) * len < a).
Proof.
  intros L N. destruct (Z.le_gt_cases 0 a) as [A|A].
  - rewrite Z.quot_div_nonneg by lia. assert (Q1 := Z.div_mod a len ltac:(lia)). assert (Q2 := Z.mod_pos_bound a len L). set (q := a / len) in *. set (r := a mod len) in *. clearbody q r. assert (0 <= q) by nia. split; split; intros HH; nia.
  - replace a with (- (- a)) by lia. rewrite Z.quot_opp_l, Z.quot_div_nonneg by lia. assert (Q1 := Z.div_mod (- a) len ltac:(lia)). assert (Q2 := Z.mod_pos_bound (- a) len L). set (q := (- a) / len) in *. set (r := (- a) mod len) in *. clearbody q r. assert (0 <= q) by nia. split; split; intros HH; nia.
Qed.
Lemma start_cell steps len center start : 0 < len -> 0 < steps -> cell (steps * 2) (start_index steps len center start) <-> forall d, - (steps + 1) * len < coordinate d start - coordinate d center < steps * len.
Proof.
  intros L SP. assert (E : forall d, coordinate d (start_index steps len center start) = Z.quot (coordinate d start - coordinate d center) len + steps) by (intros d; destruct start as [[? ?] ?], center as [[? ?] ?], d as [|[|d]]; reflexivity).
  split; intros H d; specialize (H d); rewrite ?E in *; destruct (quot_range (coordinate d start - coordinate d center) len steps L ltac:(lia)) as [A B]; split; try (apply B; lia); try (apply A; lia); try (apply B in H; lia); try (rewrite Z.mul_comm; apply A; lia).
Qed.
Lemma world_mu steps len center p q mu : eq3 (to_world steps len center (at_mu mu p q)) (at_mu mu (sample steps len center p) (sample steps len center q)).
Proof.
  destruct p as [[x1 y1] z1], q as [[x2 y2] z2], center as [[cx cy] cz]. cbn [at_mu to_world sample eq3]. unfold Z.sub. repeat rewrite ?inject_Z_plus, ?inject_Z_mult, ?inject_Z_opp. repeat split; ring.
Qed.
Lemma to_world_eq3 steps len center a b : eq3 a b -> eq3 (to_world steps len center a) (to_world steps len center b).
Proof. destruct a as [[? ?] ?], b as [[? ?] ?], center as [[? ?] ?]. cbn [eq3 to_world]. intros (-> & -> & ->). repeat split; reflexivity. Qed.
Lemma eq3_trans a b c : eq3 a b -> eq3 b c -> eq3 a c.
Proof. destruct a as [[? ?] ?], b as [[? ?] ?], c as [[? ?] ?]. cbn [eq3]. intros (-> & -> & ->) (-> & -> & ->). repeat split; reflexivity. Qed.
Lemma calculate_vertices fuel th steps len center start model iso : 0 <= th -> 0 < len -> 0 < steps -> (forall d, - (steps + 1) * len < coordinate d start - coordinate d center < steps * len) -> (Z.to_nat (steps * 2 * (steps * 2) * (steps * 2)) <= fuel)%nat ->
  exists ts, calculate fuel th steps len center start model iso = Some (Some ts) /\
    forall v, In v (vertices ts) -> exists p q mu, in_grid (steps * 2) p /\ in_grid (steps * 2) q /\ joined p q /\ crosses model iso (sample steps len center p) (sample steps len center q) /\ hits th model iso (sample steps len center p) (sample steps len center q) mu /\ eq3 v (at_mu mu (sample steps len center p) (sample steps len center q)).
Proof.
  intros T L SP H FU. apply start_cell in H; [|assumption..]. unfold calculate. cbv zeta. set (f := fun p => model (sample steps len center p)). destruct (single_complete (interp th iso f) (steps * 2) f iso (start_index steps len center start) fuel H FU) as (cs & ts & E & G & ND & CC & CO). rewrite E. eexists. split; [reflexivity|].
  intros v I. change (In v (vertices (map (tmap (to_world steps len center)) ts))) in I. rewrite vertices_map in I. apply in_map_iff in I. destruct I as (w & <- & I). destruct (vertex_from _ (steps * 2) f iso cs ts w (fun c X => proj1 (CC c X)) G I) as (p & q & P & Q' & J & X & ->). destruct (interp_hits th iso f p q T X) as (mu & HT & EQ). exists p, q, mu. split; [exact P|]. split; [exact Q'|]. split; [exact J|]. split; [exact X|]. split; [exact HT|].
  eapply eq3_trans; [apply to_world_eq3, EQ|apply world_mu].
Qed.
(** ** The cache *)
Lemma place_in n p : (forall d, 0 <= coordinate d p < n) -> place n p = Some (Z.to_nat (coordinate 0 p + n * coordinate 1 p + n * n * coordinate 2 p)) /\ 0 <= coordinate 0 p + n * coordinate 1 p + n * n * coordinate 2 p < n * n * n.
Proof.
  destruct p as [[x y] z]. intros H. assert (X := H 0%nat). assert (Y := H 1%nat). assert (Z0 := H 2%nat). cbn [coordinate] in *. assert (B : 0 <= x + n * y + n * n * z < n * n * n).
  { assert (A1 : 0 <= n * y <= n * (n - 1)) by nia. assert (A2 : 0 <= n * n * z <= n * n * (n - 1)) by (split; [nia|apply Z.mul_le_mono_nonneg_l; nia]). nia. }
  split; [|exact B]. cbn [place]. destruct (Z.leb_spec 0 (x + n * y + n * n * z)), (Z.ltb_spec (x + n * y + n * n * z) (n * n * n)); try lia. reflexivity.
Qed.
Lemma place_inj n p q : (forall d, 0 <= coordinate d p < n) -> (forall d, 0 <= coordinate d q < n) -> place n p = place n q -> p = q.
Proof.
  intros P Q' E. destruct (place_in n p P) as [EP BP], (place_in n q Q') as [EQ BQ]. rewrite EP, EQ in E. injection E as E. apply Z2Nat.inj in E; [|lia..]. destruct p as [[x y] z], q as [[x' y'] z']. assert (X := P 0%nat). assert (Y := P 1%nat). assert (Z0 := P 2%nat). assert (X' := Q' 0%nat). assert (Y' := Q' 1%nat). assert (Z' := Q' 2%nat). cbn [coordinate] in *.
  assert (E1 : x + n * (y + n * z) = x' + n * (y' + n * z')) by nia. destruct (Z.div_mod_unique n (y + n * z) (y' + n * z') x x' ltac:(lia) ltac:(lia) ltac:(lia)) as [D1 ->]. destruct (Z.div_mod_unique n z z' y y' ltac:(lia) ltac:(lia) ltac:(lia)) as [-> ->]. reflexivity.
Qed.
Lemma store_length : forall l k v, length (store l k v) = length l.
Proof. induction l as [|x l IH]; intros [|k] v; cbn [store length]; try reflexivity. rewrite IH. reflexivity. Qed.
Lemma nth_store : forall l k v j, (k < length l)%nat -> nth j (store l k v) None = if (j =? k)%nat then Some v else nth j l None.
Proof. induction l as [|x l IH]; intros k v j K; cbn [length] in K; [lia|]. destruct k as [|k], j as [|j]; cbn [store nth Nat.eqb]; try reflexivity. apply IH. lia. Qed.
Definition ptdec : forall a b : point, {a = b} + {a <> b}. Proof. repeat decide equality. Defined.
Definition holds (n : Z) (f : point -> Z) (seen : list point) (s : cache) : Prop :=
  length (fst s) = Z.to_nat (n * n * n) /\ (forall p k, (forall d, 0 <= coordinate d p < n) -> place n p = Some k -> nth k (fst s) None = if in_dec ptdec p seen then Some (f p) else None).
Lemma new_holds n f : holds n f [] (new_cache n).
Proof. unfold holds, new_cache. cbn [fst]. rewrite repeat_length. split; [reflexivity|]. intros p k _ _. cbn. apply nth_repeat. Qed.
Lemma get_holds n f seen s p : holds n f seen s -> (forall d, 0 <= coordinate d p < n) -> exists s', cache_get n f p s = Some (f p, s') /\ holds n f (p :: seen) s' /\ snd s' = (snd s + if in_dec ptdec p seen then 0 else 1)%nat.
Proof.
  intros [L H] P. destruct (place_in n p P) as [EP BP]. unfold cache_get. rewrite EP. assert (HP := H p _ P EP). destruct (in_dec ptdec p seen) as [I|I].
  - rewrite HP. exists s. split; [reflexivity|]. split; [|lia]. split; [exact L|]. intros q k Q' EQ. rewrite (H q k Q' EQ). destruct (in_dec ptdec q seen), (in_dec ptdec q (p :: seen)) as [J|J]; try reflexivity; [exfalso; apply J; right; assumption|destruct J as [->|J]; contradiction].
  - rewrite HP. eexists. split; [reflexivity|]. cbn [fst snd]. split; [|lia]. split; [cbn [fst]; rewrite store_length; exact L|]. intros q k Q' EQ. cbn [fst]. rewrite nth_store by lia. destruct (Nat.eqb_spec k (Z.to_nat (coordinate 0 p + n * coordinate 1 p + n * n * coordinate 2 p))) as [->|N].
    + assert (q = p) by (apply (place_inj n); [exact Q'|exact P|congruence]). subst q. destruct (in_dec ptdec p (p :: seen)) as [_|J]; [reflexivity|exfalso; apply J; left; reflexivity].
    + rewrite (H q k Q' EQ). destruct (in_dec ptdec q seen), (in_dec ptdec q (p :: seen)) as [J|J]; try reflexivity; [exfalso; apply J; right; assumption|]. destruct J as [->|J]; [congruence|contradiction].
Qed.
Lemma fetch_spec n f : forall ps seen s, holds n f seen s -> NoDup seen -> (forall p, In p ps -> forall d, 0 <= coordinate d p < n) -> exists s' seen', fetch n f ps s = Some (map f ps, s') /\ NoDup seen' /\ (forall p, In p seen' <-> In p seen \/ In p ps) /\ (snd s' + length seen = snd s + length seen')%nat.
Proof.
  induction ps as [|p ps IH]; intros seen s H ND PS.
  - exists s, seen. split; [reflexivity|]. split; [exact ND|]. split; [intros p; cbn; tauto|lia].
  - cbn [fetch map]. destruct (get_holds n f seen s p H (PS p (or_introl eq_refl))) as (s1 & E & H1 & C1). rewrite E. destruct (in_dec ptdec p seen) as [I|I].
    + assert (H2 : holds n f seen s1). { destruct H1 as [L1 H1]. split; [exact L1|]. intros q k Q' EQ. rewrite (H1 q k Q' EQ). destruct (in_dec ptdec q seen), (in_dec ptdec q (p :: seen)) as [J|J]; try reflexivity; [exfalso; apply J; right; assumption|destruct J as [->|J]; contradiction]. }
      destruct (IH seen s1 H2 ND (fun q X => PS q (or_intror X))) as (s' & seen' & E' & ND' & IN & CN). rewrite E'. exists s', seen'. split; [reflexivity|]. split; [exact ND'|]. split; [intros q; rewrite IN; cbn [In]; split; [tauto|intros [?|[->|?]]; auto]|lia].
    + destruct (IH (p :: seen) s1 H1 (NoDup_cons _ I ND) (fun q X => PS q (or_intror X))) as (s' & seen' & E' & ND' & IN & CN). rewrite E'. exists s', seen'. split; [reflexivity|]. split; [exact ND'|]. split; [intros q; rewrite IN; cbn [In]; tauto|cbn [length] in CN; lia].
Qed.
