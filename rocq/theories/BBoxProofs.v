(** Proofs for bounding boxes. *)
From Coq Require Import Reals List Bool Lra Lia.
From Verif Require Import QuatModel RpyModel BBoxModel BBoxSpec.
Import ListNotations.
Open Scope R_scope.

Lemma lower_least : forall ns m, least (m :: ns) (fold_left lower ns m).
Proof.
  intros ns. induction ns as [|n ns IH] using rev_ind; intros m.
  - cbn [fold_left]. destruct m as [x|]; cbn [least].
    + split; [left; reflexivity|]. intros y [E|[]]. injection E as ->. lra.
    + intros n [<-|[]]. reflexivity.
  - rewrite fold_left_app. cbn [fold_left]. specialize (IH m). set (v := fold_left lower ns m) in *.
    assert (I : forall k, In k (m :: ns ++ [n]) <-> In k (m :: ns) \/ k = n) by (intros k; cbn [In]; rewrite in_app_iff; cbn [In]; intuition).
    unfold lower. destruct v as [x|]; cbn [isnan orb least] in *.
    + destruct n as [y|]; cbn [nlt].
      * destruct (Rlt_dec y x) as [L|L]; cbn [least]; (split; [apply I; tauto|]); intros z Z; apply I in Z; destruct Z as [Z|Z]; try (injection Z as ->; lra).
        -- apply IH in Z. lra.
        -- apply IH, Z.
      * split; [apply I; tauto|]. intros z Z. apply I in Z. destruct Z as [Z|Z]; [apply IH, Z|discriminate].
    + destruct n as [y|]; cbn [least].
      * split; [apply I; right; reflexivity|]. intros z Z. apply I in Z. destruct Z as [Z|Z]; [apply IH in Z; discriminate|]. injection Z as ->. lra.
      * intros k K. apply I in K. destruct K as [K| ->]; [apply IH, K|reflexivity].
Qed.
Lemma upper_greatest : forall ns m, greatest (m :: ns) (fold_left upper ns m).
Proof.
  intros ns. induction ns as [|n ns IH] using rev_ind; intros m.
  - cbn [fold_left]. destruct m as [x|]; cbn [greatest].
    + split; [left; reflexivity|]. intros y [E|[]]. injection E as ->. lra.
    + intros n [<-|[]]. reflexivity.
  - rewrite fold_left_app. cbn [fold_left]. specialize (IH m). set (v := fold_left upper ns m) in *.
    assert (I : forall k, In k (m :: ns ++ [n]) <-> In k (m :: ns) \/ k = n) by (intros k; cbn [In]; rewrite in_app_iff; cbn [In]; intuition).
    unfold upper. destruct v as [x|]; cbn [isnan orb greatest] in *.
    + destruct n as [y|]; cbn [nlt].
      * destruct (Rlt_dec x y) as [L|L]; cbn [greatest]; (split; [apply I; tauto|]); intros z Z; apply I in Z; destruct Z as [Z|Z]; try (injection Z as ->; lra).
        -- apply IH in Z. lra.
        -- apply IH, Z.
      * split; [apply I; tauto|]. intros z Z. apply I in Z. destruct Z as [Z|Z]; [apply IH, Z|discriminate].
    + destruct n as [y|]; cbn [greatest].
      * split; [apply I; right; reflexivity|]. intros z Z. apply I in Z. destruct Z as [Z|Z]; [apply IH in Z; discriminate|]. injection Z as ->. lra.
      * intros k K. apply I in K. destruct K as [K| ->]; [apply IH, K|reflexivity].
Qed.
Lemma add_points_coords : forall ps b, add_points b ps =
  Box (V (fold_left lower (map c0 ps) (c0 (bmin b))) (fold_left lower (map c1 ps) (c1 (bmin b))) (fold_left lower (map c2 ps) (c2 (bmin b))))
      (V (fold_left upper (map c0 ps) (c0 (bmax b))) (fold_left upper (map c1 ps) (c1 (bmax b))) (fold_left upper (map c2 ps) (c2 (bmax b)))).
Proof.
  unfold add_points. induction ps as [|p ps IH]; intros b; cbn [fold_left map].
  - destruct b as [[a0 a1 a2] [d0 d1 d2]]. reflexivity.
  - rewrite IH. reflexivity.
Qed.
Lemma least_some : forall l ps (f : vec3 -> R) m, l = map (fun p => Some (f p)) ps -> (m = None /\ ps <> [] \/ exists x, m = Some x) ->
  exists v, fold_left lower l m = Some v /\ (forall p, In p ps -> v <= f p) /\ (forall x, m = Some x -> v <= x) /\
    (forall w, (forall p, In p ps -> w <= f p) -> (forall x, m = Some x -> w <= x) -> w <= v) /\ (m = Some v \/ exists p, In p ps /\ v = f p).
Proof.
  intros l ps f m -> M. assert (H := lower_least (map (fun p => Some (f p)) ps) m). set (v := fold_left lower _ m) in *. destruct v as [v|].
  - cbn [least] in H. destruct H as [H1 H2]. exists v. split; [reflexivity|].
    assert (A : m = Some v \/ exists p, In p ps /\ v = f p).
    { destruct H1 as [H1|H1]; [left; exact H1|]. apply in_map_iff in H1. destruct H1 as (p & E & I). right. exists p. split; [exact I|]. injection E as ->. reflexivity. }
    split; [intros p I; apply H2; right; apply in_map_iff; exists p; auto|]. split; [intros x ->; apply H2; left; reflexivity|]. split; [|exact A].
    intros w W1 W2. destruct A as [A|(p & I & ->)]; auto.
  - exfalso. cbn [least] in H. destruct M as [(-> & NE)|(x & ->)].
    + destruct ps as [|p ps]; [congruence|]. specialize (H (Some (f p)) (or_intror (or_introl eq_refl))). discriminate.
    + specialize (H (Some x) (or_introl eq_refl)). discriminate.
Qed.
Lemma greatest_some : forall l ps (f : vec3 -> R) m, l = map (fun p => Some (f p)) ps -> (m = None /\ ps <> [] \/ exists x, m = Some x) ->
  exists v, fold_left upper l m = Some v /\ (forall p, In p ps -> f p <= v) /\ (forall x, m = Some x -> x <= v) /\
    (forall w, (forall p, In p ps -> f p <= w) -> (forall x, m = Some x -> x <= w) -> v <= w) /\ (m = Some v \/ exists p, In p ps /\ v = f p).
Proof.
  intros l ps f m -> M. assert (H := upper_greatest (map (fun p => Some (f p)) ps) m). set (v := fold_left upper _ m) in *. destruct v as [v|].
  - cbn [greatest] in H. destruct H as [H1 H2]. exists v. split; [reflexivity|].
    assert (A : m = Some v \/ exists p, In p ps /\ v = f p).
    { destruct H1 as [H1|H1]; [left; exact H1|]. apply in_map_iff in H1. destruct H1 as (p & E & I). right. exists p. split; [exact I|]. injection E as ->. reflexivity. }
    split; [intros p I; apply H2; right; apply in_map_iff; exists p; auto|]. split; [intros x ->; apply H2; left; reflexivity|]. split; [|exact A].
    intros w W1 W2. destruct A as [A|(p & I & ->)]; auto.
  - exfalso. cbn [greatest] in H. destruct M as [(-> & NE)|(x & ->)].
    + destruct ps as [|p ps]; [congruence|]. specialize (H (Some (f p)) (or_intror (or_introl eq_refl))). discriminate.
    + specialize (H (Some x) (or_introl eq_refl)). discriminate.
Qed.
Lemma map_pt : forall (g : vec -> num) (f : vec3 -> R) ps, (forall p, g (pt p) = Some (f p)) -> map g (map pt ps) = map (fun p => Some (f p)) ps.
Proof. intros g f ps H. rewrite map_map. apply map_ext. exact H. Qed.

(** A box that already has corners, and more points. *)
Lemma add_points_some : forall b l h ps, span b l h -> exists l' h', span (add_points b (map pt ps)) l' h' /\
  (ordered l h -> ordered l' h') /\ (forall p, within l h p -> within l' h' p) /\ (ordered l h -> forall p, In p ps -> within l' h' p) /\
  (forall k m, (forall p, In p ps -> within k m p) -> within k m l -> within k m h -> within k m l' /\ within k m h') /\
  ((forall p, In p ps -> within l h p) -> l' = l /\ h' = h).
Proof.
  intros b l h ps [B1 B2]. rewrite add_points_coords, B1, B2. unfold point; cbn [c0 c1 c2].
  destruct (least_some (map c0 (map pt ps)) ps vx (Some (vx l)) ltac:(apply map_pt; reflexivity) ltac:(right; eexists; reflexivity)) as (x & -> & X1 & X2 & X3 & X4).
  destruct (least_some (map c1 (map pt ps)) ps vy (Some (vy l)) ltac:(apply map_pt; reflexivity) ltac:(right; eexists; reflexivity)) as (y & -> & Y1 & Y2 & Y3 & Y4).
  destruct (least_some (map c2 (map pt ps)) ps vz (Some (vz l)) ltac:(apply map_pt; reflexivity) ltac:(right; eexists; reflexivity)) as (z & -> & Z1 & Z2 & Z3 & Z4).
  destruct (greatest_some (map c0 (map pt ps)) ps vx (Some (vx h)) ltac:(apply map_pt; reflexivity) ltac:(right; eexists; reflexivity)) as (x' & -> & X1' & X2' & X3' & X4').
  destruct (greatest_some (map c1 (map pt ps)) ps vy (Some (vy h)) ltac:(apply map_pt; reflexivity) ltac:(right; eexists; reflexivity)) as (y' & -> & Y1' & Y2' & Y3' & Y4').
  destruct (greatest_some (map c2 (map pt ps)) ps vz (Some (vz h)) ltac:(apply map_pt; reflexivity) ltac:(right; eexists; reflexivity)) as (z' & -> & Z1' & Z2' & Z3' & Z4').
  specialize (X2 _ eq_refl). specialize (Y2 _ eq_refl). specialize (Z2 _ eq_refl). specialize (X2' _ eq_refl). specialize (Y2' _ eq_refl). specialize (Z2' _ eq_refl).
  exists (Vec x y z), (Vec x' y' z'). split; [split; reflexivity|]. unfold ordered, within; cbn [vx vy vz]. split; [|split; [|split; [|split]]].
  - lra.
  - intros p. lra.
  - intros _ p I. specialize (X1 p I). specialize (Y1 p I). specialize (Z1 p I). specialize (X1' p I). specialize (Y1' p I). specialize (Z1' p I). lra.
  - intros k m W L H.
    assert (vx k <= x) by (apply X3; [intros p I; apply W, I|intros q [= <-]; lra]). assert (vy k <= y) by (apply Y3; [intros p I; apply W, I|intros q [= <-]; lra]). assert (vz k <= z) by (apply Z3; [intros p I; apply W, I|intros q [= <-]; lra]).
    assert (x' <= vx m) by (apply X3'; [intros p I; apply W, I|intros q [= <-]; lra]). assert (y' <= vy m) by (apply Y3'; [intros p I; apply W, I|intros q [= <-]; lra]). assert (z' <= vz m) by (apply Z3'; [intros p I; apply W, I|intros q [= <-]; lra]).
    lra.
  - intros W.
    assert (vx l <= x) by (apply X3; [intros p I; apply W, I|intros q [= <-]; lra]). assert (vy l <= y) by (apply Y3; [intros p I; apply W, I|intros q [= <-]; lra]). assert (vz l <= z) by (apply Z3; [intros p I; apply W, I|intros q [= <-]; lra]).
    assert (x' <= vx h) by (apply X3'; [intros p I; apply W, I|intros q [= <-]; lra]). assert (y' <= vy h) by (apply Y3'; [intros p I; apply W, I|intros q [= <-]; lra]). assert (z' <= vz h) by (apply Z3'; [intros p I; apply W, I|intros q [= <-]; lra]).
    destruct l as [l0 l1 l2], h as [h0 h1 h2]. cbn [vx vy vz] in *. split; f_equal; lra.
Qed.
Lemma of_points_cons : forall p ps, of_points (map pt (p :: ps)) = add_points (Box (pt p) (pt p)) (map pt ps).
Proof. reflexivity. Qed.

(** ** Corners *)
Definition corners (l h : vec3) : list vec3 :=
  [Vec (vx l) (vy l) (vz l); Vec (vx l) (vy l) (vz h); Vec (vx l) (vy h) (vz l); Vec (vx l) (vy h) (vz h);
   Vec (vx h) (vy l) (vz l); Vec (vx h) (vy l) (vz h); Vec (vx h) (vy h) (vz l); Vec (vx h) (vy h) (vz h)].
Lemma get_points_corners : forall b l h, span b l h -> get_points b = map pt (corners l h).
Proof. intros b l h [B1 B2]. unfold get_points, has_nan. rewrite B1, B2. reflexivity. Qed.
Lemma span_no_nan : forall b l h, span b l h -> has_nan b = false.
Proof. intros b l h [B1 B2]. unfold has_nan. rewrite B1, B2. reflexivity. Qed.
(** A linear form takes its least and its greatest value over a box at corners. *)
Definition form (a b c t : R) (p : vec3) : R := a * vx p + b * vy p + c * vz p + t.
Lemma seg_low : forall a lo hi x, lo <= x <= hi -> a * lo <= a * x \/ a * hi <= a * x.
Proof. intros a lo hi x H. destruct (Rle_dec 0 a); [left|right]; nra. Qed.
Lemma form_low : forall a b c t l h p, within l h p -> exists k, In k (corners l h) /\ form a b c t k <= form a b c t p.
Proof.
  intros a b c t l h p (X & Y & Z). unfold form, corners.
  destruct (seg_low a _ _ _ X) as [A|A], (seg_low b _ _ _ Y) as [B|B], (seg_low c _ _ _ Z) as [C|C].
  - exists (Vec (vx l) (vy l) (vz l)). cbn [vx vy vz In]. split; [tauto|lra].
  - exists (Vec (vx l) (vy l) (vz h)). cbn [vx vy vz In]. split; [tauto|lra].
  - exists (Vec (vx l) (vy h) (vz l)). cbn [vx vy vz In]. split; [tauto|lra].
  - exists (Vec (vx l) (vy h) (vz h)). cbn [vx vy vz In]. split; [tauto|lra].
  - exists (Vec (vx h) (vy l) (vz l)). cbn [vx vy vz In]. split; [tauto|lra].
  - exists (Vec (vx h) (vy l) (vz h)). cbn [vx vy vz In]. split; [tauto|lra].
  - exists (Vec (vx h) (vy h) (vz l)). cbn [vx vy vz In]. split; [tauto|lra].
  - exists (Vec (vx h) (vy h) (vz h)). cbn [vx vy vz In]. split; [tauto|lra].
Qed.
Lemma form_high : forall a b c t l h p, within l h p -> exists k, In k (corners l h) /\ form a b c t p <= form a b c t k.
Proof.
  intros a b c t l h p W. destruct (form_low (- a) (- b) (- c) (- t) l h p W) as (k & I & L). exists k. split; [exact I|]. unfold form in *. lra.
Qed.
Lemma corners_within : forall l h k, ordered l h -> In k (corners l h) -> within l h k.
Proof.
  intros l h k O I. unfold ordered, within in *. unfold corners in I. cbn [In] in I.
  repeat (destruct I as [<-|I]; [cbn [vx vy vz]; lra|]). destruct I.
Qed.

(** ** transform *)
Lemma take_min_all : forall ns x, (forall n, In n ns -> exists y, n = Some y) -> exists v, fold_left take_min ns (Some x) = Some v /\ v <= x /\ (forall y, In (Some y) ns -> v <= y) /\ (v = x \/ In (Some v) ns).
Proof.
  induction ns as [|n ns IH]; intros x H; cbn [fold_left].
  - exists x. split; [reflexivity|]. split; [lra|]. split; [intros y []|left; reflexivity].
  - destruct (H n (or_introl eq_refl)) as (y & ->). unfold take_min at 2; cbn [nlt].
    destruct (Rlt_dec y x) as [L|L].
    + destruct (IH y (fun n I => H n (or_intror I))) as (v & E & V1 & V2 & V3). exists v. split; [exact E|]. split; [lra|]. split.
      * intros z [[= <-]|I]; [exact V1|apply V2, I].
      * right. destruct V3 as [-> |V3]; [left; reflexivity|right; exact V3].
    + destruct (IH x (fun n I => H n (or_intror I))) as (v & E & V1 & V2 & V3). exists v. split; [exact E|]. split; [lra|]. split.
      * intros z [[= <-]|I]; [lra|apply V2, I].
      * destruct V3 as [-> |V3]; [left; reflexivity|right; right; exact V3].
Qed.
Lemma take_max_all : forall ns x, (forall n, In n ns -> exists y, n = Some y) -> exists v, fold_left take_max ns (Some x) = Some v /\ x <= v /\ (forall y, In (Some y) ns -> y <= v) /\ (v = x \/ In (Some v) ns).
Proof.
  induction ns as [|n ns IH]; intros x H; cbn [fold_left].
  - exists x. split; [reflexivity|]. split; [lra|]. split; [intros y []|left; reflexivity].
  - destruct (H n (or_introl eq_refl)) as (y & ->). unfold take_max at 2; cbn [nlt].
    destruct (Rlt_dec x y) as [L|L].
    + destruct (IH y (fun n I => H n (or_intror I))) as (v & E & V1 & V2 & V3). exists v. split; [exact E|]. split; [lra|]. split.
      * intros z [[= <-]|I]; [exact V1|apply V2, I].
      * right. destruct V3 as [-> |V3]; [left; reflexivity|right; exact V3].
    + destruct (IH x (fun n I => H n (or_intror I))) as (v & E & V1 & V2 & V3). exists v. split; [exact E|]. split; [lra|]. split.
      * intros z [[= <-]|I]; [lra|apply V2, I].
      * destruct V3 as [-> |V3]; [left; reflexivity|right; right; exact V3].
Qed.
Lemma widen_coords : forall ps b, fold_left widen ps b =
  Box (V (fold_left take_min (map c0 ps) (c0 (bmin b))) (fold_left take_min (map c1 ps) (c1 (bmin b))) (fold_left take_min (map c2 ps) (c2 (bmin b))))
      (V (fold_left take_max (map c0 ps) (c0 (bmax b))) (fold_left take_max (map c1 ps) (c1 (bmax b))) (fold_left take_max (map c2 ps) (c2 (bmax b)))).
Proof.
  induction ps as [|p ps IH]; intros b; cbn [fold_left map].
  - destruct b as [[a0 a1 a2] [d0 d1 d2]]. reflexivity.
  - rewrite IH. reflexivity.
Qed.
Lemma take_min_form : forall (qs : list vec3) (f : vec3 -> R) x, (forall p, In p qs -> f p <= x) -> qs <> [] ->
  exists v, fold_left take_min (map (fun p => Some (f p)) qs) (Some x) = Some v /\ (forall p, In p qs -> v <= f p) /\ exists p, In p qs /\ v = f p.
Proof.
  intros qs f x B NE. destruct (take_min_all (map (fun p => Some (f p)) qs) x) as (v & E & V1 & V2 & V3).
  - intros n I. apply in_map_iff in I. destruct I as (p & <- & _). eexists. reflexivity.
  - exists v. split; [exact E|]. assert (V2' : forall p, In p qs -> v <= f p) by (intros p I; apply V2, in_map_iff; exists p; auto). split; [exact V2'|].
    destruct V3 as [V3|V3].
    + destruct qs as [|p qs]; [congruence|]. exists p. split; [left; reflexivity|]. specialize (B p (or_introl eq_refl)). specialize (V2' p (or_introl eq_refl)). lra.
    + apply in_map_iff in V3. destruct V3 as (p & E3 & I). exists p. split; [exact I|]. injection E3 as ->. reflexivity.
Qed.
Lemma take_max_form : forall (qs : list vec3) (f : vec3 -> R) x, (forall p, In p qs -> x <= f p) -> qs <> [] ->
  exists v, fold_left take_max (map (fun p => Some (f p)) qs) (Some x) = Some v /\ (forall p, In p qs -> f p <= v) /\ exists p, In p qs /\ v = f p.
Proof.
  intros qs f x B NE. destruct (take_max_all (map (fun p => Some (f p)) qs) x) as (v & E & V1 & V2 & V3).
  - intros n I. apply in_map_iff in I. destruct I as (p & <- & _). eexists. reflexivity.
  - exists v. split; [exact E|]. assert (V2' : forall p, In p qs -> f p <= v) by (intros p I; apply V2, in_map_iff; exists p; auto). split; [exact V2'|].
    destruct V3 as [V3|V3].
    + destruct qs as [|p qs]; [congruence|]. exists p. split; [left; reflexivity|]. specialize (B p (or_introl eq_refl)). specialize (V2' p (or_introl eq_refl)). lra.
    + apply in_map_iff in V3. destruct V3 as (p & E3 & I). exists p. split; [exact I|]. injection E3 as ->. reflexivity.
Qed.
(** The corners in the order of transform. *)
Definition corners' (l h : vec3) : list vec3 :=
  [Vec (vx l) (vy l) (vz l); Vec (vx h) (vy l) (vz l); Vec (vx l) (vy h) (vz l); Vec (vx h) (vy h) (vz l);
   Vec (vx l) (vy l) (vz h); Vec (vx h) (vy l) (vz h); Vec (vx l) (vy h) (vz h); Vec (vx h) (vy h) (vz h)].
Lemma corners_same : forall l h k, In k (corners l h) <-> In k (corners' l h).
Proof. intros l h k. unfold corners, corners'. cbn [In]. tauto. Qed.
Lemma move_pt : forall g p, move g (pt p) = pt (image g p).
Proof. reflexivity. Qed.
Lemma transform_ok : forall b l h g, span b l h -> (forall k, In k (corners l h) -> within (Vec (- flt_max) (- flt_max) (- flt_max)) (Vec flt_max flt_max flt_max) (image g k)) ->
  exists l' h', span (transform b g) l' h' /\ (forall p, within l h p -> within l' h' (image g p)) /\
    (forall k m, (forall c, In c (corners l h) -> within k m (image g c)) -> within k m l' /\ within k m h') .
Proof.
  intros b l h g S B. assert (NN := span_no_nan b l h S). destruct S as [B1 B2]. unfold transform. rewrite NN, B1, B2. unfold point at 1 2 3 4 5 6 7 8 9 10 11 12 13 14 15 16 17 18 19 20 21 22 23 24; cbn [c0 c1 c2].
  change (map (move g) _) with (map (move g) (map pt (corners' l h))). rewrite map_map, (map_ext _ (fun p => pt (image g p)) (move_pt g)), <- map_map with (f := image g) (g := pt).
  rewrite widen_coords. unfold point; cbn [bmin bmax c0 c1 c2]. rewrite !map_map. cbn [pt point c0 c1 c2].
  assert (NE : corners' l h <> []) by discriminate.
  assert (BB : forall p, In p (corners' l h) -> within (Vec (- flt_max) (- flt_max) (- flt_max)) (Vec flt_max flt_max flt_max) (image g p)) by (intros p I; apply B, corners_same, I).
  destruct (take_min_form (corners' l h) (fun p => vx (image g p)) flt_max) as (x & -> & X1 & px & X2 & X3); [intros p I; apply (BB p I)|exact NE|].
  destruct (take_min_form (corners' l h) (fun p => vy (image g p)) flt_max) as (y & -> & Y1 & py & Y2 & Y3); [intros p I; apply (BB p I)|exact NE|].
  destruct (take_min_form (corners' l h) (fun p => vz (image g p)) flt_max) as (z & -> & Z1 & pz & Z2 & Z3); [intros p I; apply (BB p I)|exact NE|].
  destruct (take_max_form (corners' l h) (fun p => vx (image g p)) (- flt_max)) as (x' & -> & X1' & px' & X2' & X3'); [intros p I; apply (BB p I)|exact NE|].
  destruct (take_max_form (corners' l h) (fun p => vy (image g p)) (- flt_max)) as (y' & -> & Y1' & py' & Y2' & Y3'); [intros p I; apply (BB p I)|exact NE|].
  destruct (take_max_form (corners' l h) (fun p => vz (image g p)) (- flt_max)) as (z' & -> & Z1' & pz' & Z2' & Z3'); [intros p I; apply (BB p I)|exact NE|].
  exists (Vec x y z), (Vec x' y' z'). split; [split; reflexivity|]. split.
  - intros p W. set (m := prot g) in *. set (t := ppos g) in *.
    assert (LO : forall a b c t f, (forall q, f q = form a b c t q) -> forall v, (forall q, In q (corners' l h) -> v <= f q) -> v <= f p).
    { intros a b' c t' f F v H. destruct (form_low a b' c t' l h p W) as (k & I & L). apply corners_same in I. specialize (H k I). rewrite F in *. lra. }
    assert (HI : forall a b c t f, (forall q, f q = form a b c t q) -> forall v, (forall q, In q (corners' l h) -> f q <= v) -> f p <= v).
    { intros a b' c t' f F v H. destruct (form_high a b' c t' l h p W) as (k & I & L). apply corners_same in I. specialize (H k I). rewrite F in *. lra. }
    unfold within; cbn [vx vy vz]. split; [|split]; split.
    + apply (LO (m00 m) (m01 m) (m02 m) (vx t) (fun q => vx (image g q))); [reflexivity|exact X1].
    + apply (HI (m00 m) (m01 m) (m02 m) (vx t) (fun q => vx (image g q))); [reflexivity|exact X1'].
    + apply (LO (m10 m) (m11 m) (m12 m) (vy t) (fun q => vy (image g q))); [reflexivity|exact Y1].
    + apply (HI (m10 m) (m11 m) (m12 m) (vy t) (fun q => vy (image g q))); [reflexivity|exact Y1'].
    + apply (LO (m20 m) (m21 m) (m22 m) (vz t) (fun q => vz (image g q))); [reflexivity|exact Z1].
    + apply (HI (m20 m) (m21 m) (m22 m) (vz t) (fun q => vz (image g q))); [reflexivity|exact Z1'].
  - intros k m' W. assert (WW : forall c, In c (corners' l h) -> within k m' (image g c)) by (intros c I; apply W, corners_same, I).
    assert (A1 := WW _ X2). assert (A2 := WW _ Y2). assert (A3 := WW _ Z2). assert (A4 := WW _ X2'). assert (A5 := WW _ Y2'). assert (A6 := WW _ Z2').
    unfold within in *. rewrite <- X3, <- Y3, <- Z3 in *. cbn [vx vy vz] in *. rewrite X3, Y3, Z3, X3', Y3', Z3' in *. lra.
Qed.

(** ** isInside *)
Lemma nle_some : forall x y, nle (Some x) (Some y) = true <-> x <= y.
Proof. intros x y. cbn [nle]. destruct (Rle_dec x y); split; congruence. Qed.
Lemma between_scaled : forall d x a b, d = a - b -> (is_between (Some (d * x)) (Some (d * a)) (Some (d * b)) = true <-> a = b \/ a <= x <= b \/ b <= x <= a).
Proof.
  intros d x a b ->. unfold is_between. destruct (nle (Some ((a - b) * a)) (Some ((a - b) * b))) eqn:E.
  - apply nle_some in E. rewrite andb_true_iff, !nle_some. assert (a = b) by nra. subst b. split; [auto|]. intros _. split; nra.
  - assert (N : ~ (a - b) * a <= (a - b) * b) by (intros H; apply nle_some in H; congruence). rewrite andb_true_iff, !nle_some. assert (a <> b) by (intros ->; apply N; lra).
    split.
    + intros [H1 H2]. right. destruct (Rle_dec a b); [left; split; nra|right; split; nra].
    + intros [H0|[H1|H1]]; [congruence| |]; split; nra.
Qed.
Lemma between_mid : forall x a b d, d = a - b ->
  (is_between (Some (d * match x with Some v => v | None => (b + a) * / 2 end)) (Some (d * a)) (Some (d * b)) = true <-> (forall v, x = Some v -> a = b \/ a <= v <= b \/ b <= v <= a)).
Proof.
  intros x a b d D. rewrite (between_scaled d _ a b D). destruct x as [v|].
  - split; [intros H w [= <-]; exact H|intros H; apply H; reflexivity].
  - split; [intros _ v; discriminate|]. intros _. lra.
Qed.
Lemma is_inside_spec : forall b l h p, span b l h ->
  (is_inside b p = true <->
   (forall x, c0 p = Some x -> vx l = vx h \/ vx l <= x <= vx h \/ vx h <= x <= vx l) /\
   (forall x, c1 p = Some x -> vy l = vy h \/ vy l <= x <= vy h \/ vy h <= x <= vy l) /\
   (forall x, c2 p = Some x -> vz l = vz h \/ vz l <= x <= vz h \/ vz h <= x <= vz l)).
Proof.
  intros b l h p [B1 B2]. unfold is_inside. rewrite B1, B2. unfold point, vsub3, dot3; cbn [c0 c1 c2 nsub nadd nmul].
  assert (M : forall x a b, (if isnan x then Some ((a + b) * / 2) else x) = Some (match x with Some v => v | None => (a + b) * / 2 end)) by (intros [v|] a b'; reflexivity).
  rewrite !M. cbn [nadd nmul]. rewrite !andb_true_iff.
  rewrite <- (between_mid (c0 p) (vx l) (vx h) _ eq_refl), <- (between_mid (c1 p) (vy l) (vy h) _ eq_refl), <- (between_mid (c2 p) (vz l) (vz h) _ eq_refl).
  match goal with |- (is_between ?a ?b ?c = true /\ is_between ?d ?e ?f = true) /\ is_between ?g ?i ?j = true <-> is_between ?g' ?i' ?j' = true /\ is_between ?d' ?e' ?f' = true /\ is_between ?a' ?b' ?c' = true =>
    assert (E1 : a = a') by (f_equal; ring); assert (E2 : b = b') by (f_equal; ring); assert (E3 : c = c') by (f_equal; ring);
    assert (E4 : d = d') by (f_equal; ring); assert (E5 : e = e') by (f_equal; ring); assert (E6 : f = f') by (f_equal; ring);
    assert (E7 : g = g') by (f_equal; ring); assert (E8 : i = i') by (f_equal; ring); assert (E9 : j = j') by (f_equal; ring) end.
  rewrite E1, E2, E3, E4, E5, E6, E7, E8, E9. tauto.
Qed.
Lemma is_inside_empty : forall p, is_inside empty p = false.
Proof. intros [x y z]. unfold is_inside, empty, vsub3, dot3. cbn. destruct x, y, z; reflexivity. Qed.

(** ** scale *)
Lemma scale_span : forall b l h s, span b l h -> span (scale b (pt s)) (Vec (vx l * vx s) (vy l * vy s) (vz l * vz s)) (Vec (vx h * vx s) (vy h * vy s) (vz h * vz s)).
Proof. intros b l h s S. assert (N := span_no_nan b l h S). destruct S as [B1 B2]. unfold scale. rewrite N, B1, B2. split; reflexivity. Qed.
Lemma scale_dim : forall lo hi s x, 0 <= s -> lo <= hi -> (lo * s <= x <= hi * s <-> exists y, lo <= y <= hi /\ x = y * s).
Proof.
  intros lo hi s x S O. split.
  - intros H. destruct (Req_dec s 0) as [->|N].
    + exists lo. split; lra.
    + exists (x / s). assert (0 < s) by lra. split; [|field; lra]. assert (x = x / s * s) by (field; lra). split; nra.
  - intros (y & Y & ->). split; nra.
Qed.

(** ** planeGoesThrough *)
Lemma on_normal_side_spec : forall q n p, on_normal_side (pt q) (pt n) (pt p) = true <-> 0 <= side q n p.
Proof. intros q n p. unfold on_normal_side, dot3, vsub3, side; cbn [pt point c0 c1 c2 nsub nmul nadd]. apply nle_some. Qed.
Lemma side_form : forall q n p, side q n p = form (vx n) (vy n) (vz n) (- (vx q * vx n + vy q * vy n + vz q * vz n)) p.
Proof. intros q n p. unfold side, form. ring. Qed.
Lemma plane_spec : forall b l h q n, span b l h -> ordered l h -> exists r, plane_goes_through b (pt q) (pt n) = Some r /\
  (r = true <-> exists a c, within l h a /\ within l h c /\ 0 <= side q n a /\ side q n c < 0).
Proof.
  intros b l h q n S O. unfold plane_goes_through. rewrite (get_points_corners b l h S).
  assert (C : exists k r, corners l h = k :: r) by (do 2 eexists; reflexivity). destruct C as (k & r & C).
  set (ps := map pt (corners l h)). assert (NE : ps = pt k :: map pt r) by (unfold ps; rewrite C; reflexivity).
  exists (existsb (on_normal_side (pt q) (pt n)) ps && existsb (fun p => negb (on_normal_side (pt q) (pt n) p)) ps). split.
  - rewrite NE. f_equal. destruct (existsb _ _), (existsb _ _); reflexivity.
  - rewrite andb_true_iff, !existsb_exists. unfold ps. split.
    + intros [(a & A1 & A2) (c & K1 & K2)]. apply in_map_iff in A1. destruct A1 as (a' & <- & A1). apply in_map_iff in K1. destruct K1 as (c' & <- & K1).
      exists a', c'. split; [apply corners_within; auto|]. split; [apply corners_within; auto|]. split; [apply on_normal_side_spec, A2|].
      apply Rnot_le_lt. intros H. apply on_normal_side_spec in H. rewrite H in K2. discriminate.
    + intros (a & c & A1 & K1 & A2 & K2).
      destruct (form_high (vx n) (vy n) (vz n) (- (vx q * vx n + vy q * vy n + vz q * vz n)) l h a A1) as (a' & A3 & A4).
      destruct (form_low (vx n) (vy n) (vz n) (- (vx q * vx n + vy q * vy n + vz q * vz n)) l h c K1) as (c' & K3 & K4). rewrite <- !side_form in A4, K4. split.
      * exists (pt a'). split; [apply in_map, A3|]. apply on_normal_side_spec. lra.
      * exists (pt c'). split; [apply in_map, K3|]. destruct (on_normal_side (pt q) (pt n) (pt c')) eqn:E; [|reflexivity]. apply on_normal_side_spec in E. lra.
Qed.
(** add_box to a box. *)
Lemma add_box_some : forall b l h b' k m, span b l h -> ordered l h -> span b' k m -> ordered k m -> exists l' h', span (add_box b b') l' h' /\
  (forall p, within l h p -> within l' h' p) /\ (forall p, within k m p -> within l' h' p) /\
  (forall u v, (forall p, within l h p -> within u v p) -> (forall p, within k m p -> within u v p) -> forall p, within l' h' p -> within u v p).
Proof.
  intros b l h b' k m S O S' O'. unfold add_box. rewrite (get_points_corners b' k m S'). destruct (add_points_some b l h (corners k m) S) as (l' & h' & S2 & O2 & W1 & W2 & W3 & _).
  exists l', h'. split; [exact S2|]. split; [exact W1|]. split.
  - specialize (W2 O). assert (A := W2 (Vec (vx k) (vy k) (vz k)) ltac:(unfold corners; cbn [In]; tauto)). assert (B := W2 (Vec (vx m) (vy m) (vz m)) ltac:(unfold corners; cbn [In]; tauto)).
    unfold within in *; cbn [vx vy vz] in *. intros p P. lra.
  - intros u v H1 H2. assert (L : within u v l) by (apply H1; unfold within, ordered in *; lra). assert (H : within u v h) by (apply H1; unfold within, ordered in *; lra).
    destruct (W3 u v) as [A B]; [intros p I; apply H2, corners_within; auto|exact L|exact H|]. intros p P. unfold within in *. lra.
Qed.
Lemma add_box_empty : forall b l h, span b l h -> ordered l h -> span (add_box empty b) l h.
Proof.
  intros b l h S O. unfold add_box. rewrite (get_points_corners b l h S). change (add_points empty (map pt (corners l h))) with (of_points (map pt (corners l h))).
  assert (C : exists r, corners l h = Vec (vx l) (vy l) (vz l) :: r /\ r = tl (corners l h)) by (eexists; split; reflexivity). destruct C as (r & C & C').
  rewrite C, of_points_cons. set (k := Vec (vx l) (vy l) (vz l)).
  destruct (add_points_some (Box (pt k) (pt k)) k k r ltac:(split; reflexivity)) as (l' & h' & S2 & O2 & W1 & W2 & W3 & _).
  assert (OK : ordered k k) by (unfold ordered; lra). specialize (W2 OK).
  assert (A : within l' h' k) by (apply W1; unfold within; lra). assert (B := W2 (Vec (vx h) (vy h) (vz h)) ltac:(rewrite C'; cbn [corners tl In]; tauto)).
  destruct (W3 l h) as [D E]; [intros p I; apply corners_within; [exact O|rewrite C; right; exact I]| | |]; [unfold within, ordered, k in *; cbn [vx vy vz]; lra..|].
  assert (El : l' = l) by (destruct l as [a0 a1 a2], l' as [b0 b1 b2]; unfold within, k in *; cbn [vx vy vz] in *; f_equal; lra). assert (Eh : h' = h) by (destruct h as [a0 a1 a2], h' as [b0 b1 b2]; unfold within, k in *; cbn [vx vy vz] in *; f_equal; lra). subst. exact S2.
Qed.
