(** Proofs for the torques against gravity. *)
From Coq Require Import Reals List Bool Arith Lra Lia Permutation.
From Verif Require Import QuatModel QuatSpec QuatProofs RpyModel JointModel KinModel KinSpec KinProofs PlaneModel PlaneProofs JacModel JacSpec JacProofs FacModel FacSpec FacProofs
  ChnModel ChnSpec ChnProofs GravModel GravSpec.
Import ListNotations.
Open Scope R_scope.

Definition cloop (fuel : nat) (r : robot) (mass : nat -> R) (name : nat -> nat) (joints bodies : list nat) (x : nat) (tq cm : bool) :=
  fix loop (l : list nat) (ch : list (nat * gdata)) (m : R) (dv : list (option nat)) : option (gdata * list (option nat)) :=
    match l with
    | [] => Some (GData x ch m tq cm, dv)
    | c :: l => match create fuel r mass name joints bodies c dv with
                | None => None
                | Some (d, dv) => loop l (assign (name c) d ch) (m + g_mass d) dv
                end
    end.
Definition mine (r : robot) (x : nat) : bool := match node_at r x with Some n => is_robot_node n | None => false end.
Lemma create_S fuel r mass name joints bodies x dv : create (S fuel) r mass name joints bodies x dv =
  cloop fuel r mass name joints bodies x (mine r x && existsb (Nat.eqb x) joints) (mine r x && existsb (Nat.eqb x) bodies)
    (kids r x) [] (if mine r x && existsb (Nat.eqb x) bodies then mass x else 0) (enter (mine r x) x joints dv).
Proof. reflexivity. Qed.
Definition vloop (r : robot) (mass : nat -> R) (com : nat -> vec3) (m : R) :=
  fix loop (ch : list (nat * gdata)) (c : vec3) (st : nat -> R) : vec3 * (nat -> R) :=
    match ch with
    | [] => (c, st)
    | (_, d) :: ch => let '(cc, st) := compute r mass com d st in
                      loop ch (if above0 m && above0 (g_mass d) then vadd c (vscale (1 / m) (vscale (g_mass d) cc)) else c) st
    end.
Lemma compute_eq r mass com x ch m tq cm st : compute r mass com (GData x ch m tq cm) st =
  let '(c, st) := vloop r mass com m ch (if cm && above0 m && above0 (mass x) then vadd (Vec 0 0 0) (vscale (1 / m) (vscale (mass x) (com_global r com x))) else Vec 0 0 0) st in
  (c, if tq then fun y => if Nat.eqb y x then torque_from r x c m else st y else st).
Proof. reflexivity. Qed.

Lemma mine_proper r x : mine r x = true <-> exists n, node_at r x = Some n /\ proper n.
Proof.
  unfold mine. destruct (node_at r x) as [n|].
  - rewrite <- (proper_is n). split; [intros P; exists n; auto|intros (m & [= <-] & P); exact P].
  - split; [discriminate|intros (n & E & _); discriminate].
Qed.
Lemma member_in x l : existsb (Nat.eqb x) l = true <-> In x l.
Proof. rewrite existsb_exists. split; [intros (y & I & E); apply Nat.eqb_eq in E; now subst|intros I; exists x; split; [exact I|apply Nat.eqb_refl]]. Qed.

Lemma alike_kids r0 r x : alike r0 r -> kids r0 x = kids r x.
Proof. intros (_ & A). specialize (A x). unfold kids. destruct (node_at r0 x), (node_at r x); try contradiction; [apply A|reflexivity]. Qed.
Lemma alike_mine r0 r x : alike r0 r -> mine r0 x = mine r x.
Proof.
  intros (_ & A). specialize (A x). unfold mine. destruct (node_at r0 x) as [n|], (node_at r x) as [m|]; try contradiction; [|reflexivity].
  destruct A as (_ & A). unfold is_robot_node. now rewrite A.
Qed.
Lemma alike_revolute r0 r x : alike r0 r -> is_revolute r0 x = is_revolute r x.
Proof.
  intros (_ & A). specialize (A x). unfold is_revolute. destruct (node_at r0 x) as [n|], (node_at r x) as [m|]; try contradiction; [|reflexivity].
  destruct A as (_ & A). now rewrite A.
Qed.

(** ** The map of the children *)
Lemma assign_perm k d l : ~ In k (map fst l) -> Permutation (assign k d l) ((k, d) :: l).
Proof.
  induction l as [|(j, e) l IH]; cbn [assign map fst]; intros N; [reflexivity|]. destruct (Nat.ltb j k).
  - rewrite IH; [apply perm_swap|]. intros I. apply N. now right.
  - destruct (Nat.eqb_spec j k) as [->|_]; [exfalso; apply N; now left|reflexivity].
Qed.

(** ** What is carried *)
Lemma NoDup_join {A : Type} (l1 l2 : list A) : NoDup l1 -> NoDup l2 -> (forall z, In z l1 -> ~ In z l2) -> NoDup (l1 ++ l2).
Proof.
  intros N1 N2 D. induction N1 as [|x l1 NI N1 IH]; [exact N2|]. cbn. constructor.
  - rewrite in_app_iff. intros [I|I]; [contradiction|]. apply (D x); [now left|exact I].
  - apply IH. intros z I. apply D. now right.
Qed.
Definition carried_any (r : robot) (bodies l L : list nat) : Prop :=
  NoDup L /\ forall y, In y L <-> In y bodies /\ (exists c, In c l /\ desc r c y) /\ mine r y = true.
Lemma carried_mine r bodies x L : carried r bodies x L <-> NoDup L /\ forall y, In y L <-> In y bodies /\ desc r x y /\ mine r y = true.
Proof. unfold carried. split; intros (A & B); (split; [exact A|]); intros y; rewrite B, mine_proper; reflexivity. Qed.
Lemma carried_nil r bodies : carried_any r bodies [] [].
Proof. split; [constructor|]. intros y. split; [intros []|intros (_ & (c & [] & _) & _)]. Qed.
Lemma carried_cons r bodies p c l L LL : tree r -> incl (c :: l) (kids r p) -> NoDup (c :: l) -> carried r bodies c L -> carried_any r bodies l LL ->
  carried_any r bodies (c :: l) (L ++ LL).
Proof.
  intros T IK ND C (N & A). rewrite carried_mine in C. destruct C as (NL & C). inversion ND as [|? ? NI ND']; subst. split.
  - apply NoDup_join; [exact NL|exact N|]. intros y I J. apply C in I. apply A in J. destruct I as (_ & D & _), J as (_ & (e & E & D') & _).
    assert (c = e); [|subst; contradiction]. apply (desc_apart r p c e y T); [apply IK; now left|apply IK; now right|exact D|exact D'].
  - intros y. rewrite in_app_iff, C, A. split.
    + intros [(B & D & M)|(B & (e & E & D) & M)]; (split; [exact B|split; [|exact M]]); [exists c|exists e]; (split; [|exact D]); [now left|now right].
    + intros (B & (e & [<-|E] & D) & M); [left|right]; auto. split; [exact B|split; [|exact M]]. exists e. auto.
Qed.
Lemma carried_node r bodies x LL : tree r -> carried_any r bodies (kids r x) LL ->
  carried r bodies x ((if mine r x && existsb (Nat.eqb x) bodies then [x] else []) ++ LL).
Proof.
  intros T (N & A). rewrite carried_mine. destruct (mine r x && existsb (Nat.eqb x) bodies) eqn:E; cbn [app].
  - apply andb_true_iff in E. destruct E as (M & B). apply member_in in B. split.
    + constructor; [|exact N]. rewrite A. intros (_ & (c & C & D) & _). apply (t_acyclic r T x c C D).
    + intros y. cbn [In]. rewrite A. split.
      * intros [<-|(B' & (c & C & D) & M')]; [repeat split; auto; constructor|]. split; [exact B'|split; [|exact M']].
        apply desc_trans with c; [apply d_step with x; [constructor|exact C]|exact D].
      * intros (B' & D & M'). apply desc_first in D. destruct D as [D|D]; [now left|right; auto].
  - split; [exact N|]. intros y. rewrite A. split.
    + intros (B' & (c & C & D) & M'). split; [exact B'|split; [|exact M']]. apply desc_trans with c; [apply d_step with x; [constructor|exact C]|exact D].
    + intros (B' & D & M'). apply desc_first in D. destruct D as [<-|D]; [|auto]. apply member_in in B'. rewrite M', B' in E. discriminate.
Qed.
Lemma carried_unique r bodies x L L' : carried r bodies x L -> carried r bodies x L' -> Permutation L L'.
Proof. intros (N & A) (N' & A'). apply NoDup_Permutation; auto. intros y. now rewrite A, A'. Qed.

(** ** What a record computes *)
Section grav.
Context (r : robot) (mass : nat -> R) (com : nat -> vec3) (joints bodies : list nat).
Definition weighed (f : vec3 -> R) (L : list nat) : R := total (fun y => mass y * f (com_global r com y)) L.
Definition torque_now (j : nat) (t : R) : Prop :=
  exists L, carried r bodies j L /\ forall n a, node_at r j = Some n -> n_kind n = Revolute a ->
    t = - total (fun y => moment (ppos (n_pose n)) (mapply (prot (n_pose n)) a) (com_global r com y) (mass y)) L.
Definition joint_under (x j : nat) : Prop := desc r x j /\ In j joints /\ mine r j = true.
Definition good (d : gdata) : Prop :=
  exists L, carried r bodies (g_node d) L /\ g_mass d = total mass L /\
    forall st c st', compute r mass com d st = (c, st') ->
      (vx c * g_mass d = weighed vx L /\ vy c * g_mass d = weighed vy L /\ vz c * g_mass d = weighed vz L) /\
      (forall j, joint_under (g_node d) j -> torque_now j (st' j)) /\ forall j, ~ joint_under (g_node d) j -> st' j = st j.
Context (T : tree r) (POS : forall y, In y bodies -> 0 < mass y).

Lemma mass_pos x L : carried r bodies x L -> 0 <= total mass L /\ (total mass L <= 0 -> L = []).
Proof.
  intros (_ & C). assert (P : forall y, In y L -> 0 < mass y) by (intros y I; apply POS; now apply C). clear C. unfold total.
  induction L as [|y L IH]; cbn; [split; [lra|reflexivity]|]. pose proof (P y (or_introl eq_refl)). destruct IH as (A & _); [intros z Z; apply P; now right|].
  split; [lra|intros; lra].
Qed.

Lemma vloop_ok p m ch : incl (map (fun e => g_node (snd e)) ch) (kids r p) -> NoDup (map (fun e => g_node (snd e)) ch) -> (forall e, In e ch -> good (snd e)) ->
  exists LL, carried_any r bodies (map (fun e => g_node (snd e)) ch) LL /\ fold_right Rplus 0 (map (fun e => g_mass (snd e)) ch) = total mass LL /\
    forall c0 st0 c st, vloop r mass com m ch c0 st0 = (c, st) ->
      (0 < m -> vx c = vx c0 + weighed vx LL / m /\ vy c = vy c0 + weighed vy LL / m /\ vz c = vz c0 + weighed vz LL / m) /\ (~ 0 < m -> c = c0) /\
      (forall e j, In e ch -> joint_under (g_node (snd e)) j -> torque_now j (st j)) /\
      forall j, (forall e, In e ch -> ~ joint_under (g_node (snd e)) j) -> st j = st0 j.
Proof.
  induction ch as [|(k, d) ch IH]; cbn [map snd fold_right]; intros IK ND G.
  - exists []. split; [apply carried_nil|split; [reflexivity|]]. cbn [vloop]. intros c0 st0 c st [= -> ->]. split; [|split; [reflexivity|split; [intros e j []|reflexivity]]].
    intros P. unfold weighed, total; cbn. repeat split; field; lra.
  - inversion ND as [|? ? NI ND']; subst. destruct IH as (LL & C & M & V); [intros y I; apply IK; now right|exact ND'|intros e I; apply G; now right|].
    destruct (G (k, d) (or_introl eq_refl)) as (L & CL & ML & VL). cbn [snd] in CL, ML, VL. exists (L ++ LL).
    split; [now apply (carried_cons r bodies p)|]. split; [rewrite total_app, ML, M; reflexivity|].
    intros c0 st0 c st E. cbn [vloop] in E. fold (vloop r mass com m) in E. destruct (compute r mass com d st0) as (cc, st1) eqn:EC. apply VL in EC. destruct EC as ((VX & VY & VZ) & TJ & OJ).
    apply V in E. destruct E as (V1 & V2 & V3 & V4).
    assert (APART : forall j, joint_under (g_node d) j -> forall e, In e ch -> ~ joint_under (g_node (snd e)) j).
    { intros j (D & _) e I (D' & _). apply NI. apply in_map_iff. exists e. split; [|exact I]. symmetry.
      apply (desc_apart r p _ _ j T); [apply IK; now left|apply IK; right; apply in_map_iff; now exists e|exact D|exact D']. }
    split; [|split; [|split]].
    + intros P. destruct (V1 P) as (X & Y & Z). unfold weighed in *. rewrite !total_app. unfold above0 in X, Y, Z. destruct (Rlt_dec 0 m) as [_|]; [|contradiction].
      cbn [andb] in X, Y, Z. destruct (Rlt_dec 0 (g_mass d)) as [PM|PM].
      * rewrite X, Y, Z, <- VX, <- VY, <- VZ. unfold vadd, vscale; cbn [vx vy vz]. repeat split; field; lra.
      * rewrite ML in PM. destruct (mass_pos _ _ CL) as (_ & EL). rewrite EL by lra. rewrite X, Y, Z. unfold total; cbn [map fold_right]. repeat split; field; lra.
    + intros NP. rewrite (V2 NP). unfold above0. destruct (Rlt_dec 0 m); [contradiction|reflexivity].
    + intros e j [<-|I] J; [|now apply (V3 e)]. cbn [snd] in J. rewrite V4 by (now apply APART). now apply TJ.
    + intros j N. rewrite V4 by (intros e I; apply N; now right). apply OJ. apply (N (k, d)). now left.
Qed.

(** The torque of a joint from the center of mass. *)
Context (RG : rigid r).
Lemma axis_unit n a x : posed r -> desc r (root r) x -> node_at r x = Some n -> n_kind n = Revolute a -> vdot (mapply (prot (n_pose n)) a) (mapply (prot (n_pose n)) a) = 1.
Proof.
  intros P D E K. destruct (JacProofs.fk_exists r x T D) as (g & F). destruct (P x g F) as (n' & E' & G). rewrite E in E'. injection E' as <-. rewrite G.
  pose proof (fk_rotation r x g RG F) as RO. destruct RG as (_ & U). specialize (U x n E). rewrite K in U. destruct U as (_ & U).
  rewrite mapply_iso by exact RO. unfold vdot. exact U.
Qed.
Lemma moments_total o axis L : total (fun y => moment o axis (com_global r com y) (mass y)) L =
  - (981 / 100) / 1000 * ((weighed vy L - vy o * total mass L) * vx axis - (weighed vx L - vx o * total mass L) * vy axis).
Proof.
  unfold weighed. transitivity (total (fun y => (- (981 / 100) / 1000 * vx axis) * (mass y * vy (com_global r com y)) + (981 / 100 / 1000 * vy axis) * (mass y * vx (com_global r com y))
    + (981 / 100 / 1000 * (vy o * vx axis - vx o * vy axis)) * mass y) L).
  - apply total_ext. intros y _. unfold moment, vdot, vcross, vscale, vsub; cbn [vx vy vz]. field.
  - rewrite (total_lin (fun y => mass y * vy (com_global r com y)) (fun y => mass y * vx (com_global r com y)) mass). field.
Qed.
Lemma torque_from_ok x n a c L : posed r -> desc r (root r) x -> node_at r x = Some n -> n_kind n = Revolute a ->
  vx c * total mass L = weighed vx L -> vy c * total mass L = weighed vy L ->
  torque_from r x c (total mass L) = - total (fun y => moment (ppos (n_pose n)) (mapply (prot (n_pose n)) a) (com_global r com y) (mass y)) L.
Proof.
  intros P D E K X Y. pose proof (axis_unit n a x P D E K) as U. rewrite moments_total, <- X, <- Y. unfold torque_from. rewrite E, K. cbn [direction_in].
  generalize dependent (mapply (prot (n_pose n)) a). intros axis U. unfold nearest_on_line, line_valid, mk_line. cbn [ln_p ln_d].
  rewrite (vnormalize_of_unit axis U). rewrite (vnorm_unit axis U). destruct (Rlt_dec (/ 1000000000) 1) as [_|N]; [|exfalso; lra].
  cbn [ln_p ln_d]. rewrite (vnorm_unit axis U). destruct (Rlt_dec (/ 1000000000) 1) as [_|N]; [|exfalso; lra].
  generalize (total mass L). intros M. unfold vdot, vcross, vscale, vsub, vadd; cbn [vx vy vz]. field.
Qed.

(** ** Creating the records *)
Context (r0 : robot) (name : nat -> nat) (AL : alike r0 r) (NA : names_apart r name) (PO : posed r)
  (REV : forall j, In j joints -> exists n a, node_at r j = Some n /\ n_kind n = Revolute a).
Definition entered (reach : nat -> Prop) (dv dv' : list (option nat)) : Prop :=
  length dv' = length joints /\ forall i j, nth_error joints i = Some j ->
    (nth_error dv' i = nth_error dv i \/ nth_error dv' i = Some (Some j)) /\ (reach j -> mine r j = true -> nth_error dv' i = Some (Some j)).
Lemma entered_trans R1 R2 (R3 : nat -> Prop) a b c : entered R1 a b -> entered R2 b c -> (forall j, R3 j -> R1 j \/ R2 j) -> entered R3 a c.
Proof.
  intros (L1 & A) (L2 & B) H. split; [exact L2|]. intros i j E. destruct (A i j E) as (A1 & A2), (B i j E) as (B1 & B2). split.
  - destruct B1 as [B1|B1]; [rewrite B1; exact A1|right; exact B1].
  - intros P M. destruct (H j P) as [P1|P2]; [|now apply B2]. destruct B1 as [B1|B1]; [|exact B1]. rewrite B1. now apply A2.
Qed.
Lemma enter_ok x dv : length dv = length joints -> entered (eq x) dv (enter (mine r x) x joints dv).
Proof.
  intros L. unfold enter. split; [rewrite map_length, combine_length; lia|]. intros i j E.
  rewrite nth_error_map. assert (exists o, nth_error dv i = Some o) as (o & O).
  { assert (i < length joints)%nat by (apply nth_error_Some; congruence). destruct (nth_error dv i) as [o|] eqn:O; [exists o; reflexivity|]. apply nth_error_None in O. lia. }
  assert (C : nth_error (combine joints dv) i = Some (j, o)).
  { clear L. revert dv i E O. generalize joints. clear. induction joints as [|a l IH]; intros dv i E O; [destruct i; discriminate|].
    destruct dv as [|b dv]; [destruct i; discriminate|]. destruct i as [|i]; cbn in *; [congruence|now apply IH]. }
  rewrite C, O. cbn [option_map fst snd]. destruct (mine r x && Nat.eqb x j) eqn:B.
  - apply andb_true_iff in B. destruct B as (_ & B). apply Nat.eqb_eq in B. subst x. split; [now right|reflexivity].
  - split; [now left|]. intros <- M. rewrite M, Nat.eqb_refl in B. discriminate.
Qed.

Lemma cloop_ok fuel x tq cm :
  (forall c dv d dv', In c (kids r x) -> create fuel r0 mass name joints bodies c dv = Some (d, dv') -> length dv = length joints -> g_node d = c /\ good d /\ entered (desc r c) dv dv') ->
  forall l ch m dv d dv', cloop fuel r0 mass name joints bodies x tq cm l ch m dv = Some (d, dv') -> length dv = length joints -> incl l (kids r x) -> NoDup (map name l) ->
  (forall c, In c l -> ~ In (name c) (map fst ch)) ->
  exists ch' es, d = GData x ch' (m + fold_right Rplus 0 (map (fun e => g_mass (snd e)) es)) tq cm /\ Permutation ch' (es ++ ch) /\
    map (fun e => g_node (snd e)) es = l /\ (forall e, In e es -> good (snd e)) /\ entered (fun j => exists c, In c l /\ desc r c j) dv dv'.
Proof.
  intros IH. induction l as [|c l IHl]; intros ch m dv d dv' E LE IK ND NI; cbn [cloop] in E.
  - injection E as <- <-. exists ch, []. split; [cbn; f_equal; ring|]. split; [reflexivity|]. split; [reflexivity|]. split; [intros e []|].
    split; [exact LE|]. intros i j _. split; [now left|intros (c & [] & _)].
  - fold (cloop fuel r0 mass name joints bodies x tq cm) in E. destruct (create fuel r0 mass name joints bodies c dv) as [(dc, dv1)|] eqn:EC; [|discriminate].
    destruct (IH c dv dc dv1 (IK c (or_introl eq_refl)) EC LE) as (GN & GC & EN). inversion ND as [|? ? NN ND']; subst.
    apply IHl in E; [|apply EN|intros y I; apply IK; now right|exact ND'|].
    + destruct E as (ch' & es & -> & PE & ME & GE & EE). exists ch', ((name (g_node dc), dc) :: es).
      split; [cbn [map fold_right snd]; f_equal; ring|]. split.
      { rewrite PE. rewrite assign_perm by (apply NI; now left). cbn [app]. symmetry. apply Permutation_middle. }
      split; [cbn [map snd]; now rewrite ME|]. split; [intros e [<-|I]; [exact GC|now apply GE]|].
      apply (entered_trans _ _ _ _ _ _ EN EE). intros j (c & [<-|I] & D); [now left|right; exists c; auto].
    + intros e I J. apply (Permutation_in _ (Permutation_map fst (assign_perm (name (g_node dc)) dc ch (NI (g_node dc) (or_introl eq_refl))))) in J.
      destruct J as [J|J]; [apply NN; cbn in J; rewrite J; now apply in_map|]. apply (NI e); [now right|exact J].
Qed.
Lemma perm_sum (l l' : list R) : Permutation l l' -> fold_right Rplus 0 l = fold_right Rplus 0 l'.
Proof. intros P. induction P; cbn [fold_right]; lra. Qed.
Lemma create_ok fuel : forall x dv d dv', desc r (root r) x -> create fuel r0 mass name joints bodies x dv = Some (d, dv') -> length dv = length joints ->
  g_node d = x /\ good d /\ entered (desc r x) dv dv'.
Proof.
  induction fuel as [|fuel IH]; intros x dv d dv' DX E LE; [discriminate|]. rewrite create_S in E. rewrite (alike_kids _ _ x AL), (alike_mine _ _ x AL) in E.
  pose proof (enter_ok x dv LE) as EN. apply (cloop_ok fuel x) in E; [|intros c dvc dc dvc' I EC; apply IH; [apply d_step with x; assumption|exact EC]|apply EN|intros y I; exact I|apply NA|intros c _ []].
  destruct E as (ch & es & -> & PE & ME & GE & EE). rewrite app_nil_r in PE. cbn [g_node]. split; [reflexivity|]. split.
  2: { apply (entered_trans _ _ _ _ _ _ EN EE). intros j D. apply desc_first in D. destruct D as [D|D]; auto. }
  assert (PN : Permutation (map (fun e => g_node (snd e)) ch) (kids r x)) by (rewrite <- ME; apply Permutation_map, PE).
  set (cm := mine r x && existsb (Nat.eqb x) bodies) in *. set (m := (if cm then mass x else 0) + fold_right Rplus 0 (map (fun e => g_mass (snd e)) es)).
  destruct (vloop_ok x m ch) as (LL & C & SM & V).
  { intros y I. apply (Permutation_in y PN I). }
  { apply (Permutation_NoDup (Permutation_sym PN)). apply (t_once r T). }
  { intros e I. apply GE. apply (Permutation_in e PE I). }
  assert (CA : carried_any r bodies (kids r x) LL).
  { destruct C as (N & A). split; [exact N|]. intros y. rewrite A. split; intros (B & (c & I & D) & M); (split; [exact B|split; [|exact M]]); exists c; (split; [|exact D]);
      [apply (Permutation_in c PN I)|apply (Permutation_in c (Permutation_sym PN) I)]. }
  pose proof (carried_node r bodies x LL T CA) as CX. fold cm in CX.
  assert (EM : m = total mass ((if cm then [x] else []) ++ LL)).
  { unfold m. rewrite total_app, <- SM. rewrite (perm_sum _ _ (Permutation_map (fun e => g_mass (snd e)) PE)). destruct cm; unfold total; cbn; ring. }
  set (L := (if cm then [x] else []) ++ LL) in *. exists L. cbn [g_node g_mass]. fold m. split; [exact CX|]. split; [exact EM|].
  intros st c st' E. rewrite compute_eq in E. fold m in E.
  destruct (vloop r mass com m ch (if cm && above0 m && above0 (mass x) then vadd (Vec 0 0 0) (vscale (1 / m) (vscale (mass x) (com_global r com x))) else Vec 0 0 0) st) as (c1, st1) eqn:EV.
  apply V in EV. destruct EV as (V1 & V2 & V3 & V4). injection E as <- <-.
  assert (W : vx c1 * m = weighed vx L /\ vy c1 * m = weighed vy L /\ vz c1 * m = weighed vz L).
  { destruct (mass_pos x L CX) as (M0 & ML). destruct (Rlt_dec 0 m) as [PM|PM].
    - destruct (V1 PM) as (-> & -> & ->). unfold weighed, L. rewrite !total_app. unfold above0. destruct (Rlt_dec 0 m); [|contradiction]. destruct cm eqn:CM; cbn [andb].
      + apply andb_true_iff in CM. destruct CM as (_ & CM). apply member_in, POS in CM. destruct (Rlt_dec 0 (mass x)); [|contradiction].
        unfold total; cbn [map fold_right]. unfold vadd, vscale; cbn [vx vy vz]. repeat split; field; lra.
      + unfold total; cbn [map fold_right vx vy vz]. repeat split; field; lra.
    - rewrite EM in PM. assert (L0 : L = []) by (apply ML; lra). rewrite EM, L0. unfold weighed, total; cbn. repeat split; ring. }
  split; [exact W|]. split.
  - intros j (D & J & M). apply desc_first in D. destruct D as [<-|(k & K & D)].
    + assert (TQ : mine r x && existsb (Nat.eqb x) joints = true) by (rewrite M; cbn; now apply member_in). rewrite TQ, Nat.eqb_refl.
      exists L. split; [exact CX|]. intros n a En Kn. rewrite EM. apply torque_from_ok; auto; rewrite <- EM; apply W.
    + assert (NX : j <> x) by (intros ->; apply (t_acyclic r T x k K D)). apply Nat.eqb_neq in NX.
      assert (TJ : torque_now j (st1 j)).
      { apply (Permutation_in k (Permutation_sym PN)) in K. apply in_map_iff in K. destruct K as (e & <- & I). apply (V3 e j I). repeat split; auto. }
      destruct (mine r x && existsb (Nat.eqb x) joints); [rewrite NX|]; exact TJ.
  - intros j NJ. assert (O : st1 j = st j).
    { apply V4. intros e I (D & J & M). apply NJ. split; [|auto]. apply desc_trans with (g_node (snd e)); [|exact D]. apply d_step with x; [constructor|].
      apply (Permutation_in _ PN). apply in_map_iff. now exists e. }
    destruct (mine r x && existsb (Nat.eqb x) joints) eqn:TQ; [|exact O]. destruct (Nat.eqb_spec j x) as [->|_]; [|exact O].
    exfalso. apply NJ. apply andb_true_iff in TQ. destruct TQ as (M & J). apply member_in in J. repeat split; auto. constructor.
Qed.
End grav.

(** ** The records can be made *)
Lemma create_ends r mass name joints bodies : tree r -> forall fuel path x dv,
  NoDup path -> (forall q, In q path -> (q < length (nodes r))%nat /\ exists k, In k (kids r q) /\ desc r k x) -> (length (nodes r) <= fuel + length path)%nat ->
  create (S fuel) r mass name joints bodies x dv <> None.
Proof.
  intros T. induction fuel as [|fuel IH]; intros path x dv ND LT LE; rewrite create_S.
  - assert (NC : kids r x = []).
    { destruct (kids r x) as [|k l] eqn:E; [reflexivity|]. exfalso. assert (exists n, node_at r x = Some n) as (n & A) by (unfold kids in E; destruct (node_at r x) as [n|]; [exists n; reflexivity|discriminate]). apply node_lt in A.
      assert (NP : ~ In x path) by (intros I; apply LT in I; destruct I as (_ & k' & I & D); apply (t_acyclic r T x k' I D)).
      assert (B := NoDup_incl_length (l := x :: path) (l' := seq 0 (length (nodes r))) ltac:(constructor; assumption)).
      rewrite seq_length in B. cbn [length] in B. assert (incl (x :: path) (seq 0 (length (nodes r)))); [|specialize (B H); lia].
      intros q [<-|I]; apply in_seq; [lia|]. apply LT in I. lia. }
    rewrite NC. discriminate.
  - generalize (enter (mine r x) x joints dv) as dw. generalize (if mine r x && existsb (Nat.eqb x) bodies then mass x else 0) as m. generalize (@nil (nat * gdata)) as ch.
    generalize (mine r x && existsb (Nat.eqb x) joints) as tq. generalize (mine r x && existsb (Nat.eqb x) bodies) as cm. intros cm tq.
    assert (G : forall l, incl l (kids r x) -> forall ch m dw, cloop (S fuel) r mass name joints bodies x tq cm l ch m dw <> None); [|apply G; intros y Y; exact Y].
    induction l as [|k l IHl]; intros I ch m dw; [discriminate|]. cbn [cloop]. fold (cloop (S fuel) r mass name joints bodies x tq cm).
    assert (IK : In k (kids r x)) by (apply I; left; reflexivity).
    assert (exists n, node_at r x = Some n) as (n & A) by (unfold kids in IK; destruct (node_at r x) as [n|]; [exists n; reflexivity|destruct IK]). apply node_lt in A.
    assert (Q : create (S fuel) r mass name joints bodies k dw <> None).
    { apply (IH (x :: path) k).
      - constructor; [|exact ND]. intros J. apply LT in J. destruct J as (_ & k' & J & D). apply (t_acyclic r T x k' J D).
      - intros q [<-|J]; [split; [exact A|exists k; split; [exact IK|constructor]]|]. apply LT in J. destruct J as (J1 & k' & J2 & J3). split; [exact J1|]. exists k'. split; [exact J2|]. apply d_step with x; assumption.
      - cbn [length]. lia. }
    destruct (create (S fuel) r mass name joints bodies k dw) as [(d, dv')|]; [|congruence]. apply IHl. intros y Y. apply I. right. exact Y.
Qed.

Lemma nth_same {A : Type} (l l' : list A) : (forall i, nth_error l i = nth_error l' i) -> l = l'.
Proof.
  revert l'. induction l as [|a l IH]; intros [|b l'] H; [reflexivity|discriminate (H O)|discriminate (H O)|].
  f_equal; [specialize (H O); cbn in H; congruence|apply IH; intros i; apply (H (S i))].
Qed.
Lemma read_done js st : read_all (map Some js) st = Done (map st js).
Proof. induction js as [|j js IH]; cbn [read_all map]; [reflexivity|]. now rewrite IH. Qed.
Lemma posed_com r com y : tree r -> posed r -> desc r (root r) y -> point_at r y (com y) (com_global r com y).
Proof.
  intros T P D. destruct (JacProofs.fk_exists r y T D) as (g & F). exists g. split; [exact F|]. unfold com_global. now rewrite (posed_pose r y g P F).
Qed.
Lemma torques_ok fuel r0 r mass com name joints bodies g st : make_gravity fuel r0 mass name joints bodies = Done g -> alike r0 r -> tree r -> posed r -> rigid r ->
  names_apart r name -> in_tree r joints -> exists st', gravity_torque r mass com g st = (Done (map st' joints), st') /\ forall j, In j joints -> torque_of r mass com bodies j (st' j).
Proof.
  unfold make_gravity. intros E AL T P RG NA IT. destruct (Nat.eqb (length joints) 0); [discriminate|].
  destruct (existsb (fun x => negb (is_revolute r0 x)) joints) eqn:RV; [discriminate|].
  destruct (existsb (fun x => if Rle_dec (mass x) 0 then true else false) bodies) eqn:MB; [discriminate|].
  destruct (create fuel r0 mass name joints bodies (root r0) (map (fun _ => None) joints)) as [(d, dv)|] eqn:EC; [|discriminate]. injection E as <-.
  assert (REV : forall j, In j joints -> exists n a, node_at r j = Some n /\ n_kind n = Revolute a).
  { intros j J. assert (B : is_revolute r0 j = true).
    { destruct (is_revolute r0 j) eqn:B; [reflexivity|]. assert (X : existsb (fun x => negb (is_revolute r0 x)) joints = true) by (apply existsb_exists; exists j; rewrite B; auto). congruence. }
    rewrite (alike_revolute r0 r j AL) in B. unfold is_revolute in B. destruct (node_at r j) as [n|]; [|discriminate]. destruct (n_kind n) as [|a| | |] eqn:K; try discriminate. now exists n, a. }
  assert (POS : forall y, In y bodies -> 0 < mass y).
  { intros y Y. destruct (Rle_dec (mass y) 0) as [L|L]; [|lra]. exfalso.
    assert (X : existsb (fun x => if Rle_dec (mass x) 0 then true else false) bodies = true); [|congruence].
    apply existsb_exists. exists y. split; [exact Y|]. destruct (Rle_dec (mass y) 0); [reflexivity|contradiction]. }
  assert (RR : root r0 = root r) by (symmetry; apply AL). rewrite RR in EC.
  assert (RT : desc r (root r) (root r)) by constructor.
  destruct (create_ok r mass com joints bodies T POS RG r0 name AL NA P fuel (root r) _ d dv RT EC ltac:(apply map_length)) as (GN & (L & CL & ML & V) & (LV & EN)).
  assert (DV : dv = map Some joints).
  { apply nth_same. intros i. rewrite nth_error_map. destruct (nth_error joints i) as [j|] eqn:Ej; cbn [option_map].
    - apply (EN i j Ej); [apply IT; apply nth_error_In with i; exact Ej|]. apply mine_proper. apply IT. apply nth_error_In with i; exact Ej.
    - apply nth_error_None. rewrite LV. now apply nth_error_None. }
  destruct (compute r mass com d st) as (c, st') eqn:EV. exists st'. pose proof EV as EV0. apply V in EV. rewrite GN in EV. destruct EV as (_ & TJ & _). unfold gravity_torque. cbn [gr_root gr_vec].
  rewrite DV, read_done. split.
  - rewrite EV0. reflexivity.
  - intros j J. destruct (IT j J) as (D & PR). destruct (REV j J) as (n & a & En & K).
    destruct (TJ j) as (Lj & CJ & FJ); [split; [exact D|split; [exact J|now apply mine_proper]]|].
    destruct (JacProofs.fk_exists r j T D) as (gj & F). exists n, a, gj, Lj, (com_global r com). split; [exact En|]. split; [exact K|]. split; [exact F|]. split; [exact CJ|]. split.
    + intros y Y. apply posed_com; auto. apply desc_trans with j; [exact D|]. now apply CJ.
    + destruct (P j gj F) as (n' & En' & <-). rewrite En in En'. injection En' as <-. apply (FJ n a En K).
Qed.

(** ** The torque is the derivative of the energy *)
Lemma lim_total (f : R -> nat -> R) (d : nat -> R) q l : (forall y, In y l -> derivable_pt_lim (fun q => f q y) q (d y)) ->
  derivable_pt_lim (fun q => total (f q) l) q (total d l).
Proof.
  induction l as [|y l IH]; intros H; unfold total; cbn [map fold_right]; [apply lim_const|].
  apply (derivable_pt_lim_plus (fun q => f q y) (fun q => fold_right Rplus 0 (map (f q) l))); [apply H; now left|].
  apply IH. intros z Z. apply H. now right.
Qed.
Lemma total_filter f (p : nat -> bool) l : (forall y, In y l -> p y = false -> f y = 0) -> total f l = total f (filter p l).
Proof.
  induction l as [|y l IH]; intros H; [reflexivity|]. assert (E : total f l = total f (filter p l)) by (apply IH; intros z Z; apply H; now right).
  cbn [filter]. pose proof (H y (or_introl eq_refl)) as HY. destruct (p y); unfold total in *; cbn [map fold_right]; rewrite E; [reflexivity|]. rewrite HY by reflexivity. ring.
Qed.
Lemma total_sub f l l' : NoDup l -> NoDup l' -> incl l' l -> (forall y, In y l -> ~ In y l' -> f y = 0) -> total f l = total f l'.
Proof.
  intros N N' I Z. set (p := fun y => existsb (Nat.eqb y) l'). rewrite (total_filter f p).
  - apply total_perm. apply NoDup_Permutation; [now apply NoDup_filter|exact N'|]. intros y. rewrite filter_In. unfold p. rewrite member_in. split; [tauto|auto].
  - intros y Y P. apply Z; [exact Y|]. intros J. apply member_in in J. unfold p in P. congruence.
Qed.
Lemma point_moves r j n a g y v p : tree r -> posed r -> rigid r -> node_at r j = Some n -> n_kind n = Revolute a -> fk r j g -> desc r j y -> point_at r y v p ->
  exists h, (forall q, point_at (at_value r j q) y v (h q)) /\ vec_deriv h (value (n_joint n)) (vcross (mapply (prot g) a) (vsub p (ppos g))).
Proof.
  intros T P RG E KN Fx D (gt & Ft & ->). destruct (fk_self r j g n T Fx E) as (Q0 & EQ & FQ). destruct (fk_below r j y T D) as (B & B1 & B2).
  assert (GT : gt = pmul g B) by (apply (fk_fun r y); auto). destruct RG as (RP & RN). destruct (RN j n E) as (RL & RK). rewrite KN in RK.
  assert (RG : rigid r) by (split; assumption).
  assert (RQ : rotation (prot (pmul Q0 (n_local n)))).
  { assert (RX := fk_rotation r j g RG Fx). rewrite EQ in RX. cbn [prot pmul] in *.
    assert (RT := transform_rotation r j n RG E). apply mmul_rotation; [|exact RL].
    replace (prot Q0) with (mmul (mmul (prot Q0) (prot (transform n))) (mtrans (prot (transform n)))); [apply mmul_rotation; [exact RX|now apply mtrans_rotation]|].
    destruct RT as (R1 & _). now rewrite mmul_assoc, R1, mmul_mid_r. }
  set (q0 := value (n_joint n)) in *. set (o := n_offset n) in *.
  assert (TE : forall q, pmul Q0 (transform (with_joint (with_value (n_joint n) q) n)) = pmul (pmul Q0 (n_local n)) (Pose (axisangle2mat a (q + o)) (Vec 0 0 0))).
  { intros q. unfold transform. cbn [n_kind n_local n_joint n_offset value with_joint with_value]. rewrite KN, pmul_assoc. reflexivity. }
  assert (GX : pmul (pmul Q0 (n_local n)) (Pose (axisangle2mat a (q0 + o)) (Vec 0 0 0)) = g).
  { rewrite EQ, <- TE. unfold transform. cbn [n_kind with_joint]. rewrite KN. reflexivity. }
  assert (PT : forall h, ppos (pmul h (pmul B (Pose mid v))) = vadd (mapply (prot (pmul h B)) v) (ppos (pmul h B))).
  { intros h. rewrite <- pmul_assoc. generalize (pmul h B). intros k. cbn [pmul ppos]. apply vec_eq; unfold vadd; cbn [vx vy vz]; ring. }
  assert (V0 := velocity_revolute (pmul Q0 (n_local n)) a o (pmul B (Pose mid v)) q0 RQ RK). cbv beta zeta in V0. rewrite GX in V0. destruct V0 as (V0 & _). cbn [seen_from] in V0.
  rewrite PT, <- GT in V0.
  exists (fun q => ppos (pmul (pmul (pmul Q0 (n_local n)) (Pose (axisangle2mat a (q + o)) (Vec 0 0 0))) (pmul B (Pose mid v)))). split; [|exact V0].
  intros q. eexists. split; [apply B2, FQ|]. rewrite PT, TE. reflexivity.
Qed.
Lemma point_fun r y v p p' : tree r -> point_at r y v p -> point_at r y v p' -> p = p'.
Proof. intros T (g & F & ->) (g' & F' & ->). now rewrite (fk_fun r y g g' T F F'). Qed.
Lemma energy_ok r mass com bodies j n t (height : R -> nat -> R) : tree r -> posed r -> rigid r -> NoDup bodies -> in_tree r bodies -> node_at r j = Some n -> torque_of r mass com bodies j t ->
  (forall q y, In y bodies -> exists p, point_at (at_value r j q) y (com y) p /\ height q y = vz p) ->
  derivable_pt_lim (fun q => energy mass (height q) bodies) (value (n_joint n)) t.
Proof.
  intros T P RG ND IT E (n' & a & g & L & at_ & E' & K & F & C & AT & ->) H. rewrite E in E'. injection E' as <-. destruct C as (NL & C).
  set (d := fun y => if in_dec Nat.eq_dec y L then 981 / 100 * mass y * (vz (vcross (mapply (prot g) a) (vsub (at_ y) (ppos g))) / 1000) else 0).
  assert (TD : - total (fun y => moment (ppos g) (mapply (prot g) a) (at_ y) (mass y)) L = total d bodies).
  { rewrite (total_sub d bodies L ND NL).
    - rewrite <- (Rmult_1_l (total (fun y => moment _ _ _ _) L)), Ropp_mult_distr_l, <- total_factor. apply total_ext. intros y Y. unfold d.
      destruct (in_dec Nat.eq_dec y L); [|contradiction]. unfold moment, vdot, vcross, vscale, vsub; cbn [vx vy vz]. field.
    - intros y Y. now apply C.
    - intros y _ N. unfold d. destruct (in_dec Nat.eq_dec y L); [contradiction|reflexivity]. }
  rewrite TD. unfold energy. apply (lim_total (fun q y => 981 / 100 * mass y * (height q y / 1000))). intros y Y.
  assert (DR : derivable_pt_lim (fun q => height q y) (value (n_joint n)) (if in_dec Nat.eq_dec y L then vz (vcross (mapply (prot g) a) (vsub (at_ y) (ppos g))) else 0)).
  { destruct (in_dec Nat.eq_dec y L) as [I|I].
    - destruct (point_moves r j n a g y (com y) (at_ y) T P RG E K F) as (h & HP & HV); [now apply C|now apply AT|].
      eapply lim_ext; [|reflexivity|apply HV]. intros q. cbv beta. destruct (H q y Y) as (p & PP & ->). f_equal. apply (point_fun (at_value r j q) y (com y)); auto. now apply at_value_tree.
    - assert (ND' : ~ desc r j y). { intros D. apply I. apply C. split; [exact Y|split; [exact D|apply IT; exact Y]]. }
      destruct (JacProofs.fk_exists r y T) as (gy & Fy); [apply IT; exact Y|].
      eapply lim_ext; [|reflexivity|apply (lim_const (vz (vadd (mapply (prot gy) (com y)) (ppos gy))))]. intros q. cbv beta. destruct (H q y Y) as (p & PP & ->). f_equal.
      apply (point_fun (at_value r j q) y (com y)); auto; [now apply at_value_tree|]. exists gy. split; [now apply fk_above|reflexivity]. }
  apply (derivable_pt_lim_scal _ (981 / 100 * mass y * / 1000)) in DR.
  eapply lim_ext; [| |exact DR]; [intros q; unfold mult_real_fct; cbv beta; field|]. unfold d. destruct (in_dec Nat.eq_dec y L); field.
Qed.
