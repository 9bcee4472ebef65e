(** C120: the torques against gravity. *)
From Coq Require Import Reals List Bool Arith Lra Lia.
From Verif Require Import QuatModel QuatSpec QuatProofs RpyModel JointModel KinModel KinSpec KinProofs KinProps PlaneModel PlaneProofs JacModel JacSpec JacProofs JacProps FacSpec FacProofs
  ChnModel GravModel GravSpec GravProofs.
Import ListNotations.
Open Scope R_scope.

(** C120 *)
Theorem C120_when_torques_can_be_computed : forall fuel r mass name joints bodies, tree r -> (length (nodes r) < fuel)%nat ->
  let refused := joints = [] \/ (exists j, In j joints /\ forall n a, node_at r j = Some n -> n_kind n <> Revolute a) \/ exists y, In y bodies /\ mass y <= 0 in
  (refused -> make_gravity fuel r mass name joints bodies = Thrown) /\ (~ refused -> exists g, make_gravity fuel r mass name joints bodies = Done g).
Proof.
  intros fuel r mass name joints bodies T F. cbv zeta. unfold make_gravity.
  assert (RV : forall j, is_revolute r j = true <-> ~ forall n a, node_at r j = Some n -> n_kind n <> Revolute a).
  { intros j. unfold is_revolute. destruct (node_at r j) as [n|]; [|split; [discriminate|intros H; exfalso; apply H; discriminate]].
    destruct (n_kind n) as [|a| | |] eqn:K; (split; [try discriminate|try reflexivity]); [intros H|intros _ H; apply (H n a eq_refl K)|intros H|intros H|intros H];
      exfalso; apply H; intros m b [= <-]; rewrite K; discriminate. }
  split.
  - intros [->|[(j & J & H)|(y & Y & H)]]; [reflexivity| |].
    + destruct (Nat.eqb (length joints) 0); [reflexivity|]. assert (X : existsb (fun x => negb (is_revolute r x)) joints = true); [|now rewrite X].
      apply existsb_exists. exists j. split; [exact J|]. destruct (is_revolute r j) eqn:B; [|reflexivity]. exfalso. now apply RV in B.
    + destruct (Nat.eqb (length joints) 0); [reflexivity|]. destruct (existsb (fun x => negb (is_revolute r x)) joints); [reflexivity|].
      assert (X : existsb (fun x => if Rle_dec (mass x) 0 then true else false) bodies = true); [|now rewrite X].
      apply existsb_exists. exists y. split; [exact Y|]. destruct (Rle_dec (mass y) 0); [reflexivity|contradiction].
  - intros N. destruct (Nat.eqb_spec (length joints) 0) as [L|_]; [exfalso; apply N; left; now destruct joints|].
    destruct (existsb (fun x => negb (is_revolute r x)) joints) eqn:X.
    { apply existsb_exists in X. destruct X as (j & J & X). exfalso. apply N. right. left. exists j. split; [exact J|]. intros n a E K. unfold is_revolute in X. now rewrite E, K in X. }
    destruct (existsb (fun x => if Rle_dec (mass x) 0 then true else false) bodies) eqn:Y.
    { apply existsb_exists in Y. destruct Y as (y & I & Y). exfalso. apply N. right. right. exists y. split; [exact I|]. destruct (Rle_dec (mass y) 0); [assumption|discriminate]. }
    destruct fuel as [|fuel]; [lia|]. pose proof (create_ends r mass name joints bodies T fuel [] (root r) (map (fun _ => None) joints) (NoDup_nil _) ltac:(intros q []) ltac:(cbn; lia)) as C.
    destruct (create (S fuel) r mass name joints bodies (root r) (map (fun _ => None) joints)) as [(d, dv)|]; [|congruence]. eexists. reflexivity.
Qed.
(** The torques returned are those of the bodies carried, whatever was computed before ([st]), and however the robot has moved since. *)
Theorem C120_torques : forall fuel r0 r mass com name joints bodies g st, make_gravity fuel r0 mass name joints bodies = Done g -> alike r0 r ->
  tree r -> posed r -> rigid r -> names_apart r name -> in_tree r joints ->
  exists ts st', gravity_torque r mass com g st = (Done ts, st') /\ Forall2 (torque_of r mass com bodies) joints ts.
Proof.
  intros fuel r0 r mass com name joints bodies g st E AL T P RG NA IT. destruct (torques_ok fuel r0 r mass com name joints bodies g st E AL T P RG NA IT) as (st' & G & TO).
  exists (map st' joints), st'. split; [exact G|]. clear -TO. induction joints as [|j js IH]; cbn [map]; constructor; [apply TO; now left|apply IH; intros k K; apply TO; now right].
Qed.
(** They are what the torques against gravity have to be: the derivatives of the energy by the joint values. *)
Theorem C120_torque_is_the_derivative_of_the_energy : forall fuel r0 r mass com name joints bodies g st ts st', make_gravity fuel r0 mass name joints bodies = Done g -> alike r0 r ->
  tree r -> posed r -> rigid r -> names_apart r name -> in_tree r joints -> in_tree r bodies -> NoDup bodies ->
  gravity_torque r mass com g st = (Done ts, st') -> forall i j n t height, nth_error joints i = Some j -> nth_error ts i = Some t -> node_at r j = Some n ->
  (forall q y, In y bodies -> exists p, point_at (at_value r j q) y (com y) p /\ height q y = vz p) ->
  derivable_pt_lim (fun q => energy mass (height q) bodies) (value (n_joint n)) t.
Proof.
  intros fuel r0 r mass com name joints bodies g st ts st' E AL T P RG NA IT IB ND G i j n t height Ej Et En H.
  destruct (torques_ok fuel r0 r mass com name joints bodies g st E AL T P RG NA IT) as (st2 & G2 & TO). rewrite G in G2. injection G2 as -> ->.
  rewrite nth_error_map, Ej in Et. injection Et as <-. apply (energy_ok r mass com bodies j n); auto. apply TO. apply nth_error_In with i; exact Ej.
Qed.
(** The torque is determined by the state of the robot. *)
Theorem C120_one_torque : forall r mass com bodies j t t', tree r -> torque_of r mass com bodies j t -> torque_of r mass com bodies j t' -> t = t'.
Proof.
  intros r mass com bodies j t t' T (n & a & g & l & p & E & K & F & C & AT & ->) (n' & a' & g' & l' & p' & E' & K' & F' & C' & AT' & ->).
  rewrite E in E'. injection E' as <-. rewrite K in K'. injection K' as <-. rewrite <- (fk_fun r j g g' T F F'). f_equal.
  rewrite (total_perm _ _ _ (carried_unique r bodies j l l' C C')). apply total_ext. intros y Y. f_equal. apply (point_fun r y (com y)); auto. apply AT.
  apply (Permutation.Permutation_in y (Permutation.Permutation_sym (carried_unique r bodies j l l' C C')) Y).
Qed.
(** The form with names gives every joint its torque, if the names differ. *)
Theorem C120_by_name : forall name joints ts, length ts = length joints -> NoDup (map name joints) ->
  (forall i j t, nth_error joints i = Some j -> nth_error ts i = Some t -> gravity_torques name joints ts (name j) = Some t) /\
  forall k, ~ In k (map name joints) -> gravity_torques name joints ts k = None.
Proof.
  intros name joints ts L ND. unfold gravity_torques.
  assert (G : forall js us (m : nat -> option R), length us = length js -> NoDup (map name js) ->
    let res := fold_left (fun (m : nat -> option R) jt k => if Nat.eqb k (name (fst jt)) then Some (snd jt) else m k) (combine js us) m in
    (forall i j t, nth_error js i = Some j -> nth_error us i = Some t -> res (name j) = Some t) /\ forall k, ~ In k (map name js) -> res k = m k).
  { induction js as [|j js IH]; intros [|u us] m LE N; try discriminate; cbn [combine fold_left].
    - cbv zeta. split; [intros [|i]; discriminate|reflexivity].
    - cbv zeta. inversion N as [|? ? NI N']; subst. injection LE as LE.
      destruct (IH us (fun k => if Nat.eqb k (name (fst (j, u))) then Some (snd (j, u)) else m k) LE N') as (A & B). cbv zeta in A, B. split.
      + intros [|i] j' t; cbn [nth_error]; [|now apply A]. intros [= <-] [= <-]. rewrite B by exact NI. cbn [fst snd]. now rewrite Nat.eqb_refl.
      + intros k K. cbn [map In] in K. rewrite B by tauto. cbn [fst snd]. destruct (Nat.eqb_spec k (name j)) as [->|_]; [exfalso; apply K; now left|reflexivity]. }
  destruct (G joints ts (fun _ => None) L ND) as (A & B). split; assumption.
Qed.

(** A joint that turns about y, at [b] on the x axis, and a body 1 m from it; a sensor hangs on the joint, too. *)
Definition beam (b : R) : robot :=
  Robot [Node None [1; 2]%nat (Revolute (Vec 0 1 0)) pid 0 (free 0) (px b) []; Node (Some 0%nat) [] Fixed (px 1000) 0 (free 0) (px (b + 1000)) [];
         Node (Some 0%nat) [] Sensor pid 0 (free 0) (px b) []] 0 (px b).
Lemma beam_kids b p c : In c (kids (beam b) p) <-> p = 0%nat /\ (c = 1%nat \/ c = 2%nat).
Proof. destruct p as [|[|[|p]]]; cbn; [intuition congruence|intuition discriminate|intuition discriminate|]. destruct p; cbn; intuition discriminate. Qed.
Lemma beam_desc b x z : desc (beam b) x z -> x = z \/ x = 0%nat.
Proof. intros D. induction D as [|p z D IH I]; [now left|]. apply beam_kids in I. right. destruct IH as [->| ->]; [apply I|reflexivity]. Qed.
Lemma beam_tree b : tree (beam b).
Proof.
  split.
  - intros p c. rewrite beam_kids. split.
    + intros (-> & [->| ->]); eexists; split; reflexivity.
    + intros (n & E & P). destruct c as [|[|[|c]]]; try (destruct c; discriminate); injection E as <-; try discriminate; injection P as <-; auto.
  - intros p. destruct p as [|[|[|p]]]; try (destruct p); cbn; repeat constructor; cbn; intros H; repeat destruct H as [H|H]; (discriminate || exact H).
  - eexists. split; reflexivity.
  - intros x c I D. apply beam_kids in I. apply beam_desc in D. destruct I as (-> & [->| ->]), D; discriminate.
Qed.
Lemma still_y : axisangle2mat (Vec 0 1 0) (0 + 0) = mid.
Proof. rewrite Rplus_0_r. unfold axisangle2mat, mid. cbn [vx vy vz]. rewrite cos_0, sin_0. f_equal; ring. Qed.
Lemma beam_posed b : posed (beam b).
Proof.
  apply sub_posed_root. change (root (beam b)) with 0%nat. change (rpose (beam b)) with (px b). split.
  - eexists. split; [reflexivity|]. cbn [n_pose transform n_kind n_local n_joint n_offset value free]. rewrite still_y. change (Pose mid (Vec 0 0 0)) with pid. now rewrite pmul_pid_l, pmul_pid_r.
  - intros y c n D I E. apply beam_kids in I. destruct I as (-> & [->| ->]); injection E as <-; unfold node_pose; cbn [node_at beam nodes nth_error n_pose transform n_kind n_local];
      [now rewrite px_mul|now rewrite pmul_pid_r].
Qed.
Lemma beam_rigid b : rigid (beam b).
Proof.
  split; [apply mid_rotation|]. intros x n E. destruct x as [|[|[|x]]]; [| | |destruct x; discriminate]; injection E as <-; (split; [apply mid_rotation|]); cbn; try exact I. ring.
Qed.
Lemma alike_refl r : alike r r.
Proof. split; [reflexivity|]. intros x. destruct (node_at r x); auto. Qed.
Lemma beam_part b : in_tree (beam b) [0%nat] /\ in_tree (beam b) [1%nat].
Proof.
  split; intros y [<-|[]]; (split; [|eexists; split; [reflexivity|split; discriminate]]); [constructor|]. apply d_step with 0%nat; [constructor|now left].
Qed.
Lemma beam_torque_from b c m : torque_from (beam b) 0 c m = - (981 / 100) * m * ((vx c - b) / 1000).
Proof.
  unfold torque_from. cbn [node_at beam nodes nth_error n_kind n_pose direction_in].
  assert (A : mapply (prot (px b)) (Vec 0 1 0) = Vec 0 1 0) by (unfold mapply, px, mid; cbn; f_equal; ring). rewrite A. unfold nearest_on_line, line_valid, mk_line. cbn [ln_p ln_d].
  assert (U : vdot (Vec 0 1 0) (Vec 0 1 0) = 1) by (unfold vdot; cbn; ring).
  rewrite (vnormalize_of_unit _ U), (vnorm_unit _ U). destruct (Rlt_dec (/ 1000000000) 1) as [_|N]; [|exfalso; lra].
  cbn [ln_p ln_d]. rewrite (vnorm_unit _ U). destruct (Rlt_dec (/ 1000000000) 1) as [_|N]; [|exfalso; lra].
  unfold vdot, vcross, vscale, vsub, vadd, px; cbn [vx vy vz ppos]. field.
Qed.
Lemma above0_1 : above0 1 = true.
Proof. unfold above0. destruct (Rlt_dec 0 1); [reflexivity|lra]. Qed.
Lemma beam_make b name : make_gravity 4 (beam b) (fun _ => 1) name [0%nat] [1%nat] =
  Done (Gravity (GData 0 (assign (name 2%nat) (GData 2 [] 0 false false) (assign (name 1%nat) (GData 1 [] 1 false true) [])) (0 + 1 + 0) true false) [Some 0%nat]).
Proof. unfold make_gravity. cbn [existsb is_revolute beam node_at nodes nth_error n_kind negb orb length Nat.eqb]. destruct (Rle_dec 1 0); [lra|]. reflexivity. Qed.
Lemma beam_com b c : com_global (beam b) (fun _ => c) 1 = vadd (Vec (b + 1000) 0 0) c.
Proof. unfold com_global. change (node_pose (beam b) 1) with (px (b + 1000)). unfold px, mapply, vadd, mid; cbn. f_equal; ring. Qed.
Lemma torque_1 b m : torque_of (beam b) (fun _ => m) (fun _ => Vec 0 0 0) [1%nat] 0 (- (981 / 100) * m).
Proof.
  do 2 eexists. exists (px b), [1%nat], (fun _ => Vec (b + 1000) 0 0). split; [reflexivity|]. split; [reflexivity|]. split.
  { destruct (JacProofs.fk_exists (beam b) 0 (beam_tree b) (d_self _ _)) as (g & F). destruct (beam_posed b 0%nat g F) as (n & E & <-). injection E as <-. exact F. }
  split; [|split].
  - split; [repeat constructor; intros []|]. intros y. split.
    + intros [<-|[]]. split; [now left|]. split; [apply d_step with 0%nat; [constructor|now left]|]. eexists. split; [reflexivity|split; discriminate].
    + intros ([<-|[]] & _). now left.
  - intros y [<-|[]]. assert (D : desc (beam b) 0 1) by (apply d_step with 0%nat; [constructor|now left]).
    destruct (JacProofs.fk_exists (beam b) 1 (beam_tree b) D) as (g & F). exists g. split; [exact F|]. destruct (beam_posed b 1%nat g F) as (n & E & <-). injection E as <-.
    cbn [n_pose]. unfold px, mapply, vadd, mid; cbn. f_equal; ring.
  - unfold total, moment. cbn [map fold_right]. unfold vdot, vcross, vscale, vsub, px, mapply, mid; cbn. field.
Qed.
(** The hypotheses hold of the beam, and the torque for 1 kg at 1 m is what it should be. *)
Example C120_witness : exists g st', make_gravity 4 (beam 5) (fun _ => 1) (fun x => x) [0%nat] [1%nat] = Done g /\ tree (beam 5) /\ posed (beam 5) /\ rigid (beam 5) /\
  names_apart (beam 5) (fun x => x) /\ in_tree (beam 5) [0%nat] /\ in_tree (beam 5) [1%nat] /\ alike (beam 5) (beam 5) /\
  gravity_torque (beam 5) (fun _ => 1) (fun _ => Vec 0 0 0) g (fun _ => 0) = (Done [- (981 / 100)], st').
Proof.
  assert (NA : names_apart (beam 5) (fun x => x)) by (intros p; rewrite map_id; apply (t_once _ (beam_tree 5))).
  destruct (beam_part 5) as (I0 & I1).
  destruct (C120_torques 4 (beam 5) (beam 5) (fun _ => 1) (fun _ => Vec 0 0 0) (fun x => x) [0%nat] [1%nat] _ (fun _ => 0) (beam_make 5 (fun x => x)) (alike_refl _)
    (beam_tree 5) (beam_posed 5) (beam_rigid 5) NA I0) as (ts & st' & E & F).
  inversion F as [|j t js ts' TO F' EJ ET]; subst. inversion F'; subst.
  assert (t = - (981 / 100)). { replace (- (981 / 100)) with (- (981 / 100) * 1) by ring. apply (C120_one_torque (beam 5) (fun _ => 1) (fun _ => Vec 0 0 0) [1%nat] 0%nat); [apply beam_tree|exact TO|apply torque_1]. }
  subst t. eexists _, st'. split; [apply beam_make|]. split; [apply beam_tree|]. split; [apply beam_posed|]. split; [apply beam_rigid|]. repeat (split; [assumption || apply alike_refl|]). exact E.
Qed.
(** A sensor with the name of a body beside it takes its place in the map of the children: the weight of the body is left out. *)
Theorem C120_torques_with_equal_names_refuted : ~ forall fuel r mass com name joints bodies g st ts st', make_gravity fuel r mass name joints bodies = Done g ->
  tree r -> posed r -> rigid r -> in_tree r joints -> in_tree r bodies -> gravity_torque r mass com g st = (Done ts, st') -> Forall2 (torque_of r mass com bodies) joints ts.
Proof.
  intros H. destruct (beam_part 0) as (I0 & I1). set (name := fun x => Nat.min x 1).
  assert (TQ : exists st', gravity_torque (beam 0) (fun _ => 1) (fun _ => Vec 0 0 0) (Gravity (GData 0 (assign (name 2%nat) (GData 2 [] 0 false false) (assign (name 1%nat) (GData 1 [] 1 false true) [])) (0 + 1 + 0) true false) [Some 0%nat]) (fun _ => 0) = (Done [0], st')).
  { unfold gravity_torque. cbn [gr_root gr_vec name assign Nat.min Nat.ltb Nat.leb Nat.eqb compute snd andb g_mass].
    replace (above0 0) with false by (unfold above0; destruct (Rlt_dec 0 0); [lra|reflexivity]). rewrite andb_false_r. eexists. cbn [read_all Nat.eqb]. rewrite beam_torque_from. cbn [vx].
    match goal with |- (Done [?a], ?f) = (Done [?b], _) => replace a with b by field end. reflexivity. }
  destruct TQ as (st' & TQ).
  specialize (H 4%nat (beam 0) (fun _ => 1) (fun _ => Vec 0 0 0) name [0%nat] [1%nat] _ (fun _ => 0) [0] st' (beam_make 0 name) (beam_tree 0) (beam_posed 0) (beam_rigid 0) I0 I1 TQ).
  inversion H as [|j t js ts TO _ EJ ET]; subst. pose proof (C120_one_torque _ _ _ _ _ _ _ (beam_tree 0) TO (torque_1 0 1)). lra.
Qed.
(** The sum of the masses is that of the time of construction: after a mass has changed, the torque is wrong. *)
Theorem C120_torques_after_a_mass_changed_refuted : ~ forall fuel r mass mass' com name joints bodies g st ts st', make_gravity fuel r mass name joints bodies = Done g ->
  (forall y, 0 < mass' y) -> tree r -> posed r -> rigid r -> names_apart r name -> in_tree r joints -> in_tree r bodies ->
  gravity_torque r mass' com g st = (Done ts, st') -> Forall2 (torque_of r mass' com bodies) joints ts.
Proof.
  intros H. destruct (beam_part 1000) as (I0 & I1).
  assert (NA : names_apart (beam 1000) (fun x => x)) by (intros p; rewrite map_id; apply (t_once _ (beam_tree 1000))).
  assert (TQ : exists st', gravity_torque (beam 1000) (fun _ => 2) (fun _ => Vec 0 0 0) (Gravity (GData 0 (assign 2%nat (GData 2 [] 0 false false) (assign 1%nat (GData 1 [] 1 false true) [])) (0 + 1 + 0) true false) [Some 0%nat]) (fun _ => 0) = (Done [- (981 / 100) * 3], st')).
  { unfold gravity_torque. cbn [gr_root gr_vec assign Nat.ltb Nat.leb Nat.eqb compute snd andb g_mass].
    replace (above0 0) with false by (unfold above0; destruct (Rlt_dec 0 0); [lra|reflexivity]). rewrite andb_false_r. replace (0 + 1 + 0) with 1 by ring. rewrite above0_1. cbn [andb].
    replace (above0 2) with true by (unfold above0; destruct (Rlt_dec 0 2); [reflexivity|lra]). rewrite beam_com. eexists. cbn [read_all Nat.eqb]. rewrite beam_torque_from.
    unfold vadd, vscale; cbn [vx vy vz]. match goal with |- (Done [?a], ?f) = (Done [?b], _) => replace a with b by field end. reflexivity. }
  destruct TQ as (st' & TQ).
  specialize (H 4%nat (beam 1000) (fun _ => 1) (fun _ => 2) (fun _ => Vec 0 0 0) (fun x => x) [0%nat] [1%nat] _ (fun _ => 0) _ st' (beam_make 1000 (fun x => x)) ltac:(intros; lra) (beam_tree 1000) (beam_posed 1000) (beam_rigid 1000) NA I0 I1 TQ).
  inversion H as [|j t js ts TO _ EJ ET]; subst. pose proof (C120_one_torque _ _ _ _ _ _ _ (beam_tree 1000) TO (torque_1 1000 2)). lra.
Qed.

Print Assumptions C120_when_torques_can_be_computed.
Print Assumptions C120_torques.
Print Assumptions C120_torque_is_the_derivative_of_the_energy.
Print Assumptions C120_one_torque.
Print Assumptions C120_by_name.
Print Assumptions C120_torques_with_equal_names_refuted.
Print Assumptions C120_torques_after_a_mass_changed_refuted.
