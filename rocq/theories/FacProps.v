(** C107-C109: robots with another root. *)
From Coq Require Import Reals List Bool Arith Lia Lra.
From Verif Require Import QuatModel QuatSpec RpyModel JointModel KinModel KinSpec KinProofs JacSpec JacProofs AprProofs FacModel FacSpec FacProofs.
Import ListNotations.
Open Scope R_scope.

(** *** An example: a base, an arm on a revolute joint, a hand and a camera mount on the arm, and a sensor on the base. *)
Definition w_joint : joint := Joint (-10) 10 false false 0.
Definition w_robot : robot := Robot
  [Node None [1; 4]%nat Fixed pid 0 w_joint pid [];
   Node (Some 0%nat) [2; 3]%nat (Revolute (Vec 0 0 1)) (Pose mid (Vec 1 0 0)) 0 w_joint pid [];
   Node (Some 1%nat) [] Fixed (Pose mid (Vec 1 0 0)) 0 w_joint pid [];
   Node (Some 1%nat) [] Fixed (Pose mid (Vec 0 1 0)) 0 w_joint pid [];
   Node (Some 0%nat) [] Sensor (Pose mid (Vec 0 0 1)) 0 w_joint pid []] 0 pid.
Definition w_source : source := Source w_robot (fun _ => true) (fun _ => Phys 1 (Vec 0 0 0)) (fun _ => Generic).
Definition w_q : nat -> R := fun y => if Nat.eqb y 1 then PI / 2 else 0.
Lemma low_acyclic r : (forall p c, In c (kids r p) -> (p < c)%nat) -> forall x c, In c (kids r x) -> ~ desc r c x.
Proof.
  intros H x c I D. assert (K : forall a b, desc r a b -> (a <= b)%nat). { intros a b' D'. induction D' as [|p z D' IH J]; [lia|]. apply H in J. lia. }
  apply K in D. apply H in I. lia.
Qed.
Lemma w_kids p c : In c (kids w_robot p) -> (p = 0 /\ (c = 1 \/ c = 4) \/ p = 1 /\ (c = 2 \/ c = 3))%nat.
Proof. destruct p as [|[|[|[|[|p]]]]]; cbn; try tauto; [intros [H|[H|[]]]; auto|intros [H|[H|[]]]; auto|destruct p; intros []]. Qed.
Lemma w_tree : tree w_robot.
Proof.
  constructor.
  - intros p c. split.
    + intros I. apply w_kids in I. destruct I as [(-> & [->| ->])|(-> & [->| ->])]; eexists; (split; [reflexivity|reflexivity]).
    + intros (n & E & P). destruct c as [|[|[|[|[|c]]]]]; cbn in E; try (injection E as <-; cbn in P; try discriminate; injection P as <-; cbn; tauto). destruct c; discriminate.
  - intros p. destruct p as [|[|[|[|[|p]]]]]; cbn; try constructor; try (destruct p; constructor); cbn; try (intros [H|[]]; discriminate); repeat constructor; intros [].
  - eexists. split; reflexivity.
  - apply low_acyclic. intros p c I. apply w_kids in I. lia.
Qed.
Lemma w_whole : whole w_robot.
Proof.
  split; [eexists; split; [reflexivity|split; discriminate]|]. intros p c n m I E F _. apply w_kids in I.
  destruct I as [(-> & _)|(-> & _)]; injection F as <-; split; discriminate.
Qed.
Lemma w_part y : (y < 4)%nat -> part w_robot y.
Proof.
  assert (D1 : desc w_robot 0 1) by (apply d_step with 0%nat; [constructor|cbn; auto]).
  intros L. destruct y as [|[|[|[|y]]]]; [| | | |lia]; (split; [|eexists; split; [reflexivity|split; discriminate]]).
  - constructor.
  - exact D1.
  - apply d_step with 1%nat; [exact D1|cbn; auto].
  - apply d_step with 1%nat; [exact D1|cbn; auto].
Qed.
Lemma w_rigid : rigid w_robot.
Proof.
  split; [apply mid_rotation|]. intros y n E. destruct y as [|[|[|[|[|y]]]]]; cbn in E; try (injection E as <-; split; [apply mid_rotation|cbn; lra || exact I]).
  destruct y; discriminate.
Qed.

(** ** C107: the structure *)
(** The search for the new structure ends, and with nodes of no special type there is a clone. *)
Theorem C107_there_is_a_clone : forall s x fuel, tree (s_robot s) -> whole (s_robot s) -> part (s_robot s) x -> (length (nodes (s_robot s)) <= fuel)%nat ->
  exists res, clone_inversed fuel s x = Some res /\ res <> Null /\ ((forall y, part (s_robot s) y -> s_type s y = Generic) -> exists c, res = Made c).
Proof.
  intros s x fuel T W X L. destruct (structure_ok (s_robot s) x T W X fuel L) as (defs & E & G).
  unfold clone_inversed. rewrite E. eexists. split; [reflexivity|]. unfold clone_change_structure.
  assert (RN : forallb (rn_at (s_robot s)) (made_nodes x defs) = true).
  { apply forallb_forall. intros y I. apply (made_part s x X defs G y) in I. destruct I as (_ & I). now apply rn_at_proper. }
  rewrite RN. cbv zeta. split; [destruct (forallb (type_ok s _) _); discriminate|]. intros H.
  assert (TY : forallb (type_ok s (fold_left (add_def s) defs FacModel.start)) (made_nodes x defs) = true).
  { apply forallb_forall. intros y I. apply (made_part s x X defs G y) in I. unfold type_ok. now rewrite (H y I). }
  rewrite TY. eexists. reflexivity.
Qed.
Example C107_there_is_a_clone_case : exists c, clone_inversed 5 w_source 2 = Some (Made c).
Proof.
  destruct (C107_there_is_a_clone w_source 2 5 w_tree w_whole (w_part 2 ltac:(lia)) ltac:(cbn; lia)) as (res & E & _ & H).
  destruct (H (fun _ _ => eq_refl)) as (c & ->). exists c. exact E.
Qed.
Print Assumptions C107_there_is_a_clone.

Lemma made_inv s x fuel c : tree (s_robot s) -> whole (s_robot s) -> part (s_robot s) x -> (length (nodes (s_robot s)) <= fuel)%nat -> clone_inversed fuel s x = Some (Made c) ->
  exists defs, good (s_robot s) x defs /\
    c = Clone (built_robot (s_robot s) (fold_left (add_def s) defs FacModel.start) (made_nodes x defs) x) (b_visu (fold_left (add_def s) defs FacModel.start))
              (fun y => match b_phys (fold_left (add_def s) defs FacModel.start) y with Some p => p | None => s_phys s y end).
Proof.
  intros T W X L H. destruct (structure_ok (s_robot s) x T W X fuel L) as (defs & E & G). exists defs. split; [exact G|].
  unfold clone_inversed in H. rewrite E in H. unfold clone_change_structure in H. destruct (forallb _ _); [|discriminate]. destruct (forallb _ _); [|discriminate]. now injection H as <-.
Qed.

(** The clone has the same nodes and the same links; it is a tree with the new root; just the links on the way to the new root are turned. *)
Theorem C107_links_of_the_clone : forall s x fuel c, tree (s_robot s) -> whole (s_robot s) -> part (s_robot s) x -> (length (nodes (s_robot s)) <= fuel)%nat ->
  clone_inversed fuel s x = Some (Made c) ->
  tree (c_robot c) /\ root (c_robot c) = x /\ (forall y, part (c_robot c) y <-> part (s_robot s) y) /\
  forall a b, part (s_robot s) a -> part (s_robot s) b ->
    (In b (kids (c_robot c) a) <-> (In b (kids (s_robot s) a) /\ ~ desc (s_robot s) b x) \/ (In a (kids (s_robot s) b) /\ desc (s_robot s) a x)).
Proof.
  intros s x fuel c T W X L H. destruct (made_inv s x fuel c T W X L H) as (defs & G & ->). cbn [c_robot].
  split; [apply (tree_new s x T W X defs G)|]. split; [reflexivity|]. split; [apply (part_new s x T W X defs G)|].
  intros a b A B. rewrite (kids_new s x T X defs G a b B). unfold np. tauto.
Qed.
Example C107_links_of_the_clone_case : exists c, clone_inversed 5 w_source 2 = Some (Made c) /\
  In 1%nat (kids (c_robot c) 2) /\ In 0%nat (kids (c_robot c) 1) /\ In 3%nat (kids (c_robot c) 1) /\ ~ In 2%nat (kids (c_robot c) 1).
Proof.
  destruct C107_there_is_a_clone_case as (c & H). exists c. split; [exact H|].
  destruct (C107_links_of_the_clone w_source 2 5 c w_tree w_whole (w_part 2 ltac:(lia)) ltac:(cbn; lia) H) as (_ & _ & _ & K).
  assert (D12 : desc w_robot 1 2) by (apply d_step with 1%nat; [constructor|cbn; auto]).
  assert (D22 : desc w_robot 2 2) by constructor.
  split; [|split; [|split]].
  - apply K; [apply w_part; lia|apply w_part; lia|]. right. split; [cbn; auto|exact D22].
  - apply K; [apply w_part; lia|apply w_part; lia|]. right. split; [cbn; auto|exact D12].
  - apply K; [apply w_part; lia|apply w_part; lia|]. left. split; [cbn; auto|]. intros D. inversion D as [|p z D' I]; subst. apply w_kids in I.
    assert (p = 1)%nat by lia. subst p. inversion D' as [|p z D'' I']; subst. apply w_kids in I'. assert (p = 0)%nat by lia. subst p. inversion D'' as [|p z D3 I3]; subst. apply w_kids in I3. lia.
  - intros I. apply K in I; [|apply w_part; lia|apply w_part; lia]. destruct I as [(_ & N)|(I & _)]; [exact (N D22)|]. apply w_kids in I. lia.
Qed.
Print Assumptions C107_links_of_the_clone.

(** A robot whose nodes have fitting types can make cloneInversed throw: a joint node gets the model of its old parent. *)
Theorem C107_types_stay_valid_refuted : exists s x, tree (s_robot s) /\ whole (s_robot s) /\ part (s_robot s) x /\ types_fit s /\
  clone_inversed 5 s x = Some Throw.
Proof.
  set (s := Source w_robot (fun y => Nat.eqb y 0) (fun _ => Phys 1 (Vec 0 0 0)) (fun y => if Nat.eqb y 1 then JointNode else Generic)).
  exists s, 2%nat. split; [exact w_tree|]. split; [exact w_whole|]. split; [apply w_part; lia|]. split.
  - intros y n _. cbn [s_type s_model s]. destruct y as [|[|y]]; cbn; reflexivity.
  - reflexivity.
Qed.
Print Assumptions C107_types_stay_valid_refuted.

(** ** C108: the models keep their place *)
(** Every model but that of the new root is shown, at all joint values. *)
Theorem C108_models_are_shown : forall s x fuel c q y, tree (s_robot s) -> whole (s_robot s) -> part (s_robot s) x -> rigid (s_robot s) -> (length (nodes (s_robot s)) <= fuel)%nat ->
  clone_inversed fuel s x = Some (Made c) -> part (s_robot s) y -> s_model s y = true -> ((exists h, shown c q y h) <-> y <> x).
Proof.
  intros s x fuel c q y T W X RG L H Y M. destruct (made_inv s x fuel c T W X L H) as (defs & G & ->). split.
  - intros (h & S') ->. exact (shown_not_root s x T defs G q h S').
  - intros N. exact (shown_exists s x T W X defs G RG q y Y N M).
Qed.
Print Assumptions C108_models_are_shown.

Lemma at_rest_pid r q p n : at_rest r q p -> node_at (with_q q r) p = Some n -> joint_motion n = pid.
Proof. intros H. apply H. Qed.
(** At all joint values the models on the way to the new root, and those that hang on joints at rest, have the relative poses they had. *)
Theorem C108_models_keep_their_place : forall s x fuel c q, tree (s_robot s) -> whole (s_robot s) -> part (s_robot s) x -> rigid (s_robot s) -> (length (nodes (s_robot s)) <= fuel)%nat ->
  clone_inversed fuel s x = Some (Made c) ->
  forall y z gy gz hy hz, kept (s_robot s) x q y -> kept (s_robot s) x q z -> fk (with_q q (s_robot s)) y gy -> fk (with_q q (s_robot s)) z gz ->
    shown c q y hy -> shown c q z hz -> relative hy hz = relative gy gz.
Proof.
  intros s x fuel c q T W X RG L H. destruct (made_inv s x fuel c T W X L H) as (defs & G & ->).
  destruct (carried s x T W X defs G RG q) as (A & RA & CA).
  assert (K : forall y g h, kept (s_robot s) x q y -> fk (with_q q (s_robot s)) y g -> shown (Clone (built_robot (s_robot s) (fold_left (add_def s) defs FacModel.start) (made_nodes x defs) x) (b_visu (fold_left (add_def s) defs FacModel.start))
              (fun y => match b_phys (fold_left (add_def s) defs FacModel.start) y with Some p => p | None => s_phys s y end)) q y h -> h = pmul A g).
  { intros y g h (Y & K) F S'. destruct K as [D|(p & B & AR)].
    - destruct (Nat.eq_dec y x) as [->|N]; [exfalso; exact (shown_not_root s x T defs G q h S')|].
      exact (shown_way s x T W X defs G RG q A y g h CA D N F S').
    - pose proof B as (Dp & _). pose proof (way_part (s_robot s) x T W X p Dp) as P.
      destruct (fk_exists s T q p P) as (gp & Fp). destruct (node_q s q p P) as (n & En & _).
      rewrite (shown_off s x T W X defs G RG q A p gp n y g h CA B Y Fp En F S'). f_equal.
      rewrite (AR n En), inverted_pid, pmul_pid_r, <- pmul_assoc.
      rewrite (inverted_right gp (fk_rotation _ _ _ (rigid_q s RG q) Fp)), pmul_pid_l. reflexivity. }
  intros y z gy gz hy hz Ky Kz Fy Fz Sy Sz. rewrite (K y gy hy Ky Fy Sy), (K z gz hz Kz Fz Sz). unfold relative.
  rewrite (inverted_mul A gy RA), pmul_assoc, <- (pmul_assoc (inverted A)), (inverted_left A RA), pmul_pid_l. reflexivity.
Qed.
Lemma w_way_1 : desc w_robot 1 2.
Proof. apply d_step with 1%nat; [constructor|cbn; auto]. Qed.
Lemma w_way_0 : desc w_robot 0 2.
Proof. apply d_step with 1%nat; [apply d_step with 0%nat; [constructor|cbn; auto]|cbn; auto]. Qed.
Lemma w_off_3 : branches_off w_robot 2 1 3.
Proof.
  split; [exact w_way_1|]. exists 3%nat. split; [cbn; auto|]. split; [|constructor]. intros D. inversion D as [|p z D' I]; subst. apply w_kids in I.
  assert (p = 1)%nat by lia. subst p. inversion D' as [|p z D'' I']; subst. apply w_kids in I'. assert (p = 0)%nat by lia. subst p. inversion D'' as [|p z D3 I3]; subst. apply w_kids in I3. lia.
Qed.
(** The base and the arm at a right angle: the clone shows both, and the arm seen from the base is where it was. *)
Example C108_models_keep_their_place_case : exists c h0 h1, clone_inversed 5 w_source 2 = Some (Made c) /\ kept w_robot 2 w_q 0 /\ kept w_robot 2 w_q 1 /\ shown c w_q 0 h0 /\ shown c w_q 1 h1 /\ ppos (relative h0 h1) = Vec 1 0 0 /\ prot (relative h0 h1) = Mat 0 (-1) 0 1 0 0 0 0 1.
Proof.
  destruct C107_there_is_a_clone_case as (c & H).
  assert (SH : forall y, (y < 4)%nat -> y <> 2%nat -> exists h, shown c w_q y h).
  { intros y L N. apply (C108_models_are_shown w_source 2 5 c w_q y w_tree w_whole (w_part 2 ltac:(lia)) w_rigid ltac:(cbn; lia) H (w_part y L) eq_refl). exact N. }
  destruct (SH 0%nat ltac:(lia) ltac:(lia)) as (h0 & S0). destruct (SH 1%nat ltac:(lia) ltac:(lia)) as (h1 & S1). exists c, h0, h1.
  assert (K0 : kept w_robot 2 w_q 0) by (split; [apply w_part; lia|left; exact w_way_0]).
  assert (K1 : kept w_robot 2 w_q 1) by (split; [apply w_part; lia|left; exact w_way_1]).
  assert (F0 : fk (with_q w_q w_robot) 0 (pmul pid pid)) by (apply (fk_root (with_q w_q w_robot)) with (n := with_joint (with_value w_joint 0) (Node None [1; 4]%nat Fixed pid 0 w_joint pid [])); reflexivity).
  assert (F1 : fk (with_q w_q w_robot) 1 (pmul (pmul pid pid) (pmul (Pose mid (Vec 1 0 0)) (Pose (axisangle2mat (Vec 0 0 1) (PI / 2 + 0)) (Vec 0 0 0))))).
  { apply (fk_child (with_q w_q w_robot) 0 1 (with_joint (with_value w_joint (PI / 2)) (Node (Some 0%nat) [2; 3]%nat (Revolute (Vec 0 0 1)) (Pose mid (Vec 1 0 0)) 0 w_joint pid []))); [exact F0|cbn; auto|reflexivity]. }
  pose proof (C108_models_keep_their_place w_source 2 5 c w_q w_tree w_whole (w_part 2 ltac:(lia)) w_rigid ltac:(cbn; lia) H 0%nat 1%nat _ _ h0 h1 K0 K1 F0 F1 S0 S1) as EQ.
  do 5 (split; [assumption|]). rewrite EQ. rewrite Rplus_0_r. unfold relative. rewrite !pmul_pid_l, inverted_pid, !pmul_pid_l. unfold axisangle2mat. rewrite cos_PI2, sin_PI2.
  unfold pmul, inverted, pid, mid, mtrans, mmul, mapply, vadd, vscale; cbn [prot ppos vx vy vz m00 m01 m02 m10 m11 m12 m20 m21 m22]. split; f_equal; ring.
Qed.
Print Assumptions C108_models_keep_their_place.
Example C108_models_are_shown_case : exists c, clone_inversed 5 w_source 2 = Some (Made c) /\ forall y, (y < 4)%nat -> y <> 2%nat -> exists h, shown c w_q y h.
Proof.
  destruct C107_there_is_a_clone_case as (c & H). exists c. split; [exact H|]. intros y L N.
  apply (C108_models_are_shown w_source 2 5 c w_q y w_tree w_whole (w_part 2 ltac:(lia)) w_rigid ltac:(cbn; lia) H (w_part y L) eq_refl). exact N.
Qed.

(** What hangs on a turned joint that is not at rest does not keep its place: it no longer follows the joint. *)
Theorem C108_all_models_keep_their_place_refuted : exists s x c q y z gy gz hy hz,
  tree (s_robot s) /\ whole (s_robot s) /\ part (s_robot s) x /\ rigid (s_robot s) /\ clone_inversed 5 s x = Some (Made c) /\
  desc (s_robot s) y x /\ part (s_robot s) z /\ fk (with_q q (s_robot s)) y gy /\ fk (with_q q (s_robot s)) z gz /\ shown c q y hy /\ shown c q z hz /\
  relative hy hz <> relative gy gz.
Proof.
  destruct C107_there_is_a_clone_case as (c & H).
  assert (SH : forall y, (y < 4)%nat -> y <> 2%nat -> exists h, shown c w_q y h).
  { intros y L N. apply (C108_models_are_shown w_source 2 5 c w_q y w_tree w_whole (w_part 2 ltac:(lia)) w_rigid ltac:(cbn; lia) H (w_part y L) eq_refl). exact N. }
  destruct (SH 0%nat ltac:(lia) ltac:(lia)) as (h0 & S0). destruct (SH 3%nat ltac:(lia) ltac:(lia)) as (h3 & S3).
  assert (F0 : fk (with_q w_q w_robot) 0 (pmul pid pid)) by (apply (fk_root (with_q w_q w_robot)) with (n := with_joint (with_value w_joint 0) (Node None [1; 4]%nat Fixed pid 0 w_joint pid [])); reflexivity).
  set (n1 := with_joint (with_value w_joint (PI / 2)) (Node (Some 0%nat) [2; 3]%nat (Revolute (Vec 0 0 1)) (Pose mid (Vec 1 0 0)) 0 w_joint pid [])).
  set (n3 := with_joint (with_value w_joint 0) (Node (Some 1%nat) [] Fixed (Pose mid (Vec 0 1 0)) 0 w_joint pid [])).
  assert (F1 : fk (with_q w_q w_robot) 1 (pmul (pmul pid pid) (transform n1))) by (apply (fk_child (with_q w_q w_robot) 0 1 n1); [exact F0|cbn; auto|reflexivity]).
  assert (F3 : fk (with_q w_q w_robot) 3 (pmul (pmul (pmul pid pid) (transform n1)) (transform n3))) by (apply (fk_child (with_q w_q w_robot) 1 3 n3); [exact F1|cbn; auto|reflexivity]).
  exists w_source, 2%nat, c, w_q, 0%nat, 3%nat. do 2 eexists. exists h0, h3.
  split; [exact w_tree|]. split; [exact w_whole|]. split; [apply w_part; lia|]. split; [exact w_rigid|]. split; [exact H|]. split; [exact w_way_0|]. split; [apply w_part; lia|].
  split; [exact F0|]. split; [exact F3|]. split; [exact S0|]. split; [exact S3|].
  destruct (made_inv w_source 2 5 c w_tree w_whole (w_part 2 ltac:(lia)) ltac:(cbn; lia) H) as (defs & G & ->).
  destruct (carried w_source 2 w_tree w_whole (w_part 2 ltac:(lia)) defs G w_rigid w_q) as (A & RA & CA).
  rewrite (shown_way w_source 2 w_tree w_whole (w_part 2 ltac:(lia)) defs G w_rigid w_q A 0 _ h0 CA w_way_0 ltac:(lia) F0 S0).
  rewrite (shown_off w_source 2 w_tree w_whole (w_part 2 ltac:(lia)) defs G w_rigid w_q A 1 _ n1 3 _ h3 CA w_off_3 (w_part 3 ltac:(lia)) F1 eq_refl F3 S3).
  unfold relative. rewrite (inverted_mul A _ RA), (pmul_assoc _ (inverted A)), <- (pmul_assoc (inverted A) A), (inverted_left A RA), !pmul_pid_l, inverted_pid, !pmul_pid_l.
  rewrite <- (pmul_assoc (inverted (transform n1))), (inverted_left (transform n1)), pmul_pid_l by (apply (transform_rotation (with_q w_q w_robot) 1 n1 (rigid_q w_source w_rigid w_q)); reflexivity).
  assert (CN : pmul (transform n1) (inverted (joint_motion n1)) = n_local n1).
  { rewrite (transform_split n1) by (split; discriminate). rewrite pmul_assoc, inverted_right, pmul_pid_r; [reflexivity|].
    apply (motion_rotation (with_q w_q w_robot) 1 n1 (rigid_q w_source w_rigid w_q)). reflexivity. }
  rewrite CN. intros EQ. apply (f_equal (fun g => vy (ppos g))) in EQ. revert EQ. unfold n1, n3, transform, axisangle2mat. cbn [with_joint n_kind n_joint n_offset n_local value with_value].
  rewrite Rplus_0_r, cos_PI2, sin_PI2. unfold pmul, inverted, pid, mid, mtrans, mmul, mapply, vadd, vscale; cbn [prot ppos vx vy vz m00 m01 m02 m10 m11 m12 m20 m21 m22]. lra.
Qed.
Print Assumptions C108_all_models_keep_their_place_refuted.

(** ** C109: masses and sensors *)
(** The mass of a node on the way goes to its child on the way, with the centre of mass where the model is; nodes off the way keep theirs. *)
Theorem C109_centres_of_mass : forall s x fuel c q y, tree (s_robot s) -> whole (s_robot s) -> part (s_robot s) x -> rigid (s_robot s) -> (length (nodes (s_robot s)) <= fuel)%nat ->
  clone_inversed fuel s x = Some (Made c) -> part (s_robot s) y ->
  (forall u g h, In u (kids (s_robot s) y) -> desc (s_robot s) u x -> fk (with_q q (c_robot c)) u g -> shown c q y h ->
     mass (c_phys c u) = mass (s_phys s y) /\ papply g (com (c_phys c u)) = papply h (com (s_phys s y))) /\
  (~ desc (s_robot s) y x -> c_phys c y = s_phys s y).
Proof.
  intros s x fuel c q y T W X RG L H Y. destruct (made_inv s x fuel c T W X L H) as (defs & G & ->). split.
  - intros u g h I D F S'. pose proof (way_part (s_robot s) x T W X u D) as U.
    rewrite (phys_way s x T W defs G y u U D I). cbn [mass com]. split; [reflexivity|].
    destruct (carried s x T W X defs G RG q) as (A & RA & CA). destruct (fk_exists s T q y Y) as (gy & Fy).
    assert (DY : desc (s_robot s) y x) by (apply desc_trans with u; [apply d_step with y; [constructor|exact I]|exact D]).
    assert (N : y <> x) by (intros ->; exact (t_acyclic _ T x u I D)).
    rewrite (shown_way s x T W X defs G RG q A y gy h CA DY N Fy S').
    rewrite (shown_node_way s x T W X defs G RG q A y gy u g CA RA D U I Fy F).
    destruct U as (_ & n & En & _). destruct (proj2 RG u n En) as (RL & _). unfold local_of. rewrite En.
    assert (PM : forall a b v, papply (pmul a b) v = papply a (papply b v)).
    { intros a b v. unfold papply. cbn [prot ppos pmul]. rewrite mapply_mmul, mapply_vadd, vadd_assoc. reflexivity. }
    rewrite <- PM, pmul_assoc, (inverted_right _ RL), pmul_pid_r. reflexivity.
  - intros D. apply (phys_off s x T defs G y Y D).
Qed.
Print Assumptions C109_centres_of_mass.
(** The mass of the base is carried by the arm, that of the camera mount stays. *)
Example C109_centres_of_mass_case : exists c, clone_inversed 5 w_source 2 = Some (Made c) /\ mass (c_phys c 1%nat) = 1 /\ c_phys c 3%nat = Phys 1 (Vec 0 0 0).
Proof.
  destruct C108_models_are_shown_case as (c & H & SH). exists c. split; [exact H|]. split.
  - destruct (SH 0%nat ltac:(lia) ltac:(lia)) as (h & S0). destruct S0 as (m & g & n & S1). destruct (made_inv w_source 2 5 c w_tree w_whole (w_part 2 ltac:(lia)) ltac:(cbn; lia) H) as (defs & G & EC).
    destruct (carried w_source 2 w_tree w_whole (w_part 2 ltac:(lia)) defs G w_rigid w_q) as (A & RA & CA).
    destruct (fk_exists w_source w_tree w_q 1 (w_part 1 ltac:(lia))) as (g1 & F1). destruct (node_q w_source w_q 1 (w_part 1 ltac:(lia))) as (n1 & En1 & _).
    pose proof (CA 1%nat g1 n1 w_way_1 F1 En1) as F1'.
    destruct (SH 0%nat ltac:(lia) ltac:(lia)) as (h' & S0).
    assert (FC : fk (with_q w_q (c_robot c)) 1 (pmul A (pmul g1 (inverted (joint_motion n1))))) by (rewrite EC; exact F1').
    exact (proj1 (proj1 (C109_centres_of_mass w_source 2 5 c w_q 0 w_tree w_whole (w_part 2 ltac:(lia)) w_rigid ltac:(cbn; lia) H (w_part 0 ltac:(lia))) 1%nat _ h' ltac:(cbn; auto) w_way_1 FC S0)).
  - apply (proj2 (C109_centres_of_mass w_source 2 5 c w_q 3 w_tree w_whole (w_part 2 ltac:(lia)) w_rigid ltac:(cbn; lia) H (w_part 3 ltac:(lia)))).
    destruct w_off_3 as (_ & b & I & N & D). intros D3. apply N. exact (desc_trans _ _ _ _ D D3).
Qed.
(** The mass of the clone is that of the robot without the new root. *)
Theorem C109_mass_of_the_clone : forall s x fuel c l, tree (s_robot s) -> whole (s_robot s) -> part (s_robot s) x -> rigid (s_robot s) -> (length (nodes (s_robot s)) <= fuel)%nat ->
  clone_inversed fuel s x = Some (Made c) -> NoDup l -> (forall y, In y l <-> part (s_robot s) y) ->
  total (fun y => mass (c_phys c y)) l = total (fun y => mass (s_phys s y)) l - (if Nat.eqb x (root (s_robot s)) then 0 else mass (s_phys s x)).
Proof.
  intros s x fuel c l T W X RG L H N K. destruct (made_inv s x fuel c T W X L H) as (defs & G & ->).
  pose proof (phys_root s x T W X defs G) as PR. destruct (Nat.eqb x (root (s_robot s))) eqn:E.
  - apply Nat.eqb_eq in E. rewrite Rminus_0_r. apply total_ext. intros y I. apply K in I. f_equal.
    destruct (desc_or (s_robot s) x y T (proj1 X)) as [D|D]; [|apply (phys_off s x T defs G y I D)].
    rewrite E in D. apply (root_top _ _ T) in D. rewrite D, PR, E. reflexivity.
  - apply (total_moved (s_robot s) x l (fun y => mass (s_phys s y)) _ T (proj1 X) N).
    + intros y D. apply K. apply (way_part (s_robot s) x T W X y D).
    + intros u y I D. rewrite (phys_way s x T W defs G y u (way_part (s_robot s) x T W X u D) D I). reflexivity.
    + rewrite PR. reflexivity.
    + intros y I D. apply K in I. rewrite (phys_off s x T defs G y I D). reflexivity.
Qed.
Print Assumptions C109_mass_of_the_clone.
Lemma w_all y : In y [0; 1; 2; 3]%nat <-> part w_robot y.
Proof.
  split; [intros I; apply w_part; cbn in I; lia|]. intros (_ & n & E & (P & _)). destruct y as [|[|[|[|[|y]]]]]; cbn; auto; [injection E as <-; cbn in P; congruence|].
  cbn in E. destruct y; discriminate.
Qed.
Lemma w_once : NoDup [0; 1; 2; 3]%nat.
Proof. repeat constructor; cbn; intros H; repeat destruct H as [H|H]; try discriminate; exact H. Qed.
(** The mass of the new root is lost. *)
Theorem C109_mass_is_kept_refuted : exists s x c l, tree (s_robot s) /\ whole (s_robot s) /\ part (s_robot s) x /\ rigid (s_robot s) /\ clone_inversed 5 s x = Some (Made c) /\
  NoDup l /\ (forall y, In y l <-> part (s_robot s) y) /\ total (fun y => mass (s_phys s y)) l = 4 /\ total (fun y => mass (c_phys c y)) l = 3.
Proof.
  destruct C107_there_is_a_clone_case as (c & H). exists w_source, 2%nat, c, [0; 1; 2; 3]%nat.
  split; [exact w_tree|]. split; [exact w_whole|]. split; [apply w_part; lia|]. split; [exact w_rigid|]. split; [exact H|]. split; [exact w_once|]. split; [exact w_all|].
  assert (T4 : total (fun y => mass (s_phys w_source y)) [0; 1; 2; 3]%nat = 4) by (unfold total; cbn [map fold_right s_phys w_source mass]; lra).
  split; [exact T4|]. rewrite (C109_mass_of_the_clone w_source 2 5 c _ w_tree w_whole (w_part 2 ltac:(lia)) w_rigid ltac:(cbn; lia) H w_once w_all), T4.
  cbn [root s_robot w_source w_robot Nat.eqb s_phys mass]. lra.
Qed.
Print Assumptions C109_mass_is_kept_refuted.

(** Sensors of nodes off the way stay at their node.  Those of nodes on the way go to the child on the way with the transformation they had. *)
Theorem C109_sensors : forall s x fuel c q y t n hy ht, tree (s_robot s) -> whole (s_robot s) -> part (s_robot s) x -> rigid (s_robot s) -> (length (nodes (s_robot s)) <= fuel)%nat ->
  clone_inversed fuel s x = Some (Made c) -> part (s_robot s) y -> In t (kids (s_robot s) y) -> node_at (s_robot s) t = Some n -> n_kind n = Sensor ->
  shown c q y hy -> fk (with_q q (c_robot c)) t ht ->
  (~ desc (s_robot s) y x -> relative hy ht = n_local n) /\
  (forall u m, In u (kids (s_robot s) y) -> desc (s_robot s) u x -> node_at (s_robot s) u = Some m -> relative hy ht = pmul (n_local m) (n_local n)).
Proof.
  intros s x fuel c q y t n hy ht T W X RG L H Y I En K SH F. destruct (made_inv s x fuel c T W X L H) as (defs & G & ->).
  destruct (carried s x T W X defs G RG q) as (A & RA & CA). destruct (fk_exists s T q y Y) as (gy & Fy).
  pose proof (fk_rotation _ _ _ (rigid_q s RG q) Fy) as Ry. split.
  - intros D. pose proof (sensor_off_way s x T W X defs G t n y Y D I En K) as J.
    destruct (fk_sensor s x T X defs G q t y n ht J En F) as (g & Fg & ->).
    destruct (way_or_off s x T X y Y) as [D'|(p & B)]; [contradiction|]. pose proof B as (Dp & _). pose proof (way_part (s_robot s) x T W X p Dp) as P.
    destruct (fk_exists s T q p P) as (gp & Fp). destruct (node_q s q p P) as (np' & Enp & _).
    rewrite (shown_off s x T W X defs G RG q A p gp np' y gy hy CA B Y Fp Enp Fy SH).
    pose proof B as (_ & b' & Ib & Nb & Db).
    pose proof (off_way s x T W X defs G RG q A p gp np' b' y gy CA Dp Fp Enp Ib Nb Db Y Fy) as Fy'.
    rewrite (fk_fun _ y g _ (tree1 s x T W X defs G q) Fg Fy'). unfold relative. rewrite <- (pmul_assoc (inverted _)), inverted_left, pmul_pid_l; [reflexivity|].
    pose proof (fk_rotation _ _ _ (rigid_q s RG q) Fp) as Rp. pose proof (motion_rotation _ _ _ (rigid_q s RG q) Enp) as Rj.
    repeat apply pmul_rot; try assumption; apply inverted_rot; assumption.
  - intros u m Iu D Em. pose proof (way_part (s_robot s) x T W X u D) as U.
    pose proof (sensor_on_way s x T W defs G t n y u U D Iu I En K) as J.
    destruct (fk_sensor s x T X defs G q t u n ht J En F) as (g & Fg & ->).
    assert (DY : desc (s_robot s) y x) by (apply desc_trans with u; [apply d_step with y; [constructor|exact Iu]|exact D]).
    assert (N : y <> x) by (intros ->; exact (t_acyclic _ T x u Iu D)).
    rewrite (shown_way s x T W X defs G RG q A y gy hy CA DY N Fy SH).
    rewrite (shown_node_way s x T W X defs G RG q A y gy u g CA RA D U Iu Fy Fg). unfold local_of. rewrite Em.
    unfold relative. rewrite !pmul_assoc, <- (pmul_assoc A), <- (pmul_assoc (inverted _)), inverted_left, pmul_pid_l; [reflexivity|]. apply pmul_rot; assumption.
Qed.
Print Assumptions C109_sensors.
(** The sensor of the base does not stay where it was on the base. *)
Theorem C109_sensors_keep_their_place_refuted : exists s x c q y t n gy gt hy ht, tree (s_robot s) /\ whole (s_robot s) /\ part (s_robot s) x /\ rigid (s_robot s) /\
  clone_inversed 5 s x = Some (Made c) /\ desc (s_robot s) y x /\ In t (kids (s_robot s) y) /\ node_at (s_robot s) t = Some n /\ n_kind n = Sensor /\
  fk (with_q q (s_robot s)) y gy /\ fk (with_q q (s_robot s)) t gt /\ shown c q y hy /\ fk (with_q q (c_robot c)) t ht /\ relative hy ht <> relative gy gt.
Proof.
  destruct C107_there_is_a_clone_case as (c & H).
  assert (S0 : exists h, shown c w_q 0 h).
  { apply (C108_models_are_shown w_source 2 5 c w_q 0 w_tree w_whole (w_part 2 ltac:(lia)) w_rigid ltac:(cbn; lia) H (w_part 0 ltac:(lia)) eq_refl). lia. }
  destruct S0 as (h0 & S0).
  set (n0 := with_joint (with_value w_joint 0) (Node None [1; 4]%nat Fixed pid 0 w_joint pid [])).
  set (n4 := Node (Some 0%nat) [] Sensor (Pose mid (Vec 0 0 1)) 0 w_joint pid []).
  assert (F0 : fk (with_q w_q w_robot) 0 (pmul pid (transform n0))) by (apply (fk_root (with_q w_q w_robot)); reflexivity).
  assert (F4 : fk (with_q w_q w_robot) 4 (pmul (pmul pid (transform n0)) (transform (with_joint (with_value w_joint 0) n4)))) by (apply (fk_child (with_q w_q w_robot) 0 4); [exact F0|cbn; auto|reflexivity]).
  assert (FT : exists ht, fk (with_q w_q (c_robot c)) 4 ht).
  { destruct (made_inv w_source 2 5 c w_tree w_whole (w_part 2 ltac:(lia)) ltac:(cbn; lia) H) as (defs & G & ->). cbn [c_robot].
    destruct (carried w_source 2 w_tree w_whole (w_part 2 ltac:(lia)) defs G w_rigid w_q) as (A & RA & CA).
    destruct (fk_exists w_source w_tree w_q 1 (w_part 1 ltac:(lia))) as (g1 & F1). destruct (node_q w_source w_q 1 (w_part 1 ltac:(lia))) as (n1 & En1 & _).
    pose proof (CA 1%nat g1 n1 w_way_1 F1 En1) as F1'.
    pose proof (sensor_on_way w_source 2 w_tree w_whole defs G 4 n4 0 1 (w_part 1 ltac:(lia)) w_way_1 ltac:(cbn; auto) ltac:(cbn; auto) eq_refl eq_refl) as J.
    eexists. eapply fk_child; [exact F1'| |].
    - rewrite kids_with_q. apply (links_new w_source 2 w_tree (w_part 2 ltac:(lia)) defs G). eexists. split; [apply (sensor_node w_source 2 w_tree (w_part 2 ltac:(lia)) defs G 1 4 n4 J eq_refl)|reflexivity].
    - rewrite node_with_q, (sensor_node w_source 2 w_tree (w_part 2 ltac:(lia)) defs G 1 4 n4 J eq_refl). reflexivity. }
  destruct FT as (ht & FT). exists w_source, 2%nat, c, w_q, 0%nat, 4%nat, n4. do 2 eexists. exists h0, ht.
  split; [exact w_tree|]. split; [exact w_whole|]. split; [apply w_part; lia|]. split; [exact w_rigid|]. split; [exact H|]. split; [exact w_way_0|].
  split; [cbn; auto|]. split; [reflexivity|]. split; [reflexivity|]. split; [exact F0|]. split; [exact F4|]. split; [exact S0|]. split; [exact FT|].
  destruct (C109_sensors w_source 2 5 c w_q 0 4 n4 h0 ht w_tree w_whole (w_part 2 ltac:(lia)) w_rigid ltac:(cbn; lia) H (w_part 0 ltac:(lia)) ltac:(cbn; auto) eq_refl eq_refl S0 FT) as (_ & K).
  rewrite (K 1%nat _ ltac:(cbn; auto) w_way_1 eq_refl). intros EQ. apply (f_equal (fun g => vx (ppos g))) in EQ. revert EQ.
  assert (R0 : rotation (prot (pmul pid (transform n0)))) by (apply (fk_rotation _ _ _ (rigid_q w_source w_rigid w_q) F0)).
  unfold relative. rewrite <- (pmul_assoc (inverted _)), (inverted_left _ R0), pmul_pid_l. clear.
  unfold n4, transform. cbn [with_joint n_kind n_joint n_offset n_local]. unfold pmul, mid, mmul, mapply, vadd.
  cbn [prot ppos vx vy vz m00 m01 m02 m10 m11 m12 m20 m21 m22]. lra.
Qed.
Print Assumptions C109_sensors_keep_their_place_refuted.
