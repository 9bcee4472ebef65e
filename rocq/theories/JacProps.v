(** C61: the Jacobian of DifferentialIK. *)
From Coq Require Import Reals List Bool Arith Lia Lra.
From Verif Require Import QuatModel QuatSpec RpyModel JointModel KinModel KinSpec KinProofs KinProps JacModel JacSpec JacProofs.
Import ListNotations.
Open Scope R_scope.

(** C61.  For every robot whose nodes are at the poses of forward kinematics, the column of a joint holds the selected coordinates of the
    velocity and the angular velocity with which forward kinematics moves the tcp when that joint is moved, seen from the coordinate
    system.  There is such a motion, it has a velocity, and both are unique. *)
Theorem C61_jacobian : forall depth r cs convert rns t m, (length (nodes r) < depth)%nat -> tree r -> posed r -> rigid r ->
  desc r (root r) t -> on_robot r t -> (forall x, In x rns -> desc r (root r) x) -> (forall c, cs = Some c -> desc r (root r) c) ->
  exists J, jacobian depth r cs convert rns t m = Some J /\
    length J = length (selected m (Vec 0 0 0) (Vec 0 0 0)) /\ (forall row, In row J -> length row = length rns) /\
    forall i x, nth_error rns i = Some x -> exists n, node_at r x = Some n /\
      (exists G v w, motion r x t G /\ velocity (option_map (node_pose r) cs) G (value (n_joint n)) v w) /\
      forall G v w, motion r x t G -> velocity (option_map (node_pose r) cs) G (value (n_joint n)) v w ->
        is_column J i (selected m (in_unit convert (n_kind n) v) w).
Proof.
  intros depth r cs convert rns t m L T P RG Dt OR IN CS. unfold jacobian.
  destruct (on_robot_tcp r t OR) as (tn & ET). rewrite ET. destruct (parents_ok r rns tn depth T L) as (ps & EP & MP). rewrite EP.
  assert (HC : match option_map (node_pose r) cs with Some c => rotation (prot c) | None => True end).
  { destruct cs as [c|]; [|exact I]. cbn [option_map]. destruct (fk_exists r c T (CS c eq_refl)) as (g & F). rewrite (posed_pose r c g P F). apply (fk_rotation r c g RG F). }
  destruct (fk_exists r t T Dt) as (gt & Ft). rewrite (posed_pose r t gt P Ft).
  assert (ND : forall x, In x rns -> exists n, node_at r x = Some n).
  { intros x I. destruct (fk_exists r x T (IN x I)) as (g & F). destruct (P x g F) as (n & E & _). eauto. }
  destruct (columns_ok r (option_map (node_pose r) cs) convert m ps gt rns ND) as (cols & EC & LC & C). rewrite EC.
  exists (rows m cols). split; [reflexivity|]. destruct (rows_shape m cols) as (S1 & S2). split; [exact S2|]. split; [intros row I; rewrite <- LC; auto|].
  intros i x X. assert (IX := nth_error_In _ _ X). destruct (ND x IX) as (n & E). exists n. split; [exact E|].
  destruct (column_velocity r x t n (option_map (node_pose r) cs) convert m (member x ps) gt T P RG (IN x IX) Ft E HC) as (G & v & w & MG & VG & EQ).
  { destruct (tcp_node_ok r t tn T ET x n E) as [H|H]; [left|right; exact H]. now rewrite (MP x IX). }
  split; [exists G, v, w; auto|]. intros G' v' w' MG' VG'.
  assert (VG2 : velocity (option_map (node_pose r) cs) G' (value (n_joint n)) v w) by (eapply velocity_ext; [|exact VG]; apply (motion_unique r x t G G' T MG MG')).
  destruct (velocity_unique _ G' _ v w v' w' (motion_rotation r x t G' _ _ RG HC MG') VG2 VG') as (<- & <-).
  assert (H := rows_column m cols i _ (C i x n X E)). rewrite EQ, selected_masked in H. exact H.
Qed.

(** With several tcps their Jacobians stand one below the other, in the order of the tcps. *)
Theorem C61_stacked : forall depth r cs convert rns tcps J, full_jacobian depth r cs convert rns tcps = Some J ->
  exists parts, J = concat parts /\ Forall2 (fun tm part => jacobian depth r cs convert rns (fst tm) (snd tm) = Some part) tcps parts.
Proof.
  intros depth r cs convert rns. induction tcps as [|[t m] tcps IH]; intros J H; cbn [full_jacobian] in H.
  - injection H as <-. exists []. split; [reflexivity|constructor].
  - destruct (jacobian depth r cs convert rns t m) as [a|] eqn:A; [|discriminate]. destruct (full_jacobian depth r cs convert rns tcps) as [b|]; [|discriminate].
    injection H as <-. destruct (IH b eq_refl) as (parts & -> & F). exists (a :: parts). split; [reflexivity|]. constructor; assumption.
Qed.

(** The robot of C35: two prismatic joints along x. *)
Lemma arm_rigid : forall a b, rigid (arm a b).
Proof.
  intros a b. split; [apply mid_rotation|]. intros x n E. destruct x as [|[|x]]; [| |destruct x; discriminate]; injection E as <-; (split; [apply mid_rotation|exact I]).
Qed.
Lemma arm_desc : forall a b, desc (arm a b) 0 1.
Proof. intros. apply d_step with 0%nat; [constructor|left; reflexivity]. Qed.
Definition only_x : selection := Sel true false false false.
Lemma arm_jacobian : forall a b convert, jacobian 3 (arm a b) None convert [0%nat] 1 only_x = Some [[1]].
Proof.
  intros. unfold jacobian. cbn. unfold vx, direction_in, mapply. cbn. do 4 f_equal. ring.
Qed.

(** With convertModelScalingtoM the Jacobian of a prismatic joint is not converted: not every column is the velocity in metres. *)
Theorem C61_unit_refuted : ~ forall depth r rns t m J, (length (nodes r) < depth)%nat -> tree r -> posed r -> rigid r -> desc r (root r) t -> on_robot r t ->
  (forall x, In x rns -> desc r (root r) x) -> jacobian depth r None true rns t m = Some J ->
  forall i x n G v w, nth_error rns i = Some x -> node_at r x = Some n -> motion r x t G -> velocity None G (value (n_joint n)) v w ->
    is_column J i (selected m (vscale (1 / 1000) v) w).
Proof.
  intros H. specialize (H 3%nat (arm [] []) [0%nat] 1%nat only_x [[1]] ltac:(cbn; lia) (arm_tree _ _) (arm_posed _ _) (arm_rigid _ _) (arm_desc _ _)).
  assert (OR : on_robot (arm [] []) 1) by (eexists; split; [reflexivity|left; split; discriminate]).
  assert (IN : forall x, In x [0%nat] -> desc (arm [] []) (root (arm [] [])) x) by (intros x [<-|[]]; constructor).
  specialize (H OR IN (arm_jacobian _ _ _)).
  destruct (C61_jacobian 3 (arm [] []) None true [0%nat] 1 only_x ltac:(cbn; lia) (arm_tree _ _) (arm_posed _ _) (arm_rigid _ _) (arm_desc _ _) OR IN ltac:(discriminate)) as (J & EJ & _ & _ & C).
  rewrite arm_jacobian in EJ. injection EJ as <-. destruct (C 0%nat 0%nat eq_refl) as (n & E & (G & v & w & MG & VG) & U).
  specialize (U G v w MG VG). specialize (H 0%nat 0%nat n G v w eq_refl E MG VG). injection E as <-. cbn in U, H. unfold is_column in U, H. cbn in U, H. injection U as U. injection H as H. lra.
Qed.

(** Propagated joint values are not in the Jacobian: moving the root of this robot by q moves its child by 2 q, since the child follows the
    root; the Jacobian says 1. *)
Theorem C61_propagation_refuted : let r := arm [(1%nat, 1)] [] in tree r /\ posed r /\ rigid r /\ desc r (root r) 1 /\ on_robot r 1 /\
  jacobian 3 r None false [0%nat] 1 only_x = Some [[1]] /\
  forall q, -100 <= q <= 100 -> exists r', set_joint_value 3 2 r 0 q = Some r' /\ node_pose r' 1 = px (1 + 2 * q).
Proof.
  cbv zeta. split; [apply arm_tree|]. split; [apply arm_posed|]. split; [apply arm_rigid|]. split; [apply arm_desc|].
  split; [eexists; split; [reflexivity|left; split; discriminate]|]. split; [apply arm_jacobian|]. intros q B.
  assert (SV : forall q, -100 <= q <= 100 -> set_value (free 0) q = Some (free q)).
  { intros p Bp. unfold set_value, free; cbn [limitless enforce limit_lo limit_hi]. destruct (Rlt_dec p (-100)); [lra|]. destruct (Rlt_dec 100 p); [lra|]. reflexivity. }
  unfold set_joint_value, set_value_at at 1. cbn [arm node_at nodes nth_error n_joint]. rewrite SV by exact B.
  cbn -[pmul vscale free px mid set_value Rplus Rmult]. unfold set_value_at. cbn -[pmul vscale free px mid set_value Rplus Rmult]. change (value (free q)) with q. rewrite Rmult_1_r, SV by exact B.
  eexists. split; [reflexivity|]. cbn -[pmul vscale px mid Rplus Rmult]. rewrite !px_slide, ?pmul_pid_l. rewrite !px_mul. f_equal. ring.
Qed.

(** A robot with a turning joint: the root turns about z, the tcp, a sensor, is 1 away in x. *)
Definition arm2 : robot :=
  Robot [Node None [1%nat] (Revolute (Vec 0 0 1)) pid 0 (free 0) pid []; Node (Some 0%nat) [] Sensor (px 1) 0 (free 0) (px 1) []] 0 pid.
Lemma arm2_tree : tree arm2.
Proof.
  assert (K : forall p c, In c (kids arm2 p) <-> p = 0%nat /\ c = 1%nat).
  { intros p c. destruct p as [|[|p]]; cbn; [|intuition discriminate|]. { split; [intros [<-|[]]; auto|intros [_ ->]; auto]. }
    destruct p; cbn; intuition discriminate. }
  split.
  - intros p c. rewrite K. split.
    + intros [-> ->]. eexists. split; reflexivity.
    + intros (n & E & P). destruct c as [|[|c]]; [injection E as <-; discriminate|injection E as <-; injection P as <-; auto|]. destruct c; discriminate.
  - intros p. destruct p as [|[|p]]; [repeat constructor; intros []|constructor|]. destruct p; constructor.
  - eexists. split; reflexivity.
  - intros x c I D. apply K in I. destruct I as [-> ->]. inversion D as [|p z D' J]; subst. apply K in J. destruct J. discriminate.
Qed.
Lemma still_z : axisangle2mat (Vec 0 0 1) (0 + 0) = mid.
Proof. rewrite Rplus_0_r. unfold axisangle2mat, mid. cbn [vx vy vz]. rewrite cos_0, sin_0. f_equal; ring. Qed.
Lemma arm2_posed : posed arm2.
Proof.
  apply sub_posed_root. change (root arm2) with 0%nat. change (rpose arm2) with pid. split.
  - eexists. split; [reflexivity|]. cbn [n_pose transform n_kind n_local n_joint n_offset value free]. rewrite still_z. change (Pose mid (Vec 0 0 0)) with pid. now rewrite !pmul_pid_l.
  - intros y c n D I E. destruct y as [|[|y]]; [|destruct I|destruct y; destruct I]. destruct I as [<-|[]]. injection E as <-.
    unfold node_pose; cbn [node_at arm2 nodes nth_error n_pose transform n_kind n_local]. now rewrite pmul_pid_l.
Qed.
Lemma arm2_rigid : rigid arm2.
Proof.
  split; [apply mid_rotation|]. intros x n E. destruct x as [|[|x]]; [| |destruct x; discriminate]; injection E as <-; (split; [apply mid_rotation|]); cbn; [ring|exact I].
Qed.
Example C61_witness : tree arm2 /\ posed arm2 /\ rigid arm2 /\ desc arm2 (root arm2) 1 /\ on_robot arm2 1 /\
  (forall x, In x [0%nat] -> desc arm2 (root arm2) x) /\
  jacobian 3 arm2 (Some 0%nat) false [0%nat] 1 (Sel true true true true) = Some [[0]; [1]; [0]; [0]; [0]; [1]].
Proof.
  split; [apply arm2_tree|]. split; [apply arm2_posed|]. split; [apply arm2_rigid|]. split; [apply d_step with 0%nat; [constructor|left; reflexivity]|].
  split; [eexists; split; [reflexivity|right; do 2 eexists; split; [reflexivity|]; split; [reflexivity|split; discriminate]]|].
  split; [intros x [<-|[]]; constructor|]. unfold jacobian. cbn. unfold direction_in, mapply, mid, vsub, vcross. cbn. repeat f_equal; ring.
Qed.

Print Assumptions C61_jacobian.
Print Assumptions C61_stacked.
Print Assumptions C61_unit_refuted.
Print Assumptions C61_propagation_refuted.
