(** C35 and C36: forward kinematics and placing a robot. *)
From Coq Require Import Reals List Bool Arith Lia Lra.
From Verif Require Import QuatModel QuatSpec RpyModel JointModel KinModel KinSpec KinProofs.
Import ListNotations.
Open Scope R_scope.

(** C35.  Robot::setGlobalPose leaves every node at the pose of forward kinematics, whatever the poses were before, and changes nothing else. *)
Theorem C35_set_global_pose : forall depth r g, (length (nodes r) < depth)%nat -> tree r ->
  exists r', set_global_pose depth r g = Some r' /\ same_nodes but_pose r r' /\ rpose r' = g /\ posed r'.
Proof. exact set_global_pose_ok. Qed.
(** Robot::setJointValues leaves every node at the pose of forward kinematics for the new joint values. *)
Theorem C35_robot_set_joint_values : forall depth r qs, (length (nodes r) < depth)%nat -> tree r ->
  exists r', robot_set_joint_values depth r qs = Some r' /\ same_nodes but_joint r r' /\ rpose r' = rpose r /\ posed r' /\
    forall x n, node_at r' x = Some n -> joint_after r qs x (n_joint n).
Proof.
  intros depth r qs D T. unfold robot_set_joint_values. destruct (set_values_ok qs r) as (r1 & E1 & S1 & O1). rewrite E1.
  destruct (apply_ok depth r1) as (r' & E' & S' & R' & P'); [rewrite (shape_length r r1 S1); exact D|apply (shape_tree r r1 S1 T)|].
  exists r'. split; [exact E'|]. assert (SH : same_shape r r') by (apply (shape_trans r r1 r' S1), shape_of_same; assumption). destruct SH as [SH RP].
  split; [exact SH|]. split; [exact RP|]. split; [exact P'|]. intros x n E.
  destruct (same_node r' r1 x n (same_sym _ _ S') E) as (m & Em & B). apply but_pose_fields in B. destruct B as (_ & _ & <- & _). apply (set_values_joints qs r r1 x m E1 Em).
Qed.
(** The kinematic root of a node set made by the constructor is above all its nodes; RobotNodeSet::setJointValues then takes a robot
    in which every node is at the pose of forward kinematics to another one, provided propagated joint values do not run in circles.
    If the kinematic root propagates nothing, the joint values are the requested ones. *)
Theorem C35_node_set : forall depth fuel rank r given qs, (length (nodes r) < depth)%nat -> tree r -> posed r -> prop_inside r -> prop_falls r rank ->
  (forall x, In x (map fst qs) -> desc r (root r) x) -> (forall k, given = Some k -> desc r (root r) k) -> (forall x, (rank x < fuel)%nat) ->
  exists k r', choose_root depth r given (map fst qs) = Some k /\ (forall x, In x (map fst qs) -> desc r k x) /\
    set_joint_values depth fuel r (Some k) qs = Some r' /\ same_nodes but_joint r r' /\ rpose r' = rpose r /\ posed r' /\
    ((forall n, node_at r k = Some n -> n_prop n = []) -> forall x n, node_at r' x = Some n -> joint_after r qs x (n_joint n)).
Proof.
  intros depth fuel rank r given qs D T P PI PF IN GV RF.
  assert (exists k, choose_root depth r given (map fst qs) = Some k /\ (forall x, In x (map fst qs) -> desc r k x) /\ desc r (root r) k) as (k & CK & BK & DK).
  { unfold choose_root. set (k := match given with Some k => k | None => root r end). assert (DK : desc r (root r) k) by (subst k; destruct given as [k|]; [apply GV; reflexivity|constructor]).
    destruct (is_kinematic_root_ok r k (map fst qs) depth T D) as ([|] & E & B); rewrite E.
    - exists k. split; [reflexivity|]. split; [apply B; reflexivity|exact DK].
    - exists (root r). split; [reflexivity|]. split; [exact IN|constructor]. }
  destruct (set_values_ok qs r) as (r1 & E1 & S1 & O1).
  assert (PB := set_values_posed r r1 qs k T P E1 BK).
  assert (D1 : (length (nodes r1) < depth)%nat) by (rewrite (shape_length r r1 S1); exact D). assert (T1 := shape_tree r r1 S1 T).
  destruct (update_pose_ends depth rank fuel r1 k D1 T1 (shape_prop_falls r r1 rank S1 PF) (RF k)) as (r' & E' & S').
  destruct (update_pose_posed depth fuel r1 k r' D1 T1 (shape_prop_inside r r1 S1 PI) PB) as [P' _]; [rewrite (shape_root r r1 S1); apply (shape_desc r r1 _ k S1), DK|exact E'|].
  exists k, r'. split; [exact CK|]. split; [exact BK|]. split; [unfold set_joint_values; rewrite E1; exact E'|].
  destruct (shape_trans r r1 r' S1 S') as [SH RP]. split; [exact SH|]. split; [exact RP|]. split; [exact P'|].
  intros NP x n En. assert (SB : same_nodes but_pose r1 r').
  { destruct fuel as [|fuel]; [specialize (RF k); lia|]. rewrite update_pose_S in E'. destruct (node_at r1 k) as [m|] eqn:Em; [|injection E' as <-; apply same_refl].
    destruct (shape_node r1 r k m (shape_sym _ _ S1) Em) as (m0 & Em0 & B). apply but_joint_fields in B. destruct B as (_ & _ & B). rewrite (NP m0 Em0) in B. rewrite <- B in E'. cbn [fold_left] in E'.
    destruct (down_top depth r1 k (base_pose r1 k m) m D1 T1 Em) as (r2 & E2 & S2 & _). rewrite E2 in E'. injection E' as <-. exact S2. }
  destruct (same_node r' r1 x n (same_sym _ _ SB) En) as (m & Em & B). apply but_pose_fields in B. destruct B as (_ & _ & <- & _). apply (set_values_joints qs r r1 x m E1 Em).
Qed.
(** RobotNode::setJointValue: the same for a single node of the tree. *)
Theorem C35_set_joint_value : forall depth fuel rank r x q, (length (nodes r) < depth)%nat -> tree r -> posed r -> prop_inside r -> prop_falls r rank ->
  desc r (root r) x -> (rank x < fuel)%nat ->
  exists r', set_joint_value depth fuel r x q = Some r' /\ same_nodes but_joint r r' /\ rpose r' = rpose r /\ posed r'.
Proof.
  intros depth fuel rank r x q D T P PI PF DX RX. unfold set_joint_value. destruct (set_value_at_ok r x q) as (r1 & E1 & S1 & _). rewrite E1.
  assert (PB := set_value_posed r r1 x q T P E1). assert (D1 : (length (nodes r1) < depth)%nat) by (rewrite (shape_length r r1 S1); exact D). assert (T1 := shape_tree r r1 S1 T).
  destruct (update_pose_ends depth rank fuel r1 x D1 T1 (shape_prop_falls r r1 rank S1 PF) RX) as (r' & E' & S').
  destruct (update_pose_posed depth fuel r1 x r' D1 T1 (shape_prop_inside r r1 S1 PI) PB) as [P' _]; [rewrite (shape_root r r1 S1); apply (shape_desc r r1 _ x S1), DX|exact E'|].
  exists r'. split; [exact E'|]. destruct (shape_trans r r1 r' S1 S') as [SH RP]. auto.
Qed.

(** A robot with a prismatic root and a prismatic child, one apart. *)
Definition free (v : R) : joint := Joint (-100) 100 false true v.
Definition px (x : R) : pose := Pose mid (Vec x 0 0).
Definition arm (a b : list (nat * R)) : robot :=
  Robot [Node None [1%nat] (Prismatic (Vec 1 0 0)) pid 0 (free 0) (px 0) a; Node (Some 0%nat) [] (Prismatic (Vec 1 0 0)) (px 1) 0 (free 0) (px 1) b] 0 pid.
Lemma arm_tree : forall a b, tree (arm a b).
Proof.
  intros a b. assert (K : forall p c, In c (kids (arm a b) p) <-> p = 0%nat /\ c = 1%nat).
  { intros p c. destruct p as [|[|p]]; cbn; [|intuition discriminate|]. { split; [intros [<-|[]]; auto|intros [_ ->]; auto]. }
    destruct p; cbn; intuition discriminate. }
  split.
  - intros p c. rewrite K. split.
    + intros [-> ->]. eexists. split; reflexivity.
    + intros (n & E & P). destruct c as [|[|c]]; [injection E as <-; discriminate|injection E as <-; injection P as <-; auto|]. destruct c; discriminate.
  - intros p. destruct p as [|[|p]]; [repeat constructor; intros []|constructor|]. destruct p; constructor.
  - eexists. split; reflexivity.
  - intros x c I D. apply K in I. destruct I as [-> ->]. inversion D as [|p z D' J]; subst. apply K in J. destruct J. discriminate.
Qed.
Lemma px_mul : forall x y, pmul (px x) (px y) = px (x + y).
Proof. intros x y. unfold pmul, px; cbn [prot ppos]. rewrite mmul_mid_l, mapply_mid. unfold vadd; cbn [vx vy vz]. f_equal. f_equal; ring. Qed.
Lemma px_slide : forall x, Pose mid (vscale x (Vec 1 0 0)) = px x.
Proof. intros x. unfold px, vscale; cbn [vx vy vz]. f_equal. f_equal; ring. Qed.
Lemma arm_posed : forall a b, posed (arm a b).
Proof.
  intros a b. apply sub_posed_root. change (root (arm a b)) with 0%nat. change (rpose (arm a b)) with pid. split.
  - eexists. split; [reflexivity|]. cbn [n_pose transform n_kind n_local n_joint n_offset value free]. rewrite px_slide, pmul_pid_l, pmul_pid_l. f_equal. ring.
  - intros y c n D I E. destruct y as [|[|y]]; [|destruct I|destruct y; destruct I]. destruct I as [<-|[]]. injection E as <-.
    unfold node_pose; cbn [node_at arm nodes nth_error n_pose transform n_kind n_local n_joint n_offset value free]. rewrite px_slide, !px_mul. f_equal. ring.
Qed.
(** setKinematicRoot is not checked: with the child as kinematic root of a set holding the root node, the poses are stale. *)
Theorem C35_kinematic_root_refuted : exists r r' k qs, tree r /\ posed r /\ (forall x, In x (map fst qs) -> desc r (root r) x) /\ desc r (root r) k /\
  (forall n, node_at r k = Some n -> n_prop n = []) /\ set_joint_values 3 1 r (Some k) qs = Some r' /\ ~ posed r'.
Proof.
  exists (arm [] []). eexists. exists 1%nat, [(0%nat, 5)]. split; [apply arm_tree|]. split; [apply arm_posed|]. split; [intros x [<-|[]]; constructor|].
  split; [apply d_step with 0%nat; [constructor|left; reflexivity]|]. split; [intros n [= <-]; reflexivity|].
  assert (SV : set_value (free 0) 5 = Some (free 5)).
  { unfold set_value, free; cbn [limitless enforce limit_lo limit_hi]. destruct (Rlt_dec 5 (-100)); [lra|]. destruct (Rlt_dec 100 5); [lra|]. reflexivity. }
  split.
  - unfold set_joint_values, set_values; cbn [fold_left fst snd]. unfold set_value_at at 1; cbn [arm node_at nodes nth_error n_joint]. rewrite SV. reflexivity.
  - intros P. match type of P with posed ?r => assert (F := fk_root r _ eq_refl) end. destruct (P _ _ F) as (n & E & PN). clear F P. injection E as <-. revert PN.
    cbn [n_pose with_joint rpose set_nodes set_pose arm transform n_kind n_local n_joint n_offset value free]. rewrite px_slide, !pmul_pid_l. intros PN. apply (f_equal ppos) in PN. apply (f_equal vx) in PN. cbn [px ppos vx] in PN. lra.
Qed.
(** Propagated joint values that run in a circle never come to an end. *)
Theorem C35_propagation_refuted : tree (arm [(1%nat, 1)] [(0%nat, 1)]) /\ posed (arm [(1%nat, 1)] [(0%nat, 1)]) /\
  forall depth fuel q, set_joint_value depth fuel (arm [(1%nat, 1)] [(0%nat, 1)]) 0 q = None.
Proof.
  split; [apply arm_tree|]. split; [apply arm_posed|]. set (a := arm _ _).
  assert (G : forall fuel depth r x, same_shape a r -> (x < 2)%nat -> update_pose depth fuel r x = None).
  { induction fuel as [|fuel IH]; intros depth r x S X; [reflexivity|]. rewrite update_pose_S.
    assert (exists n, node_at a x = Some n /\ n_prop n = [((1 - x)%nat, 1)]) as (n & En & Pn).
    { destruct x as [|[|x]]; [| |lia]; eexists; (split; [reflexivity|]); reflexivity. }
    destruct (shape_node a r x n S En) as (m & Em & B). apply but_joint_fields in B. destruct B as (_ & _ & B). rewrite Em, B, Pn.
    assert (T : tree r) by (apply (shape_tree a r S), arm_tree).
    destruct (update_down depth r x (base_pose r x m)) as [r1|] eqn:E1; [|reflexivity]. cbn [fold_left]. unfold prop_step; cbn [fst snd].
    assert (S1 : same_shape a r1).
    { apply (shape_trans a r r1 S). clear - E1. (* updating poses keeps the shape, whatever the tree *)
      apply (down_shape _ _ _ _ _ E1). }
    destruct (node_at r1 (1 - x)) as [k|] eqn:Ek.
    - destruct (set_value_at_ok r1 (1 - x) (match node_at r1 x with Some n => value (n_joint n) | None => 0 end * 1)) as (r2 & E2 & S2 & _). rewrite E2.
      apply IH; [apply (shape_trans a r1 r2 S1 S2)|lia].
    - exfalso. assert (exists n', node_at a (1 - x) = Some n') as (n' & En') by (destruct x as [|[|x]]; [| |lia]; eexists; reflexivity).
      destruct (shape_node a r1 _ n' S1 En') as (y & Ey & _). congruence. }
  intros depth fuel q. unfold set_joint_value. destruct (set_value_at_ok a 0 q) as (r1 & E1 & S1 & _). rewrite E1. apply G; [exact S1|lia].
Qed.

(** C36.  setGlobalPoseForRobotNode puts the node exactly at the given pose, if its orientation is not (nearly) the identity. *)
Theorem C36_set_pose_for_node : forall svd depth r x p g, is_svd svd -> (length (nodes r) < depth)%nat -> tree r -> posed r -> fk r x p ->
  rotation (prot (rpose r)) -> rotation (prot p) -> rotation (prot g) -> is_identity (prot g) = false ->
  exists r' n, set_pose_for_node svd depth r x g = Some r' /\ same_nodes but_pose r r' /\ posed r' /\ node_at r' x = Some n /\ n_pose n = g.
Proof.
  intros svd depth r x p g SV D T P F RR RP RG NI. unfold set_pose_for_node.
  destruct (moved depth r x p (pose_for_node svd r x g) D T P F) as (r' & k & E & S & _ & P' & PK & NP & NP' & n & En).
  exists r', n. split; [exact E|]. split; [exact S|]. split; [exact P'|]. split; [exact En|]. unfold node_pose in NP'. rewrite En in NP'. rewrite NP'.
  unfold pose_for_node. rewrite NI, NP. set (tf := pmul (pmul g (inverted p)) (rpose r)).
  assert (RT : rotation (prot tf)) by (subst tf; cbn [pmul prot inverted]; apply mmul_rotation; [apply mmul_rotation; [exact RG|apply mtrans_rotation, RP]|exact RR]).
  rewrite (orthogonalize_rotation svd _ SV RT). replace (Pose (prot tf) (ppos tf)) with tf by (destruct tf; reflexivity).
  subst tf. rewrite pmul_assoc, <- PK, pmul_assoc, inverted_left by exact RP. apply pmul_pid_r.
Qed.
(** For the identity orientation the robot only gets the right place if neither the robot nor the node is rotated. *)
Theorem C36_identity : forall svd depth r x p g, (length (nodes r) < depth)%nat -> tree r -> posed r -> fk r x p ->
  prot (rpose r) = mid -> prot p = mid -> prot g = mid ->
  exists r' n, set_pose_for_node svd depth r x g = Some r' /\ same_nodes but_pose r r' /\ posed r' /\ node_at r' x = Some n /\ n_pose n = g.
Proof.
  intros svd depth r x p g D T P F RR RP RG. unfold set_pose_for_node.
  destruct (moved depth r x p (pose_for_node svd r x g) D T P F) as (r' & k & E & S & _ & P' & PK & NP & NP' & n & En).
  exists r', n. split; [exact E|]. split; [exact S|]. split; [exact P'|]. split; [exact En|]. unfold node_pose in NP'. rewrite En in NP'. rewrite NP'.
  assert (II : is_identity (prot g) = true).
  { rewrite RG. unfold is_identity, mid, near_one, small, prec; cbn [m00 m01 m02 m10 m11 m12 m20 m21 m22]. rewrite Rminus_eq_0, Rabs_R0, Rabs_R1.
    rewrite Rmin_left by lra. destruct (Rle_dec 0 (1 / 10 ^ 5 * 1)) as [_|N]; [|exfalso; apply N; lra]. destruct (Rle_dec 0 (1 / 10 ^ 5)) as [_|N]; [reflexivity|exfalso; apply N; lra]. }
  unfold pose_for_node, pose_for_position. rewrite II, NP. assert (RK : prot k = mid) by (rewrite PK in RP; cbn [pmul prot] in RP; rewrite RR, mmul_mid_l in RP; exact RP).
  assert (PP : ppos p = vadd (ppos k) (ppos (rpose r))) by (rewrite PK; cbn [pmul ppos]; rewrite RR, mapply_mid; reflexivity).
  destruct g as [gr [gx gy gz]]. cbn [prot ppos] in *. subst gr. unfold pmul; cbn [prot ppos]. rewrite RK, mmul_mid_l, mapply_mid, PP. f_equal.
  unfold vadd, vsub; cbn [vx vy vz]. f_equal; ring.
Qed.
(** Otherwise not: a robot whose only node is turned by a quarter stays where it is although the node should not be turned. *)
Definition quarter : mat3 := Mat 0 (-1) 0 1 0 0 0 0 1.
Definition turned : robot := Robot [Node None [] Fixed (Pose quarter (Vec 0 0 0)) 0 (free 0) (Pose quarter (Vec 0 0 0)) []] 0 pid.
Lemma single_tree : forall n g, n_parent n = None -> n_children n = [] -> tree (Robot [n] 0 g).
Proof.
  intros n g NP NC. assert (K : forall x, kids (Robot [n] 0 g) x = []).
  { intros x. unfold kids. destruct x as [|x]; [exact NC|]. destruct x; reflexivity. }
  split.
  - intros p c. rewrite K. split; [intros []|]. intros (m & E & P). destruct c as [|c]; [injection E as <-; congruence|destruct c; discriminate].
  - intros p. rewrite K. constructor.
  - exists n. split; [reflexivity|exact NP].
  - intros x c. rewrite K. intros [].
Qed.
Lemma single_posed : forall n g, n_children n = [] -> n_pose n = pmul g (transform n) -> posed (Robot [n] 0 g).
Proof.
  intros n g NC PN. apply sub_posed_root. split; [exists n; split; [reflexivity|exact PN]|].
  intros y c m D I. exfalso. unfold kids in I. destruct y as [|y]; [cbn in I; rewrite NC in I; destruct I|]. destruct y; destruct I.
Qed.
(** An identity orientation is not brought about: only the position is set then, and a turned node stays turned. *)
Theorem C36_identity_refuted : forall svd, tree turned /\ posed turned /\ fk turned 0 (Pose quarter (Vec 0 0 0)) /\ rotation quarter /\
  exists r' n, set_pose_for_node svd 2 turned 0 pid = Some r' /\ node_at r' 0 = Some n /\ n_pose n <> pid.
Proof.
  intros svd. assert (Q : pmul pid (transform (Node None [] Fixed (Pose quarter (Vec 0 0 0)) 0 (free 0) (Pose quarter (Vec 0 0 0)) [])) = Pose quarter (Vec 0 0 0)) by apply pmul_pid_l.
  assert (T : tree turned) by (apply single_tree; reflexivity). assert (P : posed turned) by (apply single_posed; [reflexivity|symmetry; exact Q]).
  assert (F : fk turned 0 (Pose quarter (Vec 0 0 0))) by (rewrite <- Q; apply (fk_root turned); reflexivity).
  split; [exact T|]. split; [exact P|]. split; [exact F|]. split.
  { unfold rotation, quarter, mmul, mtrans, mid, mdet; cbn [m00 m01 m02 m10 m11 m12 m20 m21 m22]. repeat split; try (f_equal; ring); ring. }
  destruct (moved 2 turned 0 _ (pose_for_node svd turned 0 pid) ltac:(cbn; lia) T P F) as (r' & k & E & S & RP & P' & PK & NP & NP' & n & En).
  exists r', n. split; [exact E|]. split; [exact En|]. unfold node_pose in NP'. rewrite En in NP'. rewrite NP'. change (rpose turned) with pid in PK. rewrite pmul_pid_l in PK. rewrite <- PK.
  unfold pose_for_node. destruct (is_identity (prot pid)) eqn:II.
  - unfold pose_for_position, pmul; cbn [prot ppos]. rewrite mmul_mid_l. intros H. apply (f_equal prot) in H. cbn [prot pid] in H. apply (f_equal m00) in H. cbn in H. lra.
  - exfalso. revert II. unfold pid, is_identity, mid, near_one, small, prec; cbn [prot m00 m01 m02 m10 m11 m12 m20 m21 m22]. rewrite Rminus_eq_0, Rabs_R0, Rabs_R1.
    rewrite Rmin_left by lra. destruct (Rle_dec 0 (1 / 10 ^ 5 * 1)) as [_|N]; [|exfalso; apply N; lra]. destruct (Rle_dec 0 (1 / 10 ^ 5)) as [_|N]; [discriminate|exfalso; apply N; lra].
Qed.
(** setGlobalPositionForRobotNode moves the node to the position and keeps its orientation if the robot is not rotated. *)
Theorem C36_position : forall depth r x p v, (length (nodes r) < depth)%nat -> tree r -> posed r -> fk r x p -> prot (rpose r) = mid ->
  exists r' n, set_position_for_node depth r x v = Some r' /\ same_nodes but_pose r r' /\ posed r' /\ node_at r' x = Some n /\ n_pose n = Pose (prot p) v.
Proof.
  intros depth r x p v D T P F RR. unfold set_position_for_node.
  destruct (moved depth r x p (pose_for_position r x v) D T P F) as (r' & k & E & S & _ & P' & PK & NP & NP' & n & En).
  exists r', n. split; [exact E|]. split; [exact S|]. split; [exact P'|]. split; [exact En|]. unfold node_pose in NP'. rewrite En in NP'. rewrite NP'.
  unfold pose_for_position. rewrite NP. unfold pmul in *; cbn [prot ppos] in *. destruct p as [pr pp]. cbn [prot ppos] in *. injection PK as PK1 PK2. rewrite RR, mmul_mid_l in PK1. rewrite RR, mapply_mid in PK2.
  rewrite mmul_mid_l, mapply_mid, PK1, PK2. f_equal. destruct v as [v1 v2 v3]. unfold vadd, vsub; cbn [vx vy vz]. f_equal; ring.
Qed.
(** A rotated robot loses its orientation, and the node misses the position. *)
Definition offside : robot := Robot [Node None [] Fixed (px 1) 0 (free 0) (Pose quarter (Vec 0 1 0)) []] 0 (Pose quarter (Vec 0 0 0)).
Theorem C36_position_refuted : tree offside /\ posed offside /\ rotation (prot (rpose offside)) /\
  exists r' n, set_position_for_node 2 offside 0 (Vec 0 0 0) = Some r' /\ node_at r' 0 = Some n /\ ppos (n_pose n) <> Vec 0 0 0 /\ rpose r' <> rpose offside.
Proof.
  assert (Q : pmul (Pose quarter (Vec 0 0 0)) (transform (Node None [] Fixed (px 1) 0 (free 0) (Pose quarter (Vec 0 1 0)) [])) = Pose quarter (Vec 0 1 0)).
  { cbn [transform n_kind n_local]. unfold pmul, px; cbn [prot ppos]. rewrite mmul_mid_r. f_equal. unfold mapply, quarter, vadd; cbn [m00 m01 m02 m10 m11 m12 m20 m21 m22 vx vy vz]. f_equal; ring. }
  assert (T : tree offside) by (apply single_tree; reflexivity). assert (P : posed offside) by (apply single_posed; [reflexivity|symmetry; exact Q]).
  assert (F : fk offside 0 (Pose quarter (Vec 0 1 0))) by (rewrite <- Q; apply (fk_root offside); reflexivity).
  split; [exact T|]. split; [exact P|]. split.
  { unfold rotation, offside, quarter, mmul, mtrans, mid, mdet; cbn [rpose prot m00 m01 m02 m10 m11 m12 m20 m21 m22]. repeat split; try (f_equal; ring); ring. }
  destruct (moved 2 offside 0 _ (pose_for_position offside 0 (Vec 0 0 0)) ltac:(cbn; lia) T P F) as (r' & k & E & S & RP & P' & PK & NP & NP' & n & En).
  exists r', n. split; [exact E|]. split; [exact En|]. unfold node_pose in NP'. rewrite En in NP'. split.
  - rewrite NP'. assert (NK : node_pose offside 0 = Pose quarter (Vec 0 1 0)) by exact NP. unfold pose_for_position. rewrite NK. cbn [rpose offside ppos pmul prot]. rewrite mapply_mid.
    intros H. unfold offside, pmul in PK; cbn [rpose prot ppos] in PK. injection PK as _ _ _ _ _ _ _ _ _ K1 K2 K3. injection H as H1 H2 H3. cbn [mapply quarter vadd vsub vx vy vz m00 m01 m02 m10 m11 m12 m20 m21 m22] in *. lra.
  - rewrite RP. unfold pose_for_position, offside; cbn [rpose]. intros H. apply (f_equal prot) in H. cbn [prot] in H. apply (f_equal m00) in H. cbn in H. lra.
Qed.

(** Non-trivial cases: the arm with a root that propagates its value to the child. *)
Example C35_witness : let r := arm [(1%nat, 2)] [] in tree r /\ posed r /\ prop_inside r /\ prop_falls r (fun x => 1 - x)%nat /\ desc r (root r) 0 /\ fk r 1 (px 1).
Proof.
  cbv zeta. split; [apply arm_tree|]. split; [apply arm_posed|]. split; [|split; [|split]].
  - intros x n y f E I. right. destruct x as [|[|x]]; [|injection E as <-; destruct I|destruct x; discriminate]. injection E as <-. destruct I as [[= <- _]|[]]. apply d_step with 0%nat; [constructor|left; reflexivity].
  - intros x n y f E I. right. destruct x as [|[|x]]; [|injection E as <-; destruct I|destruct x; discriminate]. injection E as <-. destruct I as [[= <- _]|[]]. lia.
  - constructor.
  - set (r := arm _ _). assert (F0 := fk_root r _ eq_refl). cbn [arm r rpose transform n_kind n_local n_joint n_offset value free] in F0. rewrite px_slide, !pmul_pid_l in F0.
    assert (F1 := fk_child r 0 1 _ _ F0 (or_introl eq_refl) eq_refl). cbn [transform n_kind n_local n_joint n_offset value free] in F1. rewrite px_slide, !px_mul in F1. replace (px 1) with (px (0 + 0 + (1 + (0 + 0)))) by (f_equal; ring). exact F1.
Qed.
Lemma quarter_not_identity : is_identity quarter = false.
Proof.
  unfold is_identity, quarter, near_one; cbn [m00 m01 m02 m10 m11 m12 m20 m21 m22]. rewrite Rabs_R0, Rmin_left by lra. destruct (Rle_dec (Rabs (0 - 1)) (prec * 0)) as [H|_]; [|reflexivity].
  exfalso. replace (0 - 1) with (-1) in H by ring. rewrite Rabs_left in H by lra. lra.
Qed.
Example C36_witness : let r := arm [] [] in is_svd (fun m => (m, Vec 1 1 1, mid)) /\ tree r /\ posed r /\ rotation (prot (rpose r)) /\ rotation (prot (px 1)) /\ rotation quarter /\ is_identity quarter = false.
Proof.
  cbv zeta. split.
  { intros m (M1 & M2 & _). assert (E : Mat 1 0 0 0 1 0 0 0 1 = mid) by reflexivity. cbn [vx vy vz]. rewrite E. change (mtrans mid) with mid. rewrite !mmul_mid_r. repeat split; try assumption; lra. }
  split; [apply arm_tree|]. split; [apply arm_posed|]. assert (M : rotation mid) by (unfold rotation, mmul, mtrans, mid, mdet; cbn [m00 m01 m02 m10 m11 m12 m20 m21 m22]; repeat split; try (f_equal; ring); ring).
  split; [exact M|]. split; [exact M|]. split; [|apply quarter_not_identity].
  unfold rotation, quarter, mmul, mtrans, mid, mdet; cbn [m00 m01 m02 m10 m11 m12 m20 m21 m22]. repeat split; try (f_equal; ring); ring.
Qed.

Print Assumptions C35_set_global_pose.
Print Assumptions C35_robot_set_joint_values.
Print Assumptions C35_node_set.
Print Assumptions C35_set_joint_value.
Print Assumptions C35_kinematic_root_refuted.
Print Assumptions C35_propagation_refuted.
Print Assumptions C36_set_pose_for_node.
Print Assumptions C36_identity.
Print Assumptions C36_identity_refuted.
Print Assumptions C36_position.
Print Assumptions C36_position_refuted.
