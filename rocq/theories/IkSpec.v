(** Vocabulary for C62 to C64. *)
From Coq Require Import Reals List Bool Arith ZArith.
From Verif Require Import QuatModel QuatSpec RpyModel JointModel JointSpec KinModel KinSpec JacModel JacSpec GraspModel IkModel.
Import ListNotations.
Open Scope R_scope.

(** What Eigen::AngleAxis(m).angle() returns: an angle by which some unit axis has to be turned about to give the rotation. *)
Definition is_angle (angle : mat3 -> R) : Prop := forall m, rotation m -> 0 <= angle m /\ exists a, vdot a a = 1 /\ m = axisangle2mat a (angle m).
(** The tcp is where it should be, within the tolerances: the distance in the selected coordinates, and, if the orientation is selected, an
    angle of a rotation that takes the orientation of the tcp to that of the target. *)
Definition place_error (m : selection) (p q : vec3) : R :=
  sqrt ((if s_x m then (vx p - vx q) ^ 2 else 0) + (if s_y m then (vy p - vy q) ^ 2 else 0) + (if s_z m then (vz p - vz q) ^ 2 else 0)).
Definition reached (g : goal) (p : pose) : Prop :=
  place_error (g_mode g) (ppos (g_target g)) (ppos p) <= g_pos g /\
  (s_orientation (g_mode g) = true -> exists a t, vdot a a = 1 /\ 0 <= t <= g_rot g /\ prot (g_target g) = mmul (axisangle2mat a t) (prot p)).

(** An angle of at most a half turn. *)
Definition is_least_angle (angle : mat3 -> R) : Prop := is_angle angle /\ forall m, rotation m -> angle m <= PI.
(** A goal for a node of the robot, with a rotation for the orientation and no negative tolerance for the angle. *)
Definition goal_ok (r : robot) (g : goal) : Prop := desc r (root r) (g_tcp g) /\ rotation (prot (g_target g)) /\ 0 <= g_rot g.
Definition all_reached (gs : list goal) (r : robot) : Prop := forall g, In g gs -> reached g (node_pose r (g_tcp g)).
(** The mean distance of the tcps from their goals. *)
Definition mean_distance (gs : list goal) (r : robot) : R :=
  fold_right Rplus 0 (map (fun g => place_error (g_mode g) (ppos (g_target g)) (ppos (node_pose r (g_tcp g)))) gs) / INR (length gs).

(** A joint with sensible limits and a value within them, if they are enforced: the lower limit is below the upper one; if the joint is
    limitless they contain zero and a full turn. *)
Definition good_joint (j : joint) : Prop :=
  limit_lo j <= limit_hi j /\ (limitless j = true -> limit_lo j <= 0 <= limit_hi j /\ 2 * PI <= limit_hi j - limit_lo j) /\
  (within j (value j) \/ limitless j = false /\ enforce j = false).
(** A robot and a node set that can be moved: every node at the pose of forward kinematics, different nodes below the kinematic root, which
    propagates nothing, and good joints. *)
Record ready (depth fuel : nat) (s : node_set) (r : robot) : Prop := {
  y_depth : (length (nodes r) < depth)%nat; y_fuel : (0 < fuel)%nat; y_tree : tree r; y_posed : posed r;
  y_once : NoDup (s_nodes s);
  y_inside : forall x, In x (s_nodes s) -> desc r (root r) x;
  y_root : match s_root s with
           | Some k => desc r (root r) k /\ (forall x, In x (s_nodes s) -> desc r k x) /\ forall n, node_at r k = Some n -> n_prop n = []
           | None => True end;
  y_joints : forall x n, In x (s_nodes s) -> node_at r x = Some n -> good_joint (n_joint n) }.
(** Two robots that agree in every node of the tree: joint values, poses and everything else. *)
Definition same_robot (r r' : robot) : Prop := root r' = root r /\ rpose r' = rpose r /\ forall x, desc r (root r) x -> node_at r' x = node_at r x.
(** Only the joints of the node set were moved: the rest of the nodes kept all but their poses; the poses are those of forward kinematics;
    joints that are limitless or whose limits are enforced are within them. *)
Definition moved_only (s : node_set) (r r' : robot) : Prop :=
  same_nodes but_joint r r' /\ rpose r' = rpose r /\ posed r' /\
  forall x n n', node_at r x = Some n -> node_at r' x = Some n' ->
    (~ In x (s_nodes s) -> n_joint n' = n_joint n) /\
    (In x (s_nodes s) -> limitless (n_joint n) = true \/ enforce (n_joint n) = true -> within (n_joint n) (value (n_joint n'))).

(** The robot after [n] steps, each adding the step of the joints to the joint values. *)
Inductive walk (depth fuel : nat) (theta : nat -> robot -> list (option R)) (s : node_set) (r : robot) : nat -> robot -> Prop :=
| w_start : walk depth fuel theta s r 0 r
| w_step : forall n r1 d r2, walk depth fuel theta s r n r1 -> finite (theta n r1) = Some d ->
    put depth fuel r1 s (plus2 (values r1 s) d) = Some r2 -> walk depth fuel theta s r (S n) r2.

(** Why a run that takes [j] of [max] steps and ends at [r] gives up: all steps are made, the next step is no number, or the next step is
    shorter than [min_change], or, if asked for, it makes the mean distance larger than it was after the step before. *)
Definition gives_up depth fuel theta s gs (improve : bool) (min_change : R) (max : Z) (j : nat) (r : robot) : Prop :=
  (j = Z.to_nat max) \/ (j < Z.to_nat max)%nat /\
  (finite (theta j r) = None \/
   exists d r2, finite (theta j r) = Some d /\ put depth fuel r s (plus2 (values r s) d) = Some r2 /\ ~ all_reached gs r2 /\
     (norm d < min_change \/ improve = true /\ (1 <= j)%nat /\ mean_distance gs r < mean_distance gs r2)).

(** C63: the members of the solver fit the robot.  The translational joint, if there is one, is in the node set and propagates nothing. *)
Record world_ok (w : world) (r : robot) : Prop := {
  k_ready : ready (x_depth w) (x_fuel w) (x_set w) r; k_rigid : rigid r; k_tcp : desc r (root r) (x_tcp w); k_angle : is_angle (x_angle w);
  k_theta : forall i k r, length (x_theta w i k r) = length (s_nodes (x_set w)); k_random : forall i, length (x_random w i) = length (s_nodes (x_set w));
  k_trans : match x_translational w with Some (x, _) => In x (s_nodes (x_set w)) /\ forall n, node_at r x = Some n -> n_prop n = [] | None => True end }.
Definition the_goal (w : world) (p : pose) (m : selection) : goal := Goal (x_tcp w) p m (x_max_pos w) (x_max_rot w).
Definition distance (g : goal) (r : robot) : R := place_error (g_mode g) (ppos (g_target g)) (ppos (node_pose r (g_tcp g))).
Definition free_of_collision (w : world) (r : robot) : Prop := match x_collide w with Some c => c r = false | None => True end.
(** The robot after the attempt [i], if that and all before it failed.  The first one starts where the robot is, the others at random. *)
Inductive ended (w : world) (g : goal) (r : robot) : nat -> robot -> Prop :=
| e_first : forall e, try_solve w 0 g r = Some (false, e) -> ended w g r 0 e
| e_next : forall i e r1 e', ended w g r i e -> joints_random w (S i) e = Some r1 -> try_solve w (S i) g r1 = Some (false, e') -> ended w g r (S i) e'.

(** C64: the solver in the calls number 0, 1, 2, ...: random numbers and steps differ, the node set does not. *)
Definition calls_ok (w : nat -> world) (depth fuel : nat) (s : node_set) (r : robot) : Prop :=
  forall i, world_ok (w i) r /\ x_depth (w i) = depth /\ x_fuel (w i) = fuel /\ x_set (w i) = s /\ 0 <= x_max_rot (w i).
(** GenericIKSolver::_sampleSolution and solve, in call [i]. *)
Definition call (w : nat -> world) (max_loops : Z) (i : nat) : pose -> selection -> robot -> option (bool * robot) := fun p m r => generic_solve (w i) p m max_loops r.
(** The grasp [g] was tried in one of the first [total] calls, from where the robot was at first, without success. *)
Definition tried (w : nat -> world) (max : Z) (target : grasp -> pose) (h : heap) (m : selection) (r0 : robot) (total g : nat) : Prop :=
  exists i r1 r1', (i < total)%nat /\ same_robot r0 r1 /\ generic_solve (w i) (target (h g)) m max r1 = Some (false, r1').
