(** Model of the kinematic tree: joint transformations, updating poses, setting joint values, placing a robot.
    VirtualRobot/Nodes/RobotNode*.cpp, Sensor.cpp, SceneObject.cpp, RobotNodeSet.cpp, Robot.cpp.
    Over the real numbers (rounding is left out).  All matrices have the last row (0,0,0,1).  Visualisation and collision models and
    the locks are left out.  Nodes are numbered; where the code looks up a node by name the model has its number. *)
From Coq Require Import Reals List Bool Arith.
From Verif Require Import QuatModel QuatSpec RpyModel JointModel.
Import ListNotations.
Open Scope R_scope.

(** [Eigen::Matrix4f] product. *)
Definition vadd (a b : vec3) : vec3 := Vec (vx a + vx b) (vy a + vy b) (vz a + vz b).
Definition vsub (a b : vec3) : vec3 := Vec (vx a - vx b) (vy a - vy b) (vz a - vz b).
Definition pmul (a b : pose) : pose := Pose (mmul (prot a) (prot b)) (vadd (mapply (prot a) (ppos b)) (ppos a)).
Definition pid : pose := Pose mid (Vec 0 0 0).

(** The classes of objects in the tree: RobotNodeFixed, RobotNodeRevolute with its axis, RobotNodePrismatic with its direction,
    Sensor, and other scene objects attached to a node. *)
Inductive kind := Fixed | Revolute (axis : vec3) | Prismatic (direction : vec3) | Sensor | Plain.
(** A node: parent and children (SceneObject.h), localTransformation (rnTransformation for a sensor), jointValueOffset, the joint
    value with its limits, globalPose, and propagatedJointValues (RobotNode.h 396), in the order of the map. *)
Record node := Node { n_parent : option nat; n_children : list nat; n_kind : kind; n_local : pose; n_offset : R; n_joint : joint;
                      n_pose : pose; n_prop : list (nat * R) }.
Record robot := Robot { nodes : list node; root : nat; rpose : pose }.

Definition node_at (r : robot) (x : nat) : option node := nth_error (nodes r) x.
Definition set_nodes (r : robot) (l : list node) : robot := Robot l (root r) (rpose r).
Fixpoint update {A : Type} (l : list A) (x : nat) (f : A -> A) : list A :=
  match l, x with [], _ => [] | a :: l, O => f a :: l | a :: l, S x => a :: update l x f end.
Definition with_pose (g : pose) (n : node) : node := Node (n_parent n) (n_children n) (n_kind n) (n_local n) (n_offset n) (n_joint n) g (n_prop n).
Definition with_joint (j : joint) (n : node) : node := Node (n_parent n) (n_children n) (n_kind n) (n_local n) (n_offset n) j (n_pose n) (n_prop n).
Definition set_pose (r : robot) (x : nat) (g : pose) : robot := set_nodes r (update (nodes r) x (with_pose g)).

(** updateTransformationMatrices(parentPose): RobotNodeFixed.cpp 73-76, RobotNodeRevolute.cpp 89-95 (Eigen::AngleAxisf::matrix is the
    formula of axisangle2mat), RobotNodePrismatic.cpp 90-93, Sensor.cpp 179, SceneObject.cpp 151-155. *)
Definition place (n : node) (parent_pose : pose) : pose :=
  match n_kind n with
  | Fixed | Sensor => pmul parent_pose (n_local n)
  | Revolute a => pmul (pmul parent_pose (n_local n)) (Pose (axisangle2mat a (value (n_joint n) + n_offset n)) (Vec 0 0 0))
  | Prismatic d => pmul (pmul parent_pose (n_local n)) (Pose mid (vscale (value (n_joint n) + n_offset n) d))
  | Plain => parent_pose
  end.

(** updatePose(parentPose), RobotNode.cpp 312-320 with SceneObject::updatePose(bool), SceneObject.cpp 122-140: the pose of the node, then
    of all children.  None: the calls go deeper than [fuel]. *)
Fixpoint update_down (fuel : nat) (r : robot) (x : nat) (parent_pose : pose) : option robot :=
  match fuel with
  | O => None
  | S fuel =>
      match node_at r x with
      | None => Some r
      | Some n =>
          let g := place n parent_pose in
          fold_left (fun o c => match o with Some r => update_down fuel r c g | None => None end) (n_children n) (Some (set_pose r x g))
      end
  end.

(** The pose updateTransformationMatrices() starts from, RobotNode.cpp 214-235. *)
Definition base_pose (r : robot) (x : nat) (n : node) : pose :=
  match n_parent n with
  | Some p => match node_at r p with Some m => n_pose m | None => pid end
  | None => if Nat.eqb (root r) x then rpose r else pid
  end.
(** setJointValueNoUpdate, RobotNode.cpp 178-212. *)
Definition set_value_at (r : robot) (x : nat) (q : R) : option robot :=
  match node_at r x with
  | None => Some r
  | Some n => match set_value (n_joint n) q with
              | None => None
              | Some j => Some (set_nodes r (update (nodes r) x (with_joint j)))
              end
  end.
(** updatePose(bool), RobotNode.cpp 247-281: the pose of the node and of everything below it, then the propagated joint values, each
    by setJointValue (145-152) of the dependent node, which calls updatePose of that node.
    [depth] bounds the calls down the tree, [fuel] those along the propagation. *)
Fixpoint update_pose (depth fuel : nat) (r : robot) (x : nat) : option robot :=
  match fuel with
  | O => None
  | S fuel =>
      match node_at r x with
      | None => Some r
      | Some n =>
          match update_down depth r x (base_pose r x n) with
          | None => None
          | Some r =>
              fold_left (fun o yf => match o with
                | None => None
                | Some r =>
                    match node_at r (fst yf) with
                    | None => Some r
                    | Some _ =>
                        match set_value_at r (fst yf) (match node_at r x with Some n => value (n_joint n) | None => 0 end * snd yf) with
                        | None => None
                        | Some r => update_pose depth fuel r (fst yf)
                        end
                    end
                end) (n_prop n) (Some r)
          end
      end
  end.
(** RobotNode::setJointValue, RobotNode.cpp 145-152. *)
Definition set_joint_value (depth fuel : nat) (r : robot) (x : nat) (q : R) : option robot :=
  match set_value_at r x q with None => None | Some r => update_pose depth fuel r x end.

(** The loops of setJointValues: Robot.cpp 997-1010, 1019-1026, 1069-1072, RobotNodeSet.cpp 421-424. *)
Definition set_values (r : robot) (qs : list (nat * R)) : option robot :=
  fold_left (fun o xq => match o with None => None | Some r => set_value_at r (fst xq) (snd xq) end) qs (Some r).
(** applyJointValuesNoLock, Robot.cpp 332-335, 428-432. *)
Definition apply_joint_values (depth : nat) (r : robot) : option robot := update_down depth r (root r) (rpose r).
(** Robot::setJointValues, Robot.cpp 993-1029, 1064-1075. *)
Definition robot_set_joint_values (depth : nat) (r : robot) (qs : list (nat * R)) : option robot :=
  match set_values r qs with None => None | Some r => apply_joint_values depth r end.
(** LocalRobot::setGlobalPose, Robot.cpp 668-677. *)
Definition set_global_pose (depth : nat) (r : robot) (g : pose) : option robot := apply_joint_values depth (Robot (nodes r) (root r) g).
(** RobotNodeSet::setJointValues, RobotNodeSet.cpp 413-435, 437-457: None for the exception on a wrong number of values is left out, the
    values come paired with the nodes. *)
Definition set_joint_values (depth fuel : nat) (r : robot) (kinematic_root : option nat) (qs : list (nat * R)) : option robot :=
  match set_values r qs with
  | None => None
  | Some r => match kinematic_root with Some k => update_pose depth fuel r k | None => apply_joint_values depth r end
  end.

(** hasChild(child, true), SceneObject.cpp 1081-1099, on the nodes of a robot. *)
Definition kids (r : robot) (x : nat) : list nat := match node_at r x with Some n => n_children n | None => [] end.
Fixpoint has_child_below (fuel : nat) (r : robot) (p c : nat) : option bool :=
  match fuel with
  | O => None
  | S fuel =>
      (fix loop (l : list nat) : option bool :=
         match l with
         | [] => Some false
         | k :: l => if Nat.eqb k c then Some true
                     else match has_child_below fuel r k c with None => None | Some true => Some true | Some false => loop l end
         end) (kids r p)
  end.
(** isKinematicRoot, RobotNodeSet.cpp 743-759. *)
Fixpoint is_kinematic_root (fuel : nat) (r : robot) (k : nat) (l : list nat) : option bool :=
  match l with
  | [] => Some true
  | x :: l => if Nat.eqb x k then is_kinematic_root fuel r k l
              else match has_child_below fuel r k x with
                   | None => None
                   | Some true => is_kinematic_root fuel r k l
                   | Some false => Some false
                   end
  end.
(** The kinematic root chosen by the constructor, RobotNodeSet.cpp 22-53: the given one if it fits, otherwise the root of the robot. *)
Definition choose_root (fuel : nat) (r : robot) (given : option nat) (l : list nat) : option nat :=
  let k := match given with Some k => k | None => root r end in
  match is_kinematic_root fuel r k l with None => None | Some true => Some k | Some false => Some (root r) end.

(** math::Helpers::InvertedPose, Helpers.cpp 226-230. *)
Definition inverted (p : pose) : pose :=
  let rt := mtrans (prot p) in Pose rt (vscale (-1) (mapply rt (ppos p))).
(** Matrix3f::isIdentity() of Eigen with its default precision 1e-5: |m_ij| <= p off the diagonal, |m_ii - 1| <= p min(|m_ii|, 1) on it. *)
Definition prec : R := 1 / 10 ^ 5.
Definition small (x : R) : bool := if Rle_dec (Rabs x) prec then true else false.
Definition near_one (x : R) : bool := if Rle_dec (Rabs (x - 1)) (prec * Rmin (Rabs x) 1) then true else false.
Definition is_identity (m : mat3) : bool :=
  near_one (m00 m) && small (m01 m) && small (m02 m) && small (m10 m) && near_one (m11 m) && small (m12 m) && small (m20 m) && small (m21 m) && near_one (m22 m).
(** Helpers::OrthogonalizeSVD, Helpers.cpp 286-295: the singular value decomposition is an argument, giving U, the singular values and V. *)
Definition orthogonalize (svd : mat3 -> mat3 * vec3 * mat3) (m : mat3) : mat3 :=
  let '(u, _, v) := svd m in
  let o := mmul u (mtrans v) in
  if Rle_dec 0 (mdet o) then o else
    Mat (- m00 o) (- m01 o) (- m02 o) (- m10 o) (- m11 o) (- m12 o) (- m20 o) (- m21 o) (- m22 o).
Definition node_pose (r : robot) (x : nat) : pose := match node_at r x with Some n => n_pose n | None => pid end.
(** getGlobalPositionForRobotNode, Robot.cpp 861-871. *)
Definition pose_for_position (r : robot) (x : nat) (p : vec3) : pose :=
  Pose mid (vadd (ppos (rpose r)) (vsub p (ppos (node_pose r x)))).
(** getGlobalPoseForRobotNode, Robot.cpp 829-851. *)
Definition pose_for_node (svd : mat3 -> mat3 * vec3 * mat3) (r : robot) (x : nat) (g : pose) : pose :=
  if is_identity (prot g) then pose_for_position r x (ppos g)
  else
    let tf := pmul (pmul g (inverted (node_pose r x))) (rpose r) in
    Pose (orthogonalize svd (prot tf)) (ppos tf).
(** setGlobalPoseForRobotNode, Robot.cpp 853-859, and setGlobalPositionForRobotNode, 873-877. *)
Definition set_pose_for_node (svd : mat3 -> mat3 * vec3 * mat3) (depth : nat) (r : robot) (x : nat) (g : pose) : option robot :=
  set_global_pose depth r (pose_for_node svd r x g).
Definition set_position_for_node (depth : nat) (r : robot) (x : nat) (p : vec3) : option robot :=
  set_global_pose depth r (pose_for_position r x p).
