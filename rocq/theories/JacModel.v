(** Model of the Jacobian of DifferentialIK: VirtualRobot/IK/DifferentialIK.cpp, on the kinematic tree of KinModel.  Over the real numbers
    (rounding is left out).  Poses are rigid: the inverse of a pose is [inverted].  The locks, the printing and the size checks
    (assertions) are left out. *)
From Coq Require Import Reals List Bool Arith.
From Verif Require Import QuatModel QuatSpec RpyModel JointModel KinModel.
Import ListNotations.
Open Scope R_scope.

(** IKSolver::CartesianSelection, IKSolver.h 47-55, as its four bits. *)
Record selection := Sel { s_x : bool; s_y : bool; s_z : bool; s_orientation : bool }.
(** mode & IKSolver::Position. *)
Definition s_position (m : selection) : bool := s_x m || s_y m || s_z m.

(** The robot node of a tcp, DifferentialIK.cpp 336-354: the tcp, or its parent; None if there is none. *)
Definition is_robot_node (n : node) : bool := match n_kind n with Sensor | Plain => false | _ => true end.
Definition tcp_node (r : robot) (t : nat) : option nat :=
  match node_at r t with
  | None => None
  | Some n =>
      if is_robot_node n then Some t
      else match n_parent n with
           | None => None
           | Some p => match node_at r p with Some m => if is_robot_node m then Some p else None | None => None end
           end
  end.
(** RobotNode::getAllParents, RobotNode.cpp 799-824, with the node itself, DifferentialIK.cpp 356-360.  The code keeps the list from the
    first call on; here it is computed at every call, which is the same as long as the tree does not change. *)
Fixpoint parents (depth : nat) (r : robot) (rns : list nat) (t : nat) : option (list nat) :=
  match rns with
  | [] => Some [t]
  | x :: rns =>
      match has_child_below depth r x t, parents depth r rns t with
      | Some b, Some l => Some (if b then x :: l else l)
      | _, _ => None
      end
  end.
(** std::find. *)
Definition member (x : nat) (l : list nat) : bool := existsb (Nat.eqb x) l.

(** Directions and positions in the coordinate system, RobotNodeRevolute.cpp 154-168, RobotNodePrismatic.cpp 200-214, and
    DifferentialIK.cpp 398-407; None: global. *)
Definition direction_in (cs : option pose) (g : pose) (a : vec3) : vec3 :=
  let v := mapply (prot g) a in match cs with Some c => mapply (prot (inverted c)) v | None => v end.
Definition position_in (cs : option pose) (g : pose) : vec3 :=
  match cs with Some c => ppos (pmul (inverted c) g) | None => ppos g end.

(** The columns of tmpUpdateJacobianPosition and tmpUpdateJacobianOrientation for one degree of freedom, DifferentialIK.cpp 362-441. *)
Definition column (cs : option pose) (convert : bool) (m : selection) (affected : bool) (tcp_pose : pose) (dof : node) : vec3 * vec3 :=
  let zero := Vec 0 0 0 in
  if negb affected then (zero, zero)
  else match n_kind dof with
       | Revolute a =>
           let axis := direction_in cs (n_pose dof) a in
           let to_tcp := vsub (position_in cs tcp_pose) (position_in cs (n_pose dof)) in
           let to_tcp := if convert then vscale (1 / 1000) to_tcp else to_tcp in
           (if s_position m then vcross axis to_tcp else zero, if s_orientation m then axis else zero)
       | Prismatic d => (if s_position m then direction_in cs (n_pose dof) d else zero, zero)
       | _ => (zero, zero)
       end.
(** The rows copied, DifferentialIK.cpp 462-486. *)
Definition rows (m : selection) (cols : list (vec3 * vec3)) : list (list R) :=
  (if s_x m then [map (fun c => vx (fst c)) cols] else []) ++
  (if s_y m then [map (fun c => vy (fst c)) cols] else []) ++
  (if s_z m then [map (fun c => vz (fst c)) cols] else []) ++
  (if s_orientation m then [map (fun c => vx (snd c)) cols; map (fun c => vy (snd c)) cols; map (fun c => vz (snd c)) cols] else []).

(** updateJacobianMatrix(jac, tcp, mode), DifferentialIK.cpp 280-505: the rows of the matrix.  [cs]: coordSystem, [t]: the tcp, [rns]: the
    degrees of freedom.  None: more than [depth] calls of hasChild, or a node that does not exist. *)
Fixpoint columns (r : robot) (cs : option pose) (convert : bool) (m : selection) (ps : list nat) (g : pose) (rns : list nat) : option (list (vec3 * vec3)) :=
  match rns with
  | [] => Some []
  | x :: rns =>
      match node_at r x, columns r cs convert m ps g rns with
      | Some n, Some l => Some (column cs convert m (member x ps) g n :: l)
      | _, _ => None
      end
  end.
Definition jacobian (depth : nat) (r : robot) (cs : option nat) (convert : bool) (rns : list nat) (t : nat) (m : selection) : option (list (list R)) :=
  match tcp_node r t with
  | None => Some (rows m (map (fun _ => (Vec 0 0 0, Vec 0 0 0)) rns))
  | Some tn =>
      match parents depth r rns tn with
      | None => None
      | Some ps =>
          match columns r (option_map (node_pose r) cs) convert m ps (node_pose r t) rns with
          | None => None
          | Some cols => Some (rows m cols)
          end
      end
  end.
(** updateJacobianMatrix(jacobian), DifferentialIK.cpp 106-152: the parts for all tcps, one below the other. *)
Fixpoint full_jacobian (depth : nat) (r : robot) (cs : option nat) (convert : bool) (rns : list nat) (tcps : list (nat * selection)) : option (list (list R)) :=
  match tcps with
  | [] => Some []
  | (t, m) :: tcps =>
      match jacobian depth r cs convert rns t m, full_jacobian depth r cs convert rns tcps with
      | Some a, Some b => Some (a ++ b)
      | _, _ => None
      end
  end.
