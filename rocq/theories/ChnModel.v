(** Model of linked coordinates, kinematic chains and node sets: VirtualRobot/LinkedCoordinate.cpp, KinematicChain.cpp, RobotNodeSet.cpp.
    Over the real numbers (rounding is left out).  A node is a number, and is a member of the robot if there is a node of that number;
    the null pointer is None.  All nodes belong to the one robot (the exception for nodes of different robots is left out). *)
From Coq Require Import Reals List Bool Arith.
From Verif Require Import QuatModel QuatSpec RpyModel JointModel KinModel.
Import ListNotations.
Open Scope R_scope.

(** What a call comes to: a result, an exception, undefined behaviour, or calls that go deeper than the fuel. *)
Inductive outcome (A : Type) := Done (a : A) | Thrown | Undefined | Deep.
Arguments Done {A} a. Arguments Thrown {A}. Arguments Undefined {A}. Arguments Deep {A}.

(** *** LinkedCoordinate *)
(** The members frame and pose, LinkedCoordinate.h 168-170; the constructor, 57. *)
Record coord := Coord { c_frame : option nat; c_pose : pose }.
Definition fresh : coord := Coord None pid.
(** hasRobotNode, Robot.cpp 134-149. *)
Definition member (r : robot) (x : option nat) : option nat := match x with Some x => match node_at r x with Some _ => Some x | None => None end | None => None end.
(** getCoordinateTransformation, LinkedCoordinate.cpp 129-163.  Matrix4f::inverse of a pose with a rotation is its InvertedPose. *)
Definition coordinate_transformation (r : robot) (origin destination : option nat) : outcome pose :=
  match member r destination, member r origin with
  | Some d, Some o => Done (pmul (inverted (node_pose r d)) (node_pose r o))
  | _, _ => Thrown
  end.
(** set, 28-42 (the other forms, 45-69, come down to it). *)
Definition set_coord (r : robot) (c : coord) (frame : option nat) (p : pose) : outcome coord :=
  match member r frame with Some f => Done (Coord (Some f) p) | None => Thrown end.
(** set with a position, 55-69. *)
Definition set_position (r : robot) (c : coord) (frame : option nat) (v : vec3) : outcome coord := set_coord r c frame (Pose mid v).
(** changeFrame, 72-104. *)
Definition change_frame (r : robot) (c : coord) (destination : option nat) : outcome coord :=
  match member r destination with
  | None => Thrown
  | Some d => match c_frame c with
              | None => Done (Coord (Some d) pid)
              | Some f => match coordinate_transformation r (Some f) (Some d) with
                          | Done t => Done (Coord (Some d) (pmul t (c_pose c)))
                          | Thrown => Thrown | Undefined => Undefined | Deep => Deep
                          end
              end
  end.
(** getInFrame, 106-130. *)
Definition get_in_frame (r : robot) (c : coord) (destination : option nat) : outcome pose :=
  match member r destination with
  | None => Thrown
  | Some d => match coordinate_transformation r (c_frame c) (Some d) with
              | Done t => Done (pmul t (c_pose c))
              | Thrown => Thrown | Undefined => Undefined | Deep => Deep
              end
  end.
(** A sequence of calls of changeFrame; an exception leaves the coordinate as it was. *)
Definition after (c : coord) (o : outcome coord) : coord := match o with Done c' => c' | _ => c end.
Definition change_frames (r : robot) (c : coord) (l : list (option nat)) : coord := fold_left (fun c d => after c (change_frame r c d)) l c.

(** *** Chains *)
(** isKinematicChain, RobotNodeSet.cpp 499-510: for an empty set the bound size() - 1 wraps around and the first access is out of range. *)
Fixpoint chain_loop (fuel : nat) (r : robot) (x : nat) (l : list nat) : outcome bool :=
  match l with
  | [] => Done true
  | y :: l => match has_child_below fuel r x y with None => Deep | Some false => Done false | Some true => chain_loop fuel r y l end
  end.
Definition is_kinematic_chain (fuel : nat) (r : robot) (l : list nat) : outcome bool :=
  match l with [] => Undefined | x :: l => chain_loop fuel r x l end.
(** The members of a node set. *)
Record nodeset := NodeSet { ns_nodes : list nat; ns_root : nat; ns_tcp : nat }.
(** KinematicChain's constructor, KinematicChain.cpp 11-45, after that of RobotNodeSet, RobotNodeSet.cpp 13-59. *)
Definition make_chain (fuel : nat) (r : robot) (l : list nat) (tcp given : option nat) : outcome nodeset :=
  match l with
  | [] => Thrown
  | x :: l' =>
      match choose_root fuel r given l with
      | None => Deep
      | Some k => match chain_loop fuel r x l' with
                  | Done true => Done (NodeSet l k (match tcp with Some t => t | None => last l x end))
                  | Done false => Thrown
                  | Thrown => Thrown | Undefined => Undefined | Deep => Deep
                  end
      end
  end.
(** SceneObject::getTransformationTo, SceneObject.cpp 574-577. *)
Definition transformation_to (r : robot) (x y : nat) : pose := pmul (inverted (node_pose r x)) (node_pose r y).
Definition reach (r : robot) (x y : nat) : R := vnorm (ppos (transformation_to r x y)).
(** getMaximumExtension, RobotNodeSet.cpp 548-580; an empty set as above. *)
Fixpoint sum_reach (r : robot) (acc : R) (x : nat) (l : list nat) : R :=
  match l with [] => acc | y :: l => sum_reach r (acc + reach r x y) y l end.
Definition maximum_extension (r : robot) (kinematic_root tcp : option nat) (l : list nat) : outcome R :=
  match l with
  | [] => Undefined
  | x :: l' =>
      let res := match kinematic_root with Some k => 0 + reach r k x | None => 0 end in
      let res := sum_reach r res x l' in
      Done (match tcp with Some t => res + reach r t (last l x) | None => res end)
  end.

(** *** Masses *)
(** getMass, RobotNodeSet.cpp 604-614; getCoM, 582-602; getCoMGlobal, SceneObject.cpp 679-683.  [mass] and [com]: the mass of a node and its
    centre of mass in its own frame. *)
Definition set_mass (mass : nat -> R) (l : list nat) : R := fold_left (fun s x => s + mass x) l 0.
Definition com_global (r : robot) (com : nat -> vec3) (x : nat) : vec3 := vadd (mapply (prot (node_pose r x)) (com x)) (ppos (node_pose r x)).
Definition set_com (r : robot) (mass : nat -> R) (com : nat -> vec3) (l : list nat) : vec3 :=
  let m := set_mass mass l in
  if Rle_dec m 0 then Vec 0 0 0 else fold_left (fun s x => vadd s (vscale (mass x / m) (com_global r com x))) l (Vec 0 0 0).

(** *** Names and limits *)
(** nodesSufficient, RobotNodeSet.cpp 616-679; names are numbers here. *)
Definition nodes_sufficient (tcp root : option nat) (set_names names : list nat) : bool :=
  let '(tcp_ok, kr_ok) := fold_left (fun s j => let '(t, k) := s in
      ((if negb t && match tcp with Some t' => Nat.eqb j t' | None => false end then true else t),
       (if negb k && match root with Some k' => Nat.eqb j k' | None => false end then true else k)))
    names (match tcp with None => true | Some _ => false end, match root with None => true | Some _ => false end) in
  if negb kr_ok || negb tcp_ok then false
  else forallb (fun i => existsb (fun j => Nat.eqb i j) names) set_names.
(** RobotNode::checkJointLimits, RobotNode.cpp 351-372, and respectJointLimits, 338-349; the forms for sets, RobotNodeSet.cpp 393-411, 681-712:
    the vector form of respectJointLimits has no check of the size (Eigen's own assertion is left out). *)
Definition check_limit (j : joint) (q : R) : bool :=
  let res := true in
  let res := if Rlt_dec q (limit_lo j) then false else res in
  if Rlt_dec (limit_hi j) q then false else res.
Definition respect_limit (j : joint) (q : R) : R :=
  let q := if Rlt_dec q (limit_lo j) then limit_lo j else q in
  if Rlt_dec (limit_hi j) q then limit_hi j else q.
Definition check_limits (js : list joint) (qs : list R) : outcome bool :=
  if Nat.eqb (length qs) (length js) then Done (fold_left (fun res jq => res && check_limit (fst jq) (snd jq)) (combine js qs) true) else Thrown.
Definition respect_limits (js : list joint) (qs : list R) : outcome (list R) :=
  if Nat.eqb (length qs) (length js) then Done (map (fun jq => respect_limit (fst jq) (snd jq)) (combine js qs)) else Thrown.
