(** Model of RobotFactory::cloneSubSet, VirtualRobot/RobotFactory.cpp 599-871.
    On the robots of KinModel over the real numbers.  Collision models are treated by the code as visualisations are and are left
    out, and so are the names of the new nodes, the registration and the check of node types. *)
From Coq Require Import Reals List Bool Arith.
From Verif Require Import QuatModel QuatSpec RpyModel JointModel KinModel FacModel.
Import ListNotations.
Open Scope R_scope.

(** getRobotNodes(); the code has them in the order of their names. *)
Definition robot_nodes (r : robot) : list nat := filter (rn_at r) (seq 0 (length (nodes r))).
Definition mem (x : nat) (l : list nat) : bool := existsb (Nat.eqb x) l.
(** hasChild(child, true), SceneObject.cpp 1081-1099; by C36 the fuel is enough. *)
Definition above (r : robot) (a b : nat) : bool := match has_child_below (S (length (nodes r))) r a b with Some t => t | None => false end.
(** The pose a node has at the time of the call. *)
Definition pose_at (r : robot) (x : nat) : pose := match node_at r x with Some n => n_pose n | None => pid end.
(** getChildNodes, RobotFactory.cpp 599-616. *)
Fixpoint child_nodes (fuel : nat) (r : robot) (a : nat) (excl : option nat) : list nat :=
  match fuel with
  | O => []
  | S fuel => flat_map (fun c => if rn_at r c && negb (is_some excl c) then c :: child_nodes fuel r c excl else []) (kids r a)
  end.
(** getChildSensorNodes, 618-639. *)
Definition is_sensor (r : robot) (c : nat) : bool :=
  match node_at r c with Some n => match n_kind n with Sensor => true | _ => false end | None => false end.
Fixpoint child_sensors (fuel : nat) (r : robot) (a : nat) (excl : option nat) : list nat :=
  match fuel with
  | O => []
  | S fuel => flat_map (fun c => (if is_sensor r c then [c] else []) ++
                (if rn_at r c && negb (is_some excl c) then child_sensors fuel r c excl else [])) (kids r a)
  end.

(** A fixed node made of several, createUnitedRobotNode, 677-771: the nodes whose models it shows, the displacement of these models, its
    mass, and the sensors with their transformations.  Its own transformation is the identity. *)
Record united := United { u_nodes : list nat; u_shift : pose; u_mass : R; u_sensors : list (nat * pose) }.
Definition local_at (r : robot) (x : nat) : pose := match node_at r x with Some n => n_local n | None => pid end.
Definition unite (r : robot) (ms : nat -> R) (l : list nat) (parent : option nat) (sensors : list nat) : united :=
  match l with
  | [] => United [] pid 0 (map (fun s => (s, local_at r s)) sensors)
  | _ => let shift := match parent with Some p => inverted (pose_at r p) | None => pid end in
         let to := match parent with Some p => pmul (pose_at r p) pid | None => pid end in
         United l shift (fold_left (fun kg y => kg + ms y) l 0) (map (fun s => (s, pmul (inverted to) (pose_at r s))) sensors)
  end.

(** A node of the subset in the clone: its transformation, its mass, and what is united below it. *)
Record piece := Piece { p_node : nat; p_local : pose; p_mass : R; p_united : option united }.
(** accumulateTransformations, 641-675, for different nodes: the new node, and storeTrafo (which is not written without child nodes; it
    is the identity before the call). *)
Definition accumulate (r : robot) (ms : nat -> R) (a : nat) (b : option nat) : option united * pose :=
  let fuel := S (length (nodes r)) in
  match child_nodes fuel r a b with
  | [] => (None, pid)
  | l => (Some (unite r ms l (Some a) (child_sensors fuel r a b)),
          match b with
          | Some b => let goal := match node_at r b with Some n => match n_parent n with Some p => pose_at r p | None => pid end | None => pid end in
                      pmul goal (inverted (pose_at r a))
          | None => pid
          end)
  end.
(** The loop over the nodes, 841-866. *)
Fixpoint pieces (r : robot) (ms : nat -> R) (trafo : pose) (l : list nat) : list piece :=
  match l with
  | [] => []
  | a :: l => let '(u, next) := accumulate r ms a (hd_error l) in
              Piece a (pmul trafo (local_at r a)) (ms a) u :: pieces r ms next l
  end.
(** 795-807: each node is above the next. *)
Fixpoint chain (r : robot) (l : list nat) : bool :=
  match l with a :: (b :: _) as l => above r a b && chain r l | _ => true end.
(** 810-829: the nodes that become the root. *)
Definition initial_nodes (r : robot) (start : nat) (l : list nat) : list nat :=
  let parents := filter (fun y => above r y start) (robot_nodes r) in
  parents ++ filter (fun y => negb (existsb (above r y) l) && negb (mem y parents) && negb (above r start y)) (robot_nodes r).
(** cloneSubSet, 773-871, for the set [l] with the kinematic root [k].  None: an exception. *)
Record subset := Subset { s_root : united; s_pieces : list piece; s_pose : pose }.
Definition clone_subset (r : robot) (ms : nat -> R) (k : nat) (l : list nat) : option subset :=
  match l with
  | [] => None
  | _ =>
      let l := if mem k l then l else k :: l in
      if chain r l then
        let init := initial_nodes r k l in
        let trafo := match node_at r k with Some n => match n_parent n with Some p => pose_at r p | None => pid end | None => pid end in
        let sensors := flat_map (fun y => filter (is_sensor r) (kids r y)) init in
        Some (Subset (unite r ms init None sensors) (pieces r ms trafo l) (rpose r))
      else None
  end.
