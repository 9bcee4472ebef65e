(** Model of building robots from robots: RobotFactory::cloneInversed and cloneChangeStructure.
    VirtualRobot/RobotFactory.cpp, VirtualRobot/Nodes/RobotNode.cpp.
    Over the real numbers, on the robots of KinModel; a clone of a node has the number of the node.  The code finds nodes by name, and
    the names of a robot differ.  Collision models are treated by the code as visualisations are and are left out, so is the
    registration of the nodes, and so are DH parameters.  The poses which initialize() stores are those of C35 and are left out. *)
From Coq Require Import Reals List Bool Arith.
From Verif Require Import QuatModel QuatSpec RpyModel JointModel KinModel.
Import ListNotations.
Open Scope R_scope.

(** Physics, SceneObject.h: massKg and localCoM.  The default, SceneObject.cpp: no mass, centre of mass at the origin. *)
Record phys := Phys { mass : R; com : vec3 }.
Definition no_phys : phys := Phys 0 (Vec 0 0 0).
(** RobotNodeType, RobotNode.h 58-65. *)
Inductive ntype := Generic | JointNode | BodyNode | TransformNode.
(** A robot with what hangs on its nodes: whether there is a model, the physics, and the type of the node. *)
Record source := Source { s_robot : robot; s_model : nat -> bool; s_phys : nat -> phys; s_type : nat -> ntype }.

(** dynamic_pointer_cast<RobotNode>. *)
Definition is_rn (n : node) : bool := match n_kind n with Sensor | Plain => false | _ => true end.
Definition rn_at (r : robot) (x : nat) : bool := match node_at r x with Some n => is_rn n | None => false end.
Definition rn_parent (r : robot) (x : nat) : option nat :=
  match node_at r x with
  | Some n => match n_parent n with Some p => if rn_at r p then Some p else None | None => None end
  | None => None
  end.

(** robotNodeDef, RobotFactory.h: a node with its children, and for each of them whether the transformation is to be inverted. *)
Record def := Def { d_name : nat; d_children : list (nat * bool) }.
Definition is_some (o : option nat) (x : nat) : bool := match o with Some y => Nat.eqb y x | None => false end.
(** The children which a node gets, RobotFactory.cpp 134-178, when it is reached from [from]. *)
Definition new_children (r : robot) (from : option nat) (x : nat) : list (nat * bool) :=
  (match rn_parent r x with Some p => if is_some from p then [] else [(p, true)] | None => [] end)
  ++ map (fun c => (c, false)) (filter (fun c => negb (is_some from c) && rn_at r c) (kids r x)).
(** The loop over the queue of edges, 127-181.  None: it takes more than [fuel] steps. *)
Fixpoint inverse_structure (fuel : nat) (r : robot) (queue : list (option nat * nat)) : option (list def) :=
  match queue with
  | [] => Some []
  | (from, x) :: rest =>
      match fuel with
      | O => None
      | S fuel =>
          let cs := new_children r from x in
          match inverse_structure fuel r (rest ++ map (fun e => (Some x, fst e)) cs) with
          | Some l => Some (Def x cs :: l)
          | None => None
          end
      end
  end.

(** The state of cloneChangeStructure: parents and children of the clones, localTransformations, directionInversion, visuMap (whose
    model, and how it was displaced), physicsMap, sensorMap. *)
Record build := Build { b_parent : nat -> option nat; b_kids : nat -> list nat; b_local : nat -> option pose; b_flip : nat -> bool;
                        b_visu : nat -> option (nat * pose); b_phys : nat -> option phys; b_sensors : nat -> list nat }.
Definition start : build := Build (fun _ => None) (fun _ => []) (fun _ => None) (fun _ => false) (fun _ => None) (fun _ => None) (fun _ => []).
Definition put {A : Type} (m : nat -> A) (x : nat) (v : A) : nat -> A := fun y => if Nat.eqb y x then v else m y.

Definition local_of (r : robot) (x : nat) : pose := match node_at r x with Some n => n_local n | None => pid end.
Definition sensors_of (r : robot) (x : nat) : list nat :=
  filter (fun c => match node_at r c with Some n => match n_kind n with Sensor => true | _ => false end | None => false end) (kids r x).
(** A pose applied to a point. *)
Definition papply (g : pose) (v : vec3) : vec3 := vadd (mapply (prot g) v) (ppos g).

(** One child, RobotFactory.cpp 375-500.  attachChild, SceneObject.cpp 1133-1164, does nothing if the child is the node, is a child
    already or has a parent. *)
Definition add_child (s : source) (p : nat) (b : build) (e : nat * bool) : build :=
  let r := s_robot s in
  let '(c, inv) := e in
  let blocked := Nat.eqb p c || existsb (Nat.eqb c) (b_kids b p) || match b_parent b c with Some _ => true | None => false end in
  let parents := if blocked then b_parent b else put (b_parent b) c (Some p) in
  let children := if blocked then b_kids b else put (b_kids b) p (b_kids b p ++ [c]) in
  if inv then
    let tr := inverted (local_of r p) in
    let visu := if s_model s c then put (b_visu b) p (Some (c, tr)) else b_visu b in
    let ph := put (b_phys b) p (Some (Phys (mass (s_phys s c)) (papply tr (com (s_phys s c))))) in
    let ph := match ph c with None => put ph c (Some no_phys) | Some _ => ph end in
    Build parents children (put (b_local b) c (Some tr)) (put (b_flip b) c true) visu ph
          (put (b_sensors b) p (b_sensors b p ++ sensors_of r c))
  else
    let visu := if s_model s c then put (b_visu b) c (Some (c, pid)) else b_visu b in
    Build parents children (put (b_local b) c (Some (local_of r c))) (put (b_flip b) c false) visu (b_phys b)
          (put (b_sensors b) c (b_sensors b c ++ sensors_of r c)).
(** One entry of the structure, 351-508. *)
Definition add_def (s : source) (b : build) (d : def) : build :=
  let b := fold_left (add_child s (d_name d)) (d_children d) b in
  match b_local b (d_name d) with
  | Some _ => b
  | None => Build (b_parent b) (b_kids b) (put (b_local b) (d_name d) (Some pid)) (put (b_flip b) (d_name d) false) (b_visu b) (b_phys b) (b_sensors b)
  end.

(** The clone: its nodes, the model each node shows (whose, and how it was displaced), and the physics. *)
Record clone := Clone { c_robot : robot; c_model : nat -> option (nat * pose); c_phys : nat -> phys }.
Inductive result := Null | Throw | Made (c : clone).

Definition vneg (v : vec3) : vec3 := vscale (-1) v.
(** 512-533: the axis or the direction of the joint is turned around. *)
Definition turned (k : kind) : kind := match k with Revolute a => Revolute (vneg a) | Prismatic d => Prismatic (vneg d) | k => k end.
(** A clone has the joint value 0, RobotNode.cpp 489-584 and 50. *)
Definition reset (j : joint) : joint := with_value j 0.
(** The node which stands for one that is not cloned. *)
Definition nothing (n : node) : node := Node None [] Plain pid 0 (n_joint n) pid [].
(** The node to which a sensor was cloned; sensors keep their transformation, Sensor.cpp 121-170. *)
Definition holder (b : build) (len x : nat) : option nat := find (fun y => existsb (Nat.eqb x) (b_sensors b y)) (seq 0 len).
Definition built_node (r : robot) (b : build) (made : list nat) (x : nat) (n : node) : node :=
  if existsb (Nat.eqb x) made then
    Node (b_parent b x) (b_kids b x ++ b_sensors b x) (if b_flip b x then turned (n_kind n) else n_kind n)
         (match b_local b x with Some l => l | None => n_local n end) (n_offset n) (reset (n_joint n)) pid (n_prop n)
  else match n_kind n, holder b (length (nodes r)) x with
       | Sensor, Some y => Node (Some y) [] Sensor (n_local n) (n_offset n) (reset (n_joint n)) pid []
       | _, _ => nothing n
       end.
Definition numbered {A : Type} (l : list A) : list (nat * A) := combine (seq 0 (length l)) l.
Definition built_robot (r : robot) (b : build) (made : list nat) (x : nat) : robot :=
  Robot (map (fun e => built_node r b made (fst e) (snd e)) (numbered (nodes r))) x pid.
(** checkValidRobotNodeType, RobotNode.cpp 97-127, run by initialize() on all clones; clones have the type of the node. *)
Definition is_pid (g : pose) : bool :=
  if (fun a b : pose => ltac:(decide equality; decide equality; apply Req_EM_T) : {a = b} + {a <> b}) g pid then true else false.
Definition type_ok (s : source) (b : build) (x : nat) : bool :=
  match s_type s x with
  | Generic => true
  | JointNode | TransformNode => match b_visu b x with Some _ => false | None => true end
  | BodyNode => is_pid (match b_local b x with Some l => l | None => local_of (s_robot s) x end)
  end.
(** cloneChangeStructure(robot, newStructure), RobotFactory.cpp 318-573. *)
Definition made_nodes (x : nat) (defs : list def) : list nat := x :: flat_map (fun d => d_name d :: map fst (d_children d)) defs.
Definition clone_change_structure (s : source) (x : nat) (defs : list def) : result :=
  let r := s_robot s in
  let made := made_nodes x defs in
  if forallb (rn_at r) made then
    let b := fold_left (add_def s) defs start in
    if forallb (type_ok s b) made then
      Made (Clone (built_robot r b made x) (b_visu b) (fun y => match b_phys b y with Some p => p | None => s_phys s y end))
    else Throw
  else Null.
(** cloneInversed, 110-199, without the node sets and end effectors. *)
Definition clone_inversed (fuel : nat) (s : source) (x : nat) : option result :=
  match inverse_structure fuel (s_robot s) [(None, x)] with
  | Some defs => Some (clone_change_structure s x defs)
  | None => None
  end.
