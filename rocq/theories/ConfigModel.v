(** Model of stored robot configurations, VirtualRobot/RobotConfig.cpp.  A robot is its kinematic tree (KinModel) with the map from
    names to nodes; nodes and names are numbers, [nm x] is the name of node x.  The TCP, printing and XML output are left out. *)
From Coq Require Import Reals List Bool Arith.
From Verif Require Import JointModel KinModel.
Import ListNotations.
Open Scope R_scope.

(** A robot with robotNodeMap. *)
Record rob := Rob { body : robot; reg : list (nat * nat) }.
(** getRobotNode(name) and hasRobotNode(name), Robot.cpp 95-104, 151-154. *)
Fixpoint lookup {A : Type} (k : nat) (l : list (nat * A)) : option A :=
  match l with [] => None | (x, v) :: l => if x =? k then Some v else lookup k l end.
(** hasRobotNode(node), Robot.cpp 134-149. *)
Definition has_node (nm : nat -> nat) (r : rob) (x : nat) : bool := match lookup (nm x) (reg r) with Some y => y =? x | None => false end.
(** [map[k] = v]. *)
Fixpoint put {A : Type} (k : nat) (v : A) (l : list (nat * A)) : list (nat * A) :=
  match l with [] => [(k, v)] | (x, w) :: l => if x =? k then (x, v) :: l else (x, w) :: put k v l end.

(** The member configs: node to value. *)
Notation config := (list (nat * R)).
(** setConfig(name, value), RobotConfig.cpp 83-103; the robot may be gone. *)
Definition set_name (r : option rob) (c : config) (n : nat) (v : R) : config * bool :=
  match r with
  | None => (c, false)
  | Some r => match lookup n (reg r) with None => (c, false) | Some x => (put x v c, true) end
  end.
(** setConfig(node, value), 105-121.  None: exception. *)
Definition set_node (nm : nat -> nat) (r : option rob) (c : config) (x : option nat) (v : R) : option (config * bool) :=
  match x with
  | None => None
  | Some x => match r with
              | None => Some (c, false)
              | Some r => if has_node nm r x then Some (put x v c, true) else None
              end
  end.
(** The constructors from names and values, 41-52, and from a map of nodes, 29-39. *)
Definition of_names (r : option rob) (ns : list nat) (vs : list R) : option config :=
  match r with
  | None => None
  | Some _ => if length ns =? length vs then Some (fold_left (fun c nv => fst (set_name r c (fst nv) (snd nv))) (combine ns vs) []) else None
  end.
Definition of_nodes (nm : nat -> nat) (r : option rob) (l : list (nat * R)) : option config :=
  match r with
  | None => None
  | Some _ => fold_left (fun o xv => match o with None => None | Some c => option_map fst (set_node nm r c (Some (fst xv)) (snd xv)) end) l (Some [])
  end.
(** hasConfig(name), 189-200. *)
Definition has_config (nm : nat -> nat) (c : config) (n : nat) : bool := existsb (fun xv => nm (fst xv) =? n) c.
(** getConfig(name), 202-228.  None: exception. *)
Definition get_config (nm : nat -> nat) (r : option rob) (c : config) (n : nat) : option R :=
  if has_config nm c n then
    match r with
    | None => Some 0
    | Some r => match lookup n (reg r) with
                | None => None
                | Some x => match lookup x c with Some v => Some v | None => Some 0 end
                end
    end
  else Some 0.
(** getRobotNodeJointValueMap, 244-256. *)
Definition name_map (nm : nat -> nat) (c : config) : list (nat * R) := fold_left (fun m xv => put (nm (fst xv)) (snd xv) m) c [].
(** setJointValues(), 168-187: false if the robot is gone.  None: the update of the poses does not end. *)
Definition apply (depth : nat) (r : option rob) (c : config) : option (option rob * bool) :=
  match r with
  | None => Some (None, false)
  | Some r => match robot_set_joint_values depth (body r) c with None => None | Some b => Some (Some (Rob b (reg r)), true) end
  end.
(** setJointValues(robot), 258-299: all names are looked up before anything is set. *)
Definition apply_to (nm : nat -> nat) (depth : nat) (r : option rob) (c : config) : option (option rob * bool) :=
  match r with
  | None => Some (None, false)
  | Some r =>
      let jv := name_map nm c in
      if forallb (fun nv => match lookup (fst nv) (reg r) with Some _ => true | None => false end) jv then
        match robot_set_joint_values depth (body r) (flat_map (fun nv => match lookup (fst nv) (reg r) with Some x => [(x, snd nv)] | None => [] end) jv) with
        | None => None
        | Some b => Some (Some (Rob b (reg r)), true)
        end
      else Some (Some r, false)
  end.
(** clone(robot), 133-165: the nodes of the same names, as far as the new robot has them; [nm'] names the nodes of the new robot. *)
Definition clone_config (nm nm' : nat -> nat) (r : rob) (c : config) : option config :=
  of_nodes nm' (Some r) (fold_left (fun m xv => match lookup (nm (fst xv)) (reg r) with Some y => put y (snd xv) m | None => m end) c []).
