(** Vocabulary for C41. *)
From Coq Require Import Reals List Bool Arith.
From Verif Require Import RpyModel JointModel KinModel KinSpec LockModel.
Import ListNotations.
Open Scope nat_scope.

(** What a call does to the robot when nothing comes in between, by the sequential model of C35; None: it is not a change. *)
Definition effect (depth fuel : nat) (k : call) (r : robot) : option robot :=
  match k with
  | NodeSet x q => set_joint_value depth fuel r x q
  | SetSet k qs => set_joint_values depth fuel r k qs
  | ConfigSet qs | RobotSet qs | HeldSet qs => robot_set_joint_values depth r qs
  | RobotPose g | HeldPose g => set_global_pose depth r g
  | Reads _ => Some r
  end.
(** Whole calls, one after the other. *)
Inductive in_turn (depth fuel : nat) : robot -> list call -> robot -> Prop :=
| turn_nil : forall r, in_turn depth fuel r [] r
| turn_cons : forall r k l r' s, effect depth fuel k r = Some r' -> in_turn depth fuel r' l s -> in_turn depth fuel r (k :: l) s.
(** [taken ls l]: the list l of numbered calls takes the calls of every thread in the order of the thread, from its first. *)
Definition of_thread {C : Type} (i : nat) (l : list (nat * C)) : list C := map snd (filter (fun ik => fst ik =? i) l).
Definition taken {C : Type} (ls : list (list C)) (l : list (nat * C)) : Prop :=
  (forall i k, In (i, k) l -> i < length ls) /\ forall i ks, nth_error ls i = Some ks -> exists rest, ks = of_thread i l ++ rest.
(** The calls that hold the lock during all of their changes. *)
Definition keeps_lock (k : call) : Prop := match k with RobotSet _ | RobotPose _ => False | _ => True end.
(** Nodes named in a call are in the tree of the robot; those of a node set are below its kinematic root. *)
Definition fits (r : robot) (k : call) : Prop :=
  match k with
  | NodeSet x _ => desc r (root r) x
  | SetSet (Some k) qs => desc r (root r) k /\ forall x, In x (map fst qs) -> desc r k x
  | _ => True
  end.
