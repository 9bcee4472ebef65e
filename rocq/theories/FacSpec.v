(** Vocabulary for the properties of robots built from robots. *)
From Coq Require Import Reals List Bool Arith.
From Verif Require Import QuatModel QuatSpec RpyModel JointModel KinModel KinSpec JacSpec FacModel.
Import ListNotations.
Open Scope R_scope.

(** The robot with joint values [q], all else being the same. *)
Definition with_q (q : nat -> R) (r : robot) : robot :=
  Robot (map (fun e => with_joint (with_value (n_joint (snd e)) (q (fst e))) (snd e)) (combine (seq 0 (length (nodes r))) (nodes r))) (root r) (rpose r).
(** A robot node of the tree. *)
Definition part (r : robot) (y : nat) : Prop := desc r (root r) y /\ exists n, node_at r y = Some n /\ proper n.
(** Robot nodes hang on robot nodes, and the root is one. *)
Definition whole (r : robot) : Prop :=
  (exists n, node_at r (root r) = Some n /\ proper n) /\
  forall p c n m, In c (kids r p) -> node_at r c = Some n -> node_at r p = Some m -> proper n -> proper m.
(** What the joint of a node contributes to its pose. *)
Definition joint_motion (n : node) : pose :=
  let q := value (n_joint n) + n_offset n in
  match n_kind n with Revolute a => Pose (axisangle2mat a q) (Vec 0 0 0) | Prismatic d => Pose mid (vscale q d) | _ => pid end.
(** The joint of a node does not move anything at [q]. *)
Definition at_rest (r : robot) (q : nat -> R) (p : nat) : Prop := forall n, node_at (with_q q r) p = Some n -> joint_motion n = pid.
(** [y] is off the way from the root to [x], and leaves it at [p]. *)
Definition branches_off (r : robot) (x p y : nat) : Prop :=
  desc r p x /\ exists b, In b (kids r p) /\ ~ desc r b x /\ desc r b y.
(** At the joint values [q] the clone shows the model of the node [y], as it was in the frame of [y], in the frame [h]. *)
Definition shown (c : clone) (q : nat -> R) (y : nat) (h : pose) : Prop :=
  exists u d g, c_model c u = Some (y, d) /\ fk (with_q q (c_robot c)) u g /\ h = pmul g d.
(** The pose of [b] seen from [a]. *)
Definition relative (a b : pose) : pose := pmul (inverted a) b.
(** The models which keep their place: those on the way to the new root, and those off it that hang on a joint at rest. *)
Definition kept (r : robot) (x : nat) (q : nat -> R) (y : nat) : Prop :=
  part r y /\ (desc r y x \/ exists p, branches_off r x p y /\ at_rest r q p).
(** The nodes of the robot have types that fit: joints and transformations have no model, bodies no transformation. *)
Definition types_fit (s : source) : Prop := forall y n, node_at (s_robot s) y = Some n ->
  match s_type s y with Generic => True | JointNode | TransformNode => s_model s y = false | BodyNode => n_local n = pid end.
(** The sum of [f] over a list of nodes. *)
Definition total (f : nat -> R) (l : list nat) : R := fold_right Rplus 0 (map f l).
