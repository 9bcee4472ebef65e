(** Vocabulary for robots made of a set of nodes. *)
From Coq Require Import Reals List Bool Arith.
From Verif Require Import QuatModel QuatSpec RpyModel JointModel KinModel KinSpec JacSpec FacModel FacSpec SubModel.
Import ListNotations.
Open Scope R_scope.

(** What the joint of the node [y] contributes to its pose at the joint values [q]. *)
Definition joint_at (r : robot) (q : nat -> R) (y : nat) : pose := match node_at (with_q q r) y with Some n => joint_motion n | None => pid end.
(** The poses in the clone at the joint values [q]: each piece is attached to the one before (united nodes, whose transformation is the
    identity, do not matter), the first to the root, which is at the pose of the clone. *)
Fixpoint poses (r : robot) (q : nat -> R) (g : pose) (l : list piece) : list (piece * pose) :=
  match l with
  | [] => []
  | p :: l => let g := pmul (pmul g (p_local p)) (joint_at r q (p_node p)) in (p, g) :: poses r q g l
  end.
(** All robot nodes are in the tree. *)
Definition connected (r : robot) : Prop := forall y n, node_at r y = Some n -> proper n -> desc r (root r) y.
(** [q] moves the nodes [l] only. *)
Definition moves (r : robot) (l : list nat) (q : nat -> R) : Prop := forall y n, node_at r y = Some n -> ~ In y l -> q y = value (n_joint n).
(** Each node is the parent of the next, or what lies between them commutes with the pose of the first. *)
Definition close_by (r : robot) (a b : nat) : Prop :=
  In b (kids r a) \/ forall p ga gp, In b (kids r p) -> fk r a ga -> fk r p gp -> pmul gp (inverted ga) = pmul (inverted ga) gp.
Fixpoint all_close (r : robot) (l : list nat) : Prop := match l with a :: (b :: _) as l => close_by r a b /\ all_close r l | _ => True end.
(** [k] is above all other nodes of the set, as isKinematicRoot demands (C36). *)
Definition top (r : robot) (k : nat) (l : list nat) : Prop := forall y, In y l -> desc r k y.
(** Every node is above the next one, and not the same. *)
Fixpoint descends (r : robot) (l : list nat) : Prop := match l with a :: (b :: _) as l => desc r a b /\ a <> b /\ descends r l | _ => True end.
(** All nodes of a clone, in their role as nodes of the robot. *)
Definition below (p : piece) : list nat := match p_united p with Some u => u_nodes u | None => [] end.
Definition all_nodes (c : subset) : list nat := u_nodes (s_root c) ++ flat_map (fun p => p_node p :: below p) (s_pieces c).
(** The mass of a clone. *)
Definition mass_of (c : subset) : R :=
  u_mass (s_root c) + fold_right Rplus 0 (map (fun p => p_mass p + match p_united p with Some u => u_mass u | None => 0 end) (s_pieces c)).
(** All sensors of a clone. *)
Definition all_sensors (c : subset) : list nat :=
  map fst (u_sensors (s_root c)) ++ flat_map (fun p => match p_united p with Some u => map fst (u_sensors u) | None => [] end) (s_pieces c).
