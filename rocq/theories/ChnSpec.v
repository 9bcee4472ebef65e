(** Vocabulary for linked coordinates, chains and node sets. *)
From Coq Require Import Reals List Bool Arith.
From Verif Require Import QuatModel QuatSpec RpyModel JointModel KinModel KinSpec FacSpec ChnModel.
Import ListNotations.
Open Scope R_scope.

(** The pose of the coordinate in the world. *)
Definition stands_at (r : robot) (c : coord) (g : pose) : Prop :=
  exists f n, c_frame c = Some f /\ node_at r f = Some n /\ g = pmul (n_pose n) (c_pose c).
(** All stored poses are made of rotations. *)
Definition upright (r : robot) : Prop := forall x n, node_at r x = Some n -> rotation (prot (n_pose n)).

(** [x] is above [y]. *)
Definition above (r : robot) (x y : nat) : Prop := x <> y /\ desc r x y.
(** Each node is above the next one. *)
Definition chained (r : robot) (l : list nat) : Prop := forall a x y b, l = a ++ x :: y :: b -> above r x y.
(** The joint values [q] are those of the robot, but for the nodes of [l]. *)
Definition differs_in (r : robot) (l : list nat) (q : nat -> R) : Prop := forall x n, node_at r x = Some n -> ~ In x l -> q x = value (n_joint n).
(** No node of [l] is a prismatic joint. *)
Definition no_slides (r : robot) (l : list nat) : Prop := forall x n d, In x l -> node_at r x = Some n -> n_kind n <> Prismatic d.
(** The distance of two points. *)
Definition far (a b : vec3) : R := sqrt ((vx a - vx b) * (vx a - vx b) + (vy a - vy b) * (vy a - vy b) + (vz a - vz b) * (vz a - vz b)).

(** The point [p] of the frame of the node, in the world. *)
Definition point_of (n : node) (p : vec3) : vec3 := vadd (mapply (prot (n_pose n)) p) (ppos (n_pose n)).
(** [q] is within the limits of [j]. *)
Definition within (j : joint) (q : R) : Prop := limit_lo j <= q <= limit_hi j.
