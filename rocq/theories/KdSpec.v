(** Vocabulary for C80 and C81. *)
From Coq Require Import List ZArith Bool Arith Permutation Sorted.
From Verif Require Import KdModel.
Import ListNotations.
Open Scope Z_scope.

(** A distance along one component grows with the distance of the numbers; L1 and L2 are such. *)
Definition metric (acc : Z -> Z -> Z) : Prop :=
  (forall a b, 0 <= acc a b) /\ (forall a b c, a <= b <= c -> acc a b <= acc a c) /\ (forall a b c, c <= b <= a -> acc a b <= acc a c).
(** Data that can be indexed: at least one component and leaves for at least one point. *)
Definition indexable (D : data) : Prop := (1 <= d_dim D)%nat /\ (1 <= d_leaf D)%nat.
(** All points with their distances to q. *)
Definition all_points (D : data) (acc : Z -> Z -> Z) (q : nat -> Z) : list (Z * nat) := map (fun i => (dist D acc q i, i)) (seq 0 (d_count D)).
(** The points at the leaves of a tree. *)
Fixpoint leaves (t : tree) : list nat := match t with Leaf ind => ind | Node _ _ _ t1 t2 => leaves t1 ++ leaves t2 end.
(** res are k nearest of the points: in order of distance, k of them if there are so many, and no other point is nearer than one of them. *)
Definition nearest (k : nat) (points res : list (Z * nat)) : Prop :=
  length res = Nat.min k (length points) /\ Sorted (fun a b => fst a <= fst b) res /\
  exists others, Permutation points (res ++ others) /\ forall r o, In r res -> In o others -> fst r <= fst o.
(** What std::sort does with pairs of an index and a distance. *)
Definition sorts (sort : list (nat * Z) -> list (nat * Z)) : Prop := forall l, Permutation (sort l) l /\ Sorted (fun a b => snd a <= snd b) (sort l).
