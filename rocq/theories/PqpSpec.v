(** Bounding volume trees and what the queries should answer. *)
From Coq Require Import List ZArith QArith Bool PeanoNat Permutation.
From Verif Require Import PqpModel.
Import ListNotations.
Open Scope nat_scope.

Section Spec.
Context {V G P X : Type}.

(** The volume [b] of [o] is the root of a tree whose leaves are the triangles [l] (indices). *)
Inductive tree (o : model V G) : nat -> list nat -> Prop :=
| tree_leaf : forall b v i t, nth_error (m_bvs o) b = Some v -> first_child v = (- Z.of_nat i - 1)%Z ->
    nth_error (m_tris o) i = Some t -> tree o b [i]
| tree_node : forall b v c l1 l2, nth_error (m_bvs o) b = Some v -> first_child v = Z.of_nat c ->
    tree o c l1 -> tree o (c + 1) l2 -> tree o b (l1 ++ l2).

(** The pairs of volumes a traversal from the roots can meet, with their relative transformation. *)
Inductive met (g : geometry V G P X) (o1 o2 : model V G) (x0 : X) : X -> nat -> nat -> Prop :=
| met_root : met g o1 o2 x0 x0 0 0
| met_child1 : forall x b1 b2 v k c, met g o1 o2 x0 x b1 b2 -> nth_error (m_bvs o1) b1 = Some v ->
    (0 <= first_child v)%Z -> k = Z.to_nat (first_child v) \/ k = Z.to_nat (first_child v) + 1 ->
    nth_error (m_bvs o1) k = Some c -> met g o1 o2 x0 (g_enter1 g x (vol c)) k b2
| met_child2 : forall x b1 b2 v k c, met g o1 o2 x0 x b1 b2 -> nth_error (m_bvs o2) b2 = Some v ->
    (0 <= first_child v)%Z -> k = Z.to_nat (first_child v) \/ k = Z.to_nat (first_child v) + 1 ->
    nth_error (m_bvs o2) k = Some c -> met g o1 o2 x0 (g_enter2 g x (vol c)) b1 k.

(** The triangle [i] of the first and [j] of the second model touch; their distance is [d]. *)
Definition touch (g : geometry V G P X) (o1 o2 : model V G) (i j : nat) : Prop :=
  exists t1 t2, nth_error (m_tris o1) i = Some t1 /\ nth_error (m_tris o2) j = Some t2 /\
    g_contact g (corners t1) (corners t2) = true.
Definition apart (g : geometry V G P X) (o1 o2 : model V G) (i j : nat) (d : Q) (pts : P) : Prop :=
  exists t1 t2, nth_error (m_tris o1) i = Some t1 /\ nth_error (m_tris o2) j = Some t2 /\
    g_tridist g (corners t1) (corners t2) = (d, pts).

(** The overlap test is conservative: it holds for a met pair of volumes if triangles below them touch. *)
Definition overlap_sound (g : geometry V G P X) (o1 o2 : model V G) (x0 : X) : Prop :=
  forall x b1 b2 v1 v2 l1 l2 i j, met g o1 o2 x0 x b1 b2 ->
    nth_error (m_bvs o1) b1 = Some v1 -> nth_error (m_bvs o2) b2 = Some v2 ->
    tree o1 b1 l1 -> tree o2 b2 l2 -> In i l1 -> In j l2 -> touch g o1 o2 i j ->
    g_overlap g x (vol v1) (vol v2) = true.

(** The distance of a met pair of volumes is not larger than that of triangles below them. *)
Definition bvdist_sound (g : geometry V G P X) (o1 o2 : model V G) (x0 : X) : Prop :=
  forall x b1 b2 v1 v2 l1 l2 i j d pts, met g o1 o2 x0 x b1 b2 ->
    nth_error (m_bvs o1) b1 = Some v1 -> nth_error (m_bvs o2) b2 = Some v2 ->
    tree o1 b1 l1 -> tree o2 b2 l2 -> In i l1 -> In j l2 -> apart g o1 o2 i j d pts ->
    (g_bvdist g x (vol v1) (vol v2) <= d)%Q.

(** Every triangle of the model is below the root, once. *)
Definition complete_tree (o : model V G) : Prop :=
  exists l, tree o 0 l /\ Permutation l (seq 0 (length (m_tris o))).

(** The identifiers of the touching pairs among the triangles [l1] and [l2]. *)
Definition contact_of (g : geometry V G P X) (o1 o2 : model V G) (i j : nat) : list (Z * Z) :=
  match nth_error (m_tris o1) i, nth_error (m_tris o2) j with
  | Some t1, Some t2 => if g_contact g (corners t1) (corners t2) then [(tri_id t1, tri_id t2)] else []
  | _, _ => []
  end.
Definition contacts (g : geometry V G P X) (o1 o2 : model V G) (l1 l2 : list nat) : list (Z * Z) :=
  flat_map (fun i => flat_map (contact_of g o1 o2 i) l2) l1.
Definition all_contacts (g : geometry V G P X) (o1 o2 : model V G) : list (Z * Z) :=
  contacts g o1 o2 (seq 0 (length (m_tris o1))) (seq 0 (length (m_tris o2))).

End Spec.
