(** Vocabulary for C43: geometry in n dimensions. *)
From Coq Require Import Reals List.
From Verif Require Import BlendModel.
Import ListNotations.
Open Scope R_scope.

Section Dim.
Context (n : nat).
(** Distance of two points. *)
Definition dist (a b : vec) : R := sqrt (dot n (vsub a b) (vsub a b)).
(** Point at parameter t of the segment from a to b. *)
Definition between (a b : vec) (t : R) : vec := fun i => (1 - t) * a i + t * b i.
(** a and b are neighbours in a list. *)
Definition neighbours {T : Type} (l : list T) (a b : T) : Prop := exists l1 l2, l = l1 ++ a :: b :: l2.
(** p is at most d away from some point of the polyline through the waypoints. *)
Definition near_polyline (pts : list vec) (d : R) (p : vec) : Prop := exists a b t, neighbours pts a b /\ 0 <= t <= 1 /\ dist p (between a b t) <= d.
(** The direction of travel from a to b. *)
Definition direction (a b : vec) : vec := fun i => (b i - a i) / dist a b.
(** Consecutive waypoints are more than two millionths apart, and the path never turns back on itself. *)
Definition general (pts : list vec) : Prop :=
  (forall a b, neighbours pts a b -> 2 * tiny < dist a b)
  /\ (forall l1 l2 a b c, pts = l1 ++ a :: b :: c :: l2 -> exists i, (i < n)%nat /\ direction b c i <> - direction a b i).
(** No corner is so flat that it is left without blend. *)
Definition bent (pts : list vec) : Prop := forall l1 l2 a b c, pts = l1 ++ a :: b :: c :: l2 -> tiny <= dist (direction a b) (direction b c).
End Dim.
(** s is where one segment of the path ends or begins. *)
Definition boundary (l : list segment) (s : R) : Prop := exists l1 l2, l = l1 ++ l2 /\ s = total 0 l1.
(** Coefficient i of a vector that may be undefined. *)
Definition coeff (i : nat) (v : option vec) : R := match v with Some v => v i | None => 0 end.
