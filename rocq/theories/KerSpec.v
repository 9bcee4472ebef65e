(** Vocabulary for kernels and implicit surfaces. *)
From Coq Require Import Reals List.
From Verif Require Import QuatModel CrvSpec.
Import ListNotations.
Open Scope R_scope.

(** Sum of the first [n] values. *)
Fixpoint sum_to (n : nat) (f : nat -> R) : R := match n with O => 0 | S m => sum_to m f + f m end.
(** Component [i] (x, y, z for 0, 1, 2) of a vector, and the point shifted by [s] along axis [i]. *)
Definition coord (i : nat) (p : vec3) : R := match i with O => vx p | S O => vy p | _ => vz p end.
Definition shift (i : nat) (s : R) (p : vec3) : vec3 :=
  match i with O => Vec (vx p + s) (vy p) (vz p) | S O => Vec (vx p) (vy p + s) (vz p) | _ => Vec (vx p) (vy p) (vz p + s) end.
(** [d] is the partial derivative of [f] at [p] along axis [i]. *)
Definition partial (f : vec3 -> R) (p : vec3) (i : nat) (d : R) : Prop := derivable_pt_lim (fun s => f (shift i s p)) 0 d.
(** [b] is the inverse of the n x n matrix [a]. *)
Definition inverse_of (n : nat) (a b : nat -> nat -> R) : Prop :=
  (forall i j, (i < n)%nat -> (j < n)%nat -> sum_to n (fun k => a i k * b k j) = if Nat.eqb i j then 1 else 0) /\
  (forall i j, (i < n)%nat -> (j < n)%nat -> sum_to n (fun k => b i k * a k j) = if Nat.eqb i j then 1 else 0).
