(** Vocabulary for helpers, grids and averages. *)
From Coq Require Import Reals List ZArith.
From Flocq Require Import Core.
From Verif Require Import QuatModel.
Import ListNotations.
Open Scope R_scope.

(** Rounding to single and double precision, nearest even. *)
Definition to_float (x : R) : R := round radix2 (FLT_exp (-149) 24) ZnearestE x.
Definition to_double (x : R) : R := round radix2 (FLT_exp (-1074) 53) ZnearestE x.
(** [a] and [b] denote the same direction. *)
Definition same_direction (a b : R) : Prop := exists k : Z, a = b + IZR k * (2 * PI).
(** Component (0, 1, 2 for x, y, z) of a vector. *)
Definition part (i : nat) (p : vec3) : R := match i with O => vx p | S O => vy p | _ => vz p end.
(** Sum of a list. *)
Definition total (l : list R) : R := fold_right Rplus 0 l.
(** All components of [v] are within their limits; a negative limit is none. *)
Definition within (v limits : list R) : Prop := forall i x m, nth_error v i = Some x -> nth_error limits i = Some m -> m < 0 \/ Rabs x <= m.
(** One limit for all components, or one for each. *)
Definition limits_for (v limits : list R) : list R := match limits with [m] => repeat m (length v) | _ => limits end.
(** The cell [p] is inside the cube of size [n]. *)
Definition inside (n : Z) (p : Z * Z * Z) : Prop := let '(x, y, z) := p in (0 <= x < n)%Z /\ (0 <= y < n)%Z /\ (0 <= z < n)%Z.
