(** What the conversion properties talk about. *)
From Coq Require Import Reals.
From Verif Require Import QuatModel QuatSpec.
Open Scope R_scope.

(** Rotations about the coordinate axes. *)
Definition rot_x (a : R) : mat3 := Mat 1 0 0 0 (cos a) (- sin a) 0 (sin a) (cos a).
Definition rot_y (a : R) : mat3 := Mat (cos a) 0 (sin a) 0 1 0 (- sin a) 0 (cos a).
Definition rot_z (a : R) : mat3 := Mat (cos a) (- sin a) 0 (sin a) (cos a) 0 0 0 1.
(** Equal in every entry up to [e]. *)
Definition near (e : R) (a b : mat3) : Prop :=
  Rabs (m00 a - m00 b) <= e /\ Rabs (m01 a - m01 b) <= e /\ Rabs (m02 a - m02 b) <= e /\
  Rabs (m10 a - m10 b) <= e /\ Rabs (m11 a - m11 b) <= e /\ Rabs (m12 a - m12 b) <= e /\
  Rabs (m20 a - m20 b) <= e /\ Rabs (m21 a - m21 b) <= e /\ Rabs (m22 a - m22 b) <= e.
