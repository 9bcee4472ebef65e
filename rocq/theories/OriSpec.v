(** Vocabulary for poses and interpolated orientations. *)
From Coq Require Import Reals List.
From Verif Require Import QuatModel QuatSpec RpyModel.
Import ListNotations.
Open Scope R_scope.

Definition orthogonal (a : mat3) : Prop := mmul a (mtrans a) = mid /\ mmul (mtrans a) a = mid.
(** Squared Frobenius distance of two matrices. *)
Definition apart (a b : mat3) : R :=
  (m00 a - m00 b) ^ 2 + (m01 a - m01 b) ^ 2 + (m02 a - m02 b) ^ 2 + (m10 a - m10 b) ^ 2 + (m11 a - m11 b) ^ 2 + (m12 a - m12 b) ^ 2 + (m20 a - m20 b) ^ 2 + (m21 a - m21 b) ^ 2 + (m22 a - m22 b) ^ 2.
(** Singular value decomposition and QR decomposition of a matrix. *)
Definition svd_of (m u : mat3) (s : vec3) (v : mat3) : Prop :=
  orthogonal u /\ orthogonal v /\ 0 <= vx s /\ 0 <= vy s /\ 0 <= vz s /\ m = mmul (mmul u (Mat (vx s) 0 0 0 (vy s) 0 0 0 (vz s))) (mtrans v).
Definition qr_of (m q r : mat3) : Prop := orthogonal q /\ m10 r = 0 /\ m20 r = 0 /\ m21 r = 0 /\ m = mmul q r.
(** Angle and axis of a rotation matrix: the angle of at most a half turn, and a unit axis. *)
Definition angle_axis_of (m : mat3) (angle : R) (axis : vec3) : Prop := 0 <= angle <= PI /\ vx axis * vx axis + vy axis * vy axis + vz axis * vz axis = 1 /\ m = axisangle2mat axis angle.
(** A rotation by [angle] from time [s] to [e] of at least 0.01 radians and with a squared speed of at least 1/1000. *)
Definition fast (angle s e : R) : Prop := 1 / 100 <= angle /\ (e - s) * (e - s) <= 1000 * (angle * angle).
