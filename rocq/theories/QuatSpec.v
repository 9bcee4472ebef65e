(** What the quaternion properties talk about: rotation matrices and unit quaternions. *)
From Coq Require Import Reals.
From Verif Require Import QuatModel.
Open Scope R_scope.

Definition mmul (a b : mat3) : mat3 :=
  Mat (m00 a * m00 b + m01 a * m10 b + m02 a * m20 b) (m00 a * m01 b + m01 a * m11 b + m02 a * m21 b) (m00 a * m02 b + m01 a * m12 b + m02 a * m22 b)
      (m10 a * m00 b + m11 a * m10 b + m12 a * m20 b) (m10 a * m01 b + m11 a * m11 b + m12 a * m21 b) (m10 a * m02 b + m11 a * m12 b + m12 a * m22 b)
      (m20 a * m00 b + m21 a * m10 b + m22 a * m20 b) (m20 a * m01 b + m21 a * m11 b + m22 a * m21 b) (m20 a * m02 b + m21 a * m12 b + m22 a * m22 b).
Definition mtrans (a : mat3) : mat3 := Mat (m00 a) (m10 a) (m20 a) (m01 a) (m11 a) (m21 a) (m02 a) (m12 a) (m22 a).
Definition mid : mat3 := Mat 1 0 0 0 1 0 0 0 1.
Definition mdet (a : mat3) : R :=
  m00 a * (m11 a * m22 a - m12 a * m21 a) - m01 a * (m10 a * m22 a - m12 a * m20 a) + m02 a * (m10 a * m21 a - m11 a * m20 a).
Definition mapply (a : mat3) (v : vec3) : vec3 :=
  Vec (m00 a * vx v + m01 a * vy v + m02 a * vz v) (m10 a * vx v + m11 a * vy v + m12 a * vz v) (m20 a * vx v + m21 a * vy v + m22 a * vz v).
(** Rotations: the inverse is the transposed matrix, and the determinant is one. *)
Definition rotation (a : mat3) : Prop := mmul a (mtrans a) = mid /\ mmul (mtrans a) a = mid /\ mdet a = 1.

Definition norm2 (q : quat) : R := qx q * qx q + qy q * qy q + qz q * qz q + qw q * qw q.
Definition unit (q : quat) : Prop := norm2 q = 1.
Definition one : quat := Quat 0 0 0 1.
Definition zero : quat := Quat 0 0 0 0.
Definition opp (q : quat) : quat := Quat (- qx q) (- qy q) (- qz q) (- qw q).

(** A point of the great arc from [a] to [b] (or to [-b] if that is nearer), at
    the fraction [t] of the angle, of norm one up to half a unit of precision. *)
Definition on_arc (a b : quat) (t : R) (e : quat) : Prop :=
  let c := Rabs (dot a b) in
  (exists s0 s1, 0 <= s0 /\ 0 <= s1 /\
     let sg := if Rlt_dec (dot a b) 0 then -1 else 1 in
     e = Quat (s0 * qx a + s1 * sg * qx b) (s0 * qy a + s1 * sg * qy b) (s0 * qz a + s1 * sg * qz b) (s0 * qw a + s1 * sg * qw b)) /\
  (t = 0 -> e = a) /\ (t = 1 -> e = b \/ e = opp b) /\
  1 - flt_eps / 2 <= norm2 e <= 1 /\
  (c < 1 - flt_eps -> norm2 e = 1 /\ dot a e = cos (t * acos c)).
