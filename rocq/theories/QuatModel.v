(** Model of the quaternion functions of VirtualRobot/MathTools.cpp over the real numbers (rounding is left out).  Of Eigen, the
    conversion to a matrix ([QuaternionBase::toRotationMatrix]), the interpolation ([QuaternionBase::slerp]) and [normalize] are
    written down as in Eigen 3. *)
From Coq Require Import Reals List Lra.
Import ListNotations.
Open Scope R_scope.

(** [MathTools::Quaternion], MathTools.h:46-58. *)
Record quat := Quat { qx : R; qy : R; qz : R; qw : R }.
(** 3x3 matrices, row by row, and vectors. *)
Record mat3 := Mat { m00 : R; m01 : R; m02 : R; m10 : R; m11 : R; m12 : R; m20 : R; m21 : R; m22 : R }.
Record vec3 := Vec { vx : R; vy : R; vz : R }.

(** [multiplyQuaternions], MathTools.cpp:1452-1460. *)
Definition mul (a b : quat) : quat :=
  Quat (qw a * qx b + qw b * qx a + qy a * qz b - qz a * qy b)
       (qw a * qy b + qw b * qy a - qx a * qz b + qz a * qx b)
       (qw a * qz b + qw b * qz a + qx a * qy b - qy a * qx b)
       (qw a * qw b - qx a * qx b - qy a * qy b - qz a * qz b).
(** [getConjugated], MathTools.cpp:1442-1450. *)
Definition conj (q : quat) : quat := Quat (qx q * -1) (qy q * -1) (qz q * -1) (qw q).
(** [FLT_MIN]. *)
Definition flt_min : R := / 2 ^ 126.
(** [getInverse], MathTools.cpp:1424-1440; the number it divides by is named because division by zero is no error in the reals. *)
Definition inverse_divisor (q : quat) : R :=
  let t := qx q * qx q + qy q * qy q + qz q * qz q + qw q * qw q in
  if Req_EM_T t 0 then flt_min else t.
Definition inverse (q : quat) : quat :=
  let n := 1 / inverse_divisor q in
  let r := conj q in Quat (qx r * n) (qy r * n) (qz r * n) (qw r * n).
(** [getDelta], MathTools.cpp:1408-1412. *)
Definition delta (q1 q2 : quat) : quat := mul q2 (inverse q1).
(** [getDot], MathTools.cpp:1485-1488. *)
Definition dot (a b : quat) : R := qx a * qx b + qy a * qy b + qz a * qz b + qw a * qw b.

(** [quat2eigen4f], MathTools.cpp:727-737 (the rotation part; the rest of the matrix is that of the identity). *)
Definition to_mat (q : quat) : mat3 :=
  let tx := 2 * qx q in let ty := 2 * qy q in let tz := 2 * qz q in
  let twx := tx * qw q in let twy := ty * qw q in let twz := tz * qw q in
  let txx := tx * qx q in let txy := ty * qx q in let txz := tz * qx q in
  let tyy := ty * qy q in let tyz := tz * qy q in let tzz := tz * qz q in
  Mat (1 - (tyy + tzz)) (txy - twz) (txz + twy)
      (txy + twz) (1 - (txx + tzz)) (tyz - twx)
      (txz - twy) (tyz + twx) (1 - (txx + tyy)).

(** [NumTraits<float>::epsilon()]. *)
Definition flt_eps : R := / 2 ^ 23.
(** Eigen's [slerp]. *)
Definition eigen_slerp (a : quat) (t : R) (b : quat) : quat :=
  let d := dot a b in
  let absd := Rabs d in
  let '(s0, s1) :=
    if Rle_dec (1 - flt_eps) absd then (1 - t, t)
    else let th := acos absd in (sin ((1 - t) * th) / sin th, sin (t * th) / sin th) in
  let s1 := if Rlt_dec d 0 then - s1 else s1 in
  Quat (s0 * qx a + s1 * qx b) (s0 * qy a + s1 * qy b) (s0 * qz a + s1 * qz b) (s0 * qw a + s1 * qw b).
(** [slerp], MathTools.cpp:1536-1548; [None] is the exception. *)
Definition slerp (a b : quat) (alpha : R) : option quat :=
  if Rlt_dec alpha 0 then None else if Rlt_dec 1 alpha then None
  else let e := eigen_slerp a alpha b in Some (Quat (qx e) (qz e) (qx e) (qw e)).

(** [getMean], MathTools.cpp:1490-1534; the bound is 0.0001. *)
Definition qadd (a b : quat) : quat := Quat (qx a + qx b) (qy a + qy b) (qz a + qz b) (qw a + qw b).
Definition qneg (a : quat) : quat := Quat (- qx a) (- qy a) (- qz a) (- qw a).
Definition qdiv (a : quat) (m : R) : quat := Quat (qx a / m) (qy a / m) (qz a / m) (qw a / m).
Definition mean_step (r q : quat) : quat := if Rlt_dec 0 (dot r q) then qadd r q else qadd r (qneg q).
Definition get_mean (qs : list quat) : quat :=
  match qs with
  | [] => Quat 0 0 0 1
  | q0 :: _ =>
      let r := fold_left mean_step qs (Quat 0 0 0 0) in
      let mag := sqrt (qx r * qx r + qy r * qy r + qz r * qz r + qw r * qw r) in
      if Rlt_dec (1 / 10000) mag then qdiv r mag else q0
  end.

(** Vectors as in Eigen. *)
Definition vdot (a b : vec3) : R := vx a * vx b + vy a * vy b + vz a * vz b.
Definition vcross (a b : vec3) : vec3 := Vec (vy a * vz b - vz a * vy b) (vz a * vx b - vx a * vz b) (vx a * vy b - vy a * vx b).
Definition vscale (k : R) (a : vec3) : vec3 := Vec (k * vx a) (k * vy a) (k * vz a).
Definition vnorm (a : vec3) : R := sqrt (vdot a a).
(** [normalize]: a zero vector is left as it is. *)
Definition vnormalize (a : vec3) : vec3 := if Rlt_dec 0 (vdot a a) then vscale (/ vnorm a) a else a.
(** [getRotation], MathTools.cpp:617-667. *)
Definition get_rotation (from to : vec3) : quat :=
  let f := vnormalize from in
  let t := vnormalize to in
  let d := vdot f t in
  let c := vcross f t in
  if Req_EM_T (vnorm c) 0 then
    if Rlt_dec 0 d then Quat 0 0 0 1
    else
      let u := vcross f (Vec 1 0 0) in
      let u := if Req_EM_T (vnorm u) 0 then vcross f (Vec 0 1 0) else u in
      let u := vnormalize u in
      Quat (vx u) (vy u) (vz u) 0
  else
    let c := vnormalize c in
    let c := vscale (sqrt (1 / 2 * Rabs (1 - d))) c in
    Quat (vx c) (vy c) (vz c) (sqrt (1 / 2 * Rabs (1 + d))).
