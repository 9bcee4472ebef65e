(** Model of the roll-pitch-yaw and axis-angle conversions of VirtualRobot/MathTools.cpp over the real numbers (rounding is left
    out, [M_PIf] is pi). *)
From Coq Require Import Reals.
From Verif Require Import QuatModel.
Open Scope R_scope.

(** [std::atan2] over the reals (no signed zeros). *)
Definition atan2 (y x : R) : R :=
  if Rlt_dec 0 x then atan (y / x)
  else if Rlt_dec x 0 then (if Rle_dec 0 y then atan (y / x) + PI else atan (y / x) - PI)
  else if Rlt_dec 0 y then PI / 2 else if Rlt_dec y 0 then - (PI / 2) else 0.

(** A pose: the upper three rows of an [Eigen::Matrix4f]; the last row of every matrix written here is (0,0,0,1). *)
Record pose := Pose { prot : mat3; ppos : vec3 }.
(** The array of six numbers. *)
Record posrpy := PosRpy { ax : R; ay : R; az : R; roll : R; pitch : R; yaw : R }.

(** The constant 1e-10f. *)
Definition band : R := 1 / 10 ^ 10.
(** [eigen4f2rpy], MathTools.cpp:198-227. *)
Definition eigen4f2rpy (p : pose) : posrpy :=
  let m := prot p in
  let beta := atan2 (- m20 m) (sqrt (m00 m * m00 m + m10 m * m10 m)) in
  let '(alpha, gamma) :=
    if Rlt_dec (Rabs (beta - PI * (1 / 2))) band then (0, atan2 (m01 m) (m11 m))
    else if Rlt_dec (Rabs (beta + PI * (1 / 2))) band then (0, - atan2 (m01 m) (m11 m))
    else let cb := 1 / cos beta in (atan2 (m10 m * cb) (m00 m * cb), atan2 (m21 m * cb) (m22 m * cb)) in
  PosRpy (vx (ppos p)) (vy (ppos p)) (vz (ppos p)) gamma beta alpha.

(** [rpy2eigen4f] and [rpy2eigen3f], MathTools.cpp:259-323 (the rotation part; the translation is zero). *)
Definition rpy2mat (r p y : R) : mat3 :=
  let sg := sin r in let cg := cos r in let sb := sin p in let cb := cos p in let sa := sin y in let ca := cos y in
  Mat (ca * cb) (ca * sb * sg - sa * cg) (ca * sb * cg + sa * sg)
      (sa * cb) (sa * sb * sg + ca * cg) (sa * sb * cg - ca * sg)
      (- sb) (cb * sg) (cb * cg).
(** [posrpy2eigen4f], MathTools.cpp:325-331. *)
Definition posrpy2eigen4f (x : posrpy) : pose := Pose (rpy2mat (roll x) (pitch x) (yaw x)) (Vec (ax x) (ay x) (az x)).

(** [axisangle2eigen4f], MathTools.cpp:1344-1367 (the rotation part; the function leaves the rest of the matrix as it was). *)
Definition axisangle2mat (a : vec3) (angle : R) : mat3 :=
  let c := cos angle in let s := sin angle in let t := 1 - c in
  Mat (c + vx a * vx a * t) (vx a * vy a * t - vz a * s) (vx a * vz a * t + vy a * s)
      (vx a * vy a * t + vz a * s) (c + vy a * vy a * t) (vy a * vz a * t - vx a * s)
      (vx a * vz a * t - vy a * s) (vy a * vz a * t + vx a * s) (c + vz a * vz a * t).
