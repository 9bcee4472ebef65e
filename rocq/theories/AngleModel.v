(** Model of the angle helpers of VirtualRobot/MathTools.cpp, over the real numbers: [float] is taken to
    be exact and [M_PIf] is [PI]. *)
From Coq Require Import Reals ZArith.
Open Scope R_scope.

(** Rounding towards zero. *)
Definition trunc (x : R) : Z := if Rle_dec 0 x then Int_part x else (- Int_part (- x))%Z.

(** [std::fmod(x, y)], for y <> 0: x - trunc(x/y) * y. *)
Definition std_fmod (x y : R) : R := x - IZR (trunc (x / y)) * y.

(** [MathTools::fmod], MathTools.cpp:2068-2076. *)
Definition math_fmod (value lo hi : R) : R :=
  let v := std_fmod (value - lo) (hi - lo) + lo in
  if Rlt_dec v lo then v + (hi - lo) else v.

(** [MathTools::angleMod2PI], MathTools.cpp:2078-2081. *)
Definition angle_mod_2pi (value : R) : R := math_fmod value 0 (2 * PI).

(** [MathTools::angleModPI], MathTools.cpp:2083-2086. *)
Definition angle_mod_pi (value : R) : R := angle_mod_2pi (value + PI) - PI.

(** [MathTools::angleModX], MathTools.cpp:2088-2091. *)
Definition angle_mod_x (value center : R) : R := angle_mod_2pi (value + PI - center) - PI + center.

(** [MathTools::Lerp], MathTools.cpp:2093-2096. *)
Definition lerp (a b f : R) : R := a * (1 - f) + b * f.

(** [MathTools::ILerp], MathTools.cpp:2098-2101. *)
Definition ilerp (a b f : R) : R := (f - a) / (b - a).

(** [MathTools::AngleLerp], MathTools.cpp:2103-2107; the same code is in
    [CSpace::interpolateRotational], CSpace.cpp:639-661. *)
Definition angle_lerp (a b f : R) : R := lerp a (math_fmod b (a - PI) (a + PI)) f.

(** [MathTools::AngleDelta], MathTools.cpp:2109-2112. *)
Definition angle_delta (a b : R) : R := angle_mod_pi (b - a).
