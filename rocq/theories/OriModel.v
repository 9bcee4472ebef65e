(** Model of the pose helpers of VirtualRobot/math/Helpers.cpp and of LinearInterpolatedOrientation.cpp, over the real numbers.
    Homogeneous matrices are poses (last row 0 0 0 1); unit quaternions are represented by their rotation matrices.
    Eigen's decompositions and AngleAxis of a matrix are arguments. *)
From Coq Require Import Reals List Bool Arith.
From Verif Require Import QuatModel QuatSpec RpyModel KinModel HelpModel.
Import ListNotations.
Open Scope R_scope.

(** [Helpers::InvertPose], Helpers.cpp:226-230: the orientation is transposed first. *)
Definition invert_pose (g : pose) : pose := let o := mtrans (prot g) in let g1 := Pose o (ppos g) in Pose o (vscale (-1) (mapply (prot g1) (ppos g1))).
(** [Helpers::TranslatePose], Helpers.cpp:219-224. *)
Definition translate_pose (g : pose) (d : vec3) : pose := Pose (prot g) (vadd (ppos g) d).
(** [Helpers::TransformPosition], [TransformDirection], [TransformOrientation], Helpers.cpp:266-279. *)
Definition transform_position (g : pose) (p : vec3) : vec3 := vadd (mapply (prot g) p) (ppos g).
Definition transform_direction (g : pose) (d : vec3) : vec3 := mapply (prot g) d.
Definition transform_orientation (g : pose) (o : mat3) : mat3 := mmul (prot g) o.
(** [Helpers::CartesianFromCylinder], [CartesianFromSphere], Helpers.cpp:244-255. *)
Definition from_cylinder (radius angle height : R) : vec3 := Vec (radius * cos angle) (radius * sin angle) height.
Definition from_sphere (radius elevation azimuth : R) : vec3 :=
  let se := sin elevation in Vec (radius * se * cos azimuth) (radius * se * sin azimuth) (radius * cos elevation).
(** [Helpers::OrthogonalizeSVD], Helpers.cpp:286-295, on the result of the decomposition. *)
Definition mneg (o : mat3) : mat3 := Mat (- m00 o) (- m01 o) (- m02 o) (- m10 o) (- m11 o) (- m12 o) (- m20 o) (- m21 o) (- m22 o).
Definition orthogonalize_svd (u v : mat3) : mat3 := let o := mmul u (mtrans v) in if Rle_dec 0 (mdet o) then o else mneg o.
(** [Helpers::OrthogonalizeQR], Helpers.cpp:297-313: columns of Q with a negative diagonal entry of R change their sign. *)
Definition flip (d : R) : R := if Rlt_dec d 0 then -1 else 1.
Definition orthogonalize_qr (q r : mat3) : mat3 :=
  let a := flip (m00 r) in let b := flip (m11 r) in let c := flip (m22 r) in
  Mat (m00 q * a) (m01 q * b) (m02 q * c) (m10 q * a) (m11 q * b) (m12 q * c) (m20 q * a) (m21 q * b) (m22 q * c).
(** [Helpers::AngleModPI] on angles of AngleAxis, for which one iteration is more than enough; see C101. *)
Definition mod_pi (a : R) : R := match angle_mod 1 a with Some b => b | None => a end.
(** [Helpers::Distance], Helpers.cpp:323-328; [angle] is AngleAxisf(m).angle().  The inverse of a rotation is its transpose. *)
Definition pose_distance (angle : mat3 -> R) (a b : pose) (rad2mm : R) : R :=
  let aa := angle (mmul (prot b) (mtrans (prot a))) in vnorm (vsub (ppos a) (ppos b)) + mod_pi aa * rad2mm.
(** [Helpers::GetRotationVector], Helpers.cpp:354-358, of the result of AngleAxisf(target * start.inverse()). *)
Definition rotation_vector (angle : R) (axis : vec3) : vec3 := vscale angle axis.
(** [Helpers::RotationVectorToOrientation], Helpers.cpp:360-368. *)
Definition rotation_vector_to_orientation (w : vec3) : mat3 := if Req_EM_T (vdot w w) 0 then mid else axisangle2mat (vnormalize w) (vnorm w).

(** [LinearInterpolatedOrientation]: its members, and the constructor, LinearInterpolatedOrientation.cpp:29-38, given the result of AngleAxisf(endOri * startOri.inverse()).
    For startT = endT the code divides by zero; this is excluded in the theorems. *)
Record lio := Lio { o_start : mat3; o_angle : R; o_axis : vec3; o_s : R; o_e : R; o_clamp : bool; o_deriv : vec3 }.
Definition new_lio (aa_angle : R) (aa_axis : vec3) (start : mat3) (s e : R) (clamped : bool) : lio :=
  let angle := mod_pi aa_angle in
  let delta := if Rlt_dec (Rabs angle) (1 / 100) then Vec 0 0 0 else vscale angle aa_axis in
  Lio start angle aa_axis s e clamped (vscale (/ (e - s)) delta).
(** [Get], LinearInterpolatedOrientation.cpp:46-62. *)
Definition lio_get (o : lio) (t : R) : mat3 :=
  if Rlt_dec (vdot (o_deriv o) (o_deriv o)) (1 / 1000) then o_start o
  else let f := ilerp (o_s o) (o_e o) t in let f := if o_clamp o then clamp 0 1 f else f in mmul (axisangle2mat (o_axis o) (f * o_angle o)) (o_start o).
(** [GetDerivative], LinearInterpolatedOrientation.cpp:64-72. *)
Definition lio_derivative (o : lio) (t : R) : vec3 :=
  if o_clamp o && (if Rlt_dec t (o_s o) then true else if Rlt_dec (o_e o) t then true else false) then Vec 0 0 0 else o_deriv o.
(** [Helpers::Lerp] and [LerpClamp] of orientations, Helpers.cpp:93-101. *)
Definition lerp_orientation (aa_angle : R) (aa_axis : vec3) (a : mat3) (f : R) : mat3 := lio_get (new_lio aa_angle aa_axis a 0 1 false) f.
Definition lerp_clamp_orientation (aa_angle : R) (aa_axis : vec3) (a : mat3) (f : R) : mat3 := lio_get (new_lio aa_angle aa_axis a 0 1 true) f.
