(** Model of the curves of VirtualRobot/math: Bezier.cpp, LinearContinuedBezier.cpp, Line.cpp (as a curve), LineStrip.cpp, CompositeFunctionR1R6.cpp,
    TransformedFunctionR1R3.cpp and the sampling functions of AbstractFunctionR1R3.cpp.  Over the real numbers. *)
From Coq Require Import Reals List Bool ZArith.
From Verif Require Import QuatModel QuatSpec RpyModel JointModel KinModel.
Import ListNotations.
Open Scope R_scope.

(** Bezier.cpp:40-53. *)
Definition pow3 (x : R) : R := x * x * x.
Definition pow2 (x : R) : R := x * x.
Definition bezier_point (p0 p1 p2 p3 : vec3) (t : R) : vec3 :=
  vadd (vadd (vadd (vscale (pow3 (1 - t)) p0) (vscale (3 * t * pow2 (1 - t)) p1)) (vscale (3 * pow2 t * (1 - t)) p2)) (vscale (pow3 t) p3).
(** [CubicBezierDerivative], Bezier.cpp:65-68. *)
Definition bezier_derivative (p0 p1 p2 p3 : vec3) (t : R) : vec3 :=
  vadd (vsub (vadd (vsub (vadd (vscale (-3 * pow2 (1 - t)) p0) (vscale (3 * pow2 (1 - t)) p1)) (vscale (6 * (1 - t) * t) p1)) (vscale (6 * (1 - t) * t) p2))
             (vscale (3 * pow2 t) p2)) (vscale (3 * pow2 t) p3).
(** [LinearContinuedBezier::Get] and [GetDerivative], LinearContinuedBezier.cpp:31-43. *)
Definition continued_point (p0 p1 p2 p3 : vec3) (t : R) : vec3 :=
  if Rle_dec 0 t then
    if Rle_dec t 1 then bezier_point p0 p1 p2 p3 t
    else vadd p3 (vscale (t - 1) (vscale 3 (vsub p3 p2)))
  else vadd p0 (vscale (- t) (vscale 3 (vsub p0 p1))).
Definition continued_derivative (p0 p1 p2 p3 : vec3) (t : R) : vec3 :=
  if Rle_dec 0 t then
    if Rle_dec t 1 then bezier_derivative p0 p1 p2 p3 t
    else vscale 3 (vsub p3 p2)
  else vscale (-3) (vsub p0 p1).
(** [CubicBezier], Bezier.cpp:55-63, for a positive number of steps. *)
Definition bezier_points (p0 p1 p2 p3 : vec3) (steps : nat) : list vec3 :=
  map (fun i => bezier_point p0 p1 p2 p3 (1 / INR steps * INR i)) (seq 0 (S steps)).

(** [Line::Get] and [GetDerivative], Line.cpp:42-50. *)
Definition line_point (pos dir : vec3) (t : R) : vec3 := vadd pos (vscale t dir).
Definition line_derivative (pos dir : vec3) (t : R) : vec3 := dir.
(** [Helpers::ILerp], Helpers.cpp:105-108, and [CompositeFunctionR1R6], CompositeFunctionR1R6.cpp:34-54 (position; the orientation is the same). *)
Definition ilerp (a b f : R) : R := (f - a) / (b - a).
Definition composite_point (f : R -> vec3) (s e t : R) : vec3 := f (ilerp s e t).
Definition composite_derivative (f' : R -> vec3) (s e t : R) : vec3 := vscale (/ (e - s)) (f' (ilerp s e t)).
(** [TransformedFunctionR1R3::Get] and [GetDerivative], TransformedFunctionR1R3.cpp:37-45. *)
Definition transformed_point (g : pose) (f : R -> vec3) (t : R) : vec3 := vadd (mapply (prot g) (f t)) (ppos g).
Definition transformed_derivative (g : pose) (f' : R -> vec3) (t : R) : vec3 := mapply (prot g) (f' t).

(** static_cast<int> of a float that fits: towards zero. *)
Definition trunc (x : R) : Z := if Rle_dec 0 x then Int_part x else (- Int_part (- x))%Z.
(** [Helpers::GetIndex], Helpers.cpp:61-71, for values that fit into an int. *)
Definition get_index (t mn mx : R) (count : Z) : Z * R :=
  if Req_EM_T mn mx then (0%Z, 0)
  else
    let f := (t - mn) / (mx - mn) * IZR (count - 1) in
    let i := Z.max 0 (Z.min (count - 2) (trunc f)) in
    (i, f - IZR i).
(** [LineStrip::Get], LineStrip.cpp:40-45; None: the exception of std::vector::at.  The same as LineStripR1RM.h:46-51. *)
Definition strip_point (points : list vec3) (mn mx t : R) : option vec3 :=
  let '(i, f) := get_index t mn mx (Z.of_nat (length points)) in
  match nth_error points (Z.to_nat i), nth_error points (S (Z.to_nat i)) with
  | Some a, Some b => Some (vadd (vscale (1 - f) a) (vscale f b))
  | _, _ => None
  end.

(** [FindClosestPoint], AbstractFunctionR1R3.cpp:31-47. *)
Definition sample_at (t1 t2 : R) (segments i : nat) : R := t1 + (t2 - t1) * INR i / INR segments.
Definition dist2 (a b : vec3) : R := vdot (vsub a b) (vsub a b).
Definition closest (f : R -> vec3) (p : vec3) (t1 t2 : R) (segments : nat) : R :=
  fst (fold_left (fun '(mt, md) i =>
         let t := sample_at t1 t2 segments i in let d := dist2 (f t) p in
         if Rlt_dec d md then (t, d) else (mt, md)) (seq 1 segments) (t1, dist2 (f t1) p)).
(** [GetLength], AbstractFunctionR1R3.cpp:62-74. *)
Definition curve_length (f : R -> vec3) (t1 t2 : R) (steps : nat) : R :=
  fst (fold_left (fun '(l, p0) i =>
         let p1 := f (t1 + (t2 - t1) / INR steps * INR i) in (l + vnorm (vsub p1 p0), p1)) (seq 1 steps) (0, f t1)).
(** [Segments] and [Sample], AbstractFunctionR1R3.cpp:77-96, for a positive number of segments. *)
Definition segment_params (t1 t2 : R) (segments : nat) : list R := map (sample_at t1 t2 segments) (seq 0 (S segments)).
Definition samples (f : R -> vec3) (t1 t2 : R) (segments : nat) : list vec3 := map f (segment_params t1 t2 segments).
(** [MoveLengthOnCurve], AbstractFunctionR1R3.cpp:50-59. *)
Fixpoint move_loop (f' : R -> vec3) (steps : nat) (dl x : R) : R :=
  match steps with
  | O => x
  | S n => let d := vnorm (f' x) in move_loop f' n dl (x + dl / sqrt (1 + d * d))
  end.
Definition move_length (f' : R -> vec3) (x l : R) (steps : nat) : R := move_loop f' steps (l / INR steps) x.
