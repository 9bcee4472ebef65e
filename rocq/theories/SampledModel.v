(** Model of the metric, the interpolation and the sampled paths of the C-space:
    MotionPlanning/CSpace/CSpace.cpp and CSpaceSampled.cpp, over the real numbers ([float] exact).
    A configuration is the list of its joint values.  The answers of the collision checker and the
    constraints are a function of the configuration. *)
From Coq Require Import Reals List Bool.
From Verif Require Import AngleModel.
Import ListNotations.
Open Scope R_scope.

Definition config := list R.

(** A dimension of the C-space: [Linear] joint with borders; [Circular c] limitless rotational joint
    with c = 0.5 * (boundaryMax + boundaryMin); [Slide] limitless translational joint
    (CSpace.cpp:603-632, [isBorderlessDimension], 814-828). *)
Inductive dim_kind := Linear | Circular (center : R) | Slide.

(** [d_weight] is the metric weight, 1 if the weights are disabled. *)
Record dim := Dim { d_kind : dim_kind; d_weight : R }.

(** The variable [dist] in the loop of [calcDist2], CSpace.cpp:306-315. *)
Definition dim_delta (d : dim) (a b : R) : R :=
  match d_kind d with
  | Linear => a - b
  | _ => Rabs (angle_delta a b)
  end.

(** [CSpace::calcDist2], CSpace.cpp:298-328. *)
Fixpoint calc_dist2 (ds : list dim) (c1 c2 : config) : R :=
  match ds, c1, c2 with
  | d :: ds, a :: c1, b :: c2 =>
      d_weight d * d_weight d * dim_delta d a b * dim_delta d a b + calc_dist2 ds c1 c2
  | _, _, _ => 0
  end.

(** [CSpace::calcDist], CSpace.cpp:293-296. *)
Definition calc_dist (ds : list dim) (c1 c2 : config) : R := sqrt (calc_dist2 ds c1 c2).

(** [CSpace::interpolate(q1, q2, dim, step)], CSpace.cpp:603-661. *)
Definition dim_interpolate (d : dim) (a b step : R) : R :=
  match d_kind d with
  | Circular c => angle_mod_x (angle_lerp a b step) c
  | _ => a + step * (b - a)
  end.

(** [CSpace::interpolate(q1, q2, step)], CSpace.cpp:589-601. *)
Fixpoint interpolate (ds : list dim) (q1 q2 : config) (step : R) : config :=
  match ds, q1, q2 with
  | d :: ds, a :: q1, b :: q2 => dim_interpolate d a b step :: interpolate ds q1 q2 step
  | _, _, _ => []
  end.

(** [CSpace::generateNewConfig], CSpace.cpp:331-356, with a precalculated distance. *)
Definition generate_new_config (ds : list dim) (random nearest : config) (step pre : R) : config :=
  if Rle_dec pre step then random else interpolate ds nearest random (step / pre).

(** [CSpaceSampled::isPathValid], CSpaceSampled.cpp:239-274.  [free] is
    [isConfigValid(., false, true, true)], [dcd] is [samplingSizeDCD], [depth] the number of recursion
    levels left ([recursionMaxDepth - 1 - recursiveTmpValuesIndex], 999 for a call from outside).
    [stopPathCheck] is false. *)
Fixpoint sampled_path_valid (ds : list dim) (free : config -> bool) (dcd : R) (depth : nat)
         (q1 q2 : config) : bool :=
  let d := calc_dist ds q1 q2 in
  if Rle_dec d (dcd * 1.001) then free q2
  else
    match depth with
    | O => false
    | S depth =>
        let mid := generate_new_config ds q2 q1 (d * 0.5) d in
        sampled_path_valid ds free dcd depth q1 mid && sampled_path_valid ds free dcd depth mid q2
    end.

(** The loop of [CSpaceSampled::createPath], CSpaceSampled.cpp:110-146: the points added; [s] is
    [samplingSize].  [None]: out of fuel. *)
Fixpoint create_path_loop (fuel : nat) (ds : list dim) (s : R) (goal last : config) (dist : R)
         (last_node : bool) : option (list config) :=
  match fuel with
  | O => None
  | S fuel =>
      let c := if last_node then goal else interpolate ds last goal (s / dist) in
      let d := calc_dist ds c goal in
      if Rle_dec d (s * 1.05) then
        if (last_node || (if Rlt_dec d 1e-6 then true else false))%bool then Some [c]
        else option_map (cons c) (create_path_loop fuel ds s goal c d true)
      else option_map (cons c) (create_path_loop fuel ds s goal c d last_node)
  end.

(** [CSpaceSampled::createPath], CSpaceSampled.cpp:83-149. *)
Definition sampled_create_path (fuel : nat) (ds : list dim) (s : R) (start goal : config)
  : option (list config) :=
  let d := calc_dist ds start goal in
  if Req_EM_T d 0 then Some [start]
  else option_map (cons start)
         (create_path_loop fuel ds s goal start d (if Rlt_dec d s then true else false)).

(** The loop of [createPathUntilInvalid], CSpaceSampled.cpp:183-233: points added and the final
    [storeAddedLength].  [free] is [isConfigValid(., false, true, true)] and [inside]
    [isInBoundary]; [sp] is [samplingSizePaths]. *)
Fixpoint until_loop (fuel : nat) (ds : list dim) (free inside : config -> bool) (dcd sp : R)
         (goal : config) (orig : R) (tmp : config) (dist node_dist added : R)
  : option (list config * R) :=
  match fuel with
  | O => None
  | S fuel =>
      if Rle_dec dist dcd then
        if free goal then Some ([goal], 1) else Some ([], (orig - dist) / orig)
      else
        let c := generate_new_config ds goal tmp dcd dist in
        if (inside c && free c)%bool then
          let nd := node_dist + dcd in
          let d := calc_dist ds c goal in
          if Rle_dec sp nd then
            option_map (fun r => (c :: fst r, snd r))
              (until_loop fuel ds free inside dcd sp goal orig c d (nd - sp) ((orig - dist) / orig))
          else until_loop fuel ds free inside dcd sp goal orig c d nd added
        else Some ([], added)
  end.

(** [CSpaceSampled::createPathUntilInvalid], CSpaceSampled.cpp:151-236. *)
Definition sampled_create_path_until (fuel : nat) (ds : list dim) (free inside : config -> bool)
    (dcd sp : R) (start goal : config) : option (list config * R) :=
  let d := calc_dist ds start goal in
  if Req_EM_T d 0 then Some ([start], 1)
  else option_map (fun r => (start :: fst r, snd r))
         (until_loop fuel ds free inside dcd sp goal d start d 0 0).
