(** Model of the length, interpolation and time functions of MotionPlanning/CSpace/CSpacePath.cpp, over
    the search of TrajModel (CSpacePath.cpp:343-357 is the same loop as Trajectory.cpp:274-283). *)
From Coq Require Import Reals List Bool ZArith.
From Verif Require Import SampledModel SampledPlanModel TrajModel ShortcutModel.
Import ListNotations.
Open Scope R_scope.

(** The loop over the dimensions at the end of [CSpacePath::interpolate], CSpacePath.cpp:377-401:
    differences of limitless joints are wrapped once. *)
Definition wrap_once (diff : R) : R :=
  let diff := if Rlt_dec PI diff then diff - PI * 2 else diff in
  if Rlt_dec diff (- PI) then diff + PI * 2 else diff.
Fixpoint path_blend (ds : list dim) (c1 c2 : config) (factor : R) : config :=
  match ds, c1, c2 with
  | d :: ds, a :: c1, b :: c2 =>
      match d_kind d with
      | Linear => a + (b - a) * factor
      | _ => a + wrap_once (b - a) * factor
      end :: path_blend ds c1 c2 factor
  | _, _, _ => []
  end.

(** [CSpacePath::getLength(useCSpaceWeights)], CSpacePath.cpp:110-117: the flag is passed on as
    [forceDisablingMetricWeights] of [calcDist].  For an empty path the end index is out of range. *)
Definition cspath_length (ds : list dim) (use_weights : bool) (l : list config) : R :=
  match l with
  | [] => 0
  | _ => path_length (if use_weights then unweighted ds else ds) l 0 (length l - 1)
  end.

(** [CSpacePath::interpolate], CSpacePath.cpp:289-408: [getLength()] is [getLength(true)]; for t = 1 the
    stored index is [path.size()]. *)
Definition cspath_interpolate (ds : list dim) (l : list config) (t : R) : option (config * Z) :=
  interpolate_path (calc_dist ds) (path_blend ds) (cspath_length ds true l) (Z.of_nat (length l)) l t.

(** [CSpacePath::getTime], CSpacePath.cpp:250-286, for a path with at least one point. *)
Fixpoint time_loop (ds : list dim) (len : R) (l : list config) (c1 : config) (count i : nat) (t : R) : R :=
  match count with
  | O => t
  | S count =>
      let c2 := get_point (zero_config ds) l (S i) in
      time_loop ds len l c2 count (S i) (t + calc_dist ds c1 c2 / len)
  end.
Definition cspath_time (ds : list dim) (l : list config) (nr : nat) : R :=
  let nr := if (length l - 1 <? nr)%nat then (length l - 1)%nat else nr in
  time_loop ds (cspath_length ds true l) l (get_point (zero_config ds) l 0) nr 0 0.
