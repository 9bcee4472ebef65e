(** Model of MotionPlanning/PostProcessing/ShortcutProcessor.cpp over CSpaceSampled (SampledModel), and
    of ElasticBandProcessor.cpp.  Paths are lists of configurations with the editing operations of
    TrajModel; the random numbers and the stop flag are arguments. *)
From Coq Require Import Reals List Bool ZArith.
From Verif Require Import SampledModel SampledPlanModel TrajModel.
Import ListNotations.
Open Scope nat_scope.

(** [CSpacePath::getLength(startIndex, endIndex, useCSpaceWeights)], CSpacePath.cpp:120-141; [ds] are the
    dimensions with the weights that [calcDist] uses. *)
Fixpoint length_loop (ds : list dim) (l : list config) (i count : nat) : R :=
  match count with
  | O => 0%R
  | S count => (calc_dist ds (nth i l []) (nth (S i) l []) + length_loop ds l (S i) count)%R
  end.
Definition path_length (ds : list dim) (l : list config) (s e : nat) : R :=
  if ((e <? s) || (length l <=? e))%bool then 0%R else length_loop ds l s (e - s).

(** A zero vector of the dimension of the C-space, the result of [getPoint] on an empty path. *)
Definition zero_config (ds : list dim) : config := map (fun _ => 0%R) ds.

(** [ShortcutProcessor::selectCandidatesRandom], ShortcutProcessor.cpp:226-282, for a path of [n] points
    ([n] < 2^31); [r1], [r2] are the results of the calls of [rand]. *)
Definition select_candidates (n : nat) (max_dist : Z) (r1 r2 : nat) : option (nat * nat) :=
  if n <=? 2 then None
  else
    let max_dist := if (max_dist <? 2)%Z then 2%Z else max_dist in
    let s := r1 mod (n - 2) in
    let remaining := n - 2 - s in
    let remaining := if (max_dist <? Z.of_nat remaining)%Z then Z.to_nat max_dist else remaining in
    if remaining =? 0 then None
    else
      let e := s + (2 + r2 mod remaining) in
      if ((n - 1 <? e) || (n - 1 <? s) || (e - s <=? 1))%bool then None else Some (s, e).

(** [ShortcutProcessor::validShortcut], ShortcutProcessor.cpp:284-329.  [getLength] passes
    useCSpaceWeights = true as forceDisablingMetricWeights: the length without weights. *)
Definition valid_shortcut (ds : list dim) (free : config -> bool) (dcd : R) (l : list config) (s e : nat) : bool :=
  let z := zero_config ds in
  if Rle_dec (path_length (unweighted ds) l s e * 0.99) (norm_diff (get_point z l s) (get_point z l e)) then false
  else sampled_path_valid ds free dcd max_depth (get_point z l s) (get_point z l e).

(** The loop that erases the positions i = e - 1 down to s + 1, ShortcutProcessor.cpp:75-79. *)
Fixpoint erase_between (count : nat) (l : list config) (s : nat) : list config :=
  match count with
  | O => l
  | S count' => erase_between count' (erase_position l (s + count)) s
  end.

(** [ShortcutProcessor::doShortcut], ShortcutProcessor.cpp:62-134, for non-negative indices: returned
    number and path.  [None]: [createPath] does not return. *)
Definition do_shortcut (ds : list dim) (sp : R) (l : list config) (s e : nat) : option (Z * list config) :=
  if ((length l <=? s) || (length l <=? e))%bool then Some (0%Z, l)
  else
    let z := zero_config ds in
    let l := erase_between (e - 1 - s) l s in
    let a := get_point z l s in
    let b := get_point z l (S s) in
    match sampled_create_path (steps (calc_dist ds a b) sp) ds sp a b with
    | None => None
    | Some p =>
        let '(new, l) :=
          if 2 <? length p then
            (length p - 2,
             insert_trajectory z l (S s) (erase_position (erase_position p (length p - 1)) 0))
          else (0, l) in
        Some ((Z.of_nat e - Z.of_nat s - 1 + Z.of_nat new)%Z, l)
    end.

(** [ShortcutProcessor::tryRandomShortcut], ShortcutProcessor.cpp:22-60. *)
Definition try_shortcut (ds : list dim) (free : config -> bool) (dcd sp : R) (max_dist : Z) (r1 r2 : nat)
    (l : list config) : option (Z * list config) :=
  match select_candidates (length l) max_dist r1 r2 with
  | None => Some (0%Z, l)
  | Some (s, e) => if valid_shortcut ds free dcd l s e then do_shortcut ds sp l s e else Some (0%Z, l)
  end.

(** The loop of [shortenSolutionRandom], ShortcutProcessor.cpp:169-176: [rand i] are the random numbers
    of iteration i and [stop i] is [stopOptimization] as read before it. *)
Fixpoint shorten_loop (ds : list dim) (free : config -> bool) (dcd sp : R) (max_dist : Z)
    (rand : nat -> nat * nat) (stop : nat -> bool) (count i : nat) (l : list config) : option (list config) :=
  match count with
  | O => Some l
  | S count =>
      if stop i then Some l
      else
        match try_shortcut ds free dcd sp max_dist (fst (rand i)) (snd (rand i)) l with
        | None => None
        | Some (_, l) => shorten_loop ds free dcd sp max_dist rand stop count (S i) l
        end
  end.

(** [ShortcutProcessor::shortenSolutionRandom] and [optimize], ShortcutProcessor.cpp:137-197. *)
Definition shorten (ds : list dim) (free : config -> bool) (dcd sp : R) (loops max_dist : Z)
    (rand : nat -> nat * nat) (stop : nat -> bool) (path : list config) : option (list config) :=
  let l := clone (zero_config ds) path in
  if length l <=? 2 then Some l
  else shorten_loop ds free dcd sp max_dist rand stop (Z.to_nat loops) 0 l.

(** [i < n - 2] with 32 bit unsigned numbers. *)
Definition before_last_two (i n : nat) : bool := (Z.of_nat i <? (Z.of_nat n - 2) mod 2 ^ 32)%Z.

(** The loop of [doPathPruning], ShortcutProcessor.cpp:203-223; [None]: out of fuel. *)
Fixpoint prune_loop (fuel : nat) (ds : list dim) (free : config -> bool) (dcd : R) (i : nat) (l : list config)
  : option (list config) :=
  match fuel with
  | O => None
  | S fuel =>
      if before_last_two i (length l) then
        let z := zero_config ds in
        if sampled_path_valid ds free dcd max_depth (get_point z l i) (get_point z l (i + 2)) then
          prune_loop fuel ds free dcd (if 0 <? i then i - 1 else i) (erase_position l (S i))
        else prune_loop fuel ds free dcd (S i) l
      else Some l
  end.

(** [ShortcutProcessor::doPathPruning], ShortcutProcessor.cpp:199-224. *)
Definition prune (fuel : nat) (ds : list dim) (free : config -> bool) (dcd : R) (path : list config)
  : option (list config) := prune_loop fuel ds free dcd 0 (clone (zero_config ds) path).

(** * ElasticBandProcessor.cpp *)

(** Outcome of [optimize]: the path, or [std::out_of_range] thrown by [getPointRef]
    (Trajectory.cpp:351-354, [path.at]). *)
Inductive band_result := Band (l : list config) | OutOfRange.

(** [getNeighborCForce], ElasticBandProcessor.cpp:141-156: factor 0.5 and bound 20. *)
Definition scale (f : R) (c : config) : config := map (fun x => (f * x)%R) c.
Definition vec_add (a b : config) : config := map (fun p => (fst p + snd p)%R) (combine a b).
Definition vec_sub (a b : config) : config := map (fun p => (fst p - snd p)%R) (combine a b).
Definition vec_mul (a b : config) : config := map (fun p => (fst p * snd p)%R) (combine a b).
Definition norm (c : config) : R := sqrt (fold_right Rplus 0%R (map (fun x => (x * x)%R) c)).
Definition neighbor_force (before act next : config) : config :=
  let fc := scale 0.5 (scale 0.5 (vec_add (vec_sub before act) (vec_sub next act))) in
  if Rlt_dec 20 (norm fc) then scale (20 / norm fc) fc else fc.

(** [elasticBandLoop], ElasticBandProcessor.cpp:158-208, for i from [i], [count] values left.
    [obstacle act] is the obstacle force in the C-space of [getObstacleForce] and [getCSpaceForce], and
    [None] if they fail. *)
Fixpoint band_loop (obstacle : config -> option config) (weights : config) (count i : nat) (l : list config)
  : list config :=
  match count with
  | O => l
  | S count =>
      let act := nth i l [] in
      let l :=
        match obstacle act with
        | None => l
        | Some fo =>
            let fc := vec_mul (vec_add fo (neighbor_force (nth (i - 1) l []) act (nth (S i) l []))) weights in
            firstn i l ++ vec_add act fc :: skipn (S i) l
        end in
      band_loop obstacle weights count (S i) l
  end.

(** [checkRemoveNodes], ElasticBandProcessor.cpp:211-234: [s] is the sampling size.  The assignments to
    the references after [erasePosition] assign elements to themselves (their references are formally
    invalid by then; the storage of the vector does not move).  [fuel] bounds the iterations, of which
    there are at most the number of points. *)
Fixpoint remove_nodes (fuel : nat) (ds : list dim) (s : R) (i : nat) (l : list config) : list config :=
  match fuel with
  | O => l
  | S fuel =>
      if i <? length l - 2 then
        let d1 := calc_dist2 ds (nth (i - 1) l []) (nth i l []) in
        let d2 := calc_dist2 ds (nth i l []) (nth (S i) l []) in
        remove_nodes fuel ds s (S i) (if Rlt_dec (d1 + d2) (2 * s * s) then erase_position l i else l)
      else l
  end.

(** The loop of [optimize], ElasticBandProcessor.cpp:300-317.  With no point, [getPointRef(0)] throws in
    [elasticBandLoop], with one point [getPointRef(1)] in [checkRemoveNodes] (n - 1 and n - 2 are unsigned). *)
Fixpoint band_steps (obstacle : nat -> config -> option config) (weights : config) (ds : list dim) (s : R)
    (count k : nat) (l : list config) : band_result :=
  match count with
  | O => Band l
  | S count =>
      if length l <? 2 then OutOfRange
      else
        let l := band_loop (obstacle k) weights (length l - 2) 1 l in
        band_steps obstacle weights ds s count (S k) (remove_nodes (length l) ds s 1 l)
  end.

(** [ElasticBandProcessor::optimize], ElasticBandProcessor.cpp:294-324; [obstacle k] is the force field
    in step k. *)
Definition band_optimize (obstacle : nat -> config -> option config) (weights : config) (ds : list dim) (s : R)
    (opt_steps : Z) (path : list config) : band_result :=
  band_steps obstacle weights ds s (Z.to_nat opt_steps) 0 (clone (zero_config ds) path).
