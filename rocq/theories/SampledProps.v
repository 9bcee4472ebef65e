(** C08, C46, C47: the paths of CSpaceSampled. *)
From Coq Require Import Reals List Bool Lra.
From Verif Require Import AngleModel AngleSpec AngleProofs SampledModel SampledSpec SampledProofs.
Import ListNotations.
Open Scope R_scope.

(** C08. A positive answer of [isPathValid] comes with a chain of configurations along the segment whose
    steps are at most 1.001 times the sampling size, and which were all found valid. *)
Theorem C08_path_valid_sound : forall ds free dcd depth q1 q2,
  regular ds -> 0 < dcd -> length q1 = length ds -> length q2 = length ds ->
  sampled_path_valid ds free dcd depth q1 q2 = true ->
  free q2 = true /\
  exists l, chain ds (fun q => free q = true) (1.001 * dcd) q1 l q2 /\ forward_on_segment ds q1 q2 0 l 1.
Proof. exact path_valid_sound. Qed.
Print Assumptions C08_path_valid_sound.

(** C08. Conversely, a segment on which everything is valid is accepted if it is not longer than
    2^depth sampling steps; a call from outside has depth 999. *)
Theorem C08_path_valid_complete : forall ds free dcd depth q1 q2,
  regular ds -> 0 < dcd -> length q1 = length ds -> length q2 = length ds ->
  calc_dist ds q1 q2 <= 2 ^ depth * (1.001 * dcd) ->
  (forall q, on_segment ds q1 q2 q -> free q = true) ->
  sampled_path_valid ds free dcd depth q1 q2 = true.
Proof. exact path_valid_complete. Qed.
Print Assumptions C08_path_valid_complete.

(** A joint with borders and a limitless one, going from 3 to -3 through pi. *)
Example C08_witness : regular arm /\ sampled_path_valid arm (fun _ => true) 0.1 6 [0; 3] [3; -3] = true.
Proof.
  split; [exact arm_regular|].
  apply path_valid_complete; auto using arm_regular; try lra; try reflexivity. pose proof arm_dist. lra.
Qed.

(** C08. For a limitless translational joint the check is void: the distance is measured like an angle
    but the joint moves linearly.  The motion from 0 to 2 pi is accepted although every configuration
    strictly between is in collision. *)
Theorem C08_limitless_slider_refuted : exists ds free dcd q1 q2,
  0 < dcd /\ length q1 = length ds /\ length q2 = length ds /\
  sampled_path_valid ds free dcd 999 q1 q2 = true /\
  forall f q, 0 < f < 1 -> at_fraction f ds q1 q2 q -> free q = false.
Proof.
  exists [Dim Slide 1], blocked, 0.1, [0], [2 * PI]. split; [lra|]. split; [reflexivity|]. split; [reflexivity|].
  split; [exact (slider_wrong 999)|exact slider_blocked].
Qed.
Print Assumptions C08_limitless_slider_refuted.

(** The laws of the metric and the interpolation of the C-space: the configuration at the fraction f
    is on the segment, and distances along the segment are proportional to the fractions. *)
Theorem C08_interpolation : forall ds q1 q2 f g x y, regular ds -> 0 <= f <= 1 -> f <= g <= 1 ->
  length q1 = length ds -> length q2 = length ds ->
  at_fraction f ds q1 q2 (interpolate ds q1 q2 f) /\ 
  (at_fraction f ds q1 q2 x -> at_fraction g ds q1 q2 y -> calc_dist ds x y = (g - f) * calc_dist ds q1 q2).
Proof.
  intros ds q1 q2 f g x y Hr Hf Hg H1 H2. split; [now apply at_fraction_interpolate|].
  now apply dist_between.
Qed.
Print Assumptions C08_interpolation.

(** C46. [createPath] with a positive sampling size terminates; the path starts with the start, runs
    along the segment without going back in steps of at most 1.05 times the sampling size, and ends in
    the goal or less than 1e-6 before it. *)
Theorem C46_create_path : forall ds s start goal fuel, regular ds ->
  length start = length ds -> length goal = length ds -> 0 < s ->
  calc_dist ds start goal <= INR fuel * s -> (2 <= fuel)%nat ->
  exists l, sampled_create_path fuel ds s start goal = Some (start :: l) /\
    forward_on_segment ds start goal 0 (start :: l) 1 /\ spaced ds (1.05 * s) (start :: l) /\
    (last l start = goal \/ calc_dist ds (last l start) goal < 1e-6).
Proof. exact create_path_ok. Qed.
Print Assumptions C46_create_path.

Example C46_witness : regular arm /\ exists l, sampled_create_path 100 arm 0.1 [0; 3] [3; -3] = Some ([0; 3] :: l).
Proof.
  split; [exact arm_regular|].
  destruct (create_path_ok arm 0.1 [0; 3] [3; -3] 100) as (l & E & _); auto using arm_regular; try lra.
  - reflexivity.
  - reflexivity.
  - pose proof arm_dist. replace (INR 100) with 100 by (rewrite INR_IZR_INZ; reflexivity). lra.
  - auto with arith.
  - now exists l.
Qed.

(** C46. The goal itself need not be on the path. *)
Theorem C46_goal_missing_refuted : exists ds s start goal l, regular ds /\ 0 < s /\
  length start = length ds /\ length goal = length ds /\
  (forall fuel, (1 <= fuel)%nat -> sampled_create_path fuel ds s start goal = Some l) /\ ~ In goal l.
Proof.
  exists [Dim Linear 1], 1, [0], [1 + 5e-7], [[0]; [1]]. split.
  { intros d [<-|[]]. discriminate. }
  split; [lra|]. split; [reflexivity|]. split; [reflexivity|]. split; [exact create_path_short_of_goal|].
  intros [E|[E|[]]]; injection E as E; lra.
Qed.
Print Assumptions C46_goal_missing_refuted.

(** C46. With sampling size 0 [createPath] never returns. *)
Theorem C46_zero_sampling_refuted : exists ds start goal, regular ds /\
  length start = length ds /\ length goal = length ds /\
  forall fuel, sampled_create_path fuel ds 0 start goal = None.
Proof.
  exists [Dim Linear 1], [0], [1]. split.
  { intros d [<-|[]]. discriminate. }
  split; [reflexivity|]. split; [reflexivity|]. exact create_path_zero_step.
Qed.
Print Assumptions C46_zero_sampling_refuted.

(** C47. [createPathUntilInvalid] terminates for a positive collision sampling size.  Its path starts in
    the start, runs along the segment without going back, its points are at most the two sampling sizes
    apart and belong to a chain of accepted configurations whose steps are at most the collision
    sampling size; that chain reaches at least the reported fraction of the way.  The reported fraction
    is 1 exactly if the goal was reached (or start and goal have distance 0), otherwise some
    configuration on the segment is not acceptable. *)
Theorem C47_create_path_until_invalid : forall fuel ds free inside dcd sp start goal,
  regular ds -> length start = length ds -> length goal = length ds -> 0 < dcd -> 0 <= sp ->
  calc_dist ds start goal <= INR fuel * dcd ->
  exists l len, sampled_create_path_until fuel ds free inside dcd sp start goal = Some (start :: l, len) /\
    spaced ds (sp + dcd) (start :: l) /\
    (exists m q g, chain ds (accepted free inside goal) dcd start m q /\
       forward_on_segment ds start goal 0 m g /\ forward_on_segment ds start goal 0 (start :: l) g /\ g <= 1 /\
       at_fraction g ds start goal q /\ (0 < calc_dist ds start goal -> len <= g) /\ incl l m) /\ 0 <= len <= 1 /\
    (len = 1 -> last l start = goal \/ calc_dist ds start goal = 0 /\ l = []) /\
    (len <> 1 -> exists q, on_segment ds start goal q /\ ~ accepted free inside goal q).
Proof. exact create_path_until_ok. Qed.
Print Assumptions C47_create_path_until_invalid.

Example C47_witness : regular [Dim Linear 1] /\ exists l len,
  sampled_create_path_until 10 [Dim Linear 1] (fun _ => true) (fun _ => true) 0.1 0.1 [0] [1] = Some ([0] :: l, len).
Proof.
  split. { intros d [<-|[]]. discriminate. }
  destruct (create_path_until_ok 10 [Dim Linear 1] (fun _ => true) (fun _ => true) 0.1 0.1 [0] [1]) as (l & len & E & _);
    try reflexivity; try lra.
  - intros d [<-|[]]. discriminate.
  - rewrite dist1_linear, Rabs_left by lra. rewrite INR_IZR_INZ. cbn. lra.
  - now exists l, len.
Qed.

(** C47. With collision sampling size 0 it never returns. *)
Theorem C47_zero_sampling_refuted : exists ds free inside sp start goal, regular ds /\ 0 < sp /\
  length start = length ds /\ length goal = length ds /\
  forall fuel, sampled_create_path_until fuel ds free inside 0 sp start goal = None.
Proof.
  exists [Dim Linear 1], (fun _ => true), (fun _ => true), 1, [0], [1]. split.
  { intros d [<-|[]]. discriminate. }
  split; [lra|]. split; [reflexivity|]. split; [reflexivity|]. exact until_zero_step.
Qed.
Print Assumptions C47_zero_sampling_refuted.
