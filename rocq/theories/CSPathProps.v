(** C49: lengths and interpolation of C-space paths. *)
From Coq Require Import Reals List Bool ZArith Lia Lra.
From Verif Require Import SampledModel SampledSpec SampledProofs SampledPlanModel MetricSpec MetricProofs
  TrajModel TrajSpec TrajProofs CSPathModel CSPathSpec CSPathProofs.
Import ListNotations.
Open Scope R_scope.

(** C49. Without weights: interpolation returns the first configuration for t <= 0 and the last for
    t >= 1; in between, on a path of positive length, the configuration at the fraction t of the length
    and the index of its segment. *)
Theorem C49_interpolate : forall ds l t, unit_weights ds -> l <> [] ->
  (t <= 0 -> cspath_interpolate ds l t = Some (hd [] l, 0%Z)) /\
  (1 <= t -> exists i, cspath_interpolate ds l t = Some (last l [], i)) /\
  (0 < t < 1 -> 0 < total_length ds l -> exists q i, cspath_interpolate ds l t = Some (q, Z.of_nat i) /\
     at_arc (calc_dist ds) (path_blend ds) l (t * total_length ds l) i q).
Proof.
  intros ds l t Hu Hl. destruct l as [|p l]; [contradiction|]. unfold cspath_interpolate.
  destruct (cspath_length_eq ds (p :: l)) as [-> _]. rewrite unit_unweighted by assumption.
  destruct (interpolate_ends (calc_dist ds) (path_blend ds) (total_length ds (p :: l)) (Z.of_nat (length (p :: l))) p l t) as (H0 & H1).
  split; [exact H0|]. split.
  - intros H. rewrite (H1 H). exists (Z.of_nat (length (p :: l))). now rewrite last_cons_default.
  - intros Ht Hp. apply interpolate_inner; auto. apply total_arc.
Qed.
Print Assumptions C49_interpolate.

(** C49. The interpolated configuration divides its segment: with rotational limitless joints whose values
    are at most one and a half turns apart, its distances from the two ends are the fractions of the
    distance of the ends (so limitless joints go the shorter way). *)
Theorem C49_blend_divides : forall ds a b f, regular ds -> near_turns ds a b -> 0 <= f <= 1 ->
  calc_dist ds a (path_blend ds a b f) = f * calc_dist ds a b /\
  calc_dist ds (path_blend ds a b f) b = (1 - f) * calc_dist ds a b.
Proof. exact blend_dist. Qed.
Print Assumptions C49_blend_divides.

(** C49. Without weights [getTime] is the fraction of the length up to the point; indices past the end mean
    the last point. *)
Theorem C49_time : forall ds l nr, unit_weights ds -> total_length ds l <> 0 ->
  ((nr < length l)%nat -> cspath_time ds l nr = total_length ds (firstn (S nr) l) / total_length ds l) /\
  ((length l <= nr)%nat -> cspath_time ds l nr = 1).
Proof.
  intros ds l nr Hu Hn. split; [now apply time_ok|]. intros H. destruct l as [|c l]; [now destruct Hn|].
  rewrite time_clamped by (cbn in *; lia). rewrite time_ok; auto; [|cbn; lia].
  rewrite firstn_all2 by (cbn; lia). now field.
Qed.
Print Assumptions C49_time.

(** C49. [getLength()] and [getLength(true)] leave the weights out, [getLength(false)] uses them. *)
Theorem C49_length : forall ds l, cspath_length ds true l = total_length (unweighted ds) l /\
  cspath_length ds false l = total_length ds l.
Proof. exact cspath_length_eq. Qed.
Print Assumptions C49_length.

Example C49_witness : near_turns wheel [3] [-3] /\ regular wheel /\ unit_weights wheel.
Proof. exact wheel_near. Qed.

(** C49. The documentation says the opposite: with weights, [getLength()] is not the weighted length. *)
Theorem C49_length_doc_refuted : exists ds l, cspath_length ds true l <> total_length ds l.
Proof. exists heavy, [[0]; [1]]. destruct heavy_length as [-> ->]. lra. Qed.
Print Assumptions C49_length_doc_refuted.

(** C49. With weights the middle of a path is not found, and the time of the last point is not 1. *)
Theorem C49_weights_refuted : exists ds a b q i, regular ds /\
  cspath_interpolate ds [a; b] (1/2) = Some (q, i) /\ calc_dist ds a q <> calc_dist ds q b /\
  cspath_time ds [a; b] 1 <> 1.
Proof.
  exists heavy, [0], [1]. eexists _, _. split; [intros d [<-|[]]; discriminate|]. split; [exact heavy_half|].
  split; [|intros K; assert (2 = 1) by (etransitivity; [symmetry; exact heavy_time|exact K]); lra]. rewrite !heavy_dist. rewrite (Rabs_left (0 - _)), (Rabs_left (_ - 1)) by lra. lra.
Qed.
Print Assumptions C49_weights_refuted.

(** C49. More than one and a half turns apart: the interpolated configuration is further from the ends
    than they are from each other. *)
Theorem C49_turns_refuted : exists ds a b, regular ds /\ unit_weights ds /\
  calc_dist ds a (path_blend ds a b (1/2)) > calc_dist ds a b.
Proof.
  exists wheel, [0], [4 * PI + 1]. destruct wheel_near as (_ & H1 & H2). split; [exact H1|]. split; [exact H2|].
  destruct wheel_far as (-> & -> & H). lra.
Qed.
Print Assumptions C49_turns_refuted.

(** C49. For t = 1 the index that is stored is not the index of a point. *)
Theorem C49_last_index_refuted : forall ds l, l <> [] -> exists q i, cspath_interpolate ds l 1 = Some (q, i) /\
  (Z.of_nat (length l) <= i)%Z.
Proof.
  intros ds [|p l] H; [contradiction|]. unfold cspath_interpolate.
  destruct (interpolate_ends (calc_dist ds) (path_blend ds) (cspath_length ds true (p :: l)) (Z.of_nat (length (p :: l))) p l 1) as (_ & H1).
  rewrite H1 by lra. eexists _, _. split; [reflexivity|lia].
Qed.
Print Assumptions C49_last_index_refuted.
