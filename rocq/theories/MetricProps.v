(** C50: the distance of the C-space is a metric on configurations. *)
From Coq Require Import Reals List Lra.
From Verif Require Import AngleSpec AngleModel AngleProofs SampledModel SampledSpec SampledProofs MetricSpec MetricProofs.
Import ListNotations.
Open Scope R_scope.

(** C50. [calcDist], with any weights and any mixture of bounded and limitless joints: not negative,
    symmetric, zero from a configuration to itself, and the triangle inequality. *)
Theorem C50_distance : forall ds p q r,
  length p = length ds -> length q = length ds -> length r = length ds ->
  0 <= calc_dist ds p q /\ calc_dist ds p q = calc_dist ds q p /\ calc_dist ds p p = 0 /\
  calc_dist ds p r <= calc_dist ds p q + calc_dist ds q r.
Proof.
  intros ds p q r Hp Hq Hr. split; [apply dist_nonneg|]. split; [apply dist_sym|]. split; [apply dist_self|].
  now apply dist_triangle.
Qed.
Print Assumptions C50_distance.

(** C50. If no weight is zero, the distance is zero exactly for the same configuration, where limitless
    joints are compared up to full turns. *)
Theorem C50_separation : forall ds p q, (forall d, In d ds -> d_weight d <> 0) ->
  length p = length ds -> length q = length ds -> (calc_dist ds p q = 0 <-> same_config ds p q).
Proof. exact dist_zero. Qed.
Print Assumptions C50_separation.

Example C50_witness : length [0; 3] = length arm /\ (forall d, In d arm -> d_weight d <> 0) /\
  calc_dist arm [1; 0] [1; 2 * PI] = 0.
Proof.
  split; [reflexivity|]. assert (W : forall d, In d arm -> d_weight d <> 0) by (intros d [<-|[<-|[]]]; cbn; lra).
  split; [exact W|]. apply dist_zero; auto; try reflexivity. constructor; [reflexivity|]. constructor; [|constructor].
  exists (-1)%Z. cbn. lra.
Qed.
