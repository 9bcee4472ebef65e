(** C31: angle normalisation and interpolation. *)
From Coq Require Import Reals ZArith Lra.
From Verif Require Import AngleModel AngleSpec AngleProofs.
Open Scope R_scope.

(** C31. [fmod] maps every number into the half-open interval, changing it by a multiple of its length. *)
Theorem C31_fmod : forall v lo hi, lo < hi ->
  lo <= math_fmod v lo hi < hi /\ congruent (hi - lo) (math_fmod v lo hi) v.
Proof. exact math_fmod_ok. Qed.
Print Assumptions C31_fmod.

(** C31. Ranges of the angle normalisations; the direction is kept. *)
Theorem C31_angle_mod : forall v center,
  (0 <= angle_mod_2pi v < 2 * PI /\ same_angle (angle_mod_2pi v) v) /\
  (- PI <= angle_mod_pi v < PI /\ same_angle (angle_mod_pi v) v) /\
  (center - PI <= angle_mod_x v center < center + PI /\ same_angle (angle_mod_x v center) v).
Proof.
  intros v center. exact (conj (angle_mod_2pi_ok v) (conj (angle_mod_pi_ok v) (angle_mod_x_ok v center))).
Qed.
Print Assumptions C31_angle_mod.

(** C31. [AngleDelta(a, b)] turns a into b, lies in [-pi, pi), and no other turn from a to b is shorter. *)
Theorem C31_angle_delta : forall a b,
  - PI <= angle_delta a b < PI /\ same_angle (a + angle_delta a b) b /\
  (forall d, same_angle (a + d) b -> Rabs (angle_delta a b) <= Rabs d) /\
  Rabs (angle_delta a b) = Rabs (angle_delta b a).
Proof.
  intros a b. exact (conj (proj1 (angle_delta_ok a b)) (conj (proj2 (angle_delta_ok a b))
    (conj (angle_delta_shortest a b) (angle_delta_sym a b)))).
Qed.
Print Assumptions C31_angle_delta.

(** C31. [AngleLerp] starts at a, ends at the direction b, and moves with constant speed along the
    shortest way. *)
Theorem C31_angle_lerp : forall a b,
  angle_lerp a b 0 = a /\ same_angle (angle_lerp a b 1) b /\
  (forall f g, Rabs (angle_lerp a b f - angle_lerp a b g) = Rabs (f - g) * Rabs (angle_delta a b)).
Proof. exact angle_lerp_ok. Qed.
Print Assumptions C31_angle_lerp.

(** C31. [Lerp] and [ILerp]. *)
Theorem C31_lerp : forall a b, lerp a b 0 = a /\ lerp a b 1 = b /\
  (a <= b -> forall f, 0 <= f <= 1 -> a <= lerp a b f <= b) /\
  (a <> b -> forall x, lerp a b (ilerp a b x) = x /\ ilerp a b (lerp a b x) = x).
Proof.
  intros a b. destruct (lerp_ok a b) as (A & B & C).
  exact (conj A (conj B (conj C (fun H x => lerp_ilerp a b x H)))).
Qed.
Print Assumptions C31_lerp.

(** 7 pi / 2 is the direction - pi / 2. *)
Example C31_witness : angle_mod_pi (7 * PI / 2) = - (PI / 2) /\ angle_mod_2pi (- PI) = PI.
Proof.
  pose proof PI_RGT_0. split.
  - destruct (angle_mod_pi_ok (7 * PI / 2)) as [A B].
    apply (congruent_unique (2 * PI) (- PI)); [lra| |lra|lra].
    destruct B as (k & B). exists (k + 2)%Z. rewrite plus_IZR. lra.
  - destruct (angle_mod_2pi_ok (- PI)) as [A B].
    apply (congruent_unique (2 * PI) 0); [lra| |lra|lra].
    destruct B as (k & B). exists (k - 1)%Z. rewrite minus_IZR. lra.
Qed.
