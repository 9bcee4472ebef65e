From Coq Require Import Reals ZArith Lra Lia.
From Verif Require Import AngleModel AngleSpec.
Open Scope R_scope.

Lemma Int_part_bounds : forall x, IZR (Int_part x) <= x < IZR (Int_part x) + 1.
Proof. intros x. destruct (base_Int_part x). lra. Qed.

Lemma trunc_nonneg : forall x, 0 <= x -> 0 <= x - IZR (trunc x) < 1.
Proof.
  intros x H. unfold trunc. destruct (Rle_dec 0 x); [|contradiction]. pose proof (Int_part_bounds x). lra.
Qed.

Lemma trunc_neg : forall x, x < 0 -> -1 < x - IZR (trunc x) <= 0.
Proof.
  intros x H. unfold trunc. destruct (Rle_dec 0 x); [lra|]. pose proof (Int_part_bounds (- x)).
  rewrite opp_IZR. lra.
Qed.

Lemma std_fmod_pos : forall x y, 0 < y -> 0 <= x -> 0 <= std_fmod x y < y.
Proof.
  intros x y Hy Hx. unfold std_fmod.
  assert (0 <= x / y) by (apply Rmult_le_pos; [assumption|left; now apply Rinv_0_lt_compat]).
  pose proof (trunc_nonneg _ H) as K. set (k := IZR (trunc (x / y))) in *.
  replace (x - k * y) with ((x / y - k) * y) by (field; lra). split.
  - apply Rmult_le_pos; lra.
  - apply Rlt_le_trans with (1 * y); [apply Rmult_lt_compat_r; lra|lra].
Qed.

Lemma std_fmod_neg : forall x y, 0 < y -> x < 0 -> - y < std_fmod x y <= 0.
Proof.
  intros x y Hy Hx. unfold std_fmod.
  assert (x / y < 0).
  { unfold Rdiv. apply Ropp_lt_cancel. rewrite Ropp_0, <- Ropp_mult_distr_l_reverse.
    apply Rmult_lt_0_compat; [lra|now apply Rinv_0_lt_compat]. }
  pose proof (trunc_neg _ H) as K. set (k := IZR (trunc (x / y))) in *.
  replace (x - k * y) with ((x / y - k) * y) by (field; lra). split.
  - apply Rle_lt_trans with ((-1) * y); [lra|apply Rmult_lt_compat_r; lra].
  - replace 0 with (0 * y) by ring. apply Rmult_le_compat_r; lra.
Qed.

Lemma congruent_refl : forall m a, congruent m a a.
Proof. intros m a. exists 0%Z. ring. Qed.

Lemma congruent_sym : forall m a b, congruent m a b -> congruent m b a.
Proof. intros m a b (k & H). exists (- k)%Z. rewrite opp_IZR. lra. Qed.

Lemma congruent_trans : forall m a b c, congruent m a b -> congruent m b c -> congruent m a c.
Proof. intros m a b c (k & H) (j & K). exists (k + j)%Z. rewrite plus_IZR. lra. Qed.

Lemma congruent_plus : forall m a b c d, congruent m a b -> congruent m c d -> congruent m (a + c) (b + d).
Proof. intros m a b c d (k & H) (j & K). exists (k + j)%Z. rewrite plus_IZR. lra. Qed.

Lemma congruent_opp : forall m a b, congruent m a b -> congruent m (- a) (- b).
Proof. intros m a b (k & H). exists (- k)%Z. rewrite opp_IZR. lra. Qed.

Lemma congruent_minus : forall m a b c d, congruent m a b -> congruent m c d -> congruent m (a - c) (b - d).
Proof. intros. unfold Rminus. apply congruent_plus; [assumption|]. now apply congruent_opp. Qed.

Lemma congruent_unique : forall m lo a b, 0 < m -> congruent m a b ->
  lo <= a < lo + m -> lo <= b < lo + m -> a = b.
Proof.
  intros m lo a b Hm (k & H) Ha Hb.
  assert (k = 0%Z).
  { assert (IZR k * m < 1 * m) by lra. assert ((-1) * m < IZR k * m) by lra.
    apply Rmult_lt_reg_r in H0; [|assumption]. apply Rmult_lt_reg_r in H1; [|assumption].
    apply lt_IZR in H0. apply lt_IZR in H1. lia. }
  subst k. lra.
Qed.

Lemma math_fmod_ok : forall v lo hi, lo < hi ->
  lo <= math_fmod v lo hi < hi /\ congruent (hi - lo) (math_fmod v lo hi) v.
Proof.
  intros v lo hi H. unfold math_fmod.
  assert (Hy : 0 < hi - lo) by lra.
  assert (Hc : congruent (hi - lo) (std_fmod (v - lo) (hi - lo)) (v - lo)).
  { unfold std_fmod. exists (- trunc ((v - lo) / (hi - lo)))%Z. rewrite opp_IZR. ring. }
  destruct Hc as (k & Hk).
  destruct (Rle_lt_dec 0 (v - lo)) as [K|K].
  - pose proof (std_fmod_pos _ _ Hy K). destruct (Rlt_dec (std_fmod (v - lo) (hi - lo) + lo) lo); [lra|].
    split; [lra|]. exists k. lra.
  - pose proof (std_fmod_neg _ _ Hy K). destruct (Rlt_dec (std_fmod (v - lo) (hi - lo) + lo) lo).
    + split; [lra|]. exists (k + 1)%Z. rewrite plus_IZR. lra.
    + split; [lra|]. exists k. lra.
Qed.

Lemma two_pi_pos : 0 < 2 * PI.
Proof. pose proof PI_RGT_0. lra. Qed.

Lemma angle_mod_2pi_ok : forall v, 0 <= angle_mod_2pi v < 2 * PI /\ same_angle (angle_mod_2pi v) v.
Proof.
  intros v. pose proof two_pi_pos. destruct (math_fmod_ok v 0 (2 * PI) H) as [A B]. split; [assumption|].
  unfold same_angle. now replace (2 * PI - 0) with (2 * PI) in B by ring.
Qed.

Lemma angle_mod_pi_ok : forall v, - PI <= angle_mod_pi v < PI /\ same_angle (angle_mod_pi v) v.
Proof.
  intros v. unfold angle_mod_pi. destruct (angle_mod_2pi_ok (v + PI)) as [A (k & B)].
  split; [lra|]. exists k. lra.
Qed.

Lemma angle_mod_x_ok : forall v c, c - PI <= angle_mod_x v c < c + PI /\ same_angle (angle_mod_x v c) v.
Proof.
  intros v c. unfold angle_mod_x. destruct (angle_mod_2pi_ok (v + PI - c)) as [A (k & B)].
  split; [lra|]. exists k. lra.
Qed.

Lemma angle_delta_ok : forall a b, - PI <= angle_delta a b < PI /\ same_angle (a + angle_delta a b) b.
Proof.
  intros a b. unfold angle_delta. destruct (angle_mod_pi_ok (b - a)) as [A (k & B)].
  split; [assumption|]. exists k. lra.
Qed.

Lemma angle_delta_unique : forall a b d, - PI <= d < PI -> same_angle (a + d) b -> d = angle_delta a b.
Proof.
  intros a b d Hd H. destruct (angle_delta_ok a b) as [A B].
  apply (congruent_unique (2 * PI) (- PI)); [apply two_pi_pos| |lra|lra].
  apply congruent_sym in B. pose proof (congruent_trans _ _ _ _ H B) as (k & K). exists k. lra.
Qed.

(** the shortest difference *)
Lemma angle_delta_shortest : forall a b d, same_angle (a + d) b -> Rabs (angle_delta a b) <= Rabs d.
Proof.
  intros a b d H. destruct (angle_delta_ok a b) as [A B].
  apply congruent_sym in B. pose proof (congruent_trans _ _ _ _ H B) as (k & K).
  set (x := angle_delta a b) in *. assert (E : d = x + IZR k * (2 * PI)) by lra. pose proof PI_RGT_0.
  destruct (Z.lt_trichotomy k 0) as [Hk|[Hk|Hk]].
  - assert (IZR k <= -1) by (apply IZR_le; lia).
    assert (IZR k * (2 * PI) <= -1 * (2 * PI)) by (apply Rmult_le_compat_r; lra).
    apply Rle_trans with PI; [apply Rabs_le; lra|]. rewrite Rabs_left; lra.
  - subst k. right. f_equal. lra.
  - assert (1 <= IZR k) by (apply IZR_le; lia).
    assert (1 * (2 * PI) <= IZR k * (2 * PI)) by (apply Rmult_le_compat_r; lra).
    apply Rle_trans with PI; [apply Rabs_le; lra|]. rewrite Rabs_right; lra.
Qed.

Lemma angle_fmod_delta : forall a b, math_fmod b (a - PI) (a + PI) = a + angle_delta a b.
Proof.
  intros a b. pose proof PI_RGT_0. destruct (math_fmod_ok b (a - PI) (a + PI)) as [A B]; [lra|].
  replace (a + PI - (a - PI)) with (2 * PI) in B by ring.
  rewrite <- (angle_delta_unique a b (math_fmod b (a - PI) (a + PI) - a)); [ring|lra|].
  replace (a + (math_fmod b (a - PI) (a + PI) - a)) with (math_fmod b (a - PI) (a + PI)) by ring. exact B.
Qed.

Lemma angle_lerp_eq : forall a b f, angle_lerp a b f = a + f * angle_delta a b.
Proof. intros a b f. unfold angle_lerp, lerp. rewrite angle_fmod_delta. ring. Qed.

Lemma angle_lerp_ok : forall a b,
  angle_lerp a b 0 = a /\ same_angle (angle_lerp a b 1) b /\
  (forall f g, Rabs (angle_lerp a b f - angle_lerp a b g) = Rabs (f - g) * Rabs (angle_delta a b)).
Proof.
  intros a b. split; [|split].
  - rewrite angle_lerp_eq. ring.
  - rewrite angle_lerp_eq. rewrite Rmult_1_l. apply angle_delta_ok.
  - intros f g. rewrite !angle_lerp_eq, <- Rabs_mult. f_equal. ring.
Qed.

Lemma angle_delta_sym : forall a b, Rabs (angle_delta a b) = Rabs (angle_delta b a).
Proof.
  assert (K : forall a b, Rabs (angle_delta a b) <= Rabs (angle_delta b a)).
  { intros a b. rewrite <- (Rabs_Ropp (angle_delta b a)). apply angle_delta_shortest.
    destruct (angle_delta_ok b a) as [_ (k & H)]. exists (- k)%Z. rewrite opp_IZR. lra. }
  intros a b. apply Rle_antisym; apply K.
Qed.

Lemma lerp_ilerp : forall a b x, a <> b -> lerp a b (ilerp a b x) = x /\ ilerp a b (lerp a b x) = x.
Proof. intros a b x H. unfold lerp, ilerp. split; field; lra. Qed.

Lemma lerp_ok : forall a b, lerp a b 0 = a /\ lerp a b 1 = b /\
  (a <= b -> forall f, 0 <= f <= 1 -> a <= lerp a b f <= b).
Proof.
  intros a b. unfold lerp. split; [ring|]. split; [ring|]. intros H f Hf.
  replace (a * (1 - f) + b * f) with (a + f * (b - a)) by ring.
  assert (0 <= f * (b - a)) by (apply Rmult_le_pos; lra).
  assert (f * (b - a) <= 1 * (b - a)) by (apply Rmult_le_compat_r; lra). lra.
Qed.
