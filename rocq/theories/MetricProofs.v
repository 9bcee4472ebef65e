From Coq Require Import Reals List Bool Lia Lra.
From Verif Require Import AngleSpec AngleModel AngleProofs SampledModel SampledSpec SampledProofs MetricSpec.
Import ListNotations.
Open Scope R_scope.

Lemma hypot_add : forall a b A B,
  sqrt ((a + b) * (a + b) + (A + B) * (A + B)) <= sqrt (a * a + A * A) + sqrt (b * b + B * B).
Proof.
  intros a b A B. pose proof (triangle 0 0 (a + b) (A + B) a A) as T. unfold dist_euc in T.
  replace (Rsqr (0 - (a + b)) + Rsqr (0 - (A + B))) with ((a + b) * (a + b) + (A + B) * (A + B)) in T by (unfold Rsqr; ring).
  replace (Rsqr (0 - a) + Rsqr (0 - A)) with (a * a + A * A) in T by (unfold Rsqr; ring).
  replace (Rsqr (a - (a + b)) + Rsqr (A - (A + B))) with (b * b + B * B) in T by (unfold Rsqr; ring).
  exact T.
Qed.

Lemma delta_triangle : forall d a b c, Rabs (dim_delta d a c) <= Rabs (dim_delta d a b) + Rabs (dim_delta d b c).
Proof.
  intros d a b c. unfold dim_delta.
  assert (K : Rabs (Rabs (angle_delta a c)) <= Rabs (Rabs (angle_delta a b)) + Rabs (Rabs (angle_delta b c))).
  { rewrite !Rabs_Rabsolu. eapply Rle_trans; [apply (angle_delta_shortest a c (angle_delta a b + angle_delta b c))|apply Rabs_triang].
    destruct (angle_delta_ok a b) as [_ (k & H)], (angle_delta_ok b c) as [_ (j & K)].
    exists (k + j)%Z. rewrite plus_IZR. lra. }
  destruct (d_kind d); try exact K.
  replace (a - c) with ((a - b) + (b - c)) by ring. apply Rabs_triang.
Qed.

Lemma dist_cons : forall d ds a p b q,
  calc_dist (d :: ds) (a :: p) (b :: q) =
  sqrt ((Rabs (d_weight d) * Rabs (dim_delta d a b)) * (Rabs (d_weight d) * Rabs (dim_delta d a b)) + calc_dist ds p q * calc_dist ds p q).
Proof.
  intros d ds a p b q. unfold calc_dist. f_equal. cbn [calc_dist2]. rewrite sqrt_sqrt by apply dist2_nonneg.
  f_equal. rewrite <- Rabs_mult. set (x := d_weight d * dim_delta d a b).
  replace (Rabs x * Rabs x) with (x * x); [unfold x; ring|]. change (Rabs x * Rabs x) with (Rsqr (Rabs x)). now rewrite <- Rsqr_abs.
Qed.

Lemma dist_triangle : forall ds p q r, sized ds p -> sized ds q -> sized ds r ->
  calc_dist ds p r <= calc_dist ds p q + calc_dist ds q r.
Proof.
  induction ds as [|d ds IH]; intros p q r Hp Hq Hr.
  - unfold calc_dist. destruct p; cbn; rewrite sqrt_0; lra.
  - destruct p as [|a p], q as [|b q], r as [|c r]; try discriminate. rewrite !dist_cons.
    eapply Rle_trans; [|apply hypot_add]. apply sqrt_le_1_alt.
    assert (P : forall x y, 0 <= x -> x <= y -> x * x <= y * y) by (intros; apply Rmult_le_compat; assumption).
    apply Rplus_le_compat; apply P.
    + apply Rmult_le_pos; apply Rabs_pos.
    + rewrite <- Rmult_plus_distr_l. apply Rmult_le_compat_l; [apply Rabs_pos|apply delta_triangle].
    + apply dist_nonneg.
    + apply IH; unfold sized in *; cbn [length] in *; lia.
Qed.

Lemma delta_zero : forall d a b, dim_delta d a b = 0 <-> same_value d a b.
Proof.
  intros d a b. unfold dim_delta, same_value.
  assert (K : Rabs (angle_delta a b) = 0 <-> same_angle a b).
  { split; intros H.
    - destruct (angle_delta_ok a b) as [_ K]. assert (E : angle_delta a b = 0) by (destruct (Req_dec (angle_delta a b) 0); [assumption|now apply Rabs_no_R0 in H]).
      rewrite E, Rplus_0_r in K. exact K.
    - assert (E : same_angle (a + 0) b) by now rewrite Rplus_0_r. apply angle_delta_shortest in E. rewrite Rabs_R0 in E.
      pose proof (Rabs_pos (angle_delta a b)). lra. }
  destruct (d_kind d); [|exact K|exact K]. lra.
Qed.

Lemma dist2_zero : forall ds p q, (forall d, In d ds -> d_weight d <> 0) -> sized ds p -> sized ds q ->
  (calc_dist2 ds p q = 0 <-> same_config ds p q).
Proof.
  induction ds as [|d ds IH]; intros p q Hw Hp Hq.
  - destruct p, q; try discriminate. split; [constructor|reflexivity].
  - destruct p as [|a p], q as [|b q]; try discriminate. cbn [calc_dist2].
    assert (Hp' : sized ds p) by (unfold sized in *; cbn in *; lia). assert (Hq' : sized ds q) by (unfold sized in *; cbn in *; lia).
    assert (Hwd : d_weight d <> 0) by (apply Hw; now left).
    replace (d_weight d * d_weight d * dim_delta d a b * dim_delta d a b) with (Rsqr (d_weight d * dim_delta d a b)) by (unfold Rsqr; ring).
    pose proof (Rle_0_sqr (d_weight d * dim_delta d a b)) as P. pose proof (dist2_nonneg ds p q) as Q.
    assert (I : calc_dist2 ds p q = 0 <-> same_config ds p q) by (apply IH; auto; intros; apply Hw; now right).
    split; intros H.
    + assert (E : Rsqr (d_weight d * dim_delta d a b) = 0) by lra. apply Rsqr_eq_0 in E. apply Rmult_integral in E as [E|E]; [contradiction|].
      constructor; [now apply delta_zero|]. apply I. lra.
    + inversion H; subst. apply delta_zero in H3. rewrite H3. apply I in H7. rewrite H7. unfold Rsqr. ring.
Qed.

Lemma dist_zero : forall ds p q, (forall d, In d ds -> d_weight d <> 0) -> sized ds p -> sized ds q ->
  (calc_dist ds p q = 0 <-> same_config ds p q).
Proof.
  intros ds p q Hw Hp Hq. rewrite <- dist2_zero by assumption. unfold calc_dist. split; intros H.
  - apply sqrt_eq_0 in H; [assumption|apply dist2_nonneg].
  - rewrite H. apply sqrt_0.
Qed.

(** Moving along a segment. *)
Lemma total_nonneg : forall ds l, 0 <= total_length ds l.
Proof.
  intros ds l. induction l as [|a [|b l] IH]; cbn; try lra. pose proof (dist_nonneg ds a b). cbn in IH. lra.
Qed.

Lemma total_app : forall ds a x b, total_length ds (a ++ x :: b) = total_length ds (a ++ [x]) + total_length ds (x :: b).
Proof.
  intros ds a x b. induction a as [|y a IH].
  - cbn [app]. destruct b; cbn; lra.
  - destruct a as [|z a]; cbn [app] in *; [destruct b; cbn; lra|].
    cbn [total_length] in *. rewrite IH. lra.
Qed.

Lemma last_cons_default : forall {A} (l : list A) a d, last (a :: l) d = last l a.
Proof.
  intros A l a d. destruct l as [|b l]; [reflexivity|]. change (last (a :: b :: l) d) with (last (b :: l) d).
  revert b. induction l as [|c l IH]; intros b; [reflexivity|]. apply (IH c).
Qed.

Lemma last_Forall : forall {A} (P : A -> Prop) l a, Forall P (a :: l) -> P (last l a).
Proof.
  intros A P l. induction l as [|b l IH]; intros a H; [now inversion H|].
  rewrite last_cons_default. apply IH. now inversion H.
Qed.

Lemma total_ge : forall ds a l, Forall (sized ds) (a :: l) -> calc_dist ds a (last l a) <= total_length ds (a :: l).
Proof.
  intros ds a l. revert a. induction l as [|b l IH]; intros a H.
  - cbn. rewrite dist_self. lra.
  - inversion H; subst. inversion H3; subst. specialize (IH b H3). rewrite last_cons_default.
    eapply Rle_trans; [apply (dist_triangle ds a b (last l b)); auto; now apply last_Forall|].
    cbn [total_length] in *. lra.
Qed.
