From Coq Require Import Reals List Bool ZArith Lia Lra.
From Verif Require Import AngleSpec AngleModel AngleProofs SampledModel SampledSpec SampledProofs SampledPlanModel
  MetricSpec MetricProofs TrajModel TrajSpec TrajProofs ShortcutModel ShortcutProofs CSPathModel CSPathSpec.
Import ListNotations.
Open Scope R_scope.

Lemma unit_unweighted : forall ds, unit_weights ds -> unweighted ds = ds.
Proof.
  induction ds as [|[k w] ds IH]; intros H; [reflexivity|].
  change (unweighted (Dim k w :: ds)) with (Dim k 1 :: unweighted ds). rewrite IH by (intros d Hd; apply H; now right).
  f_equal. assert (w = 1) by (apply (H (Dim k w)); now left). now subst.
Qed.

Lemma total_arc : forall ds l, total_length ds l = arc_length (calc_dist ds) l.
Proof. intros ds l. induction l as [|a [|b l] IH]; try reflexivity. cbn [total_length arc_length] in *. now rewrite IH. Qed.

Lemma cspath_length_eq : forall ds l, cspath_length ds true l = total_length (unweighted ds) l /\
  cspath_length ds false l = total_length ds l.
Proof.
  assert (K : forall ds a l, path_length ds (a :: l) 0 (length (a :: l) - 1) = total_length ds (a :: l)).
  { intros ds a l. unfold path_length. cbn [length]. rewrite Nat.sub_succ, Nat.sub_0_r.
    destruct (Nat.ltb_spec (length l) 0); [lia|]. destruct (Nat.leb_spec (S (length l)) (length l)); [lia|]. cbn [orb].
    destruct l as [|b l _] using rev_ind; [reflexivity|].
    rewrite app_length, Nat.sub_0_r. cbn [length]. rewrite Nat.add_1_r.
    exact (length_loop_eq ds l [] a b [] 0%nat eq_refl). }
  intros ds [|a l]; [split; reflexivity|]. split; unfold cspath_length; apply K.
Qed.

Lemma wrap_once_ok : forall d, Rabs d <= 3 * PI -> Rabs (wrap_once d) <= PI /\ congruent (2 * PI) (wrap_once d) d.
Proof.
  intros d H. pose proof PI_RGT_0. assert (- (3 * PI) <= d <= 3 * PI) by (unfold Rabs in H; destruct (Rcase_abs d); lra).
  unfold wrap_once. destruct (Rlt_dec PI d).
  - destruct (Rlt_dec (d - PI * 2) (- PI)); [lra|]. split; [apply Rabs_le; lra|]. exists (-1)%Z. cbn. lra.
  - destruct (Rlt_dec d (- PI)); (split; [apply Rabs_le; lra|]); [exists 1%Z|exists 0%Z]; cbn; lra.
Qed.

(** A turn by at most pi is measured by its size. *)
Lemma delta_of_turn : forall a d, Rabs d <= PI -> Rabs (angle_delta a (a + d)) = Rabs d.
Proof.
  intros a d H. pose proof PI_RGT_0. assert (- PI <= d <= PI) by (unfold Rabs in H; destruct (Rcase_abs d); lra).
  destruct (Req_dec d PI) as [->|N].
  - rewrite <- (angle_delta_unique a (a + PI) (- PI)); [|lra|exists (-1)%Z; cbn; lra]. now rewrite Rabs_Ropp.
  - rewrite <- (angle_delta_unique a (a + d) d); [reflexivity|lra|exists 0%Z; cbn; lra].
Qed.

Lemma delta_congruent : forall a b b', congruent (2 * PI) b b' -> Rabs (angle_delta a b) = Rabs (angle_delta a b').
Proof.
  assert (K : forall a b b', congruent (2 * PI) b b' -> Rabs (angle_delta a b) <= Rabs (angle_delta a b')).
  { intros a b b' H. apply angle_delta_shortest. destruct (angle_delta_ok a b') as [_ J].
    eapply congruent_trans; [exact J|]. now apply congruent_sym. }
  intros a b b' H. apply Rle_antisym; apply K; [assumption|now apply congruent_sym].
Qed.

Lemma sqr_abs_eq : forall x y, Rabs x = Rabs y -> x * x = y * y.
Proof. intros x y H. change (Rsqr x = Rsqr y). now rewrite (Rsqr_abs x), (Rsqr_abs y), H. Qed.

Lemma blend_dist2 : forall ds a b f, regular ds -> near_turns ds a b -> 0 <= f <= 1 ->
  calc_dist2 ds a (path_blend ds a b f) = f * f * calc_dist2 ds a b /\
  calc_dist2 ds (path_blend ds a b f) b = (1 - f) * (1 - f) * calc_dist2 ds a b.
Proof.
  intros ds a b f Hr H Hf. induction H as [|d ds x p y q Hd H IH]; [split; cbn; ring|].
  destruct IH as [I1 I2]; [intros e He; apply Hr; now right|].
  assert (Hk : d_kind d <> Slide) by (apply Hr; now left).
  cbn [path_blend calc_dist2]. rewrite I1, I2. clear I1 I2.
  set (z := match d_kind d with Linear => _ | _ => _ end).
  assert (K : Rabs (dim_delta d x z) = f * Rabs (dim_delta d x y) /\ Rabs (dim_delta d z y) = (1 - f) * Rabs (dim_delta d x y)).
  { assert (A1 : Rabs f = f) by (apply Rabs_right; lra). assert (A2 : Rabs (1 - f) = 1 - f) by (apply Rabs_right; lra).
    unfold dim_delta. unfold z in *. clear z. destruct (d_kind d) eqn:E; [| |contradiction].
    - split.
      + rewrite <- A1 at 2. rewrite <- Rabs_mult. f_equal. ring.
      + rewrite <- A2 at 1. rewrite <- Rabs_mult. f_equal. ring.
    - destruct Hd as [Hd|Hd]; [congruence|]. destruct (wrap_once_ok _ Hd) as [W1 W2]. set (w := wrap_once (y - x)) in *.
      rewrite !Rabs_Rabsolu.
      assert (T : Rabs (angle_delta x y) = Rabs w).
      { rewrite (delta_congruent x y (x + w)); [now apply delta_of_turn|]. destruct W2 as (k & W2). exists (- k)%Z. rewrite opp_IZR. lra. }
      assert (B : forall g, 0 <= g <= 1 -> Rabs (w * g) <= PI).
      { intros g Hg. rewrite Rabs_mult. rewrite (Rabs_right g) by lra. pose proof (Rabs_pos w).
        apply Rle_trans with (Rabs w * 1); [apply Rmult_le_compat_l; lra|lra]. }
      rewrite T. split.
      + rewrite delta_of_turn by (apply B; lra). rewrite Rabs_mult, A1. ring.
      + rewrite (delta_congruent (x + w * f) y ((x + w * f) + w * (1 - f))).
        * rewrite delta_of_turn by (apply B; lra). rewrite Rabs_mult, A2. ring.
        * destruct W2 as (k & W2). exists (- k)%Z. rewrite opp_IZR. replace (x + w * f + w * (1 - f)) with (x + w) by ring. lra. }
  destruct K as [K1 K2].
  assert (P1 : dim_delta d x z * dim_delta d x z = f * f * (dim_delta d x y * dim_delta d x y)).
  { replace (f * f * (dim_delta d x y * dim_delta d x y)) with ((f * dim_delta d x y) * (f * dim_delta d x y)) by ring.
    apply sqr_abs_eq. rewrite Rabs_mult, (Rabs_right f) by lra. assumption. }
  assert (P2 : dim_delta d z y * dim_delta d z y = (1 - f) * (1 - f) * (dim_delta d x y * dim_delta d x y)).
  { replace ((1 - f) * (1 - f) * (dim_delta d x y * dim_delta d x y)) with (((1 - f) * dim_delta d x y) * ((1 - f) * dim_delta d x y)) by ring.
    apply sqr_abs_eq. rewrite Rabs_mult, (Rabs_right (1 - f)) by lra. assumption. }
  replace (d_weight d * d_weight d * dim_delta d x z * dim_delta d x z) with (d_weight d * d_weight d * (dim_delta d x z * dim_delta d x z)) by ring.
  replace (d_weight d * d_weight d * dim_delta d z y * dim_delta d z y) with (d_weight d * d_weight d * (dim_delta d z y * dim_delta d z y)) by ring.
  rewrite P1, P2. split; ring.
Qed.

Lemma blend_dist : forall ds a b f, regular ds -> near_turns ds a b -> 0 <= f <= 1 ->
  calc_dist ds a (path_blend ds a b f) = f * calc_dist ds a b /\
  calc_dist ds (path_blend ds a b f) b = (1 - f) * calc_dist ds a b.
Proof.
  intros ds a b f Hr H Hf. destruct (blend_dist2 ds a b f Hr H Hf) as [E1 E2]. unfold calc_dist. rewrite E1, E2.
  assert (K : forall g x, 0 <= g -> sqrt (g * g * x) = g * sqrt x).
  { intros g x Hg. rewrite sqrt_mult_alt by apply Rle_0_sqr. now rewrite sqrt_square. }
  split; apply K; lra.
Qed.

Lemma blend_fraction : forall ds a b f, regular ds -> near_turns ds a b -> 
  (forall d, In d ds -> d_kind d = Linear) -> at_fraction f ds a b (path_blend ds a b f).
Proof.
  intros ds a b f Hr H HL. induction H as [|d ds x p y q Hd H IH]; [constructor|]. cbn [path_blend].
  assert (E : d_kind d = Linear) by (apply HL; now left).
  constructor; [unfold value_at; rewrite E; ring|]. apply IH; intros e He; [apply Hr|apply HL]; now right.
Qed.

Lemma time_loop_eq : forall ds len B A c t, c :: B = c :: B -> len <> 0 ->
  forall count, (count <= length B)%nat ->
  time_loop ds len (A ++ c :: B) c count (length A) t = t + total_length ds (firstn (S count) (c :: B)) / len.
Proof.
  intros ds len B. induction B as [|b B IH]; intros A c t _ Hl count Hc.
  - cbn in Hc. assert (count = 0)%nat by lia. subst. cbn. unfold Rdiv. lra.
  - destruct count as [|count]; [cbn; unfold Rdiv; lra|]. cbn [time_loop].
    rewrite (get_point_nth _ _ (S (length A)) b).
    2:{ change (A ++ c :: b :: B) with (A ++ [c] ++ b :: B). rewrite app_assoc. apply nth_error_mid. rewrite app_length. cbn. lia. }
    replace (A ++ c :: b :: B) with ((A ++ [c]) ++ b :: B) by (rewrite <- app_assoc; reflexivity).
    replace (S (length A)) with (length (A ++ [c])) by (rewrite app_length; cbn; lia).
    rewrite IH; auto; [|cbn in Hc; lia].
    change (firstn (S (S count)) (c :: b :: B)) with (c :: firstn (S count) (b :: B)).
    change (firstn (S count) (b :: B)) with (b :: firstn count B). cbn [total_length]. field. assumption.
Qed.

Lemma time_ok : forall ds l nr, unit_weights ds -> total_length ds l <> 0 -> (nr < length l)%nat ->
  cspath_time ds l nr = total_length ds (firstn (S nr) l) / total_length ds l.
Proof.
  intros ds l nr Hu Hn Hl. unfold cspath_time. destruct (cspath_length_eq ds l) as [-> _]. rewrite unit_unweighted by assumption.
  destruct (Nat.ltb_spec (length l - 1) nr); [lia|]. destruct l as [|c B]; [cbn in Hl; lia|].
  change (get_point (zero_config ds) (c :: B) 0) with c. cbn [length] in Hl.
  etransitivity; [exact (time_loop_eq ds _ B [] c 0 eq_refl Hn nr ltac:(lia))|]. lra.
Qed.

Lemma time_clamped : forall ds l nr, (length l - 1 < nr)%nat -> cspath_time ds l nr = cspath_time ds l (length l - 1).
Proof.
  intros ds l nr H. unfold cspath_time. destruct (Nat.ltb_spec (length l - 1) nr); [|lia].
  destruct (Nat.ltb_spec (length l - 1) (length l - 1)); [lia|]. reflexivity.
Qed.

(** * Examples *)

Definition heavy : list dim := [Dim Linear 2].

Lemma heavy_dist : forall a b, calc_dist heavy [a] [b] = 2 * Rabs (a - b).
Proof.
  intros a b. unfold calc_dist, heavy. cbn. replace (2 * 2 * (a - b) * (a - b) + 0) with (Rsqr (2 * (a - b))) by (unfold Rsqr; ring).
  rewrite sqrt_Rsqr_abs, Rabs_mult. rewrite (Rabs_right 2) by lra. reflexivity.
Qed.

Lemma heavy_length : cspath_length heavy true [[0]; [1]] = 1 /\ total_length heavy [[0]; [1]] = 2.
Proof.
  destruct (cspath_length_eq heavy [[0]; [1]]) as [-> _]. split.
  - change (total_length (unweighted heavy) [[0]; [1]]) with (calc_dist [Dim Linear 1] [0] [1] + 0). rewrite dist1_linear, Rabs_left; lra.
  - change (total_length heavy [[0]; [1]]) with (calc_dist heavy [0] [1] + 0). rewrite heavy_dist, Rabs_left; lra.
Qed.

Lemma heavy_half : cspath_interpolate heavy [[0]; [1]] (1/2) = Some ([0 + (1 - 0) * ((1 * (1/2) - (0 + 2 - 2)) / 2)], 0%Z).
Proof.
  unfold cspath_interpolate. destruct heavy_length as [-> _]. cbn [interpolate_path].
  destruct (Rlt_dec (1/2) 0); [lra|]. destruct (Rlt_dec 1 (1/2)); [lra|].
  destruct (Req_EM_T (1/2) 0); [lra|]. destruct (Req_EM_T (1/2) 1); [lra|]. cbn [search].
  destruct (Rlt_dec 0 (1 * (1/2))); [|lra].
  assert (D : calc_dist heavy [0] [1] = 2) by (rewrite heavy_dist, Rabs_left; lra). rewrite D.
  destruct (Rlt_dec 0 2); [|lra]. destruct (Rlt_dec 1 _); [lra|]. reflexivity.
Qed.

Lemma heavy_time : cspath_time heavy [[0]; [1]] 1 = 2.
Proof.
  unfold cspath_time. destruct heavy_length as [-> _]. cbn [length Nat.sub Nat.ltb Nat.leb time_loop].
  change (get_point (zero_config heavy) [[0]; [1]] 0) with [0]. change (get_point (zero_config heavy) [[0]; [1]] 1) with [1].
  rewrite heavy_dist, Rabs_left; lra.
Qed.

(** Half way between 0 and 4 pi + 1, which is one radian further: the joint is turned by pi + 1/2. *)
Definition wheel : list dim := [Dim (Circular 0) 1].

Lemma wheel_far : calc_dist wheel [0] [4 * PI + 1] = 1 /\ path_blend wheel [0] [4 * PI + 1] (1/2) = [PI + 1/2] /\
  calc_dist wheel [0] [PI + 1/2] > 2.
Proof.
  pose proof PI2_3_2 as HP2. assert (HP : 3 <= PI) by (unfold PI in *; lra).
  assert (W : forall a b, calc_dist wheel [a] [b] = Rabs (angle_delta a b)).
  { intros a b. unfold calc_dist, wheel. cbn. set (r := Rabs (angle_delta a b)).
    replace (1 * 1 * r * r + 0) with (r * r) by ring. apply sqrt_square. apply Rabs_pos. }
  rewrite !W. split; [|split].
  - rewrite <- (angle_delta_unique 0 (4 * PI + 1) 1); [apply Rabs_right; lra|lra|exists (-2)%Z; cbn; lra].
  - cbn. unfold wrap_once. destruct (Rlt_dec PI _); [|lra]. destruct (Rlt_dec _ (- PI)); [lra|]. f_equal. field.
  - rewrite <- (angle_delta_unique 0 (PI + 1/2) (1/2 - PI)); [|lra|exists (-1)%Z; cbn; lra]. rewrite Rabs_left; lra.
Qed.

Lemma wheel_near : near_turns wheel [3] [-3] /\ regular wheel /\ unit_weights wheel.
Proof.
  pose proof PI2_3_2 as HP2. assert (HP : 3 <= PI) by (unfold PI in *; lra).
  split; [|split].
  - constructor; [right; apply Rabs_le; lra|constructor].
  - intros d [<-|[]]; discriminate.
  - intros d [<-|[]]; reflexivity.
Qed.
