From Coq Require Import Reals List Bool Lra Lia.
From Verif Require Import AngleModel AngleSpec AngleProofs SampledModel SampledSpec.
Import ListNotations.
Open Scope R_scope.

(** * One joint *)

Lemma value_at_interpolate : forall d a b f, value_at d a b f (dim_interpolate d a b f).
Proof.
  intros d a b f. unfold value_at, dim_interpolate. destruct (d_kind d); try reflexivity.
  rewrite angle_lerp_eq. apply angle_mod_x_ok.
Qed.

Lemma delta_between : forall d a b f g x y, d_kind d <> Slide -> 0 <= f <= 1 -> f <= g <= 1 ->
  value_at d a b f x -> value_at d a b g y ->
  Rabs (dim_delta d x y) = (g - f) * Rabs (dim_delta d a b).
Proof.
  intros d a b f g x y Hd Hf Hg Hx Hy. unfold value_at, dim_delta in *. destruct (d_kind d) as [|c|]; [| |contradiction].
  - subst. replace (a + f * (b - a) - (a + g * (b - a))) with ((g - f) * (a - b)) by ring.
    rewrite Rabs_mult. f_equal. apply Rabs_right. lra.
  - destruct (angle_delta_ok a b) as (Hb & _). set (D := angle_delta a b) in *.
    assert (E : (g - f) * D = angle_delta x y).
    { apply angle_delta_unique.
      - split.
        + destruct (Rle_lt_dec 0 D); [assert (0 <= (g - f) * D) by (apply Rmult_le_pos; lra); pose proof PI_RGT_0; lra|].
          assert (0 <= (1 - (g - f)) * (- D)) by (apply Rmult_le_pos; lra). lra.
        + destruct (Rle_lt_dec 0 D).
          * assert (0 <= (1 - (g - f)) * D) by (apply Rmult_le_pos; lra). lra.
          * assert (0 <= (g - f) * (- D)) by (apply Rmult_le_pos; lra). pose proof PI_RGT_0; lra.
      - destruct Hx as (k & Hk), Hy as (j & Hj). exists (k - j)%Z. rewrite minus_IZR. lra. }
    rewrite <- E, !Rabs_Rabsolu, Rabs_mult. f_equal. apply Rabs_right. lra.
Qed.

Lemma value_at_0 : forall d a b, value_at d a b 0 a.
Proof.
  intros. unfold value_at. destruct (d_kind d); try ring. replace (a + 0 * angle_delta a b) with a by ring.
  apply congruent_refl.
Qed.

Lemma value_at_1 : forall d a b, value_at d a b 1 b.
Proof.
  intros. unfold value_at. destruct (d_kind d); try ring.
  replace (a + 1 * angle_delta a b) with (a + angle_delta a b) by ring.
  apply congruent_sym, angle_delta_ok.
Qed.

Lemma value_at_between : forall d a b f g h x y z, d_kind d <> Slide -> 0 <= f <= 1 -> f <= g <= 1 ->
  value_at d a b f x -> value_at d a b g y -> value_at d x y h z -> value_at d a b (f + h * (g - f)) z.
Proof.
  intros d a b f g h x y z Hd Hf Hg Hx Hy Hz.
  unfold value_at in *. destruct (d_kind d) as [|c|] eqn:Ek; [| |contradiction].
  - subst. ring.
  - destruct (angle_delta_ok a b) as (Hb & _). set (D := angle_delta a b) in *.
    assert (E : (g - f) * D = angle_delta x y).
    { apply angle_delta_unique.
      - split.
        + destruct (Rle_lt_dec 0 D); [assert (0 <= (g - f) * D) by (apply Rmult_le_pos; lra); pose proof PI_RGT_0; lra|].
          assert (0 <= (1 - (g - f)) * (- D)) by (apply Rmult_le_pos; lra). lra.
        + destruct (Rle_lt_dec 0 D).
          * assert (0 <= (1 - (g - f)) * D) by (apply Rmult_le_pos; lra). lra.
          * assert (0 <= (g - f) * (- D)) by (apply Rmult_le_pos; lra). pose proof PI_RGT_0; lra.
      - destruct Hx as (k & Hk), Hy as (j & Hj). exists (k - j)%Z. rewrite minus_IZR. lra. }
    rewrite <- E in Hz. destruct Hx as (k & Hk), Hz as (j & Hj). exists (k + j)%Z. rewrite plus_IZR. lra.
Qed.

(** * Configurations *)

Definition sized (ds : list dim) (q : config) : Prop := length q = length ds.

Lemma at_fraction_0 : forall ds q1 q2, sized ds q1 -> sized ds q2 -> at_fraction 0 ds q1 q2 q1.
Proof.
  unfold sized. induction ds as [|d ds IH]; intros [|a q1] [|b q2] H1 H2; try discriminate; constructor;
    [apply value_at_0|apply IH; cbn in *; lia].
Qed.

Lemma at_fraction_1 : forall ds q1 q2, sized ds q1 -> sized ds q2 -> at_fraction 1 ds q1 q2 q2.
Proof.
  unfold sized. induction ds as [|d ds IH]; intros [|a q1] [|b q2] H1 H2; try discriminate; constructor;
    [apply value_at_1|apply IH; cbn in *; lia].
Qed.

Lemma at_fraction_interpolate : forall ds q1 q2 f, sized ds q1 -> sized ds q2 ->
  at_fraction f ds q1 q2 (interpolate ds q1 q2 f).
Proof.
  unfold sized. induction ds as [|d ds IH]; intros [|a q1] [|b q2] f H1 H2; try discriminate; constructor;
    [apply value_at_interpolate|apply IH; cbn in *; lia].
Qed.

Lemma at_fraction_sized : forall f ds q1 q2 q, at_fraction f ds q1 q2 q -> sized ds q1 /\ sized ds q2 /\ sized ds q.
Proof. unfold sized. intros f ds q1 q2 q H. induction H as [|? ? ? ? ? ? ? ? ? ? IH]; cbn; [auto|]. lia. Qed.

Lemma at_fraction_between : forall ds f g h q1 q2 x y z, regular ds -> 0 <= f <= 1 -> f <= g <= 1 ->
  at_fraction f ds q1 q2 x -> at_fraction g ds q1 q2 y -> at_fraction h ds x y z ->
  at_fraction (f + h * (g - f)) ds q1 q2 z.
Proof.
  intros ds f g h q1 q2 x y z Hr Hf Hg Hx. revert y z.
  induction Hx as [|d ds a q1 b q2 x q Hv Hx IH]; intros y z Hy Hz.
  - inversion Hy; subst. inversion Hz; subst. constructor.
  - inversion Hy; subst. inversion Hz; subst. constructor.
    + eapply value_at_between; try eassumption. apply Hr. now left.
    + eapply IH; try eassumption. intros d' Hd'. apply Hr. now right.
Qed.

Lemma dist2_nonneg : forall ds q1 q2, 0 <= calc_dist2 ds q1 q2.
Proof.
  induction ds as [|d ds IH]; intros [|a q1] [|b q2]; cbn [calc_dist2]; try lra.
  specialize (IH q1 q2). set (x := dim_delta d a b). set (w := d_weight d).
  assert (0 <= (w * x) * (w * x)) by apply Rle_0_sqr. lra.
Qed.

Lemma dist_nonneg : forall ds q1 q2, 0 <= calc_dist ds q1 q2.
Proof. intros. apply sqrt_pos. Qed.

Lemma dist2_between : forall ds f g q1 q2 x y, regular ds -> 0 <= f <= 1 -> f <= g <= 1 ->
  at_fraction f ds q1 q2 x -> at_fraction g ds q1 q2 y ->
  calc_dist2 ds x y = (g - f) * (g - f) * calc_dist2 ds q1 q2.
Proof.
  intros ds f g q1 q2 x y Hr Hf Hg Hx. revert y.
  induction Hx as [|d ds a q1 b q2 x q Hv Hx IH]; intros y Hy.
  - inversion Hy; subst. cbn. ring.
  - inversion Hy as [|? ? ? ? ? ? x' q' Hv' Hq']; subst. cbn [calc_dist2].
    rewrite IH; [|intros d' Hd'; apply Hr; now right|assumption].
    assert (Hd : d_kind d <> Slide) by (apply Hr; now left).
    pose proof (delta_between d a b f g x x' Hd Hf Hg Hv Hv') as E.
    assert (E2 : dim_delta d x x' * dim_delta d x x' = (g - f) * (g - f) * (dim_delta d a b * dim_delta d a b)).
    { assert (S : forall u, u * u = Rabs u * Rabs u).
      { intros u. unfold Rabs. destruct (Rcase_abs u); ring. }
      rewrite (S (dim_delta d x x')), E, (S (dim_delta d a b)). ring. }
    rewrite (Rmult_assoc _ (dim_delta d x x')), E2. ring.
Qed.

Lemma dist_between : forall ds f g q1 q2 x y, regular ds -> 0 <= f <= 1 -> f <= g <= 1 ->
  at_fraction f ds q1 q2 x -> at_fraction g ds q1 q2 y ->
  calc_dist ds x y = (g - f) * calc_dist ds q1 q2.
Proof.
  intros. unfold calc_dist. rewrite (dist2_between ds f g q1 q2 x y) by assumption.
  rewrite sqrt_mult; [|apply Rle_0_sqr|apply dist2_nonneg]. now rewrite sqrt_square by lra.
Qed.

Lemma dist_self : forall ds q, calc_dist ds q q = 0.
Proof.
  intros ds q. unfold calc_dist. replace (calc_dist2 ds q q) with 0; [apply sqrt_0|].
  symmetry. revert q. induction ds as [|d ds IH]; intros [|a q]; cbn [calc_dist2]; try reflexivity.
  rewrite IH. replace (dim_delta d a a) with 0; [ring|]. unfold dim_delta.
  assert (Ea : angle_delta a a = 0).
  { symmetry. apply angle_delta_unique; [pose proof PI_RGT_0; lra|]. rewrite Rplus_0_r. apply congruent_refl. }
  destruct (d_kind d); rewrite ?Ea, ?Rabs_R0; ring.
Qed.

Lemma dist_sym : forall ds p q, calc_dist ds p q = calc_dist ds q p.
Proof.
  intros ds p q. unfold calc_dist. f_equal. revert p q.
  induction ds as [|d ds IH]; intros [|a p] [|b q]; cbn [calc_dist2]; try reflexivity.
  rewrite (IH p q). unfold dim_delta. rewrite (angle_delta_sym a b). destruct (d_kind d); ring.
Qed.

(** * isPathValid *)

Lemma generate_mid : forall ds q1 q2, 0 < calc_dist ds q1 q2 ->
  generate_new_config ds q2 q1 (calc_dist ds q1 q2 * 0.5) (calc_dist ds q1 q2) = interpolate ds q1 q2 (1/2).
Proof.
  intros ds q1 q2 H. unfold generate_new_config. destruct (Rle_dec _ _); [lra|]. f_equal.
  replace 0.5 with (1 / 2) by lra. field. lra.
Qed.

Lemma chain_app : forall ds ok eps a l b m c, chain ds ok eps a l b -> chain ds ok eps b m c ->
  chain ds ok eps a (l ++ m) c.
Proof. intros ds ok eps a l b m c H. induction H; intros K; cbn; [assumption|]. constructor; auto. Qed.

Lemma on_segment_between : forall ds f g q1 q2 x y z, regular ds -> 0 <= f <= 1 -> f <= g <= 1 ->
  at_fraction f ds q1 q2 x -> at_fraction g ds q1 q2 y -> on_segment ds x y z -> on_segment ds q1 q2 z.
Proof.
  intros ds f g q1 q2 x y z Hr Hf Hg Hx Hy (h & Hh & Hz). exists (f + h * (g - f)). split.
  - assert (0 <= h * (g - f)) by (apply Rmult_le_pos; lra).
    assert (0 <= (1 - h) * (g - f)) by (apply Rmult_le_pos; lra). lra.
  - eapply at_fraction_between; eassumption.
Qed.

Lemma fos_app : forall ds q1 q2 f l g m h, forward_on_segment ds q1 q2 f l g -> forward_on_segment ds q1 q2 g m h ->
  forward_on_segment ds q1 q2 f (l ++ m) h.
Proof.
  intros ds q1 q2 f l g m h H. induction H as [f g H|f k g q l H Ha Hl IH]; intros K; cbn [app].
  - inversion K; subst; [apply fos_nil; lra|eapply fos_cons; [|eassumption|eassumption]; lra].
  - eapply fos_cons; [eassumption|eassumption|auto].
Qed.

Lemma fos_le : forall ds q1 q2 f l g, forward_on_segment ds q1 q2 f l g -> f <= g.
Proof. intros ds q1 q2 f l g H. induction H; lra. Qed.

Lemma fos_between : forall ds f g q1 q2 x y u v l, regular ds -> 0 <= f <= 1 -> f <= g <= 1 ->
  at_fraction f ds q1 q2 x -> at_fraction g ds q1 q2 y -> forward_on_segment ds x y u l v ->
  forward_on_segment ds q1 q2 (f + u * (g - f)) l (f + v * (g - f)).
Proof.
  intros ds f g q1 q2 x y u v l Hr Hf Hg Hx Hy H. induction H as [u v H|u k v q l H Ha Hl IH].
  - apply fos_nil. assert (0 <= (v - u) * (g - f)) by (apply Rmult_le_pos; lra). lra.
  - apply fos_cons with (f + k * (g - f)); [|eapply at_fraction_between; eassumption|assumption].
    assert (0 <= (k - u) * (g - f)) by (apply Rmult_le_pos; lra). lra.
Qed.

Lemma fos_between' : forall ds f g q1 q2 x y u v l u' v', regular ds -> 0 <= f <= 1 -> f <= g <= 1 ->
  at_fraction f ds q1 q2 x -> at_fraction g ds q1 q2 y -> forward_on_segment ds x y u l v ->
  f + u * (g - f) = u' -> f + v * (g - f) = v' -> forward_on_segment ds q1 q2 u' l v'.
Proof. intros. subst u' v'. eapply fos_between; eassumption. Qed.

Lemma path_valid_sound : forall ds free dcd depth q1 q2,
  regular ds -> 0 < dcd -> sized ds q1 -> sized ds q2 ->
  sampled_path_valid ds free dcd depth q1 q2 = true ->
  free q2 = true /\
  exists l, chain ds (fun q => free q = true) (1.001 * dcd) q1 l q2 /\ forward_on_segment ds q1 q2 0 l 1.
Proof.
  intros ds free dcd depth. induction depth as [|depth IH]; intros q1 q2 Hr Hp H1 H2 H; cbn [sampled_path_valid] in H;
    destruct (Rle_dec (calc_dist ds q1 q2) (dcd * 1.001)) as [Hd|Hd]; try discriminate.
  1,2: split; [assumption|]; exists [q2]; split; [apply chain_step; [lra|assumption|apply chain_nil]|];
    apply fos_cons with 1; [lra|now apply at_fraction_1|apply fos_nil; lra].
  rewrite generate_mid in H by lra. set (m := interpolate ds q1 q2 (1/2)) in *.
  assert (Hm : at_fraction (1/2) ds q1 q2 m) by now apply at_fraction_interpolate.
  assert (Hms : sized ds m) by apply (at_fraction_sized _ _ _ _ _ Hm).
  apply andb_prop in H. destruct H as (Ha & Hb).
  destruct (IH q1 m Hr Hp H1 Hms Ha) as (_ & l1 & C1 & F1). destruct (IH m q2 Hr Hp Hms H2 Hb) as (Hq2 & l2 & C2 & F2).
  split; [assumption|]. exists (l1 ++ l2). split; [eapply chain_app; eassumption|]. apply fos_app with (1/2).
  - apply (fos_between' ds 0 (1/2) q1 q2 q1 m 0 1 l1); auto; try lra. now apply at_fraction_0.
  - apply (fos_between' ds (1/2) 1 q1 q2 m q2 0 1 l2); auto; try lra. now apply at_fraction_1.
Qed.

(** Completeness: when the answer is false, a configuration on the segment was rejected (unless the
    recursion got too deep). *)
Lemma path_valid_complete : forall ds free dcd depth q1 q2,
  regular ds -> 0 < dcd -> sized ds q1 -> sized ds q2 ->
  calc_dist ds q1 q2 <= 2 ^ depth * (1.001 * dcd) ->
  (forall q, on_segment ds q1 q2 q -> free q = true) ->
  sampled_path_valid ds free dcd depth q1 q2 = true.
Proof.
  intros ds free dcd depth. induction depth as [|depth IH]; intros q1 q2 Hr Hp H1 H2 Hd Hf; cbn [sampled_path_valid];
    destruct (Rle_dec (calc_dist ds q1 q2) (dcd * 1.001)) as [Hd'|Hd'].
  1,3: apply Hf; exists 1; split; [lra|]; now apply at_fraction_1.
  - cbn in Hd. lra.
  - rewrite generate_mid by lra. set (m := interpolate ds q1 q2 (1/2)) in *.
    assert (Hm : at_fraction (1/2) ds q1 q2 m) by now apply at_fraction_interpolate.
    assert (Hms : sized ds m) by apply (at_fraction_sized _ _ _ _ _ Hm).
    cbn [pow] in Hd.
    assert (D1 : calc_dist ds q1 m = (1/2 - 0) * calc_dist ds q1 q2).
    { apply (dist_between ds 0 (1/2)); auto; try lra. now apply at_fraction_0. }
    assert (D2 : calc_dist ds m q2 = (1 - 1/2) * calc_dist ds q1 q2).
    { apply (dist_between ds (1/2) 1); auto; try lra. now apply at_fraction_1. }
    apply andb_true_intro. split; apply IH; auto; try lra.
    + intros z Hz. apply Hf. apply (on_segment_between ds 0 (1/2) q1 q2 q1 m z); auto; try lra. now apply at_fraction_0.
    + intros z Hz. apply Hf. apply (on_segment_between ds (1/2) 1 q1 q2 m q2 z); auto; try lra. now apply at_fraction_1.
Qed.

(** * createPath *)

Lemma spaced_cons : forall ds eps a b l, calc_dist ds a b <= eps -> spaced ds eps (b :: l) -> spaced ds eps (a :: b :: l).
Proof. intros. cbn. auto. Qed.

Lemma interpolate_to_goal : forall ds s start goal last f dist, regular ds -> sized ds start -> sized ds goal ->
  0 <= f <= 1 -> at_fraction f ds start goal last -> dist = calc_dist ds last goal -> 0 < s <= dist ->
  let c := interpolate ds last goal (s / dist) in
  let g := f + s / dist * (1 - f) in
  f <= g <= 1 /\ at_fraction g ds start goal c /\ calc_dist ds last c = s /\ calc_dist ds c goal = dist - s.
Proof.
  intros ds s start goal last f dist Hr Hs Hg Hf Ha Hd Hsd c g.
  assert (Hl : sized ds last) by apply (at_fraction_sized _ _ _ _ _ Ha).
  assert (Hc : at_fraction (s / dist) ds last goal c) by now apply at_fraction_interpolate.
  assert (Hq : 0 < s / dist <= 1).
  { split; [apply Rdiv_lt_0_compat; lra|]. apply Rmult_le_reg_r with dist; [lra|]. unfold Rdiv.
    rewrite Rmult_assoc, Rinv_l by lra. lra. }
  set (r := s / dist) in *.
  assert (Hr1 : 0 <= r * (1 - f)) by (apply Rmult_le_pos; lra).
  assert (Hr2 : 0 <= (1 - r) * (1 - f)) by (apply Rmult_le_pos; lra).
  assert (Hrd : r * dist = s) by (unfold r; field; lra).
  split; [unfold g; lra|]. split; [|split].
  - apply (at_fraction_between ds f 1 r start goal last goal c); auto; try lra. now apply at_fraction_1.
  - rewrite (dist_between ds 0 r last goal last c); auto; try lra.
    + rewrite <- Hd. lra.
    + now apply at_fraction_0.
  - rewrite (dist_between ds r 1 last goal c goal); auto; try lra.
    + rewrite <- Hd. lra.
    + now apply at_fraction_1.
Qed.

Lemma create_path_loop_ok : forall fuel ds s start goal last f dist (ln : bool), regular ds -> sized ds start -> sized ds goal ->
  0 < s -> 0 <= f <= 1 -> at_fraction f ds start goal last -> dist = calc_dist ds last goal ->
  (if ln then dist <= 1.05 * s else s <= dist) ->
  dist <= INR fuel * s -> (if ln then fuel <> O else (2 <= fuel)%nat) -> 
  exists l, create_path_loop fuel ds s goal last dist ln = Some l /\
    forward_on_segment ds start goal f l 1 /\ spaced ds (1.05 * s) (last :: l) /\ l <> [] /\
    (List.last l start = goal \/ calc_dist ds (List.last l start) goal < 1e-6).
Proof.
  induction fuel as [|fuel IH]; intros ds s start goal last f dist ln Hr Hs Hg Hsp Hf Ha Hd Hln Hfu Hfu2.
  - destruct ln; [contradiction|lia].
  - cbn [create_path_loop]. destruct ln.
    + rewrite dist_self. destruct (Rle_dec 0 (s * 1.05)) as [_|K]; [|exfalso; apply K; lra]. cbn [orb].
      exists [goal]. split; [reflexivity|]. split; [|split; [|split; [discriminate|now left]]].
      * apply fos_cons with 1; [lra|now apply at_fraction_1|apply fos_nil; lra].
      * cbn. split; [lra|exact I].
    + destruct (interpolate_to_goal ds s start goal last f dist Hr Hs Hg Hf Ha Hd ltac:(lra)) as (Hg1 & Hc & D1 & D2).
      set (c := interpolate ds last goal (s / dist)) in *. set (g := f + s / dist * (1 - f)) in *.
      rewrite D2. rewrite S_INR in Hfu.
      assert (Hfu' : dist - s <= INR fuel * s) by lra.
      destruct (Rle_dec (dist - s) (s * 1.05)) as [K|K].
      * cbn [orb]. destruct (Rlt_dec (dist - s) 1e-6) as [M|M].
        -- exists [c]. split; [reflexivity|]. split; [|split; [|split; [discriminate|right; cbn; lra]]].
           ++ apply fos_cons with g; [lra|assumption|apply fos_nil; lra].
           ++ cbn. split; [lra|exact I].
        -- destruct (IH ds s start goal c g (dist - s) true) as (l & E & P1 & P2 & P3 & P4); auto; try lra; try lia.
           rewrite E. exists (c :: l). split; [reflexivity|]. split; [|split; [|split; [discriminate|]]].
           ++ apply fos_cons with g; [lra|assumption|assumption].
           ++ apply spaced_cons; [lra|assumption].
           ++ destruct l; [contradiction|exact P4].
      * destruct (IH ds s start goal c g (dist - s) false) as (l & E & P1 & P2 & P3 & P4); auto; try lra.
        { destruct fuel as [|[|]]; [cbn in Hfu'; lra|cbn in Hfu'; lra|lia]. }
        rewrite E. exists (c :: l). split; [reflexivity|]. split; [|split; [|split; [discriminate|]]].
        -- apply fos_cons with g; [lra|assumption|assumption].
        -- apply spaced_cons; [lra|assumption].
        -- destruct l; [contradiction|exact P4].
Qed.

Lemma create_path_ok : forall ds s start goal fuel, regular ds -> sized ds start -> sized ds goal -> 0 < s ->
  calc_dist ds start goal <= INR fuel * s -> (2 <= fuel)%nat ->
  exists l, sampled_create_path fuel ds s start goal = Some (start :: l) /\
    forward_on_segment ds start goal 0 (start :: l) 1 /\ spaced ds (1.05 * s) (start :: l) /\
    (List.last l start = goal \/ calc_dist ds (List.last l start) goal < 1e-6).
Proof.
  intros ds s start goal fuel Hr Hs Hg Hsp Hfu Hfu2. unfold sampled_create_path.
  assert (H0 : at_fraction 0 ds start goal start) by now apply at_fraction_0.
  destruct (Req_EM_T (calc_dist ds start goal) 0) as [E|E].
  - exists []. split; [reflexivity|]. split; [|split; [exact I|right; cbn; rewrite E; lra]].
    apply fos_cons with 0; [lra|assumption|apply fos_nil; lra].
  - destruct (create_path_loop_ok fuel ds s start goal start 0 (calc_dist ds start goal)
                (if Rlt_dec (calc_dist ds start goal) s then true else false)) as (l & El & P1 & P2 & P3 & P4); auto; try lra.
    + destruct (Rlt_dec (calc_dist ds start goal) s); lra.
    + destruct (Rlt_dec (calc_dist ds start goal) s); lia.
    + rewrite El. exists l. split; [reflexivity|]. split; [|split; assumption].
      apply fos_cons with 0; [lra|assumption|assumption].
Qed.

(** * createPathUntilInvalid *)

Lemma spaced_hd : forall ds eps a b l, spaced ds eps (a :: b :: l) <-> calc_dist ds a b <= eps /\ spaced ds eps (b :: l).
Proof. intros. reflexivity. Qed.

Lemma until_loop_ok : forall fuel ds free inside dcd sp start goal orig tmp f dist nd added lp fl,
  regular ds -> sized ds start -> sized ds goal -> 0 < dcd -> 0 <= sp ->
  orig = calc_dist ds start goal -> 0 < dist ->
  0 <= f <= 1 -> at_fraction f ds start goal tmp -> dist = calc_dist ds tmp goal ->
  0 <= fl <= f -> at_fraction fl ds start goal lp -> 0 <= nd ->
  (lp = tmp \/ calc_dist ds lp tmp <= nd < sp) -> 0 <= added <= f -> added < 1 ->
  dist <= INR fuel * dcd -> 
  exists l len, until_loop fuel ds free inside dcd sp goal orig tmp dist nd added = Some (l, len) /\
    spaced ds (sp + dcd) (lp :: l) /\
    (exists m q g, chain ds (accepted free inside goal) dcd tmp m q /\
       forward_on_segment ds start goal f m g /\ forward_on_segment ds start goal fl l g /\ g <= 1 /\
       at_fraction g ds start goal q /\ len <= g /\ incl l m) /\ 0 <= len <= 1 /\
    (len = 1 -> l <> [] /\ last l start = goal) /\
    (len <> 1 -> exists q, on_segment ds start goal q /\ ~ accepted free inside goal q).
Proof.
  induction fuel as [|fuel IH];
    intros ds free inside dcd sp start goal orig tmp f dist nd added lp fl Hr Hs Hg Hdcd Hsp Ho Hdp Hf Ha Hd Hfl Hlp Hnd Hsep Hadd Hadd1 Hfu.
  - cbn in Hfu. lra.
  - cbn [until_loop].
    assert (Hts : sized ds tmp) by apply (at_fraction_sized _ _ _ _ _ Ha).
    assert (Hdo : dist = (1 - f) * orig).
    { rewrite Hd, Ho. apply dist_between; auto; try lra. now apply at_fraction_1. }
    assert (Hop : 0 < orig).
    { destruct (Rle_lt_dec orig 0); [|assumption]. assert ((1 - f) * orig <= 0); [|lra].
      replace 0 with ((1 - f) * 0) by ring. apply Rmult_le_compat_l; lra. }
    assert (Hlen : (orig - dist) / orig = f) by (rewrite Hdo; field; lra).
    assert (Hf1 : f < 1).
    { destruct (Rle_lt_dec 1 f); [|assumption]. assert (Ef : 1 - f = 0) by lra. rewrite Ef, Rmult_0_l in Hdo. lra. }
    rewrite Hlen.
    destruct (Rle_dec dist dcd) as [K|K].
    + destruct (free goal) eqn:Ef.
      * exists [goal], 1. split; [reflexivity|]. split; [|split; [|split; [lra|split; [split; [discriminate|reflexivity]|intros C; now elim C]]]].
        -- apply spaced_hd. split; [|exact I]. destruct Hsep as [->|Hsep]; [lra|].
           rewrite (dist_between ds fl 1 start goal lp goal); auto; try lra; [|now apply at_fraction_1].
           rewrite (dist_between ds fl f start goal lp tmp) in Hsep by (auto; lra).
           rewrite <- Ho in *. lra.
        -- exists [goal], goal, 1. split; [|split; [|split; [|split; [lra|split; [now apply at_fraction_1|split; [lra|apply incl_refl]]]]]].
           ++ apply chain_step; [lra| |apply chain_nil]. split; [assumption|now right].
           ++ apply fos_cons with 1; [lra|now apply at_fraction_1|apply fos_nil; lra].
           ++ apply fos_cons with 1; [lra|now apply at_fraction_1|apply fos_nil; lra].
      * exists [], f. split; [reflexivity|]. split; [exact I|].
        split; [|split; [lra|split; [lra|]]].
        -- exists [], tmp, f. split; [apply chain_nil|]. split; [apply fos_nil; lra|]. split; [apply fos_nil; lra|].
           split; [lra|]. split; [assumption|]. split; [lra|apply incl_nil_l].
        -- intros _. exists goal. split; [exists 1; split; [lra|now apply at_fraction_1]|]. intros (C & _). congruence.
    + unfold generate_new_config. destruct (Rle_dec dist dcd) as [?|_]; [contradiction|].
      destruct (interpolate_to_goal ds dcd start goal tmp f dist Hr Hs Hg Hf Ha Hd ltac:(lra)) as (Hg1 & Hc & D1 & D2).
      set (c := interpolate ds tmp goal (dcd / dist)) in *. set (g := f + dcd / dist * (1 - f)) in *.
      destruct (inside c && free c)%bool eqn:Ev.
      * apply andb_prop in Ev. destruct Ev as (Ei & Ef). rewrite D2. rewrite S_INR in Hfu.
        assert (Hacc : accepted free inside goal c) by (split; [assumption|now left]).
        assert (Hlc : calc_dist ds lp c <= nd + dcd /\ calc_dist ds lp c <= sp + dcd).
        { destruct Hsep as [->|Hsep]; [lra|].
          rewrite (dist_between ds fl g start goal lp c); auto; try lra.
          rewrite (dist_between ds fl f start goal lp tmp) in Hsep by (auto; lra).
          assert (calc_dist ds tmp c = (g - f) * calc_dist ds start goal) by (apply dist_between; auto; try lra). lra. }
        destruct (Rle_dec sp (nd + dcd)) as [M|M].
        -- destruct (IH ds free inside dcd sp start goal orig c g (dist - dcd) (nd + dcd - sp) f c g)
             as (l & len & E & P2 & (m & q & h & P3 & Q1 & Q2 & P4 & P5 & P6 & P7) & P8 & P9 & P10); auto; try lra.
           rewrite E. exists (c :: l), len. cbn [option_map fst snd].
           split; [reflexivity|]. split; [|split; [|split; [lra|split; [|exact P10]]]].
           ++ apply spaced_hd. split; [lra|assumption].
           ++ exists (c :: m), q, h. split; [apply chain_step; [lra|assumption|assumption]|].
              split; [apply fos_cons with g; [lra|assumption|assumption]|].
              split; [apply fos_cons with g; [lra|assumption|assumption]|]. split; [lra|]. split; [assumption|]. split; [lra|].
              apply incl_cons; [now left|]. now apply incl_tl.
           ++ intros L. destruct (P9 L) as (N & X). split; [discriminate|]. destruct l; [contradiction|exact X].
        -- destruct (IH ds free inside dcd sp start goal orig c g (dist - dcd) (nd + dcd) added lp fl)
             as (l & len & E & P2 & (m & q & h & P3 & Q1 & Q2 & P4 & P5 & P6 & P7) & P8 & P9 & P10); auto; try lra.
           rewrite E. exists l, len.
           split; [reflexivity|]. split; [assumption|split; [|split; [lra|split; [exact P9|exact P10]]]].
           exists (c :: m), q, h. split; [apply chain_step; [lra|assumption|assumption]|].
           split; [apply fos_cons with g; [lra|assumption|assumption]|].
           split; [assumption|]. split; [lra|]. split; [assumption|]. split; [lra|].
           now apply incl_tl.
      * exists [], added. split; [reflexivity|]. split; [exact I|].
        split; [|split; [lra|split; [lra|]]].
        -- exists [], tmp, f. split; [apply chain_nil|]. split; [apply fos_nil; lra|]. split; [apply fos_nil; lra|].
           split; [lra|]. split; [assumption|]. split; [lra|apply incl_nil_l].
        -- intros _. destruct (free c) eqn:Efc; [destruct (inside c) eqn:Eic; [discriminate|]|].
           ++ exists c. split; [exists g; split; [lra|assumption]|]. intros (_ & [C|C]); [congruence|].
              rewrite C, dist_self in D2. lra.
           ++ exists c. split; [exists g; split; [lra|assumption]|]. intros (C & _). congruence.
Qed.

Lemma create_path_until_ok : forall fuel ds free inside dcd sp start goal,
  regular ds -> sized ds start -> sized ds goal -> 0 < dcd -> 0 <= sp -> calc_dist ds start goal <= INR fuel * dcd ->
  exists l len, sampled_create_path_until fuel ds free inside dcd sp start goal = Some (start :: l, len) /\
    spaced ds (sp + dcd) (start :: l) /\
    (exists m q g, chain ds (accepted free inside goal) dcd start m q /\
       forward_on_segment ds start goal 0 m g /\ forward_on_segment ds start goal 0 (start :: l) g /\ g <= 1 /\
       at_fraction g ds start goal q /\ (0 < calc_dist ds start goal -> len <= g) /\ incl l m) /\ 0 <= len <= 1 /\
    (len = 1 -> last l start = goal \/ calc_dist ds start goal = 0 /\ l = []) /\
    (len <> 1 -> exists q, on_segment ds start goal q /\ ~ accepted free inside goal q).
Proof.
  intros fuel ds free inside dcd sp start goal Hr Hs Hg Hdcd Hsp Hfu. unfold sampled_create_path_until.
  assert (H0 : at_fraction 0 ds start goal start) by now apply at_fraction_0.
  destruct (Req_EM_T (calc_dist ds start goal) 0) as [E|E].
  - exists [], 1. split; [reflexivity|].
    split; [exact I|]. split; [|split; [lra|split; [auto|intros C; now elim C]]].
    exists [], start, 0. split; [apply chain_nil|]. split; [apply fos_nil; lra|].
    split; [apply fos_cons with 0; [lra|assumption|apply fos_nil; lra]|].
    split; [lra|]. split; [assumption|]. split; [lra|apply incl_refl].
  - assert (0 < calc_dist ds start goal) by (pose proof (dist_nonneg ds start goal); lra).
    destruct (until_loop_ok fuel ds free inside dcd sp start goal (calc_dist ds start goal) start 0 (calc_dist ds start goal) 0 0 start 0)
      as (l & len & El & P2 & (m & q & g & P3 & Q1 & Q2 & P4 & P5 & P6 & P7) & P8 & P9 & P10); auto; try lra.
    rewrite El. exists l, len. split; [reflexivity|].
    split; [assumption|]. split; [|split; [assumption|split; [|assumption]]].
    + exists m, q, g. split; [assumption|]. split; [assumption|].
      split; [apply fos_cons with 0; [lra|assumption|assumption]|]. split; [lra|]. split; [assumption|]. split; [auto|assumption].
    + intros L. left. now apply P9.
Qed.

(** * Coverage *)

Lemma chain_covers : forall ds ok eps q1 q2 a m q f g h z, regular ds -> 0 <= f <= 1 -> g <= 1 ->
  chain ds ok eps a m q -> at_fraction f ds q1 q2 a -> forward_on_segment ds q1 q2 f m g ->
  at_fraction g ds q1 q2 q -> f <= h <= g -> at_fraction h ds q1 q2 z -> m <> [] ->
  exists w, In w m /\ calc_dist ds z w <= eps.
Proof.
  intros ds ok eps q1 q2 a m q f g h z Hr Hf Hg Hc. revert f Hf.
  induction Hc as [q|a b l q Hd Ho Hc IH]; intros f Hf Ha Hfo Hq Hh Hz Hm; [contradiction|]. clear Hm.
  inversion Hfo as [|? k ? ? ? Hfk Hak Hl]; subst.
  assert (Hkg := fos_le _ _ _ _ _ _ Hl).
  destruct (Rle_lt_dec h k) as [K|K].
  - exists b. split; [now left|]. rewrite (dist_between ds h k q1 q2 z b); auto; try lra.
    rewrite (dist_between ds f k q1 q2 a b) in Hd; auto; try lra.
    assert (0 <= (h - f) * calc_dist ds q1 q2) by (apply Rmult_le_pos; [lra|apply dist_nonneg]). lra.
  - destruct l as [|b' l].
    + inversion Hc; subst. exists q. split; [now left|].
      assert (calc_dist ds q q = (g - k) * calc_dist ds q1 q2) by (apply dist_between; auto; lra).
      rewrite dist_sym. rewrite (dist_between ds k h q1 q2 q z); auto; try lra.
      rewrite dist_self in H.
      assert (0 <= (h - f) * calc_dist ds q1 q2) by (apply Rmult_le_pos; [lra|apply dist_nonneg]).
      assert (0 <= (g - h) * calc_dist ds q1 q2) by (apply Rmult_le_pos; [lra|apply dist_nonneg]).
      pose proof (dist_nonneg ds a q). lra.
    + destruct (IH k ltac:(lra) Hak Hl Hq ltac:(lra) Hz ltac:(discriminate)) as (w & Hw & D).
      exists w. split; [now right|assumption].
Qed.

Lemma fos_consecutive : forall ds q1 q2 f l1 x y l2 g, forward_on_segment ds q1 q2 f (l1 ++ x :: y :: l2) g ->
  exists u v, f <= u /\ u <= v /\ v <= g /\ at_fraction u ds q1 q2 x /\ at_fraction v ds q1 q2 y.
Proof.
  intros ds q1 q2 f l1. revert f. induction l1 as [|a l1 IH]; intros f x y l2 g H; cbn [app] in H.
  - inversion H as [|? u ? ? ? H1 H2 H3]; subst. inversion H3 as [|? v ? ? ? K1 K2 K3]; subst.
    apply fos_le in K3. exists u, v. repeat split; try assumption; lra.
  - inversion H as [|? u ? ? ? H1 H2 H3]; subst. destruct (IH _ _ _ _ _ H3) as (u' & v & A & B & C & D & E).
    exists u', v. repeat split; try assumption; lra.
Qed.

Lemma chain_Forall : forall ds ok eps a m q, chain ds ok eps a m q -> Forall ok m.
Proof. intros ds ok eps a m q H. induction H; constructor; auto. Qed.

Lemma segment_covered : forall ds (ok : config -> Prop) free eps q1 q2 m q g l1 x y l2, regular ds ->
  sized ds q1 -> sized ds q2 ->
  (forall w, ok w -> free w = true) ->
  chain ds ok eps q1 m q -> forward_on_segment ds q1 q2 0 m g -> at_fraction g ds q1 q2 q -> g <= 1 -> m <> [] ->
  forward_on_segment ds q1 q2 0 (l1 ++ x :: y :: l2) g -> covered ds free eps x y.
Proof.
  intros ds ok free eps q1 q2 m q g l1 x y l2 Hr H1 H2 Hok Hc Hm Hq Hg Hne Hl z (h & Hh & Hz).
  destruct (fos_consecutive _ _ _ _ _ _ _ _ _ Hl) as (u & v & Hu & Huv & Hv & Hx & Hy).
  assert (Hz' : at_fraction (u + h * (v - u)) ds q1 q2 z) by (eapply at_fraction_between; eauto; lra).
  assert (0 <= h * (v - u)) by (apply Rmult_le_pos; lra).
  assert (0 <= (1 - h) * (v - u)) by (apply Rmult_le_pos; lra).
  destruct (chain_covers ds ok eps q1 q2 q1 m q 0 g (u + h * (v - u)) z) as (w & Hw & D); auto; try lra.
  { now apply at_fraction_0. }
  exists w. split; [|assumption]. apply Hok. apply chain_Forall in Hc. rewrite Forall_forall in Hc. now apply Hc.
Qed.

(** * Examples *)

Definition arm : list dim := [Dim Linear 1; Dim (Circular 0) 0.5].

Lemma arm_regular : regular arm.
Proof. intros d [<-|[<-|[]]]; discriminate. Qed.

Lemma dist1_linear : forall a b, calc_dist [Dim Linear 1] [a] [b] = Rabs (a - b).
Proof.
  intros a b. unfold calc_dist. cbn. replace (1 * 1 * (a - b) * (a - b) + 0) with (Rsqr (a - b)) by (unfold Rsqr; ring).
  apply sqrt_Rsqr_abs.
Qed.

(** Valid although everything between the ends is in collision. *)
Definition blocked (q : config) : bool :=
  match q with
  | [x] => if Rlt_dec 0 x then if Rlt_dec x (2 * PI) then false else true else true
  | _ => true
  end.

Lemma slider_wrong : forall depth, sampled_path_valid [Dim Slide 1] blocked 0.1 depth [0] [2 * PI] = true.
Proof.
  intros depth.
  assert (D : calc_dist [Dim Slide 1] [0] [2 * PI] = 0).
  { unfold calc_dist. cbn. replace (angle_delta 0 (2 * PI)) with 0; [rewrite Rabs_R0|].
    - replace (1 * 1 * 0 * 0 + 0) with 0 by ring. apply sqrt_0.
    - apply angle_delta_unique; [pose proof PI_RGT_0; lra|]. exists (-1)%Z. lra. }
  destruct depth; cbn [sampled_path_valid]; rewrite D; (destruct (Rle_dec 0 (0.1 * 1.001)) as [_|K]; [|elim K; lra]);
  cbn; (destruct (Rlt_dec 0 (2 * PI)); [|reflexivity]); (destruct (Rlt_dec (2 * PI) (2 * PI)); [lra|reflexivity]).
Qed.

Lemma slider_blocked : forall f q, 0 < f < 1 -> at_fraction f [Dim Slide 1] [0] [2 * PI] q -> blocked q = false.
Proof.
  intros f q Hf H. inversion H as [|? ? ? ? ? ? x q' Hv Hq]; subst. inversion Hq; subst. unfold value_at in Hv. cbn in Hv.
  subst x. cbn. pose proof PI_RGT_0.
  assert (0 < f * (2 * PI)) by (apply Rmult_lt_0_compat; lra).
  assert (0 < (1 - f) * (2 * PI)) by (apply Rmult_lt_0_compat; lra).
  destruct (Rlt_dec 0 (0 + f * (2 * PI - 0))); [|lra]. destruct (Rlt_dec (0 + f * (2 * PI - 0)) (2 * PI)); [reflexivity|lra].
Qed.

Lemma create_path_short_of_goal : forall fuel, (1 <= fuel)%nat ->
  sampled_create_path fuel [Dim Linear 1] 1 [0] [1 + 5e-7] = Some [[0]; [1]].
Proof.
  intros [|fuel] H; [lia|]. unfold sampled_create_path. rewrite dist1_linear.
  assert (E : Rabs (0 - (1 + 5e-7)) = 1 + 5e-7) by (rewrite Rabs_left; lra). rewrite E.
  destruct (Req_EM_T (1 + 5e-7) 0); [lra|]. destruct (Rlt_dec (1 + 5e-7) 1); [lra|].
  cbn [create_path_loop].
  assert (Ei : interpolate [Dim Linear 1] [0] [1 + 5e-7] (1 / (1 + 5e-7)) = [1]).
  { cbn [interpolate]. unfold dim_interpolate. cbn [d_kind]. f_equal. rewrite Rminus_0_r, Rplus_0_l. field. }
  rewrite Ei, dist1_linear.
  assert (E2 : Rabs (1 - (1 + 5e-7)) = 5e-7) by (rewrite Rabs_left; lra). rewrite E2.
  destruct (Rle_dec 5e-7 (1 * 1.05)); [|lra]. cbn [orb]. destruct (Rlt_dec 5e-7 1e-6); [reflexivity|lra].
Qed.

Lemma create_path_zero_step : forall fuel, sampled_create_path fuel [Dim Linear 1] 0 [0] [1] = None.
Proof.
  intros fuel. unfold sampled_create_path. rewrite dist1_linear.
  assert (E : Rabs (0 - 1) = 1) by (rewrite Rabs_left; lra). rewrite E.
  destruct (Req_EM_T 1 0); [lra|]. destruct (Rlt_dec 1 0); [lra|].
  assert (L : create_path_loop fuel [Dim Linear 1] 0 [1] [0] 1 false = None).
  { induction fuel as [|fuel IH]; [reflexivity|]. cbn [create_path_loop].
    assert (Ei : interpolate [Dim Linear 1] [0] [1] (0 / 1) = [0]).
    { cbn [interpolate]. unfold dim_interpolate. cbn [d_kind]. f_equal. field. }
    rewrite Ei, dist1_linear, E. destruct (Rle_dec 1 (0 * 1.05)); [lra|]. now rewrite IH. }
  now rewrite L.
Qed.

Lemma until_zero_step : forall fuel, sampled_create_path_until fuel [Dim Linear 1] (fun _ => true) (fun _ => true) 0 1 [0] [1] = None.
Proof.
  intros fuel. unfold sampled_create_path_until. rewrite dist1_linear.
  assert (E : Rabs (0 - 1) = 1) by (rewrite Rabs_left; lra). rewrite E.
  destruct (Req_EM_T 1 0); [lra|].
  assert (L : until_loop fuel [Dim Linear 1] (fun _ => true) (fun _ => true) 0 1 [1] 1 [0] 1 0 0 = None).
  { induction fuel as [|fuel IH]; [reflexivity|]. cbn [until_loop].
    destruct (Rle_dec 1 0); [lra|].
    assert (Ei : generate_new_config [Dim Linear 1] [1] [0] 0 1 = [0]).
    { unfold generate_new_config. destruct (Rle_dec 1 0); [lra|]. cbn [interpolate]. unfold dim_interpolate. cbn [d_kind]. f_equal. field. }
    rewrite Ei, dist1_linear, E. cbn [andb]. destruct (Rle_dec 1 (0 + 0)); [lra|].
    rewrite Rplus_0_r. exact IH. }
  now rewrite L.
Qed.

Lemma arm_dist : calc_dist arm [0; 3] [3; -3] <= 4.
Proof.
  unfold calc_dist. rewrite <- (sqrt_Rsqr 4) by lra.
  apply sqrt_le_1_alt. unfold Rsqr. cbn [calc_dist2 arm d_weight]. unfold dim_delta. cbn [d_kind].
  destruct (angle_delta_ok 3 (-3)) as (B & _). set (x := angle_delta 3 (-3)) in *.
  assert (Hx : Rabs x <= 4).
  { pose proof PI_4. apply Rabs_le. lra. }
  pose proof (Rabs_pos x).
  assert (Rabs x * Rabs x <= 4 * 4) by (apply Rmult_le_compat; lra). lra.
Qed.
