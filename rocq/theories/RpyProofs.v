(** Proofs about the conversions. *)
From Coq Require Import Reals Lra Lia Psatz Nsatz.
From Verif Require Import QuatModel QuatSpec QuatProofs RpyModel RpySpec.
Open Scope R_scope.

(** * atan2 *)
Lemma atan_polar x y : 0 < x -> let r := sqrt (x * x + y * y) in cos (atan (y / x)) = x / r /\ sin (atan (y / x)) = y / r.
Proof.
  intros X r. rewrite cos_atan, sin_atan. unfold Rsqr.
  assert (Q : sqrt (1 + y / x * (y / x)) = r / x).
  { unfold r. assert (E : 1 + y / x * (y / x) = (x * x + y * y) / (x * x)) by (field; lra). rewrite E.
    rewrite sqrt_div_alt by nra. rewrite sqrt_square by lra. reflexivity. }
  assert (P : 0 < r) by (apply sqrt_lt_R0; nra). rewrite Q. split; field; lra.
Qed.
Lemma atan2_polar y x : 0 < x * x + y * y -> let r := sqrt (x * x + y * y) in
  cos (atan2 y x) = x / r /\ sin (atan2 y x) = y / r.
Proof.
  intros P r. assert (RP : 0 < r) by (apply sqrt_lt_R0, P). assert (RR : r * r = x * x + y * y) by (apply sqrt_sqrt; lra).
  unfold atan2. destruct (Rlt_dec 0 x) as [X|X]; [apply atan_polar, X|].
  destruct (Rlt_dec x 0) as [X'|X'].
  - destruct (atan_polar (- x) (- y) ltac:(lra)) as [C S]. replace (- y / - x) with (y / x) in C, S by (field; lra).
    replace (- x * - x + - y * - y) with (x * x + y * y) in C, S by ring. fold r in C, S.
    destruct (Rle_dec 0 y).
    + rewrite cos_plus, sin_plus, cos_PI, sin_PI, C, S. split; field; lra.
    + rewrite cos_minus, sin_minus, cos_PI, sin_PI, C, S. split; field; lra.
  - assert (x = 0) by lra. subst x.
    destruct (Rlt_dec 0 y) as [Y|Y].
    + assert (r = y) by nra. rewrite cos_PI2, sin_PI2. rewrite H. split; field; lra.
    + destruct (Rlt_dec y 0) as [Y'|Y']; [|exfalso; assert (y = 0) by lra; subst; lra].
      assert (r = - y) by nra. rewrite cos_neg, sin_neg, cos_PI2, sin_PI2, H. split; field; lra.
Qed.
Lemma atan2_range y x : - PI < atan2 y x <= PI.
Proof.
  assert (P := PI_RGT_0). unfold atan2. assert (B := atan_bound (y / x)).
  destruct (Rlt_dec 0 x) as [X|X]; [lra|]. destruct (Rlt_dec x 0) as [X'|X'].
  - destruct (Rle_dec 0 y) as [Y|Y].
    + assert (atan (y / x) <= 0); [|lra]. destruct (Req_dec y 0) as [-> |N].
      * unfold Rdiv. rewrite Rmult_0_l, atan_0. lra.
      * left. rewrite <- atan_0. apply atan_increasing. assert (I : / x < 0) by (apply Rinv_lt_0_compat; lra). unfold Rdiv. nra.
    + assert (0 < atan (y / x)); [|lra]. rewrite <- atan_0. apply atan_increasing.
      replace (y / x) with (- y * / - x) by (field; lra). apply Rmult_lt_0_compat; [lra|apply Rinv_0_lt_compat; lra].
  - destruct (Rlt_dec 0 y); [lra|]. destruct (Rlt_dec y 0); lra.
Qed.
Lemma cos_one x : cos x = 1 -> - (2 * PI) < x < 2 * PI -> x = 0.
Proof.
  intros C B. replace x with (2 * (x / 2)) in C by field. rewrite cos_2a_sin in C. assert (S : sin (x / 2) * sin (x / 2) = 0) by lra.
  assert (Z : sin (x / 2) = 0) by (apply Rsqr_0_uniq; exact S).
  destruct (Rtotal_order x 0) as [H|[H|H]]; [|exact H|].
  - assert (0 < sin (- (x / 2))) by (apply sin_gt_0; lra). rewrite sin_neg in H0. lra.
  - assert (0 < sin (x / 2)) by (apply sin_gt_0; lra). lra.
Qed.
Lemma angle_unique a b : cos a = cos b -> sin a = sin b -> - (2 * PI) < a - b < 2 * PI -> a = b.
Proof.
  intros C S B. assert (cos (a - b) = 1) by (rewrite cos_minus, C, S; assert (H := sin2_cos2 b); unfold Rsqr in H; lra).
  assert (a - b = 0) by (apply cos_one; assumption). lra.
Qed.
Lemma atan2_scaled k a : 0 < k -> - PI < a <= PI -> atan2 (k * sin a) (k * cos a) = a.
Proof.
  intros K A. assert (T := sin2_cos2 a). unfold Rsqr in T.
  assert (E : k * cos a * (k * cos a) + k * sin a * (k * sin a) = k * k) by nsatz.
  destruct (atan2_polar (k * sin a) (k * cos a)) as [C S]; [rewrite E; nra|]. rewrite E, sqrt_square in C, S by lra.
  assert (R := atan2_range (k * sin a) (k * cos a)).
  apply angle_unique; [rewrite C; field; lra|rewrite S; field; lra|lra].
Qed.
Lemma atan2_pos_range y x : 0 <= x -> - (PI / 2) <= atan2 y x <= PI / 2.
Proof.
  intros X. assert (P := PI_RGT_0). unfold atan2. assert (B := atan_bound (y / x)). destruct (Rlt_dec 0 x); [lra|].
  destruct (Rlt_dec x 0); [lra|]. destruct (Rlt_dec 0 y); [lra|]. destruct (Rlt_dec y 0); lra.
Qed.

(** * Rotation matrices *)
Lemma cofactors (a b c d e f g h i : R) : a * a + d * d + g * g = 1 -> b * b + e * e + h * h = 1 -> c * c + f * f + i * i = 1 ->
  a * b + d * e + g * h = 0 -> a * c + d * f + g * i = 0 -> b * c + e * f + h * i = 0 ->
  a * (e * i - f * h) - b * (d * i - f * g) + c * (d * h - e * g) = 1 ->
  (a = e * i - f * h /\ d = c * h - b * i /\ g = b * f - c * e) /\
  (b = f * g - d * i /\ e = a * i - c * g /\ h = c * d - a * f) /\
  (c = d * h - e * g /\ f = b * g - a * h /\ i = a * e - b * d).
Proof. intros. split; [split; [|split]; nsatz|]. split; [split; [|split]; nsatz|]. split; [|split]; nsatz. Qed.
Lemma rotation_eqs m : rotation m ->
  (m00 m * m00 m + m10 m * m10 m + m20 m * m20 m = 1 /\ m01 m * m01 m + m11 m * m11 m + m21 m * m21 m = 1 /\ m20 m * m20 m + m21 m * m21 m + m22 m * m22 m = 1) /\
  (m00 m = m11 m * m22 m - m12 m * m21 m /\ m01 m = m12 m * m20 m - m10 m * m22 m /\ m02 m = m10 m * m21 m - m11 m * m20 m) /\
  (m10 m = m02 m * m21 m - m01 m * m22 m /\ m11 m = m00 m * m22 m - m02 m * m20 m /\ m12 m = m01 m * m20 m - m00 m * m21 m) /\
  (m20 m = m01 m * m12 m - m02 m * m11 m /\ m21 m = m02 m * m10 m - m00 m * m12 m /\ m22 m = m00 m * m11 m - m01 m * m10 m).
Proof.
  destruct m as [a b c d e f g h i]. unfold rotation, mmul, mtrans, mid, mdet; cbn [m00 m01 m02 m10 m11 m12 m20 m21 m22].
  intros (A & B & D). injection A; injection B; clear A B; intros.
  split; [split; [|split]; lra|].
  destruct (cofactors a b c d e f g h i ltac:(lra) ltac:(lra) ltac:(lra) ltac:(lra) ltac:(lra) ltac:(lra) ltac:(lra)) as (C0 & C1 & C2).
  tauto.
Qed.

Lemma rpy2mat_rotation r p y : rotation (rpy2mat r p y).
Proof.
  assert (R := sin2_cos2 r). assert (P := sin2_cos2 p). assert (Y := sin2_cos2 y). unfold Rsqr in *.
  unfold rotation, mmul, mtrans, mid, mdet, rpy2mat; cbn [m00 m01 m02 m10 m11 m12 m20 m21 m22].
  set (sr := sin r) in *. set (cr := cos r) in *. set (sp := sin p) in *. set (cp := cos p) in *. set (sy := sin y) in *. set (cy := cos y) in *.
  clearbody sr cr sp cp sy cy.
  split; [f_equal; nsatz|]. split; [f_equal; nsatz|]. nsatz.
Qed.

Lemma atan2_unit y x : x * x + y * y = 1 -> cos (atan2 y x) = x /\ sin (atan2 y x) = y.
Proof. intros E. destruct (atan2_polar y x ltac:(lra)) as [C S]. rewrite E, sqrt_1 in C, S. rewrite C, S. split; field. Qed.


Lemma beta_ok m : rotation m -> let c := sqrt (m00 m * m00 m + m10 m * m10 m) in let b := atan2 (- m20 m) c in
  0 <= c /\ c * c = m00 m * m00 m + m10 m * m10 m /\ c * c + m20 m * m20 m = 1 /\ cos b = c /\ sin b = - m20 m /\ - (PI / 2) <= b <= PI / 2.
Proof.
  intros M c b. destruct (rotation_eqs m M) as ((N0 & N1 & N2) & _).
  assert (C0 : 0 <= c) by apply sqrt_pos. assert (CC : c * c = m00 m * m00 m + m10 m * m10 m) by (apply sqrt_sqrt; nra).
  destruct (atan2_unit (- m20 m) c ltac:(lra)) as [C S].
  split; [exact C0|]. split; [exact CC|]. split; [lra|]. split; [exact C|]. split; [exact S|]. apply atan2_pos_range, C0.
Qed.

(** In a band, the cosine is small. *)
Lemma band_pos : 0 < band < 1.
Proof. unfold band. assert (1 < 10 ^ 10) by (apply Rlt_pow_R1; [lra|lia]). split; [apply Rdiv_lt_0_compat; lra|]. apply (Rmult_lt_reg_r (10 ^ 10)); [lra|]. field_simplify; lra. Qed.
Lemma band_cos b e : - (PI / 2) <= b <= PI / 2 -> Rabs (b - PI * (1 / 2)) < e \/ Rabs (b + PI * (1 / 2)) < e -> cos b < e.
Proof.
  intros B H.
  assert (X : forall x, 0 < x -> sin x < x) by (intros; apply sin_lt_x; assumption).
  destruct H as [H|H].
  - apply Rabs_def2 in H. rewrite <- sin_shift. destruct (Req_dec b (PI / 2)) as [-> |N].
    + replace (PI / 2 - PI / 2) with 0 by ring. rewrite sin_0. lra.
    + assert (K := X (PI / 2 - b) ltac:(lra)). lra.
  - apply Rabs_def2 in H. rewrite <- cos_neg, <- sin_shift. destruct (Req_dec b (- (PI / 2))) as [-> |N].
    + replace (PI / 2 - - - (PI / 2)) with 0 by ring. rewrite sin_0. lra.
    + assert (K := X (PI / 2 - - b) ltac:(lra)). lra.
Qed.
Lemma cos_zero b : - (PI / 2) <= b <= PI / 2 -> cos b = 0 -> b = PI / 2 \/ b = - (PI / 2).
Proof.
  intros B C. destruct (Req_dec b (PI / 2)); [auto|]. destruct (Req_dec b (- (PI / 2))); [auto|].
  assert (0 < cos b) by (apply cos_gt_0; lra). lra.
Qed.

(** The generic branch. *)
Lemma generic_exact m c b : rotation m -> 0 < c -> c * c = m00 m * m00 m + m10 m * m10 m -> c * c + m20 m * m20 m = 1 -> cos b = c -> sin b = - m20 m ->
  rpy2mat (atan2 (m21 m * (1 / c)) (m22 m * (1 / c))) b (atan2 (m10 m * (1 / c)) (m00 m * (1 / c))) = m.
Proof.
  intros M P CC CM CB SB. destruct (rotation_eqs m M) as ((N0 & N1 & N2) & (E0 & E1 & E2) & (E3 & E4 & E5) & (E6 & E7 & E8)).
  assert (U1 : m22 m * (1 / c) * (m22 m * (1 / c)) + m21 m * (1 / c) * (m21 m * (1 / c)) = 1).
  { replace (m22 m * (1 / c) * (m22 m * (1 / c)) + m21 m * (1 / c) * (m21 m * (1 / c))) with ((m22 m * m22 m + m21 m * m21 m) / (c * c)) by (field; lra). replace (m22 m * m22 m + m21 m * m21 m) with (c * c) by lra. field. lra. }
  assert (U2 : m00 m * (1 / c) * (m00 m * (1 / c)) + m10 m * (1 / c) * (m10 m * (1 / c)) = 1).
  { replace (m00 m * (1 / c) * (m00 m * (1 / c)) + m10 m * (1 / c) * (m10 m * (1 / c))) with ((m00 m * m00 m + m10 m * m10 m) / (c * c)) by (field; lra). rewrite <- CC. field. lra. }
  destruct (atan2_unit _ _ U1) as [CG SG]. destruct (atan2_unit _ _ U2) as [CA SA].
  unfold rpy2mat. rewrite CG, SG, CA, SA, CB, SB. clear CG SG CA SA CB SB U1 U2.
  destruct m as [m00 m01 m02 m10 m11 m12 m20 m21 m22]; cbn [QuatModel.m00 QuatModel.m01 QuatModel.m02 QuatModel.m10 QuatModel.m11 QuatModel.m12 QuatModel.m20 QuatModel.m21 QuatModel.m22] in *. clear M.
  assert (CN : c <> 0) by lra. assert (K : c * c <> 0) by (apply Rgt_not_eq, Rmult_lt_0_compat; assumption).
  f_equal.
  - field; lra.
  - apply (Rmult_eq_reg_r (c * c)); [|exact K].
    replace ((m00 * (1 / c) * - m20 * (m21 * (1 / c)) - m10 * (1 / c) * (m22 * (1 / c))) * (c * c)) with (- m00 * m20 * m21 - m10 * m22) by (field; lra). clear P CN K. nsatz.
  - apply (Rmult_eq_reg_r (c * c)); [|exact K].
    replace ((m00 * (1 / c) * - m20 * (m22 * (1 / c)) + m10 * (1 / c) * (m21 * (1 / c))) * (c * c)) with (- m00 * m20 * m22 + m10 * m21) by (field; lra). clear P CN K. nsatz.
  - field; lra.
  - apply (Rmult_eq_reg_r (c * c)); [|exact K].
    replace ((m10 * (1 / c) * - m20 * (m21 * (1 / c)) + m00 * (1 / c) * (m22 * (1 / c))) * (c * c)) with (- m10 * m20 * m21 + m00 * m22) by (field; lra). clear P CN K. nsatz.
  - apply (Rmult_eq_reg_r (c * c)); [|exact K].
    replace ((m10 * (1 / c) * - m20 * (m22 * (1 / c)) - m00 * (1 / c) * (m21 * (1 / c))) * (c * c)) with (- m10 * m20 * m22 - m00 * m21) by (field; lra). clear P CN K. nsatz.
  - ring.
  - field; lra.
  - field; lra.
Qed.

(** Gimbal lock: the generic form of the result with yaw 0, and what is known of the angle. *)
Lemma square_le a b : 0 <= b -> a * a <= b * b -> - b <= a <= b.
Proof. intros B H. split; nra. Qed.
Lemma locked_near m b s : rotation m -> (s = 1 \/ s = -1) -> let c := sqrt (m00 m * m00 m + m10 m * m10 m) in c < 1 -> cos b = c -> sin b = - m20 m -> 0 <= s * - m20 m ->
  near (2 * c) (rpy2mat (s * atan2 (m01 m) (m11 m)) b 0) m.
Proof.
  intros M S c CL CB SB SG. destruct (rotation_eqs m M) as ((N0 & N1 & N2) & (E0 & E1 & E2) & (E3 & E4 & E5) & (E6 & E7 & E8)).
  destruct (beta_ok m M) as (C0 & CC & CM & _). fold c in C0, CC, CM.
  destruct m as [m00 m01 m02 m10 m11 m12 m20 m21 m22]; cbn [QuatModel.m00 QuatModel.m01 QuatModel.m02 QuatModel.m10 QuatModel.m11 QuatModel.m12 QuatModel.m20 QuatModel.m21 QuatModel.m22] in *. clear M.
  assert (SQ := fun x : R => Rle_0_sqr x). unfold Rsqr in SQ.
  assert (C1L : c * c < 1) by (clear - C0 CL; nra).
  assert (RP : 0 < m11 * m11 + m01 * m01) by (assert (K := SQ m22); clear - N1 N2 CM C1L K; lra).
  destruct (atan2_polar m01 m11 RP) as [CG SN]. set (r := sqrt (m11 * m11 + m01 * m01)) in *.
  assert (R0 : 0 < r) by (apply sqrt_lt_R0, RP). assert (RR : r * r = m11 * m11 + m01 * m01) by (apply sqrt_sqrt; lra).
  clearbody c r.
  set (g := atan2 m01 m11) in *. assert (CS : cos (s * g) = m11 / r /\ sin (s * g) = s * (m01 / r)).
  { destruct S as [-> | ->]; [rewrite !Rmult_1_l; auto|]. replace (-1 * g) with (- g) by ring. rewrite cos_neg, sin_neg, CG, SN. split; ring. }
  destruct CS as [C1 S1]. unfold near, rpy2mat; cbn [QuatModel.m00 QuatModel.m01 QuatModel.m02 QuatModel.m10 QuatModel.m11 QuatModel.m12 QuatModel.m20 QuatModel.m21 QuatModel.m22].
  rewrite cos_0, sin_0, C1, S1, CB, SB. clear C1 S1 CG SN. clearbody g. 
  set (u := m11 / r). set (v := m01 / r).
  assert (M11 : m11 = u * r) by (unfold u; field; lra). assert (M01 : m01 = v * r) by (unfold v; field; lra).
  assert (UV : u * u + v * v = 1). { apply (Rmult_eq_reg_r (r * r)); [|clear - R0; nra]. rewrite M11, M01 in RR. clear - RR. lra. }
  clearbody u v.
  set (q := s * - m20) in *. assert (SS : s * s = 1) by (destruct S as [-> | ->]; ring). assert (M20 : - m20 = s * q) by (unfold q; clear - SS; nsatz).
  assert (QQ : q * q = 1 - c * c) by (unfold q; clear - SS CM; nsatz). clearbody q.
  assert (R2 : r * r = 1 - m21 * m21) by lra.
  assert (B21 : - c <= m21 <= c) by (apply square_le; [exact C0|assert (K := SQ m22); clear - N2 CM K; lra]). assert (B22 : - c <= m22 <= c) by (apply square_le; [exact C0|assert (K := SQ m21); clear - N2 CM K; lra]).
  assert (B00 : - c <= m00 <= c) by (apply square_le; [exact C0|assert (K := SQ m10); clear - CC K; lra]). assert (B10 : - c <= m10 <= c) by (apply square_le; [exact C0|assert (K := SQ m00); clear - CC K; lra]).
  assert (BU : -1 <= u <= 1) by (apply (square_le u 1); [lra|assert (K := SQ v); clear - UV K; lra]). assert (BV : -1 <= v <= 1) by (apply (square_le v 1); [lra|assert (K := SQ u); clear - UV K; lra]).
  assert (RL : r <= 1) by (assert (K := SQ m21); clear - R2 K R0; nra). assert (QL : q <= 1) by (assert (K := SQ c); clear - QQ K; nra). 
  assert (QR : q <= r) by (assert (K := SQ m22); clear - QQ R2 N2 CM K R0 SG; nra). assert (Q1 : 1 - c * c <= q) by (clear - QQ QL SG; nra).
  assert (C2 : c * c <= c) by (clear - C0 CL; nra).
  assert (SB2 : -1 <= s <= 1) by (destruct S as [-> | ->]; lra).
  assert (V1 : forall x y, -1 <= x <= 1 -> Rabs y <= 2 * c -> Rabs (x * y) <= 2 * c).
  { intros x y X Y. rewrite Rabs_mult. assert (Rabs x <= 1) by (apply Rabs_le; lra). assert (A0 : 0 <= Rabs x) by apply Rabs_pos. assert (0 <= Rabs y) by apply Rabs_pos. clear - Y H A0 H0. nra. }
  split; [apply Rabs_le; lra|]. 
  split. { replace (1 * (- m20) * (s * v) - 0 * u - m01) with (v * (q - r)) by (rewrite M20, M01; clear - SS; nsatz). apply V1; [exact BV|apply Rabs_le; lra]. }
  split. { replace (1 * - m20 * u + 0 * (s * v) - m02) with (s * (u * (q - r * q) - s * (m10 * m21))) by (rewrite E2; replace m20 with (- (s * q)) by lra; rewrite M11; clear - SS; nsatz).
    apply V1; [exact SB2|]. assert (X : - (c * c) <= m10 * m21 <= c * c) by (clear - B10 B21; nra). 
    assert (Y : Rabs (u * (q - r * q)) <= c * c). { rewrite Rabs_mult. assert (Rabs u <= 1) by (apply Rabs_le; lra). assert (0 <= Rabs u) by apply Rabs_pos. assert (Rabs (q - r * q) <= c * c) by (apply Rabs_le; clear - QR QL RL R0 SG Q1; nra). assert (0 <= Rabs (q - r * q)) by apply Rabs_pos. clear - H H0 H1 H2. nra. }
    assert (Z : Rabs (s * (m10 * m21)) <= c * c) by (apply Rabs_le; destruct S as [-> | ->]; lra).
    apply Rabs_le. assert (Y' := Rle_abs (u * (q - r * q))). assert (Y2 := Rle_abs (- (u * (q - r * q)))). rewrite Rabs_Ropp in Y2.
    assert (Z' := Rle_abs (s * (m10 * m21))). assert (Z2 := Rle_abs (- (s * (m10 * m21)))). rewrite Rabs_Ropp in Z2. lra. }
  split; [apply Rabs_le; lra|].
  split. { replace (0 * - m20 * (s * v) + 1 * u - m11) with (u * (1 - r)) by (rewrite M11; ring). apply V1; [exact BU|apply Rabs_le; clear - RL QR Q1 C2; lra]. }
  split. { replace (0 * - m20 * u - 1 * (s * v) - m12) with (s * (- (v * (1 - r * q)) + s * (m00 * m21))) by (rewrite E5; replace m20 with (- (s * q)) by lra; rewrite M01; clear - SS; nsatz).
    apply V1; [exact SB2|]. assert (X : - (c * c) <= m00 * m21 <= c * c) by (clear - B00 B21; nra). 
    assert (Y : Rabs (v * (1 - r * q)) <= c * c). { rewrite Rabs_mult. assert (Rabs v <= 1) by (apply Rabs_le; lra). assert (0 <= Rabs v) by apply Rabs_pos. assert (Rabs (1 - r * q) <= c * c) by (apply Rabs_le; clear - QR QL RL R0 SG QQ; nra). assert (0 <= Rabs (1 - r * q)) by apply Rabs_pos. clear - H H0 H1 H2. nra. }
    assert (Z : Rabs (s * (m00 * m21)) <= c * c) by (apply Rabs_le; destruct S as [-> | ->]; lra).
    apply Rabs_le. assert (Y' := Rle_abs (v * (1 - r * q))). assert (Y2 := Rle_abs (- (v * (1 - r * q)))). rewrite Rabs_Ropp in Y2.
    assert (Z' := Rle_abs (s * (m00 * m21))). assert (Z2 := Rle_abs (- (s * (m00 * m21)))). rewrite Rabs_Ropp in Z2. lra. }
  split; [replace (- - m20 - m20) with 0 by ring; rewrite Rabs_R0; lra|].
  split.
  - apply Rabs_le. assert (- c <= c * (s * v) <= c) by (clear - S BV C0; destruct S as [-> | ->]; nra). clear - H B21; lra.
  - apply Rabs_le. assert (- c <= c * u <= c) by (clear - C0 BU; nra). clear - H B22; lra.
Qed.

Lemma near_zero a b : near 0 a b -> a = b.
Proof.
  assert (Z : forall x y, Rabs (x - y) <= 0 -> x = y) by (intros x y H; assert (K := Rabs_pos (x - y)); assert (E : Rabs (x - y) = 0) by lra; destruct (Req_dec (x - y) 0) as [e|n]; [lra|apply Rabs_no_R0 in n; contradiction]).
  unfold near. destruct a, b; cbn [QuatModel.m00 QuatModel.m01 QuatModel.m02 QuatModel.m10 QuatModel.m11 QuatModel.m12 QuatModel.m20 QuatModel.m21 QuatModel.m22]. intros (A & B & C & D & E & F & G & H & I). f_equal; apply Z; assumption.
Qed.
Lemma near_le e e' a b : e <= e' -> near e a b -> near e' a b.
Proof. unfold near. intros. repeat split; lra. Qed.
Lemma near_refl e a : 0 <= e -> near e a a.
Proof. unfold near. intros. rewrite !Rminus_diag_eq by reflexivity. rewrite Rabs_R0. repeat split; assumption. Qed.
