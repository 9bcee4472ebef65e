From Coq Require Import Reals List Lra Lia Psatz Nsatz.
From Verif Require Import QuatModel QuatSpec.
Import ListNotations.
Open Scope R_scope.

Ltac qs := repeat match goal with q : quat |- _ => destruct q end; repeat match goal with q : mat3 |- _ => destruct q end; repeat match goal with q : vec3 |- _ => destruct q end;
  unfold mul, conj, norm2, to_mat, mmul, mtrans, mid, mdet, mapply, one, zero, opp, dot, qadd, qneg, vdot, vcross, vscale in *; cbn [qx qy qz qw m00 m01 m02 m10 m11 m12 m20 m21 m22 vx vy vz] in *.
Ltac qring := intros; qs; f_equal; ring.

Lemma mul_assoc a b c : mul (mul a b) c = mul a (mul b c).
Proof. qring. Qed.
Lemma mul_one_l a : mul one a = a.
Proof. qring. Qed.
Lemma mul_one_r a : mul a one = a.
Proof. qring. Qed.
Lemma norm_mul a b : norm2 (mul a b) = norm2 a * norm2 b.
Proof. qs. ring. Qed.

Lemma norm2_zero q : norm2 q = 0 <-> q = zero.
Proof.
  split; [|intros ->; unfold norm2, zero; cbn; ring]. destruct q as [x y z w]; unfold norm2, zero; cbn [qx qy qz qw]; intros H.
  assert (x = 0) by nra. assert (y = 0) by nra. assert (z = 0) by nra. assert (w = 0) by nra. subst; reflexivity.
Qed.

Lemma inverse_ok q : q <> zero -> mul q (inverse q) = one /\ mul (inverse q) q = one.
Proof.
  intros N. assert (K : norm2 q <> 0) by (intros H; apply N, norm2_zero, H).
  unfold inverse, inverse_divisor. fold (norm2 q). destruct (Req_EM_T (norm2 q) 0) as [E|E]; [contradiction|].
  destruct q as [x y z w]; unfold mul, conj, norm2, one in *; cbn [qx qy qz qw] in *. split; f_equal; field; assumption.
Qed.
Lemma inverse_divisor_ok q : inverse_divisor q <> 0.
Proof.
  unfold inverse_divisor. destruct (Req_EM_T _ 0) as [E|E]; [|exact E]. unfold flt_min. apply Rgt_not_eq, Rinv_0_lt_compat, pow_lt. lra.
Qed.
Lemma inverse_zero : inverse zero = zero.
Proof. unfold inverse, conj, zero; cbn [qx qy qz qw]. f_equal; ring. Qed.

Lemma to_mat_rotation q : unit q -> rotation (to_mat q).
Proof.
  unfold unit, rotation. destruct q as [x y z w]; unfold norm2; cbn [qx qy qz qw]; intros U.
  unfold mmul, mtrans, mid, mdet, to_mat; cbn [qx qy qz qw m00 m01 m02 m10 m11 m12 m20 m21 m22].
  split; [f_equal; nsatz|]. split; [f_equal; nsatz|]. nsatz.
Qed.
Lemma to_mat_mul a b : unit a -> unit b -> to_mat (mul a b) = mmul (to_mat a) (to_mat b).
Proof. unfold unit. intros A B. qs. f_equal; nsatz. Qed.

Lemma sign_cases (x x' : R) : x * x = x' * x' -> x' = x \/ x' = - x.
Proof. intros H. assert (K : (x' - x) * (x' + x) = 0) by lra. apply Rmult_integral in K. destruct K; [left|right]; lra. Qed.
Lemma to_mat_inj a b : unit a -> unit b -> to_mat a = to_mat b -> b = a \/ b = opp a.
Proof.
  unfold unit. destruct a as [x y z w], b as [x' y' z' w']. unfold norm2, to_mat, opp; cbn [qx qy qz qw]. intros A B H. injection H; clear H; intros.
  assert (XX : x * x = x' * x') by lra. assert (YY : y * y = y' * y') by lra. assert (ZZ : z * z = z' * z') by lra. assert (WW : w * w = w' * w') by lra.
  assert (XY : x * y = x' * y') by lra. assert (XZ : x * z = x' * z') by lra. assert (YZ : y * z = y' * z') by lra.
  assert (XW : x * w = x' * w') by lra. assert (YW : y * w = y' * w') by lra. assert (ZW : z * w = z' * w') by lra.
  assert (G : forall p p' q q' : R, p <> 0 -> p * q = p' * q' -> (p' = p -> q' = q) /\ (p' = - p -> q' = - q)).
  { intros p p' q q' N E. split; intros ->; [apply (Rmult_eq_reg_l p)|apply (Rmult_eq_reg_l (- p))]; lra. }
  destruct (Req_dec x 0) as [X0|X0]; [destruct (Req_dec y 0) as [Y0|Y0]; [destruct (Req_dec z 0) as [Z0|Z0]|]|].
  - assert (W0 : w <> 0) by (intros ->; subst; lra).
    assert (x' = 0) by (subst; nra). assert (y' = 0) by (subst; nra). assert (z' = 0) by (subst; nra). subst.
    destruct (sign_cases w w' WW) as [-> | ->]; [left|right]; f_equal; lra.
  - destruct (sign_cases z z' ZZ) as [S|S]; [left|right].
    + f_equal; apply (G z z'); auto; lra.
    + f_equal; apply (G z z'); auto; lra.
  - destruct (sign_cases y y' YY) as [S|S]; [left|right].
    + f_equal; apply (G y y'); auto; lra.
    + f_equal; apply (G y y'); auto; lra.
  - destruct (sign_cases x x' XX) as [S|S]; [left|right].
    + f_equal; apply (G x x'); auto; lra.
    + f_equal; apply (G x x'); auto; lra.
Qed.
Lemma to_mat_opp q : to_mat (opp q) = to_mat q.
Proof. qring. Qed.

(** * Interpolation *)
Lemma flt_eps_pos : 0 < flt_eps < 1.
Proof.
  unfold flt_eps. assert (1 < 2 ^ 23) by (apply Rlt_pow_R1; [lra|lia]). split; [apply Rinv_0_lt_compat; lra|].
  rewrite <- Rinv_1. apply Rinv_lt_contravar; lra.
Qed.
Lemma dot_bound a b : unit a -> unit b -> Rabs (dot a b) <= 1.
Proof.
  unfold unit. intros A B. apply Rabs_le.
  assert (P : norm2 (Quat (qx a + qx b) (qy a + qy b) (qz a + qz b) (qw a + qw b)) = 2 + 2 * dot a b) by (qs; nsatz).
  assert (M : norm2 (Quat (qx a - qx b) (qy a - qy b) (qz a - qz b) (qw a - qw b)) = 2 - 2 * dot a b) by (qs; nsatz).
  assert (N : forall q, 0 <= norm2 q) by (intros [x y z w]; unfold norm2; cbn; nra).
  assert (P' := N (Quat (qx a + qx b) (qy a + qy b) (qz a + qz b) (qw a + qw b))).
  assert (M' := N (Quat (qx a - qx b) (qy a - qy b) (qz a - qz b) (qw a - qw b))). lra.
Qed.

Definition lin (s0 : R) (a : quat) (s1 : R) (b : quat) : quat :=
  Quat (s0 * qx a + s1 * qx b) (s0 * qy a + s1 * qy b) (s0 * qz a + s1 * qz b) (s0 * qw a + s1 * qw b).
Lemma lin_norm s0 a s1 b : norm2 (lin s0 a s1 b) = s0 * s0 * norm2 a + s1 * s1 * norm2 b + 2 * (s0 * s1) * dot a b.
Proof. unfold lin. qs. ring. Qed.

Definition sgn (d : R) : R := if Rlt_dec d 0 then -1 else 1.
Lemma sgn_abs d : sgn d * d = Rabs d.
Proof. unfold sgn. destruct (Rlt_dec d 0); [rewrite Rabs_left|rewrite Rabs_right]; lra. Qed.
Lemma sgn_sq d : sgn d * sgn d = 1.
Proof. unfold sgn. destruct (Rlt_dec d 0); lra. Qed.

(** The two weights, and their norm. *)
Lemma slerp_weights a b t : unit a -> unit b -> 0 <= t <= 1 ->
  exists s0 s1, eigen_slerp a t b = lin s0 a (s1 * sgn (dot a b)) b /\
    (t = 0 -> s0 = 1 /\ s1 = 0) /\ (t = 1 -> s0 = 0 /\ s1 = 1) /\ 0 <= s0 /\ 0 <= s1 /\
    (Rabs (dot a b) < 1 - flt_eps -> s0 * s0 + s1 * s1 + 2 * (s0 * s1) * Rabs (dot a b) = 1) /\
    1 - flt_eps / 2 <= s0 * s0 + s1 * s1 + 2 * (s0 * s1) * Rabs (dot a b) <= 1 /\
    (Rabs (dot a b) < 1 - flt_eps -> s0 + s1 * Rabs (dot a b) = cos (t * acos (Rabs (dot a b)))).
Proof.
  intros A B T. assert (DB := dot_bound a b A B). assert (FE := flt_eps_pos). assert (D0 := Rabs_pos (dot a b)).
  unfold eigen_slerp. destruct (Rle_dec (1 - flt_eps) (Rabs (dot a b))) as [L|L].
  - exists (1 - t), t. split; [unfold lin, sgn; destruct (Rlt_dec (dot a b) 0); f_equal; ring|].
    split; [lra|]. split; [lra|]. split; [lra|]. split; [lra|]. split; [lra|].
    assert (QQ : 0 <= t * (1 - t) <= 1 / 4).
    { destruct T as [T0 T1]. split; [apply Rmult_le_pos; lra|]. assert (H := Rle_0_sqr (t - 1 / 2)). unfold Rsqr in H. lra. }
    replace ((1 - t) * (1 - t) + t * t + 2 * ((1 - t) * t) * Rabs (dot a b)) with (1 - 2 * (t * (1 - t)) * (1 - Rabs (dot a b))) by ring.
    assert (0 <= 1 - Rabs (dot a b) <= flt_eps) by lra. split; [split; nra|]. intros; lra.
  - assert (LT : Rabs (dot a b) < 1) by lra. set (c := Rabs (dot a b)) in *. set (th := acos c).
    assert (CT : cos th = c) by (apply cos_acos; lra).
    assert (TB : 0 < th < PI).
    { split.
      - assert (0 <= th) by apply acos_bound. destruct (Req_dec th 0) as [E|E]; [rewrite E, cos_0 in CT; lra|lra].
      - assert (th <= PI) by apply acos_bound. destruct (Req_dec th PI) as [E|E]; [rewrite E, cos_PI in CT; lra|lra]. }
    assert (ST : 0 < sin th) by (apply sin_gt_0; lra).
    exists (sin ((1 - t) * th) / sin th), (sin (t * th) / sin th).
    assert (ID : sin ((1 - t) * th) / sin th * (sin ((1 - t) * th) / sin th) + sin (t * th) / sin th * (sin (t * th) / sin th) + 2 * (sin ((1 - t) * th) / sin th * (sin (t * th) / sin th)) * c = 1).
    { assert (E : sin ((1 - t) * th) = sin th * cos (t * th) - cos th * sin (t * th)) by (rewrite <- sin_minus; f_equal; ring).
      assert (P1 := sin2_cos2 th). assert (P2 := sin2_cos2 (t * th)). unfold Rsqr in *.
      rewrite E, <- CT. set (S := sin th) in *. set (C := cos th) in *. set (s := sin (t * th)) in *. set (k := cos (t * th)) in *.
      apply (Rmult_eq_reg_r (S * S)); [|nra].
      replace (((S * k - C * s) / S * ((S * k - C * s) / S) + s / S * (s / S) + 2 * ((S * k - C * s) / S * (s / S)) * C) * (S * S))
        with ((S * k - C * s) * (S * k - C * s) + s * s + 2 * ((S * k - C * s) * s) * C) by (field; lra).
      clear - P1 P2. nsatz. }
    split; [unfold lin, sgn; destruct (Rlt_dec (dot a b) 0); f_equal; field; lra|].
    split; [intros ->; split; [rewrite Rminus_0_r, Rmult_1_l; field; lra|rewrite Rmult_0_l, sin_0; field; lra]|].
    split; [intros ->; split; [replace ((1 - 1) * th) with 0 by ring; rewrite sin_0; field; lra|rewrite Rmult_1_l; field; lra]|].
    split; [apply Rmult_le_pos; [apply sin_ge_0; nra|left; apply Rinv_0_lt_compat, ST]|].
    split; [apply Rmult_le_pos; [apply sin_ge_0; nra|left; apply Rinv_0_lt_compat, ST]|].
    split; [intros _; exact ID|]. split; [rewrite ID; lra|]. intros _.
    assert (E : sin ((1 - t) * th) = sin th * cos (t * th) - cos th * sin (t * th)) by (rewrite <- sin_minus; f_equal; ring).
    fold th. rewrite E, CT. field. lra.
Qed.

(** * Means *)
Lemma qdiv_norm r m : m <> 0 -> norm2 (qdiv r m) = norm2 r / (m * m).
Proof. intros M. destruct r as [x y z w]; unfold norm2, qdiv; cbn [qx qy qz qw]. field. exact M. Qed.
Lemma mean_norm r : 1 / 10000 < sqrt (norm2 r) -> unit (qdiv r (sqrt (norm2 r))).
Proof.
  intros H. assert (P : 0 <= norm2 r) by (destruct r as [x y z w]; unfold norm2; cbn; nra).
  assert (S := sqrt_sqrt _ P). unfold unit. set (m := sqrt (norm2 r)) in *.
  assert (M : m <> 0) by (intros Z; rewrite Z in H; lra). rewrite (qdiv_norm r m M), <- S. field. exact M.
Qed.

(** * The rotation between two vectors *)
Lemma vnormalize_unit v : v <> Vec 0 0 0 -> vdot (vnormalize v) (vnormalize v) = 1 /\ exists k, 0 < k /\ v = vscale k (vnormalize v).
Proof.
  intros N. assert (P : 0 < vdot v v).
  { destruct v as [x y z]; unfold vdot; cbn [vx vy vz]. destruct (Req_dec x 0); [|nra]. destruct (Req_dec y 0); [|nra]. destruct (Req_dec z 0); [|nra]. subst; congruence. }
  unfold vnormalize. destruct (Rlt_dec 0 (vdot v v)) as [_|]; [|contradiction].
  assert (S := sqrt_sqrt (vdot v v) ltac:(lra)). assert (0 < vnorm v) by (apply sqrt_lt_R0, P). fold (vnorm v) in S. split.
  - assert (M : vnorm v <> 0) by lra. 
    assert (G : forall k, vdot (vscale k v) (vscale k v) = vdot v v * (k * k)) by (intros k; clear; destruct v as [x y z]; unfold vdot, vscale; cbn [vx vy vz]; ring).
    rewrite G, <- S. field. exact M.
  - exists (vnorm v). split; [assumption|]. assert (M : vnorm v <> 0) by lra. revert M. generalize (vnorm v). intros n M. clear - M. destruct v as [x y z]; unfold vscale; cbn [vx vy vz]. f_equal; field; exact M.
Qed.
Lemma vnorm_zero v : vnorm v = 0 <-> v = Vec 0 0 0.
Proof.
  assert (P : 0 <= vdot v v) by (destruct v as [x y z]; unfold vdot; cbn; nra). unfold vnorm. split.
  - intros H. apply sqrt_eq_0 in H; [|exact P]. destruct v as [x y z]; unfold vdot in H; cbn [vx vy vz] in H.
    assert (x = 0) by nra. assert (y = 0) by nra. assert (z = 0) by nra. subst; reflexivity.
  - intros ->. unfold vdot; cbn. rewrite !Rmult_0_l, !Rplus_0_l. apply sqrt_0.
Qed.
Lemma vdot_zero x y z : vdot (Vec x y z) (Vec x y z) = 0 -> x = 0 /\ y = 0 /\ z = 0.
Proof. unfold vdot; cbn [vx vy vz]. intros H. assert (X := Rle_0_sqr x). assert (Y := Rle_0_sqr y). assert (Z := Rle_0_sqr z). unfold Rsqr in *. split; [|split]; apply Rsqr_0_uniq; unfold Rsqr; lra. Qed.
Lemma cross_norm f t : vdot f f = 1 -> vdot t t = 1 -> vdot (vcross f t) (vcross f t) = 1 - vdot f t * vdot f t.
Proof. qs. intros. nsatz. Qed.

Lemma rotation_general f t s w : vdot f f = 1 -> vdot t t = 1 -> s * w = 1 / 2 -> w * w = (1 + vdot f t) / 2 ->
  s * s * vdot (vcross f t) (vcross f t) = (1 - vdot f t) / 2 ->
  let c := vscale s (vcross f t) in unit (Quat (vx c) (vy c) (vz c) w) /\ mapply (to_mat (Quat (vx c) (vy c) (vz c) w)) f = t.
Proof.
  intros F T SW WW SS c. unfold c. clear c.
  set (q := Quat _ _ _ w).
  assert (E : mapply (to_mat q) f = Vec (vx f + 2 * (s * w) * vx (vcross (vcross f t) f) + 2 * (s * s) * vx (vcross (vcross f t) (vcross (vcross f t) f)))
    (vy f + 2 * (s * w) * vy (vcross (vcross f t) f) + 2 * (s * s) * vy (vcross (vcross f t) (vcross (vcross f t) f)))
    (vz f + 2 * (s * w) * vz (vcross (vcross f t) f) + 2 * (s * s) * vz (vcross (vcross f t) (vcross (vcross f t) f)))).
  { unfold q. clear. destruct f as [a b c], t as [d e g]. unfold mapply, to_mat, vcross, vscale; cbn [qx qy qz qw m00 m01 m02 m10 m11 m12 m20 m21 m22 vx vy vz]. f_equal; ring. }
  assert (C1 : vcross (vcross f t) f = Vec (vx t - vdot f t * vx f) (vy t - vdot f t * vy f) (vz t - vdot f t * vz f)).
  { clear - F. destruct f as [a b c], t as [d e g]. unfold vcross, vdot in *; cbn [vx vy vz] in *. f_equal; nsatz. }
  assert (C2 : forall c, vdot c f = 0 -> vcross c (vcross c f) = vscale (- vdot c c) f).
  { clear. intros [a b c] H. destruct f as [d e g]. unfold vcross, vdot, vscale in *; cbn [vx vy vz] in *. f_equal; nsatz. }
  assert (O : vdot (vcross f t) f = 0) by (clear; qs; ring).
  split.
  - unfold unit. replace (norm2 q) with (s * s * vdot (vcross f t) (vcross f t) + w * w) by (unfold q; clear; qs; ring). rewrite SS, WW. field.
  - rewrite E, SW, (C2 _ O), C1. destruct f as [a b c], t as [d e g]. set (n := vdot (vcross _ _) _) in *. set (k := vdot (Vec a b c) (Vec d e g)) in *.
    unfold vscale; cbn [vx vy vz]. f_equal.
    + replace (2 * (s * s) * (- n * a)) with (- (2 * (s * s * n)) * a) by ring. rewrite SS. field.
    + replace (2 * (s * s) * (- n * b)) with (- (2 * (s * s * n)) * b) by ring. rewrite SS. field.
    + replace (2 * (s * s) * (- n * c)) with (- (2 * (s * s * n)) * c) by ring. rewrite SS. field.
Qed.

Lemma half_turn u f : vdot u u = 1 -> vdot u f = 0 -> unit (Quat (vx u) (vy u) (vz u) 0) /\ mapply (to_mat (Quat (vx u) (vy u) (vz u) 0)) f = vscale (-1) f.
Proof. intros U O. unfold unit. qs. split; [lra|]. f_equal; nsatz. Qed.

Lemma get_rotation_units f t : vdot f f = 1 -> vdot t t = 1 -> vnormalize f = f -> vnormalize t = t ->
  unit (get_rotation f t) /\ mapply (to_mat (get_rotation f t)) f = t.
Proof.
  intros F T NF NT. unfold get_rotation. rewrite NF, NT.
  assert (CN := cross_norm f t F T). set (d := vdot f t) in *.
  assert (DB : -1 <= d <= 1).
  { assert (0 <= vdot (vcross f t) (vcross f t)) by (set (c := vcross f t); destruct c as [x y z]; unfold vdot; cbn; nra). nra. }
  destruct (Req_EM_T (vnorm (vcross f t)) 0) as [E|E].
  - apply vnorm_zero in E. assert (D1 : d * d = 1) by (rewrite E in CN; unfold vdot in CN; cbn in CN; lra).
    destruct (Rlt_dec 0 d) as [P|P].
    + assert (d = 1) by nra. split; [unfold unit, norm2; cbn; ring|].
      assert (EQ : t = f).
      { assert (Z : vdot (Vec (vx t - vx f) (vy t - vy f) (vz t - vz f)) (Vec (vx t - vx f) (vy t - vy f) (vz t - vz f)) = 0) by (unfold d in *; clear - F T H; qs; nsatz).
        apply vdot_zero in Z. destruct f as [a b c], t as [x y z]; cbn [vx vy vz] in Z. f_equal; lra. }
      rewrite EQ. clear. qs. f_equal; ring.
    + assert (d = -1) by nra.
      assert (EQ : t = vscale (-1) f).
      { assert (Z : vdot (Vec (vx t + vx f) (vy t + vy f) (vz t + vz f)) (Vec (vx t + vx f) (vy t + vy f) (vz t + vz f)) = 0) by (unfold d in *; clear - F T H; qs; nsatz).
        apply vdot_zero in Z. destruct f as [a b c], t as [x y z]; unfold vscale; cbn [vx vy vz] in *. f_equal; lra. }
      set (u := if Req_EM_T (vnorm (vcross f (Vec 1 0 0))) 0 then vcross f (Vec 0 1 0) else vcross f (Vec 1 0 0)).
      assert (UN : u <> Vec 0 0 0 /\ vdot u f = 0).
      { unfold u. destruct (Req_EM_T (vnorm (vcross f (Vec 1 0 0))) 0) as [Z|Z].
        - apply vnorm_zero in Z. split; [|clear; qs; ring]. intros Z2. clear - Z Z2 F. destruct f as [a b c]. unfold vcross, vdot in *; cbn [vx vy vz] in *. injection Z; injection Z2; intros.
          assert (c = 0) by lra. assert (b = 0) by lra. assert (a = 0) by lra. subst. lra.
        - split; [|clear; qs; ring]. intros Z2. apply Z, vnorm_zero, Z2. }
      destruct UN as [UN UO]. destruct (vnormalize_unit u UN) as (U1 & k & K & UK).
      rewrite EQ. apply half_turn; [exact U1|]. rewrite UK in UO. 
      assert (k * vdot (vnormalize u) f = 0) by (rewrite <- UO; clear; qs; ring). apply Rmult_integral in H0. destruct H0; [lra|assumption].
  - set (c := vcross f t) in *. assert (CZ : c <> Vec 0 0 0) by (intros Z; apply E, vnorm_zero, Z).
    assert (P : 0 < vdot c c).
    { destruct (vnormalize_unit c CZ) as (U1 & k & K & UK). rewrite UK. replace (vdot (vscale k (vnormalize c)) (vscale k (vnormalize c))) with (k * k * vdot (vnormalize c) (vnormalize c)) by (clear; qs; ring). rewrite U1. nra. }
    assert (DS : -1 < d < 1) by nra.
    unfold vnormalize. destruct (Rlt_dec 0 (vdot c c)) as [_|]; [|contradiction].
    assert (NC : 0 < vnorm c) by (apply sqrt_lt_R0, P). assert (NS : vnorm c * vnorm c = vdot c c) by (apply sqrt_sqrt; lra).
    rewrite (Rabs_right (1 - d)), (Rabs_right (1 + d)) by lra.
    set (k := sqrt (1 / 2 * (1 - d))). set (w := sqrt (1 / 2 * (1 + d))).
    assert (KK : k * k = 1 / 2 * (1 - d)) by (apply sqrt_sqrt; lra). assert (WW : w * w = 1 / 2 * (1 + d)) by (apply sqrt_sqrt; lra).
    assert (KP : 0 < k) by (apply sqrt_lt_R0; lra). assert (WP : 0 < w) by (apply sqrt_lt_R0; lra).
    assert (KW : k * w = vnorm c / 2).
    { assert ((k * w - vnorm c / 2) * (k * w + vnorm c / 2) = 0).
      { replace ((k * w - vnorm c / 2) * (k * w + vnorm c / 2)) with ((k * k) * (w * w) - vnorm c * vnorm c / 4) by field. rewrite KK, WW, NS, CN. field. }
      apply Rmult_integral in H. destruct H; [lra|]. assert (0 < k * w) by nra. lra. }
    replace (vscale k (vscale (/ vnorm c) c)) with (vscale (k * / vnorm c) c) by (clear; destruct c as [x y z]; unfold vscale; cbn [vx vy vz]; f_equal; ring).
    apply (rotation_general f t (k * / vnorm c) w F T).
    + replace (k * / vnorm c * w) with (k * w * / vnorm c) by ring. rewrite KW. field. lra.
    + rewrite WW. fold d. field.
    + fold c d. rewrite <- NS. replace (k * / vnorm c * (k * / vnorm c) * (vnorm c * vnorm c)) with (k * k) by (field; lra). rewrite KK. field.
Qed.

Lemma vnormalize_idem v : vnormalize (vnormalize v) = vnormalize v.
Proof.
  destruct (Rlt_dec 0 (vdot v v)) as [P|P].
  - assert (N : v <> Vec 0 0 0) by (intros ->; unfold vdot in P; cbn in P; lra).
    destruct (vnormalize_unit v N) as (U & _). set (u := vnormalize v) in *. unfold vnormalize. destruct (Rlt_dec 0 (vdot u u)) as [_|]; [|reflexivity].
    unfold vnorm. rewrite U, sqrt_1. destruct u as [x y z]; unfold vscale; cbn [vx vy vz]. f_equal; field.
  - assert (E : vnormalize v = v) by (unfold vnormalize; destruct (Rlt_dec 0 (vdot v v)); [contradiction|reflexivity]). rewrite E. exact E.
Qed.
Lemma get_rotation_normal f t : get_rotation f t = get_rotation (vnormalize f) (vnormalize t).
Proof. unfold get_rotation. rewrite !vnormalize_idem. reflexivity. Qed.

Lemma lin_dot s0 a s1 b : unit a -> dot a (lin s0 a s1 b) = s0 + s1 * dot a b.
Proof. unfold unit, lin. intros A. qs. nsatz. Qed.
(** Means of quaternions of one rotation. *)
Lemma mean_same_fold q l k : unit q -> 0 < k -> (forall x, In x l -> x = q \/ x = opp q) ->
  exists k', 0 < k' /\ k <= k' /\ fold_left mean_step l (lin k q 0 q) = lin k' q 0 q.
Proof.
  intros U. revert k. induction l as [|x l IH]; intros k K A; cbn [fold_left]; [exists k; repeat split; lra|].
  assert (E : mean_step (lin k q 0 q) x = lin (k + 1) q 0 q).
  { destruct (A x (or_introl eq_refl)) as [-> | ->].
    - assert (D : dot (lin k q 0 q) q = k) by (clear - U; unfold unit, lin in *; qs; nsatz).
      unfold mean_step. rewrite D. destruct (Rlt_dec 0 k); [|lra]. clear. unfold lin, qadd. qs. f_equal; ring.
    - assert (D : dot (lin k q 0 q) (opp q) = - k) by (clear - U; unfold unit, lin in *; qs; nsatz).
      unfold mean_step. rewrite D. destruct (Rlt_dec 0 (- k)); [lra|]. clear. unfold lin, qadd, qneg. qs. f_equal; ring. }
  rewrite E. destruct (IH (k + 1) ltac:(lra) ltac:(intros y Y; apply A; right; exact Y)) as (k' & K1 & K2 & F).
  exists k'. split; [exact K1|]. split; [lra|exact F].
Qed.
Lemma opp_unit q : unit q -> unit (opp q).
Proof. unfold unit. intros <-. qs. ring. Qed.
Lemma mean_same q l : unit q -> l <> [] -> (forall x, In x l -> x = q \/ x = opp q) -> get_mean l = q \/ get_mean l = opp q.
Proof.
  intros U N A. destruct l as [|x l]; [congruence|]. unfold get_mean. cbn [fold_left].
  assert (UX : unit x /\ (x = q \/ x = opp q)) by (destruct (A x (or_introl eq_refl)) as [-> | ->]; auto using opp_unit).
  destruct UX as [UX XQ].
  assert (S1 : mean_step (Quat 0 0 0 0) x = lin 1 (opp x) 0 (opp x)).
  { unfold mean_step. assert (D : dot (Quat 0 0 0 0) x = 0) by (clear; qs; ring). rewrite D. destruct (Rlt_dec 0 0); [lra|]. clear. unfold lin, qadd, qneg. qs. f_equal; ring. }
  rewrite S1.
  assert (OO : opp (opp q) = q) by (clear; qs; f_equal; ring).
  destruct (mean_same_fold (opp x) l 1 (opp_unit _ UX) ltac:(lra)) as (k & K1 & K2 & ->).
  { intros y Y. assert (O2 : opp (opp x) = x) by (clear; qs; f_equal; ring). rewrite O2.
    destruct (A y (or_intror Y)) as [-> | ->], XQ as [-> | ->]; rewrite ?OO; auto. }
  set (r := lin k (opp x) 0 (opp x)).
  assert (NR : norm2 r = k * k) by (unfold r; rewrite lin_norm; rewrite (opp_unit _ UX); ring).
  unfold norm2 in NR. rewrite NR. rewrite sqrt_square by lra. destruct (Rlt_dec (1 / 10000) k); [|lra].
  assert (E : qdiv r k = opp x) by (unfold r; clear - K1; unfold lin, qdiv; qs; f_equal; field; lra).
  rewrite E. destruct XQ as [-> | ->]; auto.
Qed.
