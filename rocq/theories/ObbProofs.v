(** Lemmas about the geometry of the collision query. *)
From Coq Require Import List ZArith QArith Reals Bool PeanoNat Permutation Lia Lra.
From Verif Require Import PqpModel PqpSpec PqpProofs PqpBuildModel PqpBuildSpec PqpBuildProofs ObbModel ObbSpec.
Import ListNotations.
Open Scope R_scope.

Lemma rlt_true : forall x y, rlt x y = true <-> x < y.
Proof. intros x y. unfold rlt. destruct (Rlt_dec x y); split; intros; auto; discriminate || contradiction. Qed.
Lemma rlt_false : forall x y, rlt x y = false <-> y <= x.
Proof. intros x y. unfold rlt. destruct (Rlt_dec x y); split; intros; try discriminate; try lra; auto. Qed.

(** Matrices. *)
Lemma vec_eq : forall a b, vx a = vx b -> vy a = vy b -> vz a = vz b -> a = b.
Proof. intros [] [] A B C. cbn in *. congruence. Qed.

Definition det (m : mat) : R :=
  m00 m * (m11 m * m22 m - m12 m * m21 m) - m01 m * (m10 m * m22 m - m12 m * m20 m) + m02 m * (m10 m * m21 m - m11 m * m20 m).

Lemma det_sqr : forall m, orthonormal m -> det m * det m = 1.
Proof.
  intros [a b c d e f g h i] (H0 & H1 & H2 & H3 & H4 & H5). unfold det. cbn in *.
  transitivity ((a * a + d * d + g * g) * (b * b + e * e + h * h) * (c * c + f * f + i * i)
    + 2 * (a * b + d * e + g * h) * (a * c + d * f + g * i) * (b * c + e * f + h * i)
    - (a * a + d * d + g * g) * (b * c + e * f + h * i) * (b * c + e * f + h * i)
    - (b * b + e * e + h * h) * (a * c + d * f + g * i) * (a * c + d * f + g * i)
    - (c * c + f * f + i * i) * (a * b + d * e + g * h) * (a * b + d * e + g * h)); [ring|].
  rewrite H0, H1, H2, H3, H4, H5. ring.
Qed.

Lemma det_pm : forall m, orthonormal m -> det m = 1 \/ det m = -1.
Proof.
  intros m H. apply det_sqr in H. assert (K : (det m - 1) * (det m + 1) = 0) by lra.
  apply Rmult_integral in K as [K|K]; [left|right]; lra.
Qed.

(** A vector orthogonal to the columns is zero. *)
Lemma orth_zero : forall m x y z, orthonormal m -> x * m00 m + y * m10 m + z * m20 m = 0 ->
  x * m01 m + y * m11 m + z * m21 m = 0 -> x * m02 m + y * m12 m + z * m22 m = 0 -> x = 0 /\ y = 0 /\ z = 0.
Proof.
  intros m x y z H A B C. assert (D : det m <> 0). { destruct (det_pm m H) as [->| ->]; lra. }
  assert (X : x * det m = 0).
  { transitivity ((x * m00 m + y * m10 m + z * m20 m) * (m11 m * m22 m - m12 m * m21 m) - (x * m01 m + y * m11 m + z * m21 m) * (m10 m * m22 m - m12 m * m20 m)
      + (x * m02 m + y * m12 m + z * m22 m) * (m10 m * m21 m - m11 m * m20 m)); [unfold det; ring|rewrite A, B, C; ring]. }
  assert (Y : y * det m = 0).
  { transitivity (- (x * m00 m + y * m10 m + z * m20 m) * (m01 m * m22 m - m02 m * m21 m) + (x * m01 m + y * m11 m + z * m21 m) * (m00 m * m22 m - m02 m * m20 m)
      - (x * m02 m + y * m12 m + z * m22 m) * (m00 m * m21 m - m01 m * m20 m)); [unfold det; ring|rewrite A, B, C; ring]. }
  assert (Z : z * det m = 0).
  { transitivity ((x * m00 m + y * m10 m + z * m20 m) * (m01 m * m12 m - m02 m * m11 m) - (x * m01 m + y * m11 m + z * m21 m) * (m00 m * m12 m - m02 m * m10 m)
      + (x * m02 m + y * m12 m + z * m22 m) * (m00 m * m11 m - m01 m * m10 m)); [unfold det; ring|rewrite A, B, C; ring]. }
  apply Rmult_integral in X, Y, Z. tauto.
Qed.

Definition transpose (m : mat) : mat := M33 (m00 m) (m10 m) (m20 m) (m01 m) (m11 m) (m21 m) (m02 m) (m12 m) (m22 m).

Lemma orthonormal_rows : forall m, orthonormal m -> orthonormal (transpose m).
Proof.
  intros m H. assert (K := H). destruct K as (H0 & H1 & H2 & H3 & H4 & H5). unfold orthonormal. cbn [transpose m00 m01 m02 m10 m11 m12 m20 m21 m22].
  assert (R0 := orth_zero m (m00 m * m00 m + m01 m * m01 m + m02 m * m02 m - 1) (m00 m * m10 m + m01 m * m11 m + m02 m * m12 m) (m00 m * m20 m + m01 m * m21 m + m02 m * m22 m) H).
  assert (R1 := orth_zero m (m10 m * m00 m + m11 m * m01 m + m12 m * m02 m) (m10 m * m10 m + m11 m * m11 m + m12 m * m12 m - 1) (m10 m * m20 m + m11 m * m21 m + m12 m * m22 m) H).
  assert (R2 := orth_zero m (m20 m * m00 m + m21 m * m01 m + m22 m * m02 m) (m20 m * m10 m + m21 m * m11 m + m22 m * m12 m) (m20 m * m20 m + m21 m * m21 m + m22 m * m22 m - 1) H).
  destruct m as [a b c d e f g h i]. cbn in *.
  destruct R0 as (A0 & A1 & A2).
  { transitivity (a * (a * a + d * d + g * g - 1) + b * (a * b + d * e + g * h) + c * (a * c + d * f + g * i)); [ring|rewrite H0, H3, H4; ring]. }
  { transitivity (a * (a * b + d * e + g * h) + b * (b * b + e * e + h * h - 1) + c * (b * c + e * f + h * i)); [ring|rewrite H1, H3, H5; ring]. }
  { transitivity (a * (a * c + d * f + g * i) + b * (b * c + e * f + h * i) + c * (c * c + f * f + i * i - 1)); [ring|rewrite H2, H4, H5; ring]. }
  destruct R1 as (B0 & B1 & B2).
  { transitivity (d * (a * a + d * d + g * g - 1) + e * (a * b + d * e + g * h) + f * (a * c + d * f + g * i)); [ring|rewrite H0, H3, H4; ring]. }
  { transitivity (d * (a * b + d * e + g * h) + e * (b * b + e * e + h * h - 1) + f * (b * c + e * f + h * i)); [ring|rewrite H1, H3, H5; ring]. }
  { transitivity (d * (a * c + d * f + g * i) + e * (b * c + e * f + h * i) + f * (c * c + f * f + i * i - 1)); [ring|rewrite H2, H4, H5; ring]. }
  destruct R2 as (C0 & C1 & C2).
  { transitivity (g * (a * a + d * d + g * g - 1) + h * (a * b + d * e + g * h) + i * (a * c + d * f + g * i)); [ring|rewrite H0, H3, H4; ring]. }
  { transitivity (g * (a * b + d * e + g * h) + h * (b * b + e * e + h * h - 1) + i * (b * c + e * f + h * i)); [ring|rewrite H1, H3, H5; ring]. }
  { transitivity (g * (a * c + d * f + g * i) + h * (b * c + e * f + h * i) + i * (c * c + f * f + i * i - 1)); [ring|rewrite H2, H4, H5; ring]. }
  repeat split; lra.
Qed.

Lemma mtxv_mxv : forall m v, orthonormal m -> mtxv m (mxv m v) = v.
Proof.
  intros [a b c d e f g h i] [x y z] (H0 & H1 & H2 & H3 & H4 & H5). cbn in *. unfold mtxv, mxv. cbn.
  f_equal.
  - transitivity ((a * a + d * d + g * g) * x + (a * b + d * e + g * h) * y + (a * c + d * f + g * i) * z); [ring|rewrite H0, H3, H4; ring].
  - transitivity ((a * b + d * e + g * h) * x + (b * b + e * e + h * h) * y + (b * c + e * f + h * i) * z); [ring|rewrite H1, H3, H5; ring].
  - transitivity ((a * c + d * f + g * i) * x + (b * c + e * f + h * i) * y + (c * c + f * f + i * i) * z); [ring|rewrite H2, H4, H5; ring].
Qed.
Lemma mxv_mtxv : forall m v, orthonormal m -> mxv m (mtxv m v) = v.
Proof.
  intros m v H. apply orthonormal_rows in H. apply mtxv_mxv with (v := v) in H.
  destruct m, v. exact H.
Qed.
Lemma mxv_mxm : forall a b v, mxv (mxm a b) v = mxv a (mxv b v).
Proof. intros [] [] []. unfold mxv, mxm. cbn. f_equal; ring. Qed.
Lemma mxv_mtxm : forall a b v, mxv (mtxm a b) v = mtxv a (mxv b v).
Proof. intros [] [] []. unfold mxv, mtxv, mtxm. cbn. f_equal; ring. Qed.
Lemma mxv_vpv : forall a u v, mxv a (vpv u v) = vpv (mxv a u) (mxv a v).
Proof. intros [] [] []. unfold mxv, vpv. cbn. f_equal; ring. Qed.
Lemma mxv_vmv : forall a u v, mxv a (vmv u v) = vmv (mxv a u) (mxv a v).
Proof. intros [] [] []. unfold mxv, vmv. cbn. f_equal; ring. Qed.
Lemma mtxv_vpv : forall a u v, mtxv a (vpv u v) = vpv (mtxv a u) (mtxv a v).
Proof. intros [] [] []. unfold mtxv, vpv. cbn. f_equal; ring. Qed.
Lemma mtxv_vmv : forall a u v, mtxv a (vmv u v) = vmv (mtxv a u) (mtxv a v).
Proof. intros [] [] []. unfold mtxv, vmv. cbn. f_equal; ring. Qed.

(** A matrix is known by its action. *)
Lemma mat_ext : forall a b, (forall v, mxv a v = mxv b v) -> a = b.
Proof.
  intros a b H. assert (X := H (V3 1 0 0)). assert (Y := H (V3 0 1 0)). assert (Z := H (V3 0 0 1)).
  destruct a, b. unfold mxv in *. cbn in *.
  injection X as X0 X1 X2. injection Y as Y0 Y1 Y2. injection Z as Z0 Z1 Z2.
  rewrite ?Rmult_0_r, ?Rmult_1_r, ?Rplus_0_r, ?Rplus_0_l in *. congruence.
Qed.

Lemma orthonormal_iff : forall m, orthonormal m <-> forall v, mtxv m (mxv m v) = v.
Proof.
  intros m. split; [intros H v; now apply mtxv_mxv|]. intros H.
  assert (X := H (V3 1 0 0)). assert (Y := H (V3 0 1 0)). assert (Z := H (V3 0 0 1)).
  destruct m. unfold mtxv, mxv, orthonormal in *. cbn in *.
  injection X as X0 X1 X2. injection Y as Y0 Y1 Y2. injection Z as Z0 Z1 Z2.
  rewrite ?Rmult_0_r, ?Rmult_1_r, ?Rplus_0_r, ?Rplus_0_l in *. repeat split; assumption.
Qed.

Lemma mtxv_mtxm : forall a b v, mtxv (mtxm a b) v = mtxv b (mxv a v).
Proof. intros [] [] []. unfold mtxv, mxv, mtxm. cbn. f_equal; ring. Qed.
Lemma mtxv_mxm : forall a b v, mtxv (mxm a b) v = mtxv b (mtxv a v).
Proof. intros [] [] []. unfold mtxv, mxm. cbn. f_equal; ring. Qed.
Lemma orthonormal_mtxm : forall a b, orthonormal a -> orthonormal b -> orthonormal (mtxm a b).
Proof.
  intros a b HA HB. apply orthonormal_iff. intros v. rewrite mxv_mtxm, mtxv_mtxm, mxv_mtxv by assumption. now apply mtxv_mxv.
Qed.
Lemma orthonormal_mxm : forall a b, orthonormal a -> orthonormal b -> orthonormal (mxm a b).
Proof.
  intros a b HA HB. apply orthonormal_iff. intros v. rewrite mxv_mxm, mtxv_mxm, mtxv_mxv by assumption. now apply mtxv_mxv.
Qed.

(** Separation of boxes. *)
Lemma absbound : forall x a, Rabs x <= a -> - a <= x <= a.
Proof. intros x a H. unfold Rabs in H. destruct (Rcase_abs x); lra. Qed.
Lemma term : forall c u a, Rabs u <= a -> Rabs (u * c) <= a * (Rabs c + 1 / 1000000).
Proof.
  intros c u a H. rewrite Rabs_mult. assert (0 <= Rabs u) by apply Rabs_pos. assert (0 <= Rabs c) by apply Rabs_pos.
  apply Rle_trans with (a * Rabs c); [now apply Rmult_le_compat_r|]. apply Rmult_le_compat_l; lra.
Qed.
Lemma tri_abs2 : forall s a b, s = a + b -> Rabs s <= Rabs a + Rabs b.
Proof. intros s a b ->. apply Rabs_triang. Qed.

(** The cofactors of an orthonormal matrix. *)
Lemma cofactor : forall m, orthonormal m -> exists s, (s = 1 \/ s = -1) /\
  m10 m * m21 m - m20 m * m11 m = s * m02 m /\ m20 m * m01 m - m00 m * m21 m = s * m12 m /\ m00 m * m11 m - m10 m * m01 m = s * m22 m /\
  m11 m * m22 m - m21 m * m12 m = s * m00 m /\ m21 m * m02 m - m01 m * m22 m = s * m10 m /\ m01 m * m12 m - m11 m * m02 m = s * m20 m /\
  m12 m * m20 m - m22 m * m10 m = s * m01 m /\ m22 m * m00 m - m02 m * m20 m = s * m11 m /\ m02 m * m10 m - m12 m * m00 m = s * m21 m.
Proof.
  intros m H. exists (det m). split; [now apply det_pm|].
  assert (D : forall x y z a b c, x * m00 m + y * m10 m + z * m20 m = a -> x * m01 m + y * m11 m + z * m21 m = b -> x * m02 m + y * m12 m + z * m22 m = c ->
    x = a * m00 m + b * m01 m + c * m02 m /\ y = a * m10 m + b * m11 m + c * m12 m /\ z = a * m20 m + b * m21 m + c * m22 m).
  { intros x y z a b c A B C. assert (E := mxv_mtxv m (V3 x y z) H). unfold mxv, mtxv in E. cbn in E. injection E as E0 E1 E2.
    rewrite <- A, <- B, <- C. repeat split; lra. }
  destruct (D (m10 m * m21 m - m20 m * m11 m) (m20 m * m01 m - m00 m * m21 m) (m00 m * m11 m - m10 m * m01 m) 0 0 (det m)) as (A0 & A1 & A2); [unfold det; ring..|].
  destruct (D (m11 m * m22 m - m21 m * m12 m) (m21 m * m02 m - m01 m * m22 m) (m01 m * m12 m - m11 m * m02 m) (det m) 0 0) as (B0 & B1 & B2); [unfold det; ring..|].
  destruct (D (m12 m * m20 m - m22 m * m10 m) (m22 m * m00 m - m02 m * m20 m) (m02 m * m10 m - m12 m * m00 m) 0 (det m) 0) as (C0 & C1 & C2); [unfold det; ring..|].
  repeat split; lra.
Qed.

(** Two boxes with a common point pass every test. *)
Theorem obb_overlap : forall B T a b u w, orthonormal B ->
  Rabs (vx u) <= vx a -> Rabs (vy u) <= vy a -> Rabs (vz u) <= vz a ->
  Rabs (vx w) <= vx b -> Rabs (vy w) <= vy b -> Rabs (vz w) <= vz b ->
  u = vpv (mxv B w) T -> obb_disjoint B T a b = 0%nat.
Proof.
  intros B T a b u w H A0 A1 A2 B0 B1 B2 E. destruct (cofactor B H) as (s & HS & C0 & C1 & C2 & C3 & C4 & C5 & C6 & C7 & C8).
  assert (W := mtxv_mxv B w H). destruct B as [b00 b01 b02 b10 b11 b12 b20 b21 b22], T as [t0 t1 t2], a as [a0 a1 a2], b as [d0 d1 d2], w as [w0 w1 w2].
  unfold mxv, mtxv, vpv in *. cbn in *. subst u. cbn in *. injection W as W0 W1 W2.
  assert (SG : forall x c k, Rabs x <= k -> Rabs (x * (s * c)) <= k * (Rabs c + 1 / 1000000)).
  { intros x c k K. assert (S1 : Rabs s = 1) by (unfold Rabs; destruct (Rcase_abs s); destruct HS; lra).
    replace (Rabs (x * (s * c))) with (Rabs (x * c)) by (rewrite !Rabs_mult, S1; ring). now apply term. }
  unfold obb_disjoint. cbn [vx vy vz m00 m01 m02 m10 m11 m12 m20 m21 m22].
  set (u0 := b00 * w0 + b01 * w1 + b02 * w2 + t0) in *. set (u1 := b10 * w0 + b11 * w1 + b12 * w2 + t1) in *. set (u2 := b20 * w0 + b21 * w1 + b22 * w2 + t2) in *.
  assert (N : forall t k, Rabs t <= k -> rlt k (Rabs t) = false) by (intros; now apply rlt_false).
  assert (SUM4 : forall x1 x2 x3 x4 y1 y2 y3 y4, Rabs x1 <= y1 -> Rabs x2 <= y2 -> Rabs x3 <= y3 -> Rabs x4 <= y4 -> Rabs (x1 + x2 + x3 + x4) <= y1 + y2 + y3 + y4).
  { intros x1 x2 x3 x4 y1 y2 y3 y4 K1 K2 K3 K4. eapply Rle_trans; [apply Rabs_triang|]. apply Rplus_le_compat; [|assumption].
    eapply Rle_trans; [apply Rabs_triang|]. apply Rplus_le_compat; [|assumption]. eapply Rle_trans; [apply Rabs_triang|]. now apply Rplus_le_compat. }
  assert (NEG : forall x k, Rabs x <= k -> Rabs (- x) <= k) by (intros; now rewrite Rabs_Ropp).
  repeat match goal with |- (if rlt ?k (Rabs ?t) then _ else _) = _ => rewrite (N t k); [|clear N] end; try reflexivity; revgoals.
  - replace t0 with (u0 + - w0 * b00 + - w1 * b01 + - w2 * b02) by (unfold u0; ring). apply SUM4; [assumption|apply term; auto..].
  - replace (t0 * b00 + t1 * b10 + t2 * b20) with (- w0 + u0 * b00 + u1 * b10 + u2 * b20) by (unfold u0, u1, u2; lra). apply SUM4; [auto|apply term; auto..].
  - replace t1 with (u1 + - w0 * b10 + - w1 * b11 + - w2 * b12) by (unfold u1; ring). apply SUM4; [assumption|apply term; auto..].
  - replace t2 with (u2 + - w0 * b20 + - w1 * b21 + - w2 * b22) by (unfold u2; ring). apply SUM4; [assumption|apply term; auto..].
  - replace (t0 * b01 + t1 * b11 + t2 * b21) with (- w1 + u0 * b01 + u1 * b11 + u2 * b21) by (unfold u0, u1, u2; lra). apply SUM4; [auto|apply term; auto..].
  - replace (t0 * b02 + t1 * b12 + t2 * b22) with (- w2 + u0 * b02 + u1 * b12 + u2 * b22) by (unfold u0, u1, u2; lra). apply SUM4; [auto|apply term; auto..].
  - replace (t2 * b10 - t1 * b20) with (- u1 * b20 + u2 * b10 + - w1 * (s * b02) + w2 * (s * b01)) by (rewrite <- C0, <- C6; unfold u1, u2; ring). apply SUM4; [apply term; auto..|apply SG; auto|apply SG; auto].
  - replace (t2 * b11 - t1 * b21) with (- u1 * b21 + u2 * b11 + w0 * (s * b02) + - w2 * (s * b00)) by (rewrite <- C0, <- C3; unfold u1, u2; ring). apply SUM4; [apply term; auto..|apply SG; auto|apply SG; auto].
  - replace (t2 * b12 - t1 * b22) with (- u1 * b22 + u2 * b12 + - w0 * (s * b01) + w1 * (s * b00)) by (rewrite <- C6, <- C3; unfold u1, u2; ring). apply SUM4; [apply term; auto..|apply SG; auto|apply SG; auto].
  - replace (t0 * b20 - t2 * b00) with (u0 * b20 + - u2 * b00 + - w1 * (s * b12) + w2 * (s * b11)) by (rewrite <- C1, <- C7; unfold u0, u2; ring). apply SUM4; [apply term; auto..|apply SG; auto|apply SG; auto].
  - replace (t0 * b21 - t2 * b01) with (u0 * b21 + - u2 * b01 + w0 * (s * b12) + - w2 * (s * b10)) by (rewrite <- C1, <- C4; unfold u0, u2; ring). apply SUM4; [apply term; auto..|apply SG; auto|apply SG; auto].
  - replace (t0 * b22 - t2 * b02) with (u0 * b22 + - u2 * b02 + - w0 * (s * b11) + w1 * (s * b10)) by (rewrite <- C7, <- C4; unfold u0, u2; ring). apply SUM4; [apply term; auto..|apply SG; auto|apply SG; auto].
  - replace (t1 * b00 - t0 * b10) with (- u0 * b10 + u1 * b00 + - w1 * (s * b22) + w2 * (s * b21)) by (rewrite <- C2, <- C8; unfold u0, u1; ring). apply SUM4; [apply term; auto..|apply SG; auto|apply SG; auto].
  - replace (t1 * b01 - t0 * b11) with (- u0 * b11 + u1 * b01 + w0 * (s * b22) + - w2 * (s * b20)) by (rewrite <- C2, <- C5; unfold u0, u1; ring). apply SUM4; [apply term; auto..|apply SG; auto|apply SG; auto].
  - replace (t1 * b02 - t0 * b12) with (- u0 * b12 + u1 * b02 + - w0 * (s * b21) + w1 * (s * b20)) by (rewrite <- C8, <- C5; unfold u0, u1; ring). apply SUM4; [apply term; auto..|apply SG; auto|apply SG; auto].
Qed.

(** The eigenvector routine. *)
Lemma jc_bounds : forall t, 0 < jc t /\ jc t * jc t * (1 + t * t) = 1.
Proof.
  intros t. assert (P : 0 < 1 + t * t) by (assert (0 <= t * t) by apply Rle_0_sqr; lra).
  assert (Q := sqrt_lt_R0 _ P). unfold jc. split; [apply Rdiv_lt_0_compat; lra|].
  rewrite <- (sqrt_sqrt (1 + t * t)) at 3 by lra. field. lra.
Qed.
Lemma rot_pair : forall t g h, fst (rot (js t) (jtau t) g h) = jc t * g - js t * h /\ snd (rot (js t) (jtau t) g h) = js t * g + jc t * h /\
  jc t * jc t + js t * js t = 1.
Proof.
  intros t g h. destruct (jc_bounds t) as [C1 C2]. assert (U : jc t * jc t + js t * js t = 1) by (unfold js; lra).
  assert (E : js t * jtau t = 1 - jc t). { unfold jtau. replace (js t * (js t / (1 + jc t))) with (js t * js t / (1 + jc t)) by (field; lra). replace (js t * js t) with ((1 - jc t) * (1 + jc t)) by lra. field. lra. }
  unfold rot. cbn [fst snd]. split; [|split; [|assumption]].
  - transitivity (g - js t * h - g * (js t * jtau t)); [ring|rewrite E; ring].
  - transitivity (h + js t * g - h * (js t * jtau t)); [ring|rewrite E; ring].
Qed.
Lemma rotcols : forall c s a b d e g h, c * c + s * s = 1 ->
  a * a + d * d + g * g = 1 -> b * b + e * e + h * h = 1 -> a * b + d * e + g * h = 0 ->
  (c * a - s * b) * (c * a - s * b) + (c * d - s * e) * (c * d - s * e) + (c * g - s * h) * (c * g - s * h) = 1 /\
  (s * a + c * b) * (s * a + c * b) + (s * d + c * e) * (s * d + c * e) + (s * g + c * h) * (s * g + c * h) = 1 /\
  (c * a - s * b) * (s * a + c * b) + (c * d - s * e) * (s * d + c * e) + (c * g - s * h) * (s * g + c * h) = 0 /\
  forall x y z, a * x + d * y + g * z = 0 -> b * x + e * y + h * z = 0 ->
    (c * a - s * b) * x + (c * d - s * e) * y + (c * g - s * h) * z = 0 /\ (s * a + c * b) * x + (s * d + c * e) * y + (s * g + c * h) * z = 0.
Proof.
  intros c s a b d e g h U A B C. split; [|split; [|split]].
  - transitivity (c * c * (a * a + d * d + g * g) + s * s * (b * b + e * e + h * h) - 2 * c * s * (a * b + d * e + g * h)); [ring|rewrite A, B, C; lra].
  - transitivity (s * s * (a * a + d * d + g * g) + c * c * (b * b + e * e + h * h) + 2 * c * s * (a * b + d * e + g * h)); [ring|rewrite A, B, C; lra].
  - transitivity (c * s * (a * a + d * d + g * g) - c * s * (b * b + e * e + h * h) + (c * c - s * s) * (a * b + d * e + g * h)); [ring|rewrite A, B, C; lra].
  - intros x y z X Y. split.
    + transitivity (c * (a * x + d * y + g * z) - s * (b * x + e * y + h * z)); [ring|rewrite X, Y; ring].
    + transitivity (s * (a * x + d * y + g * z) + c * (b * x + e * y + h * z)); [ring|rewrite X, Y; ring].
Qed.

Lemma pivot_orthonormal : forall negl late tresh st, orthonormal (jv st) ->
  orthonormal (jv (pivot01 negl late tresh st)) /\ orthonormal (jv (pivot02 negl late tresh st)) /\ orthonormal (jv (pivot12 negl late tresh st)).
Proof.
  intros negl late tresh st H. assert (K := H). destruct K as (H0 & H1 & H2 & H3 & H4 & H5).
  split; [|split]; [unfold pivot01|unfold pivot02|unfold pivot12]; destruct (decide negl late tresh _ _ _) as [| |t]; cbn [jv]; try assumption;
    unfold orthonormal; cbn [m00 m01 m02 m10 m11 m12 m20 m21 m22];
    repeat rewrite (proj1 (rot_pair t _ _)); repeat rewrite (proj1 (proj2 (rot_pair t _ _)));
    destruct (rot_pair t 0 0) as (_ & _ & U).
  - destruct (rotcols (jc t) (js t) _ _ _ _ _ _ U H0 H1 H3) as (A & B & C & D). destruct (D _ _ _ H4 H5) as [E F]. repeat split; assumption.
  - destruct (rotcols (jc t) (js t) _ _ _ _ _ _ U H0 H2 H4) as (A & B & C & D).
    destruct (D (m01 (jv st)) (m11 (jv st)) (m21 (jv st)) H3) as [E F]; [lra|]. repeat split; try assumption; lra.
  - destruct (rotcols (jc t) (js t) _ _ _ _ _ _ U H1 H2 H5) as (A & B & C & D).
    destruct (D (m00 (jv st)) (m10 (jv st)) (m20 (jv st))) as [E F]; [lra..|]. repeat split; try assumption; lra.
Qed.

Lemma meigen_loop_orthonormal : forall negl n i b st e s, orthonormal (jv st) -> meigen_loop negl n i b st = Some (e, s) -> orthonormal e.
Proof.
  intros negl. induction n as [|n IH]; intros i b st e s H E; [discriminate|]. cbn [meigen_loop] in E.
  destruct (Req_EM_T _ 0); [injection E as <- _; assumption|]. revert E. apply IH. cbn [jv].
  apply pivot_orthonormal, pivot_orthonormal, pivot_orthonormal, H.
Qed.
Lemma meigen_unfold : forall negl a, meigen negl a = meigen_loop negl eigen_iterations 0 (V3 (m00 a) (m11 a) (m22 a)) (Jacobi (m01 a) (m02 a) (m12 a) (V3 (m00 a) (m11 a) (m22 a)) videntity midentity).
Proof. intros. reflexivity. Qed.
Lemma meigen_orthonormal : forall negl a e s, meigen negl a = Some (e, s) -> orthonormal e.
Proof.
  intros negl a e s E. rewrite meigen_unfold in E. revert E. generalize eigen_iterations. intros n E.
  eapply meigen_loop_orthonormal; [|exact E]. cbn [jv]. unfold midentity, orthonormal. cbn. repeat split; ring.
Qed.

Lemma cross_frame : forall a b, vdot a a = 1 -> vdot b b = 1 -> vdot a b = 0 ->
  orthonormal (M33 (vx a) (vx b) (vy a * vz b - vy b * vz a) (vy a) (vy b) (vx b * vz a - vx a * vz b) (vz a) (vz b) (vx a * vy b - vx b * vy a)).
Proof.
  intros [a0 a1 a2] [b0 b1 b2]. unfold vdot, orthonormal. cbn. intros A B C. repeat split; try lra.
  transitivity ((a0 * a0 + a1 * a1 + a2 * a2) * (b0 * b0 + b1 * b1 + b2 * b2) - (a0 * b0 + a1 * b1 + a2 * b2) * (a0 * b0 + a1 * b1 + a2 * b2)); [ring|rewrite A, B, C; ring].
Qed.
Lemma frame_orthonormal : forall e s, orthonormal e -> orthonormal (frame e s).
Proof.
  intros e s (H0 & H1 & H2 & H3 & H4 & H5). unfold frame.
  assert (K : exists i j, order_axes s = (i, j) /\ ((i = 0 /\ j = 1) \/ (i = 1 /\ j = 0) \/ (i = 0 /\ j = 2) \/ (i = 2 /\ j = 0) \/ (i = 1 /\ j = 2) \/ (i = 2 /\ j = 1))%nat).
  { unfold order_axes. destruct (rlt (vy s) (vx s)); destruct (rlt (vz s) _); try (eexists _, _; split; [reflexivity|tauto]);
      destruct (rlt _ (vz s)); eexists _, _; (split; [reflexivity|tauto]). }
  destruct K as (i & j & -> & K). apply cross_frame; destruct K as [[-> ->]|[[-> ->]|[[-> ->]|[[-> ->]|[[-> ->]|[-> ->]]]]]]; unfold vdot, col, col0, col1, col2; cbn; lra.
Qed.

(** The fitted box contains the triangles. *)
Lemma extent_ok : forall l mn mx, mn <= mx -> let '(a, b) := extent l mn mx in a <= mn /\ mx <= b /\ forall x, In x l -> a <= x <= b.
Proof.
  induction l as [|y l IH]; intros mn mx H; cbn [extent].
  - split; [lra|]. split; [lra|]. intros x [].
  - destruct (rlt y mn) eqn:E1; [|destruct (rlt mx y) eqn:E2].
    + apply rlt_true in E1. specialize (IH y mx ltac:(lra)). destruct (extent l y mx) as [a b]. destruct IH as (A & B & C).
      split; [lra|]. split; [assumption|]. intros x [<-|I]; [lra|auto].
    + apply rlt_false in E1. apply rlt_true in E2. specialize (IH mn y ltac:(lra)). destruct (extent l mn y) as [a b]. destruct IH as (A & B & C).
      split; [assumption|]. split; [lra|]. intros x [<-|I]; [lra|auto].
    + apply rlt_false in E1, E2. specialize (IH mn mx H). destruct (extent l mn mx) as [a b]. destruct IH as (A & B & C).
      split; [assumption|]. split; [assumption|]. intros x [<-|I]; [lra|auto].
Qed.
Lemma extent_of_ok : forall l x, In x l -> fst (extent_of l) <= x <= snd (extent_of l).
Proof.
  intros [|y l] x H; [destruct H|]. cbn [extent_of]. assert (K := extent_ok l y y ltac:(lra)). destruct (extent l y y) as [a b]. cbn.
  destruct K as (A & B & C). destruct H as [<-|H]; [lra|auto].
Qed.

Lemma points_in : forall ts t, In t ts -> In (p1 (corners t)) (points ts) /\ In (p2 (corners t)) (points ts) /\ In (p3 (corners t)) (points ts).
Proof.
  intros ts t H. unfold points. repeat split; apply in_flat_map; exists t; (split; [assumption|cbn; tauto]).
Qed.

Lemma fit_contains : forall r ts t p, orthonormal r -> In t ts -> in_tri (corners t) p -> in_obb (fit_to_tris r ts) p.
Proof.
  intros r ts t p H I (a & b & c & A & B & C & S1 & X & Y & Z). unfold fit_to_tris.
  set (P := map (mtxv r) (points ts)).
  assert (EX : forall f, (forall q, In q (points ts) -> fst (extent_of (map f P)) <= f (mtxv r q) <= snd (extent_of (map f P)))).
  { intros f q Hq. apply extent_of_ok. unfold P. rewrite map_map. apply in_map_iff. exists q. auto. }
  destruct (points_in ts t I) as (I1 & I2 & I3). assert (EX0 := EX vx). assert (EX1 := EX vy). assert (EX2 := EX vz). clear EX.
  destruct (extent_of (map vx P)) as [minx maxx], (extent_of (map vy P)) as [miny maxy], (extent_of (map vz P)) as [minz maxz]. cbn [fst snd] in *.
  set (cc := V3 (1 / 2 * (maxx + minx)) (1 / 2 * (maxy + miny)) (1 / 2 * (maxz + minz))).
  exists (vmv (mtxv r p) cc). cbn [o_R o_To o_d vx vy vz].
  assert (LIN : forall f, f = vx \/ f = vy \/ f = vz -> f (mtxv r p) = a * f (mtxv r (p1 (corners t))) + b * f (mtxv r (p2 (corners t))) + c * f (mtxv r (p3 (corners t)))).
  { intros f [->|[->| ->]]; unfold mtxv; cbn [vx vy vz]; rewrite X, Y, Z; ring. }
  assert (BND : forall lo hi u v w x, lo <= u <= hi -> lo <= v <= hi -> lo <= w <= hi -> x = a * u + b * v + c * w -> Rabs (x - 1 / 2 * (hi + lo)) <= 1 / 2 * (hi - lo)).
  { intros lo hi u v w x U V W ->.
    assert (a * lo <= a * u <= a * hi) by (split; apply Rmult_le_compat_l; lra). assert (b * lo <= b * v <= b * hi) by (split; apply Rmult_le_compat_l; lra).
    assert (c * lo <= c * w <= c * hi) by (split; apply Rmult_le_compat_l; lra).
    assert (a * lo + b * lo + c * lo = lo) by (replace (a * lo + b * lo + c * lo) with ((a + b + c) * lo) by ring; rewrite S1; ring).
    assert (a * hi + b * hi + c * hi = hi) by (replace (a * hi + b * hi + c * hi) with ((a + b + c) * hi) by ring; rewrite S1; ring).
    apply Rabs_le. lra. }
  split; [|split; [|split]].
  - apply (BND minx maxx _ _ _ _ (EX0 _ I1) (EX0 _ I2) (EX0 _ I3)). apply LIN. auto.
  - apply (BND miny maxy _ _ _ _ (EX1 _ I1) (EX1 _ I2) (EX1 _ I3)). apply LIN. auto.
  - apply (BND minz maxz _ _ _ _ (EX2 _ I1) (EX2 _ I2) (EX2 _ I3)). apply LIN. auto.
  - transitivity (vpv (mxv r (vmv (mtxv r p) cc)) (mxv r cc)); [|reflexivity].
    rewrite mxv_vmv, mxv_mtxv by assumption. apply vec_eq; unfold vpv, vmv; cbn; ring.
Qed.

(** The contact test of triangles. *)
Lemma max3_ok : forall a b c, a <= max3 a b c /\ b <= max3 a b c /\ c <= max3 a b c.
Proof.
  intros a b c. unfold max3. cbn zeta. destruct (rlt a b) eqn:E1; [apply rlt_true in E1|apply rlt_false in E1];
    [destruct (rlt b c) eqn:E2|destruct (rlt a c) eqn:E2]; (apply rlt_true in E2 || apply rlt_false in E2); lra.
Qed.
Lemma min3_ok : forall a b c, min3 a b c <= a /\ min3 a b c <= b /\ min3 a b c <= c.
Proof.
  intros a b c. unfold min3. cbn zeta. destruct (rlt b a) eqn:E1; [apply rlt_true in E1|apply rlt_false in E1];
    [destruct (rlt c b) eqn:E2|destruct (rlt c a) eqn:E2]; (apply rlt_true in E2 || apply rlt_false in E2); lra.
Qed.
Lemma mean_between : forall a b c u v w lo hi, 0 <= a -> 0 <= b -> 0 <= c -> a + b + c = 1 -> lo <= u <= hi -> lo <= v <= hi -> lo <= w <= hi ->
  lo <= a * u + b * v + c * w <= hi.
Proof.
  intros a b c u v w lo hi A B C S1 U V W.
  assert (a * lo <= a * u <= a * hi) by (split; apply Rmult_le_compat_l; lra). assert (b * lo <= b * v <= b * hi) by (split; apply Rmult_le_compat_l; lra).
  assert (c * lo <= c * w <= c * hi) by (split; apply Rmult_le_compat_l; lra).
  assert (a * lo + b * lo + c * lo = lo) by (replace (a * lo + b * lo + c * lo) with ((a + b + c) * lo) by ring; rewrite S1; ring).
  assert (a * hi + b * hi + c * hi = hi) by (replace (a * hi + b * hi + c * hi) with ((a + b + c) * hi) by ring; rewrite S1; ring). lra.
Qed.
Lemma project_in : forall ax t p, in_tri t p ->
  min3 (vdot ax (p1 t)) (vdot ax (p2 t)) (vdot ax (p3 t)) <= vdot ax p <= max3 (vdot ax (p1 t)) (vdot ax (p2 t)) (vdot ax (p3 t)).
Proof.
  intros ax t p (a & b & c & A & B & C & S1 & X & Y & Z).
  replace (vdot ax p) with (a * vdot ax (p1 t) + b * vdot ax (p2 t) + c * vdot ax (p3 t)) by (unfold vdot; rewrite X, Y, Z; ring).
  destruct (max3_ok (vdot ax (p1 t)) (vdot ax (p2 t)) (vdot ax (p3 t))) as (M1 & M2 & M3), (min3_ok (vdot ax (p1 t)) (vdot ax (p2 t)) (vdot ax (p3 t))) as (N1 & N2 & N3).
  apply mean_between; auto.
Qed.
Lemma project6_meet : forall ax p q x, in_tri p x -> in_tri q x -> project6 ax p q = true.
Proof.
  intros ax p q x P Q. assert (A := project_in ax p x P). assert (B := project_in ax q x Q). unfold project6. cbn zeta.
  rewrite (proj2 (rlt_false _ _)) by lra. rewrite (proj2 (rlt_false _ _)) by lra. reflexivity.
Qed.
Lemma in_tri_shift : forall t x o, in_tri t x -> in_tri (T3 (vmv (p1 t) o) (vmv (p2 t) o) (vmv (p3 t) o)) (vmv x o).
Proof.
  intros t x o (a & b & c & A & B & C & S1 & X & Y & Z). exists a, b, c. cbn [p1 p2 p3 vmv vx vy vz].
  assert (K : c = 1 - a - b) by lra. do 4 (split; [assumption|]). rewrite X, Y, Z, K. repeat split; ring.
Qed.
Theorem tri_contact_meet : forall P Q x, in_tri P x -> in_tri Q x -> tri_contact P Q = true.
Proof.
  intros P Q x HP HQ. unfold tri_contact. cbn zeta. apply forallb_forall. intros ax _.
  eapply project6_meet; apply in_tri_shift; eassumption.
Qed.
Lemma in_tri_move : forall x t q, in_tri t q -> in_tri (move x t) (at_pose x q).
Proof.
  intros x t q (a & b & c & A & B & C & S1 & X & Y & Z). exists a, b, c. assert (K : c = 1 - a - b) by lra. do 4 (split; [assumption|]).
  unfold move, at_pose, mxvpv, vpv, mxv. cbn. rewrite X, Y, Z, K. repeat split; ring.
Qed.

(** The traversal finds something if two triangles really meet. *)
Section Real.
Context {V G P X : Type}.
Variables (g : geometry V G P X) (o1 o2 : model V G) (x0 : X) (real : nat -> nat -> Prop).
Hypothesis Rover : forall x b1 b2 v1 v2 l1 l2 i j, met g o1 o2 x0 x b1 b2 ->
    nth_error (m_bvs o1) b1 = Some v1 -> nth_error (m_bvs o2) b2 = Some v2 ->
    tree o1 b1 l1 -> tree o2 b2 l2 -> In i l1 -> In j l2 -> real i j -> g_overlap g x (vol v1) (vol v2) = true.
Hypothesis Rtouch : forall i j, real i j -> touch g o1 o2 i j.

Lemma collide_real : forall fc fuel p l1 l2 res, good_pair g o1 o2 x0 p l1 l2 -> (length l1 + length l2 < fuel)%nat ->
  exists r, collide g o1 o2 fuel fc res p = Some (res ++ r) /\ ((res ++ r = []) -> forall i j, In i l1 -> In j l2 -> ~ real i j) /\
    (r <> [] -> exists i j, In i l1 /\ In j l2 /\ touch g o1 o2 i j).
Proof.
  intros fc. induction fuel as [|fuel IH]; intros p l1 l2 res HG Hf; [lia|]. cbn [collide]. destruct p as [[x b1] b2].
  assert (HG' := HG). destruct HG' as (HM & H1 & H2). cbn [fst snd] in *. unfold child.
  destruct (tree_inv _ _ _ H1) as (v1 & E1 & _), (tree_inv _ _ _ H2) as (v2 & E2 & _). rewrite E1, E2.
  destruct (g_overlap g x (vol v1) (vol v2)) eqn:Eo; cbn [negb].
  - destruct (step g o1 o2 x0 _ _ _ HG) as [(t1 & t2 & i & j & -> & -> & -> & T1 & T2)|(-> & pa & a1 & a2 & pc & c1 & c2 & la1 & la2 & lc1 & lc2 & -> & GA & _ & _ & GC & _ & _ & SP)].
    + destruct (g_contact g (corners t1) (corners t2)) eqn:EC.
      * exists [(tri_id t1, tri_id t2)]. split; [reflexivity|]. split; [intros K; destruct res; discriminate|]. intros _. exists i, j. cbn. split; [auto|]. split; [auto|]. exists t1, t2. auto.
      * exists []. rewrite app_nil_r. split; [reflexivity|]. split; [|congruence]. intros _ i' j' [<-|[]] [<-|[]] HR.
        destruct (Rtouch _ _ HR) as (t1' & t2' & U1 & U2 & U). congruence.
    + destruct (good_nonempty g o1 o2 x0 _ _ _ GA), (good_nonempty g o1 o2 x0 _ _ _ GC).
      destruct (split_length l1 l2 la1 la2 lc1 lc2) as [S1 S2]; auto.
      destruct (IH pa la1 la2 res GA ltac:(lia)) as (ra & -> & Pa & Ta).
      assert (IN1 : forall i j, In i la1 -> In j la2 -> In i l1 /\ In j l2) by (intros i j Hi Hj; destruct SP as [(-> & -> & ->)|(-> & -> & ->)]; split; try apply in_or_app; auto).
      assert (IN2 : forall i j, In i lc1 -> In j lc2 -> In i l1 /\ In j l2) by (intros i j Hi Hj; destruct SP as [(-> & -> & ->)|(-> & -> & ->)]; split; try apply in_or_app; auto).
      destruct (fc && negb (length (res ++ ra) =? 0)%nat) eqn:F.
      * exists ra. split; [reflexivity|]. split; [intros K; rewrite K in F; cbn in F; rewrite andb_false_r in F; discriminate|].
        intros K. destruct (Ta K) as (i & j & Hi & Hj & HT). destruct (IN1 i j Hi Hj). eauto.
      * destruct (IH pc lc1 lc2 (res ++ ra) GC ltac:(lia)) as (rc & -> & Pc & Tc). exists (ra ++ rc). rewrite app_assoc. split; [reflexivity|]. split.
        2: { intros K. destruct ra as [|c ra].
             - destruct (Tc K) as (i & j & Hi & Hj & HT). destruct (IN2 i j Hi Hj). eauto.
             - destruct Ta as (i & j & Hi & Hj & HT); [discriminate|]. destruct (IN1 i j Hi Hj). eauto. }
        intros K. assert (K1 : res ++ ra = []) by (destruct (res ++ ra); [reflexivity|discriminate]).
        intros i j Hi Hj. destruct SP as [(-> & -> & ->)|(-> & -> & ->)].
        -- apply in_app_or in Hi as [Hi|Hi]; [apply Pa|apply Pc]; auto.
        -- apply in_app_or in Hj as [Hj|Hj]; [apply Pa|apply Pc]; auto.
  - exists []. rewrite app_nil_r. split; [reflexivity|]. split; [|congruence]. intros _ i j Hi Hj HR.
    rewrite (Rover x b1 b2 v1 v2 l1 l2 i j) in Eo; auto. discriminate.
Qed.
End Real.

(** Placement of volumes: [x] is the pose of [v2] relative to [v1], the second model being at [rel] in the first. *)
Definition placed (rel x : xform) (v1 v2 : obb) : Prop :=
  x_R x = mtxm (o_R v1) (mxm (x_R rel) (o_R v2)) /\ x_T x = mtxv (o_R v1) (vmv (mxvpv (x_R rel) (o_To v2) (x_T rel)) (o_To v1)).

Lemma mid_mxv : forall v, mxv midentity v = v.
Proof. intros []. unfold mxv, midentity. cbn. f_equal; ring. Qed.
Lemma mid_mtxv : forall v, mtxv midentity v = v.
Proof. intros []. unfold mtxv, midentity. cbn. f_equal; ring. Qed.
Lemma vmv_0 : forall v, vmv v videntity = v.
Proof. intros []. unfold vmv, videntity. cbn. f_equal; ring. Qed.
Lemma relative_world : forall v, parent_relative (Obb midentity videntity videntity) v = v.
Proof.
  intros [r t d]. unfold parent_relative. cbn [o_R o_To o_d]. rewrite vmv_0, mid_mtxv. f_equal.
  apply mat_ext. intros v. now rewrite mxv_mtxm, mid_mtxv.
Qed.
Lemma placed_start : forall rel v1 v2, placed rel (start_pose rel v1 v2) v1 v2.
Proof. intros. split; reflexivity. Qed.
Lemma placed_enter1 : forall size rel x v1 v2 c, orthonormal (o_R v1) -> placed rel x v1 v2 ->
  placed rel (g_enter1 (obb_geometry size rel) x (parent_relative v1 c)) c v2.
Proof.
  intros size rel x v1 v2 c H [E1 E2]. cbn [g_enter1 obb_geometry parent_relative o_R o_To]. split; cbn [x_R x_T].
  - rewrite E1. apply mat_ext. intros v. rewrite !mxv_mtxm, mtxv_mtxm, mxv_mtxv by assumption. reflexivity.
  - rewrite E2, mtxv_mtxm, mxv_vmv, !mxv_mtxv by assumption. f_equal. apply vec_eq; unfold vmv; cbn; ring.
Qed.
Lemma placed_enter2 : forall size rel x v1 v2 c, orthonormal (o_R v2) -> placed rel x v1 v2 ->
  placed rel (g_enter2 (obb_geometry size rel) x (parent_relative v2 c)) v1 c.
Proof.
  intros size rel x v1 v2 c H [E1 E2]. cbn [g_enter2 obb_geometry parent_relative o_R o_To]. split; cbn [x_R x_T].
  - rewrite E1. apply mat_ext. intros v. rewrite ?mxv_mtxm, ?mxv_mxm, ?mxv_mtxm, ?mxv_mxm, mxv_mtxv by assumption. reflexivity.
  - rewrite E2, E1. unfold mxvpv. rewrite mxv_mtxm, mxv_mxm, mxv_mtxv by assumption.
    rewrite !mtxv_vmv, !mtxv_vpv, mxv_vmv, mtxv_vmv. apply vec_eq; unfold vmv, vpv; cbn [vx vy vz]; ring.
Qed.

(** Boxes that share a point are found to overlap. *)
Lemma placed_overlap : forall size rel x v1 v2 q1 q2 p q, orthonormal (o_R v1) -> orthonormal (o_R v2) -> orthonormal (x_R rel) -> placed rel x v1 v2 ->
  in_obb v1 p -> in_obb v2 q -> p = at_pose rel q ->
  g_overlap (obb_geometry size rel) x (parent_relative q1 v1) (parent_relative q2 v2) = true.
Proof.
  intros size rel x v1 v2 q1 q2 p q H1 H2 HR [E1 E2] (u & U0 & U1 & U2 & EU) (w & W0 & W1 & W2 & EW) E.
  cbn [g_overlap obb_geometry parent_relative o_d]. apply Nat.eqb_eq.
  apply (obb_overlap _ _ _ _ u w); auto.
  - rewrite E1. apply orthonormal_mtxm; [assumption|]. now apply orthonormal_mxm.
  - rewrite E1, E2. rewrite mxv_mtxm, mxv_mxm, <- mtxv_vpv.
    assert (K : u = mtxv (o_R v1) (vmv p (o_To v1))).
    { rewrite EU. replace (vmv (at_pose (XF (o_R v1) (o_To v1)) u) (o_To v1)) with (mxv (o_R v1) u); [now rewrite mtxv_mxv|]. apply vec_eq; unfold vmv, at_pose, mxv; cbn; ring. }
    rewrite K. f_equal. rewrite E, EW. unfold mxvpv.
    apply vec_eq; unfold vmv, vpv, at_pose, mxv; cbn; ring.
Qed.

Section Final.
Variables (negl : R -> R -> bool) (junk : mat * vec) (size : obb -> Q) (rel : xform).
Hypothesis Hrel : orthonormal (x_R rel).
Variables (tris1 tris2 : list (tri tri3)) (o1 o2 : model obb tri3).
Let bd := obb_builder negl junk.
Let g := obb_geometry size rel.
Hypothesis C1 : eigen_converges negl tris1.
Hypothesis C2 : eigen_converges negl tris2.
Hypothesis B1 : built bd tris1 o1.
Hypothesis B2 : built bd tris2 o2.
Variables r1 r2 : bvol obb.
Hypothesis R1 : nth_error (m_bvs o1) 0 = Some r1.
Hypothesis R2 : nth_error (m_bvs o2) 0 = Some r2.
Let x0 := start_pose rel (vol r1) (vol r2).

Lemma axes_orthonormal : forall tris ts, eigen_converges negl tris -> ts <> [] -> incl ts tris -> orthonormal (axes_of negl junk ts).
Proof.
  intros tris ts HC N I. unfold axes_of, eigen. specialize (HC ts N I). destruct (meigen negl (covariance ts)) as [[e s]|] eqn:E; [|contradiction].
  apply frame_orthonormal. now apply meigen_orthonormal in E.
Qed.

(** The volumes of a built model in the coordinates of the model. *)
Definition worlds (o : model obb tri3) (w : nat -> obb) : Prop := has_world bd o w.

Lemma world_orthonormal : forall tris o w b l, eigen_converges negl tris -> built bd tris o -> has_world bd o w -> tree o b l -> orthonormal (o_R (w b)).
Proof.
  intros tris o w b l HC (HP & _) (F & _) T. destruct (F b l T) as (ts & HT & us & -> & ->).
  cbn [fit bd obb_builder]. unfold fit_to_tris. destruct (extent_of _), (extent_of _), (extent_of _). cbn [o_R].
  apply (axes_orthonormal tris); [assumption| |].
  - intros ->. cbn in HT. apply Permutation_nil in HT. apply map_eq_nil in HT. subst l. apply tree_nonempty in T. cbn in T. lia.
  - intros t Ht. apply (Permutation_in _ HP). assert (K : In (Some t) (map Some us)) by now apply in_map.
    apply (Permutation_in _ HT) in K. apply in_map_iff in K as (i & K & _). eapply nth_error_In; eassumption.
Qed.

Lemma met_trees : forall x b1 b2, met g o1 o2 x0 x b1 b2 -> (exists l1, tree o1 b1 l1) /\ (exists l2, tree o2 b2 l2).
Proof.
  destruct B1 as (_ & _ & T1 & _), B2 as (_ & _ & T2 & _).
  assert (D : forall (o : model obb tri3) b l v k, tree o b l -> nth_error (m_bvs o) b = Some v -> (0 <= first_child v)%Z ->
     (k = Z.to_nat (first_child v) \/ k = Z.to_nat (first_child v) + 1)%nat -> exists l', tree o k l').
  { clear. intros o b l v k T E F K. inversion T as [b' v' i t Hv Hf Ht|b' v' c l1 l2 Hv Hf Ta Tc]; subst.
    - rewrite Hv in E. injection E as <-. lia.
    - rewrite Hv in E. injection E as <-. rewrite Hf, Nat2Z.id in K. destruct K as [->| ->]; eauto. }
  intros x b1 b2 HM. induction HM as [|x b1 b2 v k c HM IH Hv Hp Hk Hc|x b1 b2 v k c HM IH Hv Hp Hk Hc]; [split; eauto|..].
  - destruct IH as ((l1 & L1) & IH). split; [eapply D; eauto|assumption].
  - destruct IH as (IH & (l2 & L2)). split; [assumption|eapply D; eauto].
Qed.

Lemma met_placed_obb : forall w1 w2, has_world bd o1 w1 -> has_world bd o2 w2 -> forall x b1 b2, met g o1 o2 x0 x b1 b2 ->
  placed rel x (w1 b1) (w2 b2) /\ (exists v p, nth_error (m_bvs o1) b1 = Some v /\ vol v = parent_relative p (w1 b1)) /\
  (exists v p, nth_error (m_bvs o2) b2 = Some v /\ vol v = parent_relative p (w2 b2)).
Proof.
  intros w1 w2 W1 W2. assert (W1' := W1). assert (W2' := W2). destruct W1' as (F1 & (q1 & Q1 & E1) & K1), W2' as (F2 & (q2 & Q2 & E2) & K2). intros x b1 b2 HM.
  rewrite R1 in Q1. rewrite R2 in Q2. injection Q1 as <-. injection Q2 as <-.
  assert (MT := met_trees).
  induction HM as [|x b1 b2 v k c HM IH Hv Hp Hk Hc|x b1 b2 v k c HM IH Hv Hp Hk Hc].
  - split; [|split; [exists r1, (world bd)|exists r2, (world bd)]; auto].
    cbn [relative world bd obb_builder] in E1, E2. rewrite relative_world in E1, E2. unfold x0. rewrite E1, E2. apply placed_start.
  - destruct IH as (PL & U1 & U2). assert (Hb : (b1 < length (m_bvs o1))%nat) by (apply nth_error_Some; congruence).
    destruct (K1 b1 v k Hb Hv Hp Hk) as (c' & Ec & Er). rewrite Hc in Ec. injection Ec as <-.
    destruct (MT _ _ _ HM) as ((l1 & L1) & _).
    split; [|split; [exists c, (w1 b1); auto|assumption]]. rewrite Er. apply placed_enter1; [|assumption].
    exact (world_orthonormal tris1 o1 w1 b1 l1 C1 B1 W1 L1).
  - destruct IH as (PL & U1 & U2). assert (Hb : (b2 < length (m_bvs o2))%nat) by (apply nth_error_Some; congruence).
    destruct (K2 b2 v k Hb Hv Hp Hk) as (c' & Ec & Er). rewrite Hc in Ec. injection Ec as <-.
    destruct (MT _ _ _ HM) as (_ & (l2 & L2)).
    split; [|split; [assumption|exists c, (w2 b2); auto]]. rewrite Er. apply placed_enter2; [|assumption].
    exact (world_orthonormal tris2 o2 w2 b2 l2 C2 B2 W2 L2).
Qed.

(** The triangles with indices [i], [j] share a point. *)
Definition really (i j : nat) : Prop := exists t1 t2 p q, nth_error (m_tris o1) i = Some t1 /\ nth_error (m_tris o2) j = Some t2 /\
  in_tri (corners t1) p /\ in_tri (corners t2) q /\ p = at_pose rel q.

Lemma really_touch : forall i j, really i j -> touch g o1 o2 i j.
Proof.
  intros i j (t1 & t2 & p & q & E1 & E2 & P & Q & E). exists t1, t2. split; [assumption|]. split; [assumption|]. cbn [g g_contact obb_geometry].
  apply (tri_contact_meet _ _ p); [assumption|]. rewrite E. now apply in_tri_move.
Qed.

Lemma really_overlap : forall x b1 b2 v1 v2 l1 l2 i j, met g o1 o2 x0 x b1 b2 ->
    nth_error (m_bvs o1) b1 = Some v1 -> nth_error (m_bvs o2) b2 = Some v2 ->
    tree o1 b1 l1 -> tree o2 b2 l2 -> In i l1 -> In j l2 -> really i j -> g_overlap g x (vol v1) (vol v2) = true.
Proof.
  assert (BB1 := B1). assert (BB2 := B2). destruct BB1 as (_ & _ & _ & w1 & W1), BB2 as (_ & _ & _ & w2 & W2).
  intros x b1 b2 v1 v2 l1 l2 i j HM Hv1 Hv2 T1 T2 Hi Hj (t1 & t2 & p & q & E1 & E2 & P & Q & E).
  destruct (met_placed_obb w1 w2 W1 W2 x b1 b2 HM) as (PL & (u1 & q1 & U1 & K1) & (u2 & q2 & U2 & K2)).
  rewrite Hv1 in U1. rewrite Hv2 in U2. injection U1 as <-. injection U2 as <-.
  assert (O1 := world_orthonormal tris1 o1 w1 b1 l1 C1 B1 W1 T1). assert (O2 := world_orthonormal tris2 o2 w2 b2 l2 C2 B2 W2 T2).
  destruct (below_in bd o1 w1 b1 l1 i t1 W1 T1 Hi E1) as (us1 & F1 & I1), (below_in bd o2 w2 b2 l2 j t2 W2 T2 Hj E2) as (us2 & F2 & I2).
  rewrite K1, K2.
  assert (RF : forall r us, o_R (fit_to_tris r us) = r) by (intros r us; unfold fit_to_tris; destruct (extent_of _), (extent_of _), (extent_of _); reflexivity).
  apply (placed_overlap size rel x (w1 b1) (w2 b2) q1 q2 p q); auto.
  - rewrite F1. cbn [fit bd obb_builder]. apply (fit_contains _ us1 t1); auto. rewrite F1 in O1. cbn [fit bd obb_builder] in O1. now rewrite RF in O1.
  - rewrite F2. cbn [fit bd obb_builder]. apply (fit_contains _ us2 t2); auto. rewrite F2 in O2. cbn [fit bd obb_builder] in O2. now rewrite RF in O2.
Qed.

Lemma collide_free : forall fc fuel, (length tris1 + length tris2 < fuel)%nat -> exists r, pqp_collide g o1 o2 fuel fc x0 = Some r /\
  (r = [] -> forall t1 t2 p q, In t1 tris1 -> In t2 tris2 -> in_tri (corners t1) p -> in_tri (corners t2) q -> p <> at_pose rel q) /\
  (r <> [] -> exists t1 t2, In t1 tris1 /\ In t2 tris2 /\ tri_contact (corners t1) (move rel (corners t2)) = true).
Proof.
  intros fc fuel Hf. assert (BB1 := B1). assert (BB2 := B2). destruct BB1 as (P1 & _ & T1 & _), BB2 as (P2 & _ & T2 & _).
  destruct (collide_real g o1 o2 x0 really really_overlap really_touch fc fuel (x0, 0, 0)%nat (seq 0 (length tris1)) (seq 0 (length tris2)) []) as (r & E & N & M).
  - split; [constructor|]. auto.
  - rewrite !seq_length. exact Hf.
  - exists r. split; [exact E|]. split.
    2: { intros Hr. destruct (M Hr) as (i & j & _ & _ & t1 & t2 & U1 & U2 & U). exists t1, t2.
         split; [apply (Permutation_in _ P1); eapply nth_error_In; eassumption|]. split; [apply (Permutation_in _ P2); eapply nth_error_In; eassumption|]. exact U. }
    intros Hr t1 t2 p q I1 I2 IP IQ EQ.
    apply (Permutation_in _ (Permutation_sym P1)) in I1. apply (Permutation_in _ (Permutation_sym P2)) in I2.
    apply In_nth_error in I1 as (i & U1). apply In_nth_error in I2 as (j & U2).
    apply (N Hr i j).
    + apply in_seq. rewrite <- (Permutation_length P1). assert ((i < length (m_tris o1))%nat) by (apply nth_error_Some; congruence). lia.
    + apply in_seq. rewrite <- (Permutation_length P2). assert ((j < length (m_tris o2))%nat) by (apply nth_error_Some; congruence). lia.
    + exists t1, t2, p, q. auto.
Qed.
End Final.
