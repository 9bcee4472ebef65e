(** C30 and C58: roll-pitch-yaw and axis-angle. *)
From Coq Require Import Reals Lra Nsatz.
From Verif Require Import QuatModel QuatSpec QuatProofs RpyModel RpySpec RpyProofs.
Open Scope R_scope.

(** C30.  Every triple of angles gives a rotation: that about x by roll, then about y by pitch, then about z by yaw; the position is kept. *)
Theorem C30_rotation : forall x : posrpy,
  rotation (prot (posrpy2eigen4f x)) /\
  prot (posrpy2eigen4f x) = mmul (rot_z (yaw x)) (mmul (rot_y (pitch x)) (rot_x (roll x))) /\
  ppos (posrpy2eigen4f x) = Vec (ax x) (ay x) (az x).
Proof.
  intros x. split; [apply rpy2mat_rotation|]. split; [|reflexivity].
  unfold posrpy2eigen4f, rpy2mat, mmul, rot_x, rot_y, rot_z; cbn [prot m00 m01 m02 m10 m11 m12 m20 m21 m22]. f_equal; ring.
Qed.

(** From a rotation to angles and back: the position is kept, the angles lie in the usual ranges, every entry of the rotation is off by
    at most 2e-10, and by nothing if the pitch is exactly at gimbal lock or at least 1e-10 away from it. *)
Theorem C30_round_trip : forall p : pose, rotation (prot p) ->
  let x := eigen4f2rpy p in
  - PI <= roll x <= PI /\ - (PI / 2) <= pitch x <= PI / 2 /\ - PI <= yaw x <= PI /\
  ppos (posrpy2eigen4f x) = ppos p /\
  near (2 / 10 ^ 10) (prot (posrpy2eigen4f x)) (prot p) /\
  (Rabs (m20 (prot p)) = 1 \/ Rabs (pitch x) <= PI / 2 - 1 / 10 ^ 10 -> posrpy2eigen4f x = p).
Proof.
  intros [m [px py pz]] M. cbn [prot] in M. cbn zeta.
  assert (P := PI_RGT_0). assert (P4 := PI2_1). assert (BP := band_pos).
  destruct (beta_ok m M) as (C0 & CC & CM & CB & SB & RB).
  set (c := sqrt (m00 m * m00 m + m10 m * m10 m)) in *. set (b := atan2 (- m20 m) c) in *.
  assert (A1 := atan2_range (m01 m) (m11 m)).
  assert (POS : forall a g, ppos (posrpy2eigen4f (PosRpy px py pz g b a)) = Vec px py pz) by reflexivity.
  assert (TE : 2 / 10 ^ 10 = 2 * band) by (unfold band; field; apply pow_nonzero; lra).
  assert (Z1 : Rabs (m20 m) = 1 -> c = 0).
  { intros H. assert (m20 m * m20 m = 1) by (destruct (Rcase_abs (m20 m)) as [N|N]; [rewrite Rabs_left in H by exact N|rewrite Rabs_right in H by exact N]; nra).
    assert (c * c = 0) by lra. apply Rsqr_0_uniq. exact H1. }
  assert (SGN : forall s, cos b < band -> (s = 1 \/ s = -1) -> 0 <= s * - m20 m -> near (2 * c) (rpy2mat (s * atan2 (m01 m) (m11 m)) b 0) m).
  { intros s L S G. apply locked_near; auto. fold c. rewrite <- CB. lra. }
  unfold eigen4f2rpy; cbn [prot ppos vx vy vz]. fold c b.
  destruct (Rlt_dec (Rabs (b - PI * (1 / 2))) band) as [B1|B1]; [|destruct (Rlt_dec (Rabs (b + PI * (1 / 2))) band) as [B2|B2]]; cbn [roll pitch yaw].
  - assert (CL : cos b < band) by (apply (band_cos b band RB); auto).
    assert (S0 : 0 <= 1 * - m20 m). { rewrite Rmult_1_l, <- SB. apply sin_ge_0; apply Rabs_def2 in B1; lra. }
    assert (N := SGN 1 CL (or_introl eq_refl) S0). rewrite Rmult_1_l in N.
    split; [lra|]. split; [exact RB|]. split; [lra|]. split; [reflexivity|].
    split; [rewrite TE; apply (near_le (2 * c)); [rewrite <- CB; lra|exact N]|].
    intros [H|H].
    + rewrite (Z1 H), Rmult_0_r in N. apply near_zero in N. unfold posrpy2eigen4f; cbn [roll pitch yaw ax ay az]. rewrite N. reflexivity.
    + exfalso. fold band in H. apply Rabs_def2 in B1. assert (K := Rle_abs b). lra.
  - assert (CL : cos b < band) by (apply (band_cos b band RB); auto).
    assert (S0 : 0 <= -1 * - m20 m). { rewrite <- SB. assert (0 <= sin (- b)) by (apply sin_ge_0; apply Rabs_def2 in B2; lra). rewrite sin_neg in H. lra. }
    assert (N := SGN (-1) CL (or_intror eq_refl) S0). replace (-1 * atan2 (m01 m) (m11 m)) with (- atan2 (m01 m) (m11 m)) in N by ring.
    split; [lra|]. split; [exact RB|]. split; [lra|]. split; [reflexivity|].
    split; [rewrite TE; apply (near_le (2 * c)); [rewrite <- CB; lra|exact N]|].
    intros [H|H].
    + rewrite (Z1 H), Rmult_0_r in N. apply near_zero in N. unfold posrpy2eigen4f; cbn [roll pitch yaw ax ay az]. rewrite N. reflexivity.
    + exfalso. fold band in H. apply Rabs_def2 in B2. assert (K := Rle_abs (- b)). rewrite Rabs_Ropp in K. lra.
  - assert (CP : 0 < c).
    { destruct (Req_dec c 0) as [Z|Z]; [|lra]. exfalso. rewrite <- CB in Z. destruct (cos_zero b RB Z) as [E|E]; rewrite E in *.
      - apply B1. replace (PI / 2 - PI * (1 / 2)) with 0 by field. rewrite Rabs_R0. lra.
      - apply B2. replace (- (PI / 2) + PI * (1 / 2)) with 0 by field. rewrite Rabs_R0. lra. }
    assert (E := generic_exact m c b M CP CC CM CB SB). rewrite CB.
    assert (A2 := atan2_range (m21 m * (1 / c)) (m22 m * (1 / c))). assert (A3 := atan2_range (m10 m * (1 / c)) (m00 m * (1 / c))).
    split; [lra|]. split; [exact RB|]. split; [lra|]. split; [reflexivity|].
    unfold posrpy2eigen4f; cbn [roll pitch yaw ax ay az prot]. rewrite E. split; [|reflexivity].
    apply near_refl. rewrite TE. lra.
Qed.

(** From angles to a rotation and back: the angles themselves, if they are in the usual ranges and the pitch is away from gimbal lock. *)
Theorem C30_angles : forall x : posrpy,
  - PI < roll x <= PI -> - PI < yaw x <= PI -> Rabs (pitch x) <= PI / 2 - 1 / 10 ^ 10 -> eigen4f2rpy (posrpy2eigen4f x) = x.
Proof.
  intros [px py pz r p y]; cbn [roll pitch yaw]. intros HR HY HP. fold band in HP. assert (BP := band_pos). assert (P := PI_RGT_0).
  assert (PB : - (PI / 2) + band <= p <= PI / 2 - band). { assert (K1 := Rle_abs p). assert (K2 := Rle_abs (- p)). rewrite Rabs_Ropp in K2. lra. }
  assert (CP : 0 < cos p) by (apply cos_gt_0; lra).
  unfold eigen4f2rpy, posrpy2eigen4f; cbn [prot ppos vx vy vz roll pitch yaw ax ay az].
  unfold rpy2mat; cbn [m00 m01 m02 m10 m11 m12 m20 m21 m22].
  assert (SY := sin2_cos2 y). unfold Rsqr in SY.
  replace (cos y * cos p * (cos y * cos p) + sin y * cos p * (sin y * cos p)) with (cos p * cos p) by nsatz.
  rewrite sqrt_square by lra. rewrite Ropp_involutive.
  assert (B : atan2 (sin p) (cos p) = p) by (rewrite <- (Rmult_1_l (sin p)), <- (Rmult_1_l (cos p)); apply atan2_scaled; lra). rewrite B.
  destruct (Rlt_dec (Rabs (p - PI * (1 / 2))) band) as [B1|B1]; [exfalso; apply Rabs_def2 in B1; lra|].
  destruct (Rlt_dec (Rabs (p + PI * (1 / 2))) band) as [B2|B2]; [exfalso; apply Rabs_def2 in B2; lra|].
  f_equal.
  - replace (cos p * sin r * (1 / cos p)) with (1 * sin r) by (field; lra). replace (cos p * cos r * (1 / cos p)) with (1 * cos r) by (field; lra). apply atan2_scaled; lra.
  - replace (sin y * cos p * (1 / cos p)) with (1 * sin y) by (field; lra). replace (cos y * cos p * (1 / cos p)) with (1 * cos y) by (field; lra). apply atan2_scaled; lra.
Qed.

(** Within the band around gimbal lock the round trip is not exact. *)
Theorem C30_band_refuted : exists p : pose, rotation (prot p) /\ posrpy2eigen4f (eigen4f2rpy p) <> p.
Proof.
  assert (BP := band_pos). assert (P := PI_RGT_0). assert (P4 := PI2_1).
  set (b := PI / 2 - band / 2). assert (CB : 0 < cos b) by (apply cos_gt_0; unfold b; lra).
  exists (Pose (rpy2mat 0 b PI) (Vec 0 0 0)). split; [apply rpy2mat_rotation|].
  intros E. apply (f_equal (fun q => m00 (prot q))) in E. revert E.
  unfold eigen4f2rpy, posrpy2eigen4f; cbn [prot ppos vx vy vz].
  replace (sqrt (m00 (rpy2mat 0 b PI) * m00 (rpy2mat 0 b PI) + m10 (rpy2mat 0 b PI) * m10 (rpy2mat 0 b PI))) with (cos b).
  2: { unfold rpy2mat; cbn [m00 m10]. rewrite cos_PI, sin_PI. replace (-1 * cos b * (-1 * cos b) + 0 * cos b * (0 * cos b)) with (cos b * cos b) by ring. rewrite sqrt_square; lra. }
  replace (- m20 (rpy2mat 0 b PI)) with (sin b) by (unfold rpy2mat; cbn [m20]; ring).
  assert (B : atan2 (sin b) (cos b) = b) by (rewrite <- (Rmult_1_l (sin b)), <- (Rmult_1_l (cos b)); apply atan2_scaled; unfold b; lra). rewrite B.
  destruct (Rlt_dec (Rabs (b - PI * (1 / 2))) band) as [B1|B1].
  - cbn [roll pitch yaw]. unfold rpy2mat; cbn [m00]. rewrite cos_0, cos_PI. lra.
  - exfalso. apply B1. unfold b. rewrite Rabs_left; lra.
Qed.

(** C58.  Axis and angle: for a unit axis the matrix is the rotation of the quaternion (axis * sin (angle / 2), cos (angle / 2)), fixes the
    axis, and angles about one axis add up. *)
Theorem C58_axis_angle : forall (a : vec3) (t : R), vdot a a = 1 ->
  rotation (axisangle2mat a t) /\ mapply (axisangle2mat a t) a = a /\
  axisangle2mat a t = to_mat (Quat (vx a * sin (t / 2)) (vy a * sin (t / 2)) (vz a * sin (t / 2)) (cos (t / 2))) /\
  axisangle2mat a 0 = mid /\ forall t', axisangle2mat a (t + t') = mmul (axisangle2mat a t) (axisangle2mat a t').
Proof.
  intros a t U.
  assert (Q : axisangle2mat a t = to_mat (Quat (vx a * sin (t / 2)) (vy a * sin (t / 2)) (vz a * sin (t / 2)) (cos (t / 2)))).
  { unfold axisangle2mat. replace (cos t) with (cos (2 * (t / 2))) by (f_equal; field). replace (sin t) with (sin (2 * (t / 2))) by (f_equal; field).
    rewrite cos_2a, sin_2a. assert (SC := sin2_cos2 (t / 2)). unfold Rsqr in SC. destruct a as [x y z]; unfold vdot in U; cbn [vx vy vz] in *.
    set (s := sin (t / 2)) in *. set (c := cos (t / 2)) in *. clearbody s c. unfold to_mat; cbn [qx qy qz qw]. f_equal; nsatz. }
  split.
  { rewrite Q. apply to_mat_rotation. unfold unit, norm2; cbn [qx qy qz qw]. assert (SC := sin2_cos2 (t / 2)). unfold Rsqr in SC. clear Q. destruct a as [x y z]; unfold vdot in U; cbn [vx vy vz] in *.
    set (s := sin (t / 2)) in *. set (c := cos (t / 2)) in *. clearbody s c. nsatz. }
  split.
  { assert (SC := sin2_cos2 t). unfold Rsqr in SC. destruct a as [x y z]; unfold vdot, mapply, axisangle2mat in *; cbn [vx vy vz m00 m01 m02 m10 m11 m12 m20 m21 m22] in *.
    set (s := sin t) in *. set (c := cos t) in *. clearbody s c. clear Q. f_equal; nsatz. }
  split; [exact Q|]. split.
  { unfold axisangle2mat, mid. rewrite cos_0, sin_0. f_equal; ring. }
  intros t'. unfold axisangle2mat. rewrite cos_plus, sin_plus. assert (SC := sin2_cos2 t). assert (SC' := sin2_cos2 t'). unfold Rsqr in *.
  clear Q. destruct a as [x y z]; unfold vdot, mmul in *; cbn [vx vy vz m00 m01 m02 m10 m11 m12 m20 m21 m22] in *.
  set (s := sin t) in *. set (c := cos t) in *. set (s' := sin t') in *. set (c' := cos t') in *. clearbody s c s' c'. f_equal; nsatz.
Qed.
(** With an axis of another length the result need not be a rotation: the function does not normalise it. *)
Theorem C58_length_refuted : ~ rotation (axisangle2mat (Vec 0 0 2) PI).
Proof.
  intros (_ & _ & D). revert D. unfold mdet, axisangle2mat; cbn [vx vy vz m00 m01 m02 m10 m11 m12 m20 m21 m22]. rewrite cos_PI, sin_PI. lra.
Qed.

(** Concrete cases: a rotation away from gimbal lock, one exactly at it, angles, and an axis. *)
Example C30_case : rotation (Mat 0 (-1) 0 1 0 0 0 0 1) /\ rotation (Mat 0 (3/5) (4/5) 0 (4/5) (-3/5) (-1) 0 0) /\ Rabs (-1) = 1.
Proof.
  split; [|split].
  - unfold rotation, mmul, mtrans, mid, mdet; cbn [m00 m01 m02 m10 m11 m12 m20 m21 m22]. split; [f_equal; lra|]. split; [f_equal; lra|lra].
  - unfold rotation, mmul, mtrans, mid, mdet; cbn [m00 m01 m02 m10 m11 m12 m20 m21 m22]. split; [f_equal; lra|]. split; [f_equal; lra|lra].
  - rewrite Rabs_left; lra.
Qed.
Example C30_angles_case : let x := PosRpy 1 2 3 PI 1 (-2) in - PI < roll x <= PI /\ - PI < yaw x <= PI /\ Rabs (pitch x) <= PI / 2 - 1 / 10 ^ 10.
Proof.
  cbn [roll pitch yaw]. assert (P := PI2_3_2). unfold PI2 in P. assert (1 / 10 ^ 10 <= 1 / 10) by (unfold Rdiv; rewrite !Rmult_1_l; apply Rinv_le_contravar; [lra|rewrite <- (pow_1 10) at 1; apply Rle_pow; [lra|auto with arith]]).
  rewrite Rabs_right by lra. repeat split; lra.
Qed.
Example C58_case : vdot (Vec (1/3) (2/3) (-2/3)) (Vec (1/3) (2/3) (-2/3)) = 1.
Proof. unfold vdot; cbn [vx vy vz]. lra. Qed.
Print Assumptions C30_rotation.
Print Assumptions C30_round_trip.
Print Assumptions C30_angles.
Print Assumptions C58_axis_angle.
