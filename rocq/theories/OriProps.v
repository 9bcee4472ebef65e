(** C105, C106: poses and interpolated orientations. *)
From Coq Require Import Reals List Bool Arith Lra Lia Psatz.
From Verif Require Import QuatModel QuatSpec RpyModel KinModel KinProofs JacSpec JacProofs IkSpec IkProofs CrvSpec HelpModel OriSpec OriModel OriProofs.
Import ListNotations.
Open Scope R_scope.

(** C105: the inverted pose undoes the pose on every point, and inverting twice gives the pose back. *)
Theorem C105_invert : forall g p, rotation (prot g) -> moved (invert_pose g) (moved g p) = p /\ moved g (moved (invert_pose g) p) = p /\ invert_pose (invert_pose g) = g.
Proof.
  intros g p (A & B & _). assert (M : forall g p, moved g p = vadd (mapply (prot g) p) (ppos g)) by (intros; unfold moved, vadd, mapply; cbn [vx vy vz]; f_equal; ring).
  assert (N : forall m v, mapply m (vscale (-1) v) = vscale (-1) (mapply m v)) by (intros; mats; unfold vscale; cbn [vx vy vz]; f_equal; ring). assert (VA : forall a b, vadd (vadd a b) (vscale (-1) b) = a) by (intros [a1 a2 a3] [b1 b2 b3]; unfold vadd, vscale; cbn [vx vy vz]; f_equal; ring). assert (VB : forall a b, vadd (vadd a (vscale (-1) b)) b = a) by (intros [a1 a2 a3] [b1 b2 b3]; unfold vadd, vscale; cbn [vx vy vz]; f_equal; ring).
  unfold invert_pose. cbv zeta. cbn [prot ppos]. rewrite !M. cbn [prot ppos]. split; [|split].
  - rewrite mapply_vadd, <- mapply_mmul, B, mapply_mid. apply VA.
  - rewrite mapply_vadd, N, <- !mapply_mmul, A, !mapply_mid. apply VB.
  - rewrite trans_trans, N, <- mapply_mmul, A, mapply_mid. destruct g as [m [x y z]]. unfold vscale. cbn [prot ppos vx vy vz]. do 2 f_equal; ring.
Qed.
(** Transformations compose; directions do not depend on the translation, and the difference of two positions is transformed as a direction. *)
Theorem C105_transform : forall g h p q o, transform_position (pmul g h) p = transform_position g (transform_position h p) /\ transform_direction (pmul g h) p = transform_direction g (transform_direction h p) /\
  transform_orientation (pmul g h) o = transform_orientation g (transform_orientation h o) /\ vsub (transform_position g p) (transform_position g q) = transform_direction g (vsub p q) /\
  transform_position (translate_pose g q) p = vadd (transform_position g p) q /\ transform_position g p = moved g p.
Proof.
  intros g h p q o. unfold transform_position, transform_direction, transform_orientation, pmul, translate_pose. cbn [prot ppos]. split; [rewrite mapply_vadd, mapply_mmul; unfold vadd; cbn [vx vy vz]; f_equal; ring|]. split; [apply mapply_mmul|]. split; [apply mmul_assoc|]. split; [unfold vsub, vadd; mats; f_equal; ring|]. split; [unfold vadd; cbn [vx vy vz]; f_equal; ring|]. unfold moved, vadd; mats; f_equal; ring.
Qed.
(** Points from polar coordinates: on the cylinder of the radius around the z axis, on the sphere of the radius. *)
Theorem C105_polar : forall r a b, vx (from_cylinder r a b) ^ 2 + vy (from_cylinder r a b) ^ 2 = r ^ 2 /\ vz (from_cylinder r a b) = b /\ vdot (from_sphere r a b) (from_sphere r a b) = r ^ 2 /\ (forall c, from_cylinder r (a + 2 * PI) c = from_cylinder r a c).
Proof.
  intros r a b. assert (A := sin2_cos2 a). assert (B := sin2_cos2 b). unfold Rsqr in *. unfold from_cylinder, from_sphere, vdot. cbv zeta. cbn [vx vy vz]. split; [nra|]. split; [reflexivity|]. split.
  - replace (_ + _ + _) with (r ^ 2 * (sin a * sin a * (sin b * sin b + cos b * cos b) + cos a * cos a)) by ring. rewrite B. replace (sin a * sin a * 1 + cos a * cos a) with 1 by lra. ring.
  - intros c. rewrite cos_plus, sin_plus, cos_2PI, sin_2PI. f_equal; ring.
Qed.
(** Orthogonalisation by SVD gives a rotation for every matrix. *)
Theorem C105_svd_rotation : forall m u s v, svd_of m u s v -> rotation (orthogonalize_svd u v).
Proof.
  intros m u s v (U & V & _). assert (O := orth_mul u (mtrans v) U (orth_trans v V)). unfold orthogonalize_svd. cbv zeta. destruct (orth_det _ O) as [E|E]; destruct (Rle_dec 0 (mdet (mmul u (mtrans v)))); try lra.
  - destruct O as (A & B). split; [exact A|]. split; [exact B|exact E].
  - destruct (neg_orth _ O) as ((A & B) & D). split; [exact A|]. split; [exact B|]. lra.
Qed.
(** If the determinant of the matrix is positive it is the orthogonal matrix that is closest to it. *)
Theorem C105_svd_closest : forall m u s v q, svd_of m u s v -> 0 < mdet m -> orthogonal q -> apart m (orthogonalize_svd u v) <= apart m q.
Proof.
  intros m u s v q (U & V & S0 & S1 & S2 & E) D Q. set (d := Mat (vx s) 0 0 0 (vy s) 0 0 0 (vz s)) in *. assert (O := orth_mul u (mtrans v) U (orth_trans v V)).
  assert (DET : 0 < mdet (mmul u (mtrans v))). { rewrite E in D. rewrite !det_mul in D. rewrite det_mul. assert (0 <= mdet d) by (unfold d, mdet; cbn [m00 m01 m02 m10 m11 m12 m20 m21 m22]; replace (_ + _) with (vx s * vy s * vz s) by ring; repeat apply Rmult_le_pos; assumption). destruct (orth_det _ U) as [X|X]; destruct (orth_det _ (orth_trans _ V)) as [Y|Y]; rewrite X, Y in D |- *; lra. }
  unfold orthogonalize_svd. cbv zeta. destruct (Rle_dec 0 (mdet (mmul u (mtrans v)))); [|lra]. rewrite !apart_trace by assumption.
  assert (T : forall w, orthogonal w -> trace (mmul (mtrans w) m) = trace (mmul d (mmul (mtrans v) (mmul (mtrans w) u)))).
  { intros w _. rewrite E. rewrite <- !mmul_assoc. rewrite trace_cycle. rewrite <- !mmul_assoc. rewrite (trace_cycle _ d), <- !mmul_assoc. reflexivity. }
  rewrite !T by assumption. assert (W : mmul (mtrans v) (mmul (mtrans (mmul u (mtrans v))) u) = mid). { rewrite trans_mul, trans_trans, mmul_assoc. destruct U as (_ & U2), V as (_ & V2). rewrite U2, mmul_mid_r. exact V2. }
  rewrite W, mmul_mid_r. set (w := mmul (mtrans v) (mmul (mtrans q) u)). assert (OW : orthogonal w) by (unfold w; apply orth_mul; [apply orth_trans, V|apply orth_mul; [apply orth_trans, Q|exact U]]). destruct (orth_diag w OW) as (W0 & W1 & W2). clearbody w.
  assert (TD : trace (mmul d w) = vx s * m00 w + vy s * m11 w + vz s * m22 w) by (unfold d, trace, mmul; cbn [m00 m01 m02 m10 m11 m12 m20 m21 m22]; ring). rewrite TD. unfold d, trace. cbn [m00 m11 m22]. nra.
Qed.
(** ... but for a matrix of negative determinant it is not the closest rotation. *)
Theorem C105_closest_refuted : ~ (forall m u s v q, svd_of m u s v -> mdet m <> 0 -> rotation q -> apart m (orthogonalize_svd u v) <= apart m q).
Proof.
  intros H. set (m := Mat 1 0 0 0 1 0 0 0 (-1)). assert (OM : orthogonal m) by (split; unfold m; mats; unfold mid; f_equal; ring). assert (OI : orthogonal mid) by (split; mats; unfold mid; cbn; f_equal; ring).
  specialize (H m m (Vec 1 1 1) mid mid). unfold orthogonalize_svd in H. cbv zeta in H. replace (mmul m (mtrans mid)) with m in H by (unfold m, mid; mats; f_equal; ring). replace (mdet m) with (-1) in H by (unfold m; mats; ring). destruct (Rle_dec 0 (-1)); [lra|].
  assert (X : apart m (mneg m) <= apart m mid). { apply H; [|lra|apply mid_rotation]. split; [exact OM|]. split; [exact OI|]. cbn [vx vy vz]. split; [lra|]. split; [lra|]. split; [lra|]. unfold m, mid; mats; f_equal; ring. }
  unfold apart, m, mneg, mid in X. cbn [m00 m01 m02 m10 m11 m12 m20 m21 m22] in X. lra.
Qed.
(** A rotation is left as it is, by both variants. *)
Theorem C105_rotation_kept : forall m u s v q r, rotation m -> svd_of m u s v -> qr_of m q r -> orthogonalize_svd u v = m /\ orthogonalize_qr q r = m.
Proof.
  intros m u s v q r R (U & V & S0 & S1 & S2 & E) ((Q1 & Q2) & R10 & R20 & R21 & EQ). split.
  - destruct U as (U1 & U2), V as (V1 & V2). set (d := Mat (vx s) 0 0 0 (vy s) 0 0 0 (vz s)) in *. destruct R as (R1 & R2 & R3).
    assert (D1 : d = mmul (mtrans u) (mmul m v)). { rewrite E, !mmul_assoc, V2, mmul_mid_r, <- mmul_assoc, U2, mmul_mid_l. reflexivity. }
    assert (DD : mmul d (mtrans d) = mid). { rewrite D1, !trans_mul, trans_trans, !mmul_assoc, <- (mmul_assoc v), V1, mmul_mid_l, <- (mmul_assoc m), R1, mmul_mid_l. exact U2. }
    assert (DI : d = mid). { revert DD. unfold d, mmul, mtrans, mid. cbn [m00 m01 m02 m10 m11 m12 m20 m21 m22]. intros [= X _ _ _ Y _ _ _ Z]. assert (vx s = 1) by nra. assert (vy s = 1) by nra. assert (vz s = 1) by nra. rewrite H, H0, H1. reflexivity. }
    rewrite DI, mmul_mid_r in E. unfold orthogonalize_svd. cbv zeta. rewrite <- E, R3. destruct (Rle_dec 0 1); [reflexivity|lra].
  - destruct R as (R1 & _ & _). assert (RE : r = mmul (mtrans q) m) by (rewrite EQ, <- mmul_assoc, Q2, mmul_mid_l; reflexivity). assert (RR : mmul r (mtrans r) = mid) by (rewrite RE, trans_mul, trans_trans, mmul_assoc, <- (mmul_assoc m), R1, mmul_mid_l; exact Q2).
    destruct r as [a b c d e f g h i]. cbn [m10 m20 m21] in *. subst d g h. revert RR. unfold mmul, mtrans, mid. cbn [m00 m01 m02 m10 m11 m12 m20 m21 m22]. intros [= A B C _ D F _ _ G].
    assert (II : i * i = 1) by lra. assert (F0 : f = 0) by (assert (f * i = 0) by lra; nra). assert (C0 : c = 0) by (assert (c * i = 0) by lra; nra). subst f c. assert (EE : e * e = 1) by lra. assert (B0 : b = 0) by (assert (b * e = 0) by lra; nra). subst b. assert (AA : a * a = 1) by lra.
    assert (FL : forall x, x * x = 1 -> flip x = x) by (intros x X; assert (Z : (x - 1) * (x + 1) = 0) by lra; apply Rmult_integral in Z; unfold flip; destruct (Rlt_dec x 0); lra).
    rewrite EQ. unfold orthogonalize_qr. cbv zeta. cbn [m00 m11 m22]. rewrite (FL a AA), (FL e EE), (FL i II). mats. f_equal; ring.
Qed.
(** Orthogonalisation by QR gives an orthogonal matrix, which need not be a rotation. *)
Theorem C105_qr_orthogonal : forall m q r, qr_of m q r -> orthogonal (orthogonalize_qr q r).
Proof.
  intros m q r ((Q1 & Q2) & _). unfold orthogonalize_qr. cbv zeta. assert (FL : forall x, flip x * flip x = 1) by (intros x; unfold flip; destruct Rlt_dec; ring). set (a := flip (m00 r)). set (b := flip (m11 r)). set (c := flip (m22 r)). assert (A : a * a = 1) by apply FL. assert (B : b * b = 1) by apply FL. assert (C : c * c = 1) by apply FL. clearbody a b c.
  set (d := Mat a 0 0 0 b 0 0 0 c). assert (E : Mat (m00 q * a) (m01 q * b) (m02 q * c) (m10 q * a) (m11 q * b) (m12 q * c) (m20 q * a) (m21 q * b) (m22 q * c) = mmul q d) by (unfold d; mats; f_equal; ring). rewrite E. apply orth_mul; [split; assumption|]. split; unfold d; mats; unfold mid; f_equal; lra.
Qed.
Theorem C105_qr_rotation_refuted : ~ (forall m q r, qr_of m q r -> mdet m <> 0 -> rotation (orthogonalize_qr q r)).
Proof.
  intros H. set (m := Mat 1 0 0 0 1 0 0 0 (-1)). specialize (H m mid m). destruct H as (_ & _ & D).
  - split; [split; mats; unfold mid; cbn; f_equal; ring|]. split; [reflexivity|]. split; [reflexivity|]. split; [reflexivity|]. unfold m, mid; mats; f_equal; ring.
  - unfold m; mats; lra.
  - revert D. unfold orthogonalize_qr, m, mid. cbv zeta. unfold flip. cbn [m00 m01 m02 m10 m11 m12 m20 m21 m22]. destruct (Rlt_dec 1 0); [lra|]. destruct (Rlt_dec (-1) 0); [|lra]. mats. lra.
Qed.
(** The distance of poses: not negative, symmetric, and zero exactly for equal poses. *)
Theorem C105_distance : forall angle a b k, is_least_angle angle -> rotation (prot a) -> rotation (prot b) -> 0 < k ->
  0 <= pose_distance angle a b k /\ pose_distance angle a b k = pose_distance angle b a k /\ (pose_distance angle a b k = 0 <-> a = b) /\
  forall t axis, vdot axis axis = 1 -> 0 <= t <= PI -> prot b = mmul (axisangle2mat axis t) (prot a) -> pose_distance angle a b k = distance (ppos a) (ppos b) + t * k.
Proof.
  intros angle a b k (AN & LE) RA RB K. assert (RAB : rotation (mmul (prot b) (mtrans (prot a)))) by (apply mmul_rotation; [exact RB|apply mtrans_rotation, RA]). assert (RBA : rotation (mmul (prot a) (mtrans (prot b)))) by (apply mmul_rotation; [exact RA|apply mtrans_rotation, RB]).
  unfold pose_distance. cbv zeta. destruct (AN _ RAB) as (P1 & x1 & U1 & E1). destruct (AN _ RBA) as (P2 & x2 & U2 & E2). assert (L1 := LE _ RAB). assert (L2 := LE _ RBA). set (t1 := angle (mmul (prot b) (mtrans (prot a)))) in *. set (t2 := angle (mmul (prot a) (mtrans (prot b)))) in *. rewrite !mod_pi_id by lra. assert (NN := sqrt_pos (vdot (vsub (ppos a) (ppos b)) (vsub (ppos a) (ppos b)))). fold (vnorm (vsub (ppos a) (ppos b))) in NN.
  assert (CI : forall s t, 0 <= s <= PI -> 0 <= t <= PI -> cos s = cos t -> s = t) by (intros s t S1 T1 C; rewrite <- (acos_cos s), <- (acos_cos t), C by assumption; reflexivity).
  assert (T12 : t1 = t2). { apply CI; [lra|lra|]. assert (A1 := axis_trace x1 t1 U1). assert (A2 := axis_trace x2 t2 U2). rewrite <- E1 in A1. rewrite <- E2 in A2. assert (TT : trace (mmul (prot b) (mtrans (prot a))) = trace (mmul (prot a) (mtrans (prot b)))) by (mats; ring). lra. }
  split; [nra|]. split; [rewrite T12; f_equal; unfold vnorm; f_equal; unfold vdot, vsub; cbn [vx vy vz]; ring|]. split.
  - split.
    + intros Z. assert (N0 : vnorm (vsub (ppos a) (ppos b)) = 0) by nra. assert (T0 : t1 = 0) by nra. rewrite T0, axis_zero in E1.
      assert (PB : prot b = prot a). { destruct RA as (_ & A2 & _). rewrite <- (mmul_mid_r (prot b)), <- A2, <- mmul_assoc, E1, mmul_mid_l. reflexivity. }
      assert (PP : ppos a = ppos b). { unfold vnorm in N0. apply sqrt_eq_0 in N0; [|unfold vdot; nra]. destruct a as [ra [ax ay az]], b as [rb [bx by_ bz]]. unfold vdot, vsub in N0. cbn [ppos vx vy vz] in *. pose proof (Rle_0_sqr (ax - bx)). pose proof (Rle_0_sqr (ay - by_)). pose proof (Rle_0_sqr (az - bz)). unfold Rsqr in *. assert (ax - bx = 0) by nra. assert (ay - by_ = 0) by nra. assert (az - bz = 0) by nra. f_equal; lra. }
      destruct a as [pa qa], b as [pb qb]. cbn [prot ppos] in PB, PP. congruence.
    + intros <-. assert (T0 : t1 = 0). { assert (A1 := axis_trace x1 t1 U1). rewrite <- E1 in A1. destruct RA as (A0 & _ & _). rewrite A0 in A1. unfold trace, mid in A1. cbn [m00 m11 m22] in A1. apply CI; [lra|assert (P := PI_RGT_0); lra|rewrite cos_0; lra]. }
      rewrite T0. assert (V : vsub (ppos a) (ppos a) = Vec 0 0 0) by (unfold vsub; f_equal; ring). rewrite V. unfold vnorm, vdot. cbn [vx vy vz]. replace (0 * 0 + 0 * 0 + 0 * 0) with 0 by ring. rewrite sqrt_0. ring.
  - intros t axis U T E. replace (vnorm (vsub (ppos a) (ppos b))) with (distance (ppos a) (ppos b)) by reflexivity. f_equal. f_equal. apply CI; [lra|lra|]. assert (A1 := axis_trace x1 t1 U1). rewrite <- E1, E in A1. destruct RA as (A0 & _ & _). rewrite mmul_assoc, A0, mmul_mid_r, axis_trace in A1 by exact U. lra.
Qed.
(** A rotation vector gives the rotation about it by its length; the rotation vector between two orientations takes one to the other. *)
Theorem C105_rotation_vector : forall w, let m := rotation_vector_to_orientation w in rotation m /\ mapply m w = w /\ trace m = 1 + 2 * cos (vnorm w).
Proof.
  intros w. cbv zeta. unfold rotation_vector_to_orientation. assert (P : 0 <= vdot w w) by (unfold vdot; nra). destruct (Req_EM_T (vdot w w) 0) as [Z|NZ].
  - split; [apply mid_rotation|]. split; [apply mapply_mid|]. unfold vnorm. rewrite Z, sqrt_0, cos_0. unfold trace, mid. cbn. ring.
  - unfold vnormalize. destruct (Rlt_dec 0 (vdot w w)); [|lra]. assert (SQ : 0 < vnorm w) by (apply sqrt_lt_R0; assumption). assert (SS : vnorm w * vnorm w = vdot w w) by (apply sqrt_sqrt; lra). set (n := vnorm w) in *. clearbody n.
    assert (U : vx (vscale (/ n) w) * vx (vscale (/ n) w) + vy (vscale (/ n) w) * vy (vscale (/ n) w) + vz (vscale (/ n) w) * vz (vscale (/ n) w) = 1). { unfold vscale. cbn [vx vy vz]. transitivity (vdot w w / (n * n)); [unfold vdot; field; lra|]. rewrite <- SS. field. lra. }
    destruct (axis_ok (vscale (/ n) w) n U) as (R & F). split; [exact R|]. split; [|apply axis_trace; exact U].
    assert (E : w = vscale n (vscale (/ n) w)) by (destruct w as [w1 w2 w3]; unfold vscale; cbn [vx vy vz]; f_equal; field; lra). assert (N : forall m k v, mapply m (vscale k v) = vscale k (mapply m v)) by (intros; mats; unfold vscale; cbn [vx vy vz]; f_equal; ring). transitivity (mapply (axisangle2mat (vscale (/ n) w) n) (vscale n (vscale (/ n) w))); [exact (f_equal (mapply (axisangle2mat (vscale (/ n) w) n)) E)|]. rewrite N, F. symmetry. exact E.
Qed.
Theorem C105_rotation_vector_inverse : forall start target angle axis, rotation start -> angle_axis_of (mmul target (mtrans start)) angle axis -> mmul (rotation_vector_to_orientation (rotation_vector angle axis)) start = target.
Proof.
  intros start target angle axis (_ & S2 & _) ((A0 & A1) & U & E). assert (G : rotation_vector_to_orientation (rotation_vector angle axis) = axisangle2mat axis angle).
  { unfold rotation_vector_to_orientation, rotation_vector. assert (V : vdot (vscale angle axis) (vscale angle axis) = angle * angle) by (unfold vdot, vscale; cbn [vx vy vz]; nra). destruct Req_EM_T as [Z|NZ].
    - assert (angle = 0) by nra. subst angle. symmetry. apply axis_zero.
    - assert (AP : 0 < angle) by (destruct (Req_dec angle 0); [subst angle; destruct NZ; rewrite V; ring|lra]). unfold vnormalize. destruct Rlt_dec as [_|X]; [|rewrite V in X; nra]. unfold vnorm. rewrite V. rewrite sqrt_square by lra. f_equal. destruct axis as [x1 x2 x3]; unfold vscale; cbn [vx vy vz]; f_equal; field; lra. }
  rewrite G, <- E, mmul_assoc, S2, mmul_mid_r. reflexivity.
Qed.
Example C105_case : apart (Mat 2 0 0 0 3 0 0 0 1) (orthogonalize_svd mid mid) <= apart (Mat 2 0 0 0 3 0 0 0 1) (Mat 1 0 0 0 (-1) 0 0 0 1).
Proof.
  apply (C105_svd_closest _ mid (Vec 2 3 1) mid).
  - split; [split; mats; unfold mid; cbn; f_equal; ring|]. split; [split; mats; unfold mid; cbn; f_equal; ring|]. cbn [vx vy vz]. split; [lra|]. split; [lra|]. split; [lra|]. unfold mid; mats; f_equal; ring.
  - mats. lra.
  - split; mats; unfold mid; f_equal; ring.
Qed.
Example C105_distance_nonvacuous : exists angle, is_least_angle angle /\ pose_distance angle pid (Pose (axisangle2mat (Vec 0 0 1) 1) (Vec 3 4 0)) 2 = 7.
Proof.
  exists angle_of. assert (L := angle_of_ok). split; [exact L|]. assert (U : vdot (Vec 0 0 1) (Vec 0 0 1) = 1) by (unfold vdot; cbn; ring).
  destruct (C105_distance angle_of pid (Pose (axisangle2mat (Vec 0 0 1) 1) (Vec 3 4 0)) 2 L mid_rotation (proj1 (axis_ok _ _ U)) ltac:(lra)) as (_ & _ & _ & D).
  assert (P := PI_4). assert (P3 : 1 <= PI) by (assert (X := PI2_1); lra). rewrite (D 1 (Vec 0 0 1) U ltac:(lra)); [|cbn [prot pid]; rewrite mmul_mid_r; reflexivity]. unfold distance. cbn [ppos pid vx vy vz]. replace (_ + _ + _) with (5 * 5) by ring. rewrite sqrt_square by lra. lra.
Qed.

(** C106: interpolated orientations.  The interpolation starts at the first orientation, and every orientation on the way is a rotation. *)
Lemma lio_angle angle axis start s e c : 0 <= angle <= PI -> o_angle (new_lio angle axis start s e c) = angle.
Proof. intros A. cbn [new_lio o_angle]. apply mod_pi_id, A. Qed.
Theorem C106_start : forall angle axis start target s e c t, rotation start -> angle_axis_of (mmul target (mtrans start)) angle axis -> s <> e ->
  lio_get (new_lio angle axis start s e c) s = start /\ rotation (lio_get (new_lio angle axis start s e c) t).
Proof.
  intros angle axis start target s e c t R (A & U & E) N. unfold lio_get. cbn [o_deriv o_start o_clamp o_axis o_angle o_s o_e new_lio]. cbv zeta. destruct Rlt_dec; (split; [try reflexivity|try exact R]).
  - replace (ilerp s e s) with 0 by (unfold ilerp; field; lra). replace (if c then clamp 0 1 0 else 0) with 0 by (destruct c; [unfold clamp; destruct (Rlt_dec 0 0); [lra|destruct (Rlt_dec 1 0); lra]|reflexivity]). rewrite Rmult_0_l, axis_zero. apply mmul_mid_l.
  - apply mmul_rotation; [apply axis_ok; exact U|exact R].
Qed.
Lemma fast_moves angle axis start s e c : 0 <= angle <= PI -> vx axis * vx axis + vy axis * vy axis + vz axis * vz axis = 1 -> s <> e ->
  (fast angle s e <-> 1 / 1000 <= vdot (o_deriv (new_lio angle axis start s e c)) (o_deriv (new_lio angle axis start s e c))).
Proof.
  intros A U N. cbn [new_lio o_deriv]. cbv zeta. rewrite mod_pi_id by exact A. rewrite Rabs_pos_eq by lra. unfold fast. assert (P : 0 < (e - s) * (e - s)) by (destruct (Rlt_dec s e); nra). destruct (Rlt_dec angle (1 / 100)) as [L|G].
  - split; [lra|]. unfold vdot, vscale. cbn [vx vy vz]. lra.
  - assert (V : vdot (vscale (/ (e - s)) (vscale angle axis)) (vscale (/ (e - s)) (vscale angle axis)) = angle * angle / ((e - s) * (e - s))). { unfold vdot, vscale. cbn [vx vy vz]. transitivity (angle * angle * (vx axis * vx axis + vy axis * vy axis + vz axis * vz axis) / ((e - s) * (e - s))); [field; lra|rewrite U; field; lra]. }
    rewrite V. split.
    + intros (_ & F). apply (Rmult_le_reg_r ((e - s) * (e - s))); [exact P|]. unfold Rdiv. rewrite (Rmult_assoc (angle * angle)), Rinv_l by lra. lra.
    + intros F. split; [lra|]. apply (Rmult_le_compat_r ((e - s) * (e - s))) in F; [|lra]. unfold Rdiv in F. rewrite (Rmult_assoc (angle * angle)), Rinv_l in F by lra. lra.
Qed.
(** A fast rotation ends at the second orientation, and if clamped it stays at the ends outside the interval. *)
Theorem C106_end : forall angle axis start target s e c t, rotation start -> angle_axis_of (mmul target (mtrans start)) angle axis -> s <> e -> fast angle s e ->
  lio_get (new_lio angle axis start s e c) e = target /\
  (s < e -> e <= t -> lio_get (new_lio angle axis start s e true) t = target) /\ (s < e -> t <= s -> lio_get (new_lio angle axis start s e true) t = start) /\
  (s < e -> t < s \/ e < t -> lio_derivative (new_lio angle axis start s e true) t = Vec 0 0 0).
Proof.
  intros angle axis start target s e c t (R1 & R2 & R3) (A & U & E) N F. assert (M := fun c => proj1 (fast_moves angle axis start s e c A U N) F).
  assert (EN : mmul (axisangle2mat axis angle) start = target) by (rewrite <- E, mmul_assoc, R2, mmul_mid_r; reflexivity).
  assert (G : forall (c : bool) t f, (if c then clamp 0 1 (ilerp s e t) else ilerp s e t) = f -> lio_get (new_lio angle axis start s e c) t = mmul (axisangle2mat axis (f * angle)) start).
  { intros c0 t0 f <-. unfold lio_get. specialize (M c0). destruct Rlt_dec; [lra|]. cbv zeta. rewrite lio_angle by exact A. reflexivity. }
  split; [|split; [|split]].
  - rewrite (G c e 1); [rewrite Rmult_1_l; exact EN|]. replace (ilerp s e e) with 1 by (unfold ilerp; field; lra). destruct c; [|reflexivity]. unfold clamp. destruct (Rlt_dec 1 0); [lra|]. destruct (Rlt_dec 1 1); lra.
  - intros L T. rewrite (G true t 1); [rewrite Rmult_1_l; exact EN|]. assert (I : 1 <= ilerp s e t) by (unfold ilerp; apply (Rmult_le_reg_r (e - s)); [lra|]; unfold Rdiv; rewrite Rmult_assoc, Rinv_l by lra; lra). unfold clamp. destruct (Rlt_dec (ilerp s e t) 0); [lra|]. destruct (Rlt_dec 1 (ilerp s e t)); lra.
  - intros L T. rewrite (G true t 0); [rewrite Rmult_0_l, axis_zero; apply mmul_mid_l|]. assert (I : ilerp s e t <= 0) by (unfold ilerp; apply (Rmult_le_reg_r (e - s)); [lra|]; unfold Rdiv; rewrite Rmult_assoc, Rinv_l by lra; lra). unfold clamp. destruct (Rlt_dec (ilerp s e t) 0); [reflexivity|]. destruct (Rlt_dec 1 (ilerp s e t)); lra.
  - intros L T. unfold lio_derivative. cbn [o_clamp o_s o_e new_lio andb]. destruct (Rlt_dec t s); [reflexivity|]. destruct (Rlt_dec e t); [reflexivity|lra].
Qed.
(** The reported derivative is the angular velocity of a fast rotation: everywhere without clamping, and between the ends with it. *)
Theorem C106_velocity : forall angle axis start target s e c t, rotation start -> angle_axis_of (mmul target (mtrans start)) angle axis -> s < e -> fast angle s e -> (c = true -> s < t < e) ->
  mat_deriv (lio_get (new_lio angle axis start s e c)) t (mmul (cross_mat (lio_derivative (new_lio angle axis start s e c) t)) (lio_get (new_lio angle axis start s e c) t)).
Proof.
  intros angle axis start target s e c t R (A & U & E) N F IN. assert (NE : s <> e) by lra. assert (M := proj1 (fast_moves angle axis start s e c A U NE) F).
  set (g := fun x => ilerp s e x * angle). assert (FREE : mat_deriv (fun x => mmul (axisangle2mat axis (g x)) start) t (mmul (cross_mat (vscale (/ (e - s)) (vscale angle axis))) (mmul (axisangle2mat axis (g t)) start))).
  { assert (DG : derivable_pt_lim g t (angle / (e - s))). { unfold g, ilerp. refine (lim_ext _ _ _ _ _ _ _ (lim_affine (- s) (angle / (e - s)) t)); [intros x; field; lra|reflexivity]. }
    assert (AD := axis_deriv axis 0 (g t) U). assert (D := mat_deriv_mul_r start _ _ _ (mat_deriv_comp _ g t _ _ AD DG)). refine (mat_deriv_ext _ _ _ _ _ _ _ D); [intros x; rewrite Rplus_0_r; reflexivity|]. rewrite Rplus_0_r. set (B := axisangle2mat axis (g t)). unfold vscale, cross_mat. mats. f_equal; field; lra. }
  assert (AB : vscale (/ (e - s)) (vscale angle axis) = o_deriv (new_lio angle axis start s e c)) by (cbn [new_lio o_deriv]; cbv zeta; rewrite mod_pi_id by exact A; rewrite Rabs_pos_eq by lra; destruct Rlt_dec; [destruct F; lra|reflexivity]).
  assert (GET : forall x, (c = true -> s <= x <= e) -> lio_get (new_lio angle axis start s e c) x = mmul (axisangle2mat axis (g x)) start).
  { intros x X. unfold lio_get. destruct Rlt_dec; [lra|]. cbv zeta. rewrite lio_angle by exact A. cbn [o_clamp o_axis o_start o_s o_e new_lio]. do 2 f_equal. unfold g. f_equal. destruct c; [|reflexivity]. specialize (X eq_refl).
    assert (I0 : 0 <= ilerp s e x) by (unfold ilerp; apply (Rmult_le_reg_r (e - s)); [lra|]; unfold Rdiv; rewrite Rmult_assoc, Rinv_l by lra; lra). assert (I1 : ilerp s e x <= 1) by (unfold ilerp; apply (Rmult_le_reg_r (e - s)); [lra|]; unfold Rdiv; rewrite Rmult_assoc, Rinv_l by lra; lra). unfold clamp. destruct (Rlt_dec (ilerp s e x) 0); [lra|]. destruct (Rlt_dec 1 (ilerp s e x)); lra. }
  assert (DV : lio_derivative (new_lio angle axis start s e c) t = vscale (/ (e - s)) (vscale angle axis)). { rewrite AB. unfold lio_derivative. cbn [o_clamp o_s o_e new_lio]. destruct c; cbn [andb]; [|reflexivity]. specialize (IN eq_refl). destruct (Rlt_dec t s); [lra|]. destruct (Rlt_dec e t); [lra|reflexivity]. }
  rewrite DV, (GET t) by (intros C; specialize (IN C); lra). destruct c.
  - specialize (IN eq_refl). apply (mat_deriv_local (fun x => mmul (axisangle2mat axis (g x)) start) _ t _ (Rmin (t - s) (e - t))); [apply Rmin_pos; lra| |exact FREE]. intros x X. symmetry. apply GET. intros _. assert (L1 := Rmin_l (t - s) (e - t)). assert (L2 := Rmin_r (t - s) (e - t)). apply Rabs_def2 in X. lra.
  - refine (mat_deriv_ext _ _ _ _ _ _ eq_refl FREE). intros x. symmetry. apply GET. discriminate.
Qed.
(** A slow or small rotation does not move at all. *)
Theorem C106_slow : forall angle axis start target s e c t, angle_axis_of (mmul target (mtrans start)) angle axis -> s <> e -> ~ fast angle s e -> lio_get (new_lio angle axis start s e c) t = start.
Proof.
  intros angle axis start target s e c t (A & U & E) N F. unfold lio_get. destruct Rlt_dec as [|G]; [reflexivity|]. destruct F. apply (fast_moves angle axis start s e c A U N). lra.
Qed.
(** So the end is not always reached, and the derivative is not zero where nothing moves: one radian over 60 seconds. *)
Theorem C106_end_refuted : ~ (forall angle axis start target s e c, rotation start -> angle_axis_of (mmul target (mtrans start)) angle axis -> s < e -> lio_get (new_lio angle axis start s e c) e = target).
Proof.
  intros H. set (q := axisangle2mat (Vec 0 0 1) 1). assert (P : 1 < PI) by (assert (X := PI2_1); lra). assert (AA : angle_axis_of (mmul q (mtrans mid)) 1 (Vec 0 0 1)) by (split; [lra|split; [cbn; ring|change (mtrans mid) with mid; apply mmul_mid_r]]).
  assert (E := H 1 (Vec 0 0 1) mid q 0 60 false mid_rotation AA ltac:(lra)). rewrite (C106_slow 1 (Vec 0 0 1) mid q 0 60 false 60 AA) in E by (unfold fast; lra). apply (f_equal m10) in E. unfold q, axisangle2mat, mid in E. cbn [m10 vx vy vz] in E. assert (S1 : 0 < sin 1) by (apply sin_gt_0; lra). lra.
Qed.
Theorem C106_derivative_refuted : ~ (forall angle axis start target s e t, rotation start -> angle_axis_of (mmul target (mtrans start)) angle axis -> s < e ->
  mat_deriv (lio_get (new_lio angle axis start s e false)) t (mmul (cross_mat (lio_derivative (new_lio angle axis start s e false) t)) (lio_get (new_lio angle axis start s e false) t))).
Proof.
  intros H. set (q := axisangle2mat (Vec 0 0 1) 1). assert (P : 1 < PI) by (assert (X := PI2_1); lra). assert (AA : angle_axis_of (mmul q (mtrans mid)) 1 (Vec 0 0 1)) by (split; [lra|split; [cbn; ring|change (mtrans mid) with mid; apply mmul_mid_r]]).
  assert (E := H 1 (Vec 0 0 1) mid q 0 60 0 mid_rotation AA ltac:(lra)). assert (G : forall x, lio_get (new_lio 1 (Vec 0 0 1) mid 0 60 false) x = mid) by (intros x; apply (C106_slow 1 (Vec 0 0 1) mid q); [exact AA|lra|unfold fast; lra]).
  assert (C := mat_deriv_const mid 0). assert (E' := mat_deriv_ext _ (fun _ => mid) 0 _ _ G eq_refl E). destruct C as (_ & _ & _ & C & _). destruct E' as (_ & _ & _ & E' & _). assert (X := uniqueness_limite _ _ _ _ C E'). rewrite G in X.
  unfold lio_derivative in X. cbn [new_lio o_clamp andb o_deriv] in X. cbv zeta in X. rewrite mod_pi_id in X by lra. rewrite Rabs_pos_eq in X by lra. destruct (Rlt_dec 1 (1 / 100)); [lra|]. unfold cross_mat, mmul, mid, vscale in X. cbn [m00 m01 m02 m10 m11 m12 m20 m21 m22 vx vy vz] in X. lra.
Qed.
(** Lerp of orientations: from the first for the factor 0 to the second for the factor 1, but only if the angle between them is at least 0.0317 (the root of 1/1000). *)
Theorem C106_lerp : forall angle axis a b f, rotation a -> angle_axis_of (mmul b (mtrans a)) angle axis ->
  lerp_orientation angle axis a 0 = a /\ (1 / 1000 <= angle * angle -> lerp_orientation angle axis a 1 = b /\ (1 <= f -> lerp_clamp_orientation angle axis a f = b) /\ (f <= 0 -> lerp_clamp_orientation angle axis a f = a)) /\
  (angle * angle < 1 / 1000 -> lerp_orientation angle axis a f = a).
Proof.
  intros angle axis a b f R AA. destruct (C106_start angle axis a b 0 1 false 0 R AA ltac:(lra)) as (S0 & _). split; [exact S0|]. assert (A : 0 <= angle) by (destruct AA as ((? & _) & _); lra). split.
  - intros F. assert (FA : fast angle 0 1) by (split; [nra|lra]). destruct (C106_end angle axis a b 0 1 false f R AA ltac:(lra) FA) as (E1 & E2 & E3 & _). split; [exact E1|]. split; intros L; [apply E2|apply E3]; lra.
  - intros F. apply (C106_slow angle axis a b 0 1 false f AA); [lra|]. intros (_ & X). lra.
Qed.
Example C106_case : lerp_orientation 1 (Vec 0 0 1) mid 1 = axisangle2mat (Vec 0 0 1) 1.
Proof.
  assert (P : 1 < PI) by (assert (X := PI2_1); lra). assert (AA : angle_axis_of (mmul (axisangle2mat (Vec 0 0 1) 1) (mtrans mid)) 1 (Vec 0 0 1)) by (split; [lra|split; [cbn; ring|change (mtrans mid) with mid; apply mmul_mid_r]]).
  destruct (C106_lerp 1 (Vec 0 0 1) mid (axisangle2mat (Vec 0 0 1) 1) 1 mid_rotation AA) as (_ & L & _). apply L. lra.
Qed.

Print Assumptions C105_invert. Print Assumptions C105_transform. Print Assumptions C105_polar. Print Assumptions C105_svd_rotation. Print Assumptions C105_svd_closest. Print Assumptions C105_closest_refuted. Print Assumptions C105_rotation_kept. Print Assumptions C105_qr_orthogonal. Print Assumptions C105_qr_rotation_refuted. Print Assumptions C105_distance. Print Assumptions C105_rotation_vector. Print Assumptions C105_rotation_vector_inverse.
Print Assumptions C106_start. Print Assumptions C106_end. Print Assumptions C106_velocity. Print Assumptions C106_slow. Print Assumptions C106_end_refuted. Print Assumptions C106_derivative_refuted. Print Assumptions C106_lerp.
