(** Proofs for C67-C70. *)
From Coq Require Import Reals Lra Lia List Bool Nsatz.
From Verif Require Import QuatModel QuatSpec QuatProofs RpyModel RpyProofs KinModel KinProofs BBoxModel BBoxSpec BBoxProofs PlaneModel PlaneSpec.
Import ListNotations.
Open Scope R_scope.

Ltac vs := repeat match goal with v : vec3 |- _ => destruct v as [? ? ?] end; unfold vdot, vcross, vscale, vadd, vsub, side, mapply, image, between in *; cbn [vx vy vz] in *.

(** ** Vectors *)
Lemma dot_pos v : 0 <= vdot v v.
Proof. vs. nra. Qed.
Lemma dist3_norm a b : dist3 a b = vnorm (vsub a b).
Proof. reflexivity. Qed.
Lemma vnorm_sq v : vnorm v * vnorm v = vdot v v.
Proof. apply sqrt_sqrt, dot_pos. Qed.
Lemma vnorm_pos v : 0 <= vnorm v.
Proof. apply sqrt_pos. Qed.
Lemma vnorm_le v e : 0 <= e -> (vnorm v <= e <-> vdot v v <= e * e).
Proof.
  intros E. split; intros H.
  - rewrite <- vnorm_sq. assert (P := vnorm_pos v). nra.
  - unfold vnorm. rewrite <- (sqrt_square e E). apply sqrt_le_1_alt, H.
Qed.
Lemma vnorm_le_iff v w : vnorm v <= vnorm w <-> vdot v v <= vdot w w.
Proof. rewrite vnorm_le by apply vnorm_pos. rewrite vnorm_sq. reflexivity. Qed.
Lemma vnorm_eq_iff v w : vnorm v = vnorm w <-> vdot v v = vdot w w.
Proof. split; intros H; [rewrite <- !vnorm_sq, H; reflexivity|unfold vnorm; rewrite H; reflexivity]. Qed.
Lemma vnorm_unit v : vdot v v = 1 -> vnorm v = 1.
Proof. intros U. unfold vnorm. rewrite U. apply sqrt_1. Qed.
Lemma vnorm_nz v : v <> Vec 0 0 0 -> 0 < vnorm v.
Proof. intros N. assert (P := vnorm_pos v). assert (vnorm v <> 0) by (intros E; apply N, vnorm_zero, E). lra. Qed.
Lemma vnormalize_of_unit v : vdot v v = 1 -> vnormalize v = v.
Proof. intros U. unfold vnormalize. rewrite U, vnorm_unit by exact U. destruct (Rlt_dec 0 1); [|lra]. vs. f_equal; field. Qed.
Lemma vec_ext a b : vx a = vx b -> vy a = vy b -> vz a = vz b -> a = b.
Proof. destruct a, b; cbn. intros -> -> ->. reflexivity. Qed.
Lemma dot_zero_vec v : vdot v v = 0 -> v = Vec 0 0 0.
Proof. destruct v as [x y z]. intros H. apply vdot_zero in H. destruct H as (-> & -> & ->). reflexivity. Qed.
Lemma dist3_zero a b : dist3 a b = 0 <-> a = b.
Proof.
  rewrite dist3_norm, vnorm_zero. split; intros H.
  - vs. injection H; intros. f_equal; lra.
  - subst. vs. f_equal; lra.
Qed.
Lemma dist3_sym a b : dist3 a b = dist3 b a.
Proof. unfold dist3. f_equal. ring. Qed.

(** ** Planes *)
Lemma side_scale q n k x : side q (vscale k n) x = k * side q n x.
Proof. vs. ring. Qed.
Lemma plane_dist_side x q n : plane_dist x (Plane q n) = side q n x.
Proof. unfold plane_dist; cbn [pl_p pl_n]. vs. ring. Qed.
(** The normal of a plane made from a nonzero normal. *)
Lemma mk_plane_normal q n : n <> Vec 0 0 0 -> exists k u, 0 < k /\ vdot u u = 1 /\ n = vscale k u /\ mk_plane q n = Plane q u.
Proof.
  intros N. destruct (vnormalize_unit n N) as (U & k & K & E). exists k, (vnormalize n). repeat split; auto.
Qed.
Lemma scale_zero_iff k x : 0 < k -> (k * x = 0 <-> x = 0).
Proof. intros K. split; [intros H; apply Rmult_integral in H; destruct H; lra|intros ->; ring]. Qed.
Lemma scale_le_iff k x : 0 < k -> (0 <= k * x <-> 0 <= x).
Proof. intros K. split; intros H; nra. Qed.
Lemma side_project q u x : vdot u u = 1 -> side q u (project x (Plane q u)) = 0.
Proof. intros U. unfold project. rewrite plane_dist_side. cbn [pl_n]. clear - U. vs. nsatz. Qed.
Lemma project_dist q u x : vdot u u = 1 -> dist3 x (project x (Plane q u)) = Rabs (side q u x).
Proof.
  intros U. rewrite dist3_norm. unfold vnorm. unfold project. rewrite plane_dist_side. cbn [pl_n].
  replace (vdot _ _) with (Rsqr (side q u x)); [apply sqrt_Rsqr_abs|]. unfold Rsqr. set (s := side q u x). clearbody s. clear - U. vs. nsatz.
Qed.
Lemma project_nearest q u x y : vdot u u = 1 -> side q u y = 0 ->
  vdot (vsub x y) (vsub x y) = side q u x * side q u x + vdot (vsub (project x (Plane q u)) y) (vsub (project x (Plane q u)) y).
Proof.
  intros U Y. unfold project. rewrite plane_dist_side. cbn [pl_n].
  assert (E : vdot u (vsub x y) = side q u x) by (clear - Y; vs; lra). set (s := side q u x) in *. clearbody s. clear Y. vs. nsatz.
Qed.
Lemma on_side_iff x q u : on_side x (Plane q u) = true <-> 0 <= side q u x.
Proof.
  unfold on_side; cbn [pl_p pl_n]. replace (vdot (vsub x q) u) with (side q u x) by (clear; vs; ring). destruct (Rle_dec 0 (side q u x)) as [L|L]; split; intros; try lra; auto; discriminate.
Qed.
Lemma project_fix q u x : side q u x = 0 -> project x (Plane q u) = x.
Proof. intros H. unfold project. rewrite plane_dist_side, H. vs. f_equal; ring. Qed.

(** ** The rotation between the normal and the z axis *)
Definition ez : vec3 := Vec 0 0 1.
Lemma ez_unit : vdot ez ez = 1.
Proof. unfold ez, vdot; cbn [vx vy vz]. ring. Qed.
Lemma units_rotation f t : vdot f f = 1 -> vdot t t = 1 -> rotation (to_mat (get_rotation f t)) /\ mapply (to_mat (get_rotation f t)) f = t.
Proof.
  intros F T. destruct (get_rotation_units f t F T (vnormalize_of_unit f F) (vnormalize_of_unit t T)) as [U E]. split; [apply to_mat_rotation, U|exact E].
Qed.
Lemma mapply_inverse m v : rotation m -> mapply (mtrans m) (mapply m v) = v /\ mapply m (mapply (mtrans m) v) = v.
Proof. intros (A & B & _). rewrite <- !mapply_mmul, A, B, mapply_mid. auto. Qed.
Lemma mapply_dot m v w : vdot (mapply m v) w = vdot v (mapply (mtrans m) w).
Proof. destruct m as [a0 a1 a2 a3 a4 a5 a6 a7 a8]. unfold mtrans. vs. cbn [m00 m01 m02 m10 m11 m12 m20 m21 m22]. ring. Qed.
Lemma mapply_iso m v w : rotation m -> vdot (mapply m v) (mapply m w) = vdot v w.
Proof. intros R. rewrite mapply_dot. destruct (mapply_inverse m w R) as [-> _]. reflexivity. Qed.
Lemma mapply_vsub m v w : mapply m (vsub v w) = vsub (mapply m v) (mapply m w).
Proof. destruct m as [a0 a1 a2 a3 a4 a5 a6 a7 a8]. vs. f_equal; ring. Qed.
(** The rotation of the normal to the z axis undoes that of the z axis to the normal. *)
Lemma to_mat_conj q : to_mat (QuatModel.conj q) = mtrans (to_mat q).
Proof. unfold to_mat, QuatModel.conj, mtrans; cbn [qx qy qz qw m00 m01 m02 m10 m11 m12 m20 m21 m22]. f_equal; ring. Qed.
Lemma rotation_back n : vdot n n = 1 -> to_mat (get_rotation n ez) = mtrans (to_mat (get_rotation ez n)).
Proof.
  intros N. unfold get_rotation. rewrite (vnormalize_of_unit n N), (vnormalize_of_unit ez ez_unit).
  replace (vdot ez n) with (vdot n ez) by (clear; unfold ez; vs; ring).
  replace (vcross ez n) with (vscale (-1) (vcross n ez)) by (clear; unfold ez; vs; f_equal; ring).
  set (c := vcross n ez). assert (NC : vnorm (vscale (-1) c) = vnorm c) by (apply vnorm_eq_iff; clear; generalize c; intros v; vs; ring). rewrite NC.
  destruct (Req_EM_T (vnorm c) 0) as [Z|Z].
  - apply vnorm_zero in Z.
    assert (E : n = ez \/ n = Vec 0 0 (-1)).
    { destruct n as [x y z]. unfold c, vcross, ez in Z; cbn [vx vy vz] in Z. injection Z; intros. assert (x = 0) by lra. assert (y = 0) by lra. subst x y. unfold vdot in N; cbn [vx vy vz] in N.
      assert (ZZ : (z - 1) * (z + 1) = 0) by lra. apply Rmult_integral in ZZ. destruct ZZ; [left|right]; unfold ez; f_equal; lra. }
    destruct E as [-> | ->].
    + destruct (Rlt_dec 0 (vdot ez ez)) as [_|F]; [|rewrite ez_unit in F; lra]. unfold to_mat, mtrans; cbn. f_equal; ring.
    + destruct (Rlt_dec 0 (vdot (Vec 0 0 (-1)) ez)) as [F|_]; [unfold vdot, ez in F; cbn [vx vy vz] in F; lra|].
      set (u := if Req_EM_T (vnorm (vcross ez (Vec 1 0 0))) 0 then vcross ez (Vec 0 1 0) else vcross ez (Vec 1 0 0)).
      set (u' := if Req_EM_T (vnorm (vcross (Vec 0 0 (-1)) (Vec 1 0 0))) 0 then vcross (Vec 0 0 (-1)) (Vec 0 1 0) else vcross (Vec 0 0 (-1)) (Vec 1 0 0)).
      assert (EU : u = Vec 0 1 0).
      { unfold u. destruct (Req_EM_T (vnorm (vcross ez (Vec 1 0 0))) 0) as [A|A].
        - apply vnorm_zero in A. unfold vcross, ez in A; cbn [vx vy vz] in A. injection A; intros; lra.
        - unfold vcross, ez; cbn [vx vy vz]. f_equal; ring. }
      assert (EU' : u' = Vec 0 (-1) 0).
      { unfold u'. destruct (Req_EM_T (vnorm (vcross (Vec 0 0 (-1)) (Vec 1 0 0))) 0) as [A|A].
        - apply vnorm_zero in A. unfold vcross in A; cbn [vx vy vz] in A. injection A; intros; lra.
        - unfold vcross; cbn [vx vy vz]. f_equal; ring. }
      cbv zeta. fold u u'. rewrite EU, EU'. rewrite !vnormalize_of_unit by (unfold vdot; cbn [vx vy vz]; ring).
      unfold to_mat, mtrans; cbn [qx qy qz qw vx vy vz m00 m01 m02 m10 m11 m12 m20 m21 m22]. f_equal; ring.
  - assert (P : 0 < vdot c c) by (assert (Q := dot_pos c); assert (vdot c c <> 0) by (intros F; apply Z, vnorm_zero, dot_zero_vec, F); lra).
    assert (EN : vnormalize (vscale (-1) c) = vscale (-1) (vnormalize c)).
    { unfold vnormalize. replace (vdot (vscale (-1) c) (vscale (-1) c)) with (vdot c c) by (clear; generalize c; intros v; vs; ring).
      destruct (Rlt_dec 0 (vdot c c)); [|contradiction]. rewrite NC. clear. generalize c; intros v; vs; f_equal; ring. }
    cbv zeta. rewrite EN. rewrite <- to_mat_conj. f_equal. unfold QuatModel.conj, vscale; cbn [qx qy qz qw vx vy vz]. f_equal; ring.
Qed.

(** ** Coordinates in a plane *)
Definition turn_up (u : vec3) : mat3 := to_mat (get_rotation ez u).
Lemma turn_up_rot u : vdot u u = 1 -> rotation (turn_up u).
Proof. intros U. apply units_rotation; [apply ez_unit|exact U]. Qed.
Lemma turn_up_ez u : vdot u u = 1 -> mapply (turn_up u) ez = u.
Proof. intros U. apply units_rotation; [apply ez_unit|exact U]. Qed.
Lemma mtrans_twice m : mtrans (mtrans m) = m.
Proof. destruct m. reflexivity. Qed.
Lemma vdot_sym a b : vdot a b = vdot b a.
Proof. vs. ring. Qed.
Lemma flat_dot u a b : vdot u u = 1 -> vdot u (mapply (turn_up u) (Vec a b 0)) = 0.
Proof.
  intros U. assert (R := turn_up_rot u U). assert (E := turn_up_ez u U). set (r := turn_up u) in *. clearbody r. rewrite <- E, (mapply_iso r _ _ R). unfold vdot, ez; cbn [vx vy vz]. ring.
Qed.
Lemma plane_point_eq q u a b : plane_point (a, b) (Plane q u) = vadd (mapply (turn_up u) (Vec a b 0)) q.
Proof. reflexivity. Qed.
Lemma plane_point_on q u a : vdot u u = 1 -> side q u (plane_point a (Plane q u)) = 0.
Proof.
  intros U. destruct a as [a b]. rewrite plane_point_eq. assert (F := flat_dot u a b U). set (w := mapply _ _) in *. clearbody w. clear - F. vs. lra.
Qed.
Lemma plane_point_iso q u a b : vdot u u = 1 -> dist3 (plane_point a (Plane q u)) (plane_point b (Plane q u)) = dist2 a b.
Proof.
  intros U. assert (R := turn_up_rot u U). destruct a as [a a'], b as [b b']. rewrite !plane_point_eq, dist3_norm.
  replace (vsub (vadd _ q) (vadd _ q)) with (mapply (turn_up u) (vsub (Vec a a' 0) (Vec b b' 0))) by (rewrite mapply_vsub; generalize (mapply (turn_up u) (Vec a a' 0)) (mapply (turn_up u) (Vec b b' 0)); clear; intros v w; vs; f_equal; ring).
  unfold vnorm. rewrite (mapply_iso _ _ _ R). unfold dist2, vsub, vdot; cbn [fst snd vx vy vz]. f_equal. ring.
Qed.
Lemma flat_back u w : vdot u u = 1 -> vdot u w = 0 -> mapply (mtrans (turn_up u)) w = Vec (vx (mapply (mtrans (turn_up u)) w)) (vy (mapply (mtrans (turn_up u)) w)) 0.
Proof.
  intros U W. assert (Z : vdot (mapply (mtrans (turn_up u)) w) ez = 0).
  { rewrite mapply_dot, mtrans_twice, (turn_up_ez u U), vdot_sym. exact W. }
  set (v := mapply (mtrans _) w) in *. clearbody v. destruct v as [x y z]. unfold vdot, ez in Z; cbn [vx vy vz] in *. f_equal. lra.
Qed.
Lemma plane_point_onto q u y : vdot u u = 1 -> side q u y = 0 -> exists a, plane_point a (Plane q u) = y.
Proof.
  intros U Y. assert (W : vdot u (vsub y q) = 0) by (clear - Y; vs; lra). exists (vx (mapply (mtrans (turn_up u)) (vsub y q)), vy (mapply (mtrans (turn_up u)) (vsub y q))).
  rewrite plane_point_eq, <- (flat_back _ _ U W). destruct (mapply_inverse (turn_up u) (vsub y q) (turn_up_rot u U)) as [_ ->]. clear. vs. f_equal; ring.
Qed.
Lemma plane_point_zero q u : plane_point (0, 0) (Plane q u) = q.
Proof. rewrite plane_point_eq. destruct (turn_up u) as [a0 a1 a2 a3 a4 a5 a6 a7 a8]. clear. vs. cbn [m00 m01 m02 m10 m11 m12 m20 m21 m22]. f_equal; ring. Qed.
Lemma project2_eq q u x : vdot u u = 1 -> project2 x (Plane q u) =
  let y := vadd (mapply (mtrans (turn_up u)) (project x (Plane q u))) (vscale (-1) q) in (vx y, vy y).
Proof. intros U. unfold project2. cbn [pl_n pl_p]. change (Vec 0 0 1) with ez. rewrite (rotation_back u U). reflexivity. Qed.
Definition shift (q u : vec3) : vec3 := let d := vsub (mapply (mtrans (turn_up u)) q) q in mapply (turn_up u) (Vec (vx d) (vy d) 0).
Lemma shift_flat q u : vdot u u = 1 -> vdot u (shift q u) = 0.
Proof. apply flat_dot. Qed.
Lemma plane_point_project2 q u x : vdot u u = 1 -> plane_point (project2 x (Plane q u)) (Plane q u) = vadd (project x (Plane q u)) (shift q u).
Proof.
  intros U. rewrite (project2_eq q u x U). cbv zeta. rewrite plane_point_eq. set (p := project x (Plane q u)).
  assert (W : vdot u (vsub p q) = 0) by (assert (P := side_project q u x U); fold p in P; clear - P; clearbody p; vs; lra).
  assert (F := flat_back _ _ U W). destruct (mapply_inverse (turn_up u) (vsub p q) (turn_up_rot u U)) as [_ B]. unfold shift.
  set (r := turn_up u) in *. set (m := mtrans r) in *. clearbody r m p.
  assert (E : vadd (mapply m p) (vscale (-1) q) = vadd (mapply m (vsub p q)) (vsub (mapply m q) q)).
  { rewrite mapply_vsub. generalize (mapply m p) (mapply m q). clear. intros a b. vs. f_equal; ring. }
  rewrite E. set (d := vsub (mapply m q) q). set (v := mapply m (vsub p q)) in *. clearbody d v. cbv zeta.
  replace (Vec (vx (vadd v d)) (vy (vadd v d)) 0) with (vadd v (Vec (vx d) (vy d) 0)) by (rewrite F; clear; vs; f_equal; ring).
  rewrite mapply_vadd, B. generalize (mapply r (Vec (vx d) (vy d) 0)). clear. intros a. vs. f_equal; ring.
Qed.
Lemma project2_iso q u x y : vdot u u = 1 -> dist2 (project2 x (Plane q u)) (project2 y (Plane q u)) = dist3 (project x (Plane q u)) (project y (Plane q u)).
Proof.
  intros U. rewrite <- (plane_point_iso q u _ _ U), !(plane_point_project2 q u _ U). unfold dist3, vadd; cbn [vx vy vz]. f_equal. ring.
Qed.
Lemma shift_origin u : shift (Vec 0 0 0) u = Vec 0 0 0.
Proof. unfold shift. destruct (turn_up u) as [a0 a1 a2 a3 a4 a5 a6 a7 a8]. unfold mtrans, mapply, vsub; cbn [m00 m01 m02 m10 m11 m12 m20 m21 m22 vx vy vz]. f_equal; ring. Qed.
Lemma turn_up_id : turn_up ez = mid.
Proof.
  unfold turn_up, get_rotation. rewrite (vnormalize_of_unit ez ez_unit). destruct (Req_EM_T (vnorm (vcross ez ez)) 0) as [Z|Z].
  - destruct (Rlt_dec 0 (vdot ez ez)) as [_|F]; [|rewrite ez_unit in F; lra]. unfold to_mat, mid; cbn [qx qy qz qw]. f_equal; ring.
  - exfalso. apply Z, vnorm_zero. unfold vcross, ez; cbn [vx vy vz]. f_equal; ring.
Qed.
Lemma shift_up q : shift q ez = Vec 0 0 0.
Proof.
  unfold shift. rewrite turn_up_id. replace (mapply (mtrans mid) q) with q by (clear; unfold mtrans, mid; vs; cbn [m00 m01 m02 m10 m11 m12 m20 m21 m22]; f_equal; ring).
  clear. unfold mid, mapply, vsub; cbn [m00 m01 m02 m10 m11 m12 m20 m21 m22 vx vy vz]. f_equal; ring.
Qed.

(** ** Segments and planes *)
Lemma side_between q n t a b : side q n (between t a b) = (1 - t) * side q n a + t * side q n b.
Proof. vs. ring. Qed.
Lemma min_to_zero_pos : 0 < min_to_zero.
Proof. unfold min_to_zero. lra. Qed.
Lemma intersect_eq a b q u : intersect_segment a b (Plane q u) =
  if Bool.eqb (on_side a (Plane q u)) (on_side b (Plane q u)) then None
  else if Rlt_dec (Rabs (side q u b - side q u a)) min_to_zero then None
  else Some (between (side q u a / (side q u a - side q u b)) a b).
Proof.
  unfold intersect_segment; cbn [pl_p pl_n]. destruct (Bool.eqb (on_side a (Plane q u)) (on_side b (Plane q u))) eqn:E; [reflexivity|].
  replace (vdot u (vsub b a)) with (side q u b - side q u a) by (clear; vs; ring). destruct (Rlt_dec (Rabs (side q u b - side q u a)) min_to_zero) as [L|L]; [reflexivity|].
  replace (vdot u (vsub a q)) with (side q u a) by (clear; vs; ring). set (sa := side q u a) in *. set (sb := side q u b) in *.
  assert (NZ : sb - sa <> 0) by (intros Z; rewrite Z, Rabs_R0 in L; apply L, min_to_zero_pos).
  assert (T : - sa / (sb - sa) = sa / (sa - sb)) by (field; lra). rewrite T.
  assert (B : 0 <= sa / (sa - sb) <= 1).
  { apply Bool.eqb_false_iff in E. destruct (on_side a (Plane q u)) eqn:A, (on_side b (Plane q u)) eqn:B; try congruence.
    - apply on_side_iff in A. assert (sb < 0) by (apply Rnot_le_lt; intros F; apply on_side_iff in F; congruence). fold sa in A.
      split; [apply Rle_mult_inv_pos; lra|]. apply (Rmult_le_reg_r (sa - sb)); [lra|]. unfold Rdiv. rewrite Rmult_assoc, Rinv_l by lra. lra.
    - apply on_side_iff in B. assert (sa < 0) by (apply Rnot_le_lt; intros F; apply on_side_iff in F; congruence). fold sb in B.
      replace (sa / (sa - sb)) with ((- sa) / (sb - sa)) by (field; lra). split; [apply Rle_mult_inv_pos; lra|]. apply (Rmult_le_reg_r (sb - sa)); [lra|]. unfold Rdiv. rewrite Rmult_assoc, Rinv_l by lra. lra. }
  destruct (Rlt_dec (sa / (sa - sb)) 0); [lra|]. destruct (Rlt_dec 1 (sa / (sa - sb))); [lra|]. f_equal. generalize (sa / (sa - sb)). clear. intros t. vs. f_equal; ring.
Qed.
Lemma intersect_some a b q u x : intersect_segment a b (Plane q u) = Some x ->
  on_segment a b x /\ side q u x = 0 /\ side q u a <> side q u b /\ (forall y, on_segment a b y -> side q u y = 0 -> y = x).
Proof.
  rewrite intersect_eq. destruct (Bool.eqb _ _) eqn:E; [discriminate|]. destruct (Rlt_dec _ min_to_zero) as [L|L]; [discriminate|]. intros H. injection H as <-.
  set (sa := side q u a) in *. set (sb := side q u b) in *.
  assert (NZ : sa - sb <> 0) by (intros Z; apply L; replace (sb - sa) with 0 by lra; rewrite Rabs_R0; apply min_to_zero_pos).
  assert (B : 0 <= sa / (sa - sb) <= 1).
  { apply Bool.eqb_false_iff in E. destruct (on_side a (Plane q u)) eqn:A, (on_side b (Plane q u)) eqn:B; try congruence.
    - apply on_side_iff in A. assert (sb < 0) by (apply Rnot_le_lt; intros F; apply on_side_iff in F; congruence). fold sa in A.
      split; [apply Rle_mult_inv_pos; lra|]. apply (Rmult_le_reg_r (sa - sb)); [lra|]. unfold Rdiv. rewrite Rmult_assoc, Rinv_l by lra. lra.
    - apply on_side_iff in B. assert (sa < 0) by (apply Rnot_le_lt; intros F; apply on_side_iff in F; congruence). fold sb in B.
      replace (sa / (sa - sb)) with ((- sa) / (sb - sa)) by (field; lra). split; [apply Rle_mult_inv_pos; lra|]. apply (Rmult_le_reg_r (sb - sa)); [lra|]. unfold Rdiv. rewrite Rmult_assoc, Rinv_l by lra. lra. }
  split; [exists (sa / (sa - sb)); auto|]. split; [|split].
  - rewrite side_between. fold sa sb. field. exact NZ.
  - fold sa sb. lra.
  - intros y (t & T & ->) Y. rewrite side_between in Y. fold sa sb in Y. f_equal. apply (Rmult_eq_reg_r (sa - sb)); [|exact NZ]. unfold Rdiv. rewrite Rmult_assoc, Rinv_l by exact NZ. lra.
Qed.
Lemma intersect_none a b q u : intersect_segment a b (Plane q u) = None <-> (0 <= side q u a <-> 0 <= side q u b) \/ Rabs (side q u b - side q u a) < min_to_zero.
Proof.
  rewrite intersect_eq. rewrite <- !on_side_iff. destruct (on_side a (Plane q u)), (on_side b (Plane q u)); cbn [Bool.eqb]; destruct (Rlt_dec (Rabs (side q u b - side q u a)) min_to_zero) as [L|L]; intuition (try discriminate).
Qed.
Lemma intersect_hit a b q u x : on_segment a b x -> side q u x = 0 -> min_to_zero / 2 <= Rabs (side q u a) -> min_to_zero / 2 <= Rabs (side q u b) ->
  intersect_segment a b (Plane q u) = Some x.
Proof.
  intros O X A B. destruct (intersect_segment a b (Plane q u)) as [y|] eqn:E.
  - apply intersect_some in E. destruct E as (_ & _ & _ & E). rewrite (E x O X). reflexivity.
  - exfalso. apply intersect_none in E. destruct O as (t & T & ->). rewrite side_between in X. set (sa := side q u a) in *. set (sb := side q u b) in *. assert (Z := min_to_zero_pos).
    destruct E as [E|E]; revert A B E; unfold Rabs; repeat destruct (Rcase_abs _); intros; try lra; try nra.
Qed.

(** ** Boxes and planes *)
Definition hits (q u : vec3) (s : vec3 * vec3) (r : vec3) : Prop := intersect_segment (fst s) (snd s) (Plane q u) = Some r.
Lemma gather_spec q u : forall ss pts, let res := fold_left (gather (Plane q u)) ss pts in
  (forall x, In x pts -> In x res) /\
  (forall s r, In s ss -> hits q u s r -> exists y, In y res /\ dist3 y r <= min_to_zero) /\
  (forall x, In x res -> In x pts \/ exists s, In s ss /\ hits q u s x) /\
  (spread min_to_zero pts -> spread min_to_zero res).
Proof.
  induction ss as [|s ss IH]; intros pts res.
  - unfold res; cbn [fold_left In]. intuition.
  - unfold res; cbn [fold_left]. destruct (IH (gather (Plane q u) pts s)) as (I1 & I2 & I3 & I4). clear IH.
    assert (G : (forall x, In x pts -> In x (gather (Plane q u) pts s)) /\ (forall r, hits q u s r -> exists y, In y (gather (Plane q u) pts s) /\ dist3 y r <= min_to_zero) /\
      (forall x, In x (gather (Plane q u) pts s) -> In x pts \/ hits q u s x) /\ (spread min_to_zero pts -> spread min_to_zero (gather (Plane q u) pts s))).
    { unfold gather, hits. destruct (intersect_segment (fst s) (snd s) (Plane q u)) as [r|].
      - destruct (existsb _ pts) eqn:X.
        + apply existsb_exists in X. destruct X as (y & Y & L). destruct (Rle_dec (vnorm (vsub y r)) (/ 1000000)) as [L'|]; [|discriminate]. repeat split; auto.
          intros r' H. injection H as <-. exists y. split; [exact Y|exact L'].
        + assert (A : forall y, In y pts -> min_to_zero < dist3 y r).
          { intros y Y. apply Rnot_le_lt. intros L. assert (existsb (fun q0 : vec3 => if Rle_dec (vnorm (vsub q0 r)) (/ 1000000) then true else false) pts = true); [|congruence].
            apply existsb_exists. exists y. split; [exact Y|]. destruct (Rle_dec (vnorm (vsub y r)) (/ 1000000)); [reflexivity|contradiction]. }
          split; [intros x I; apply in_or_app; auto|]. split; [|split].
          * intros r' H. injection H as <-. exists r. split; [apply in_or_app; right; left; reflexivity|]. rewrite (proj2 (dist3_zero r r) eq_refl). apply Rlt_le, min_to_zero_pos.
          * intros x I. apply in_app_or in I. destruct I as [I|[<-|[]]]; auto.
          * intros SP i j x y Hi Hj N. assert (LEN : forall k z, nth_error (pts ++ [r]) k = Some z -> nth_error pts k = Some z \/ k = length pts /\ z = r).
            { intros k z H. destruct (lt_dec k (length pts)) as [L|L]; [rewrite nth_error_app1 in H by exact L; auto|]. rewrite nth_error_app2 in H by lia.
              right. destruct (k - length pts)%nat as [|m] eqn:D; [cbn in H; injection H as <-; split; [lia|reflexivity]|]. destruct m; discriminate. }
            apply LEN in Hi. apply LEN in Hj. destruct Hi as [Hi|[-> ->]], Hj as [Hj|[-> ->]].
            -- eapply SP; eauto.
            -- apply A. eapply nth_error_In; eauto.
            -- rewrite dist3_sym. apply A. eapply nth_error_In; eauto.
            -- congruence.
      - repeat split; auto. discriminate. }
    destruct G as (G1 & G2 & G3 & G4). split; [auto|]. split; [|split].
    + intros s' r [<-|I] H; [|eauto]. destruct (G2 r H) as (y & Y & D). exists y. auto.
    + intros x I. destruct (I3 x I) as [J|(s' & J & H)]; [|right; exists s'; split; [right; exact J|exact H]]. destruct (G3 x J) as [K|K]; [auto|]. right. exists s. split; [left; reflexivity|exact K].
    + auto.
Qed.

Section Square.
Definition mix (t a b : R) : R := (1 - t) * a + t * b.
Lemma exit1 x d : 0 <= x <= 1 -> d <> 0 -> exists k, 0 <= k /\ (x + k * d = 0 \/ x + k * d = 1) /\ forall k', 0 <= k' <= k -> 0 <= x + k' * d <= 1.
Proof.
  intros X D. destruct (Rlt_dec 0 d) as [P|P].
  - exists ((1 - x) / d). assert (K : (1 - x) / d * d = 1 - x) by (field; exact D). assert (0 <= (1 - x) / d) by (apply Rle_mult_inv_pos; lra). split; [assumption|]. split; [right; lra|]. intros k' [K1 K2]. split; nra.
  - exists (x / - d). assert (K : x / - d * d = - x) by (field; exact D). assert (0 <= x / - d) by (apply Rle_mult_inv_pos; lra). split; [assumption|]. split; [left; lra|]. intros k' [K1 K2]. split; nra.
Qed.
Lemma exit2 x y d e : 0 <= x <= 1 -> 0 <= y <= 1 -> d <> 0 \/ e <> 0 ->
  exists k, 0 <= k /\ 0 <= x + k * d <= 1 /\ 0 <= y + k * e <= 1 /\ (x + k * d = 0 \/ x + k * d = 1 \/ y + k * e = 0 \/ y + k * e = 1).
Proof.
  intros X Y D. destruct (Req_dec d 0) as [->|DN].
  - destruct D as [D|D]; [lra|]. destruct (exit1 y e Y D) as (k & K & E & A). exists k. specialize (A k (Logic.conj K (Rle_refl k))). split; [exact K|]; repeat split; try lra; try nra; tauto.
  - destruct (exit1 x d X DN) as (k & K & E & A). destruct (Req_dec e 0) as [->|EN].
    + exists k. specialize (A k (Logic.conj K (Rle_refl k))). split; [exact K|]; repeat split; try lra; try nra; tauto.
    + destruct (exit1 y e Y EN) as (k' & K' & E' & A'). destruct (Rle_dec k k') as [L|L].
      * exists k. specialize (A k (Logic.conj K (Rle_refl k))). specialize (A' k (Logic.conj K L)). repeat split; try lra; tauto.
      * exists k'. specialize (A' k' (Logic.conj K' (Rle_refl k'))). assert (L' : k' <= k) by lra. specialize (A k' (Logic.conj K' L')). repeat split; try lra; tauto.
Qed.
Lemma back_and_forth k1 k2 : 0 <= k1 -> 0 <= k2 -> exists t, 0 <= t <= 1 /\ forall x d, x = mix t (x + k1 * d) (x + k2 * - d).
Proof.
  intros A B. destruct (Req_dec (k1 + k2) 0) as [Z|Z].
  - exists 0. split; [lra|]. intros x d. unfold mix. assert (k1 = 0) by lra. subst. ring.
  - exists (k1 / (k1 + k2)). assert (E : k1 / (k1 + k2) * (k1 + k2) = k1) by (field; exact Z). split.
    + split; [apply Rle_mult_inv_pos; lra|]. apply (Rmult_le_reg_r (k1 + k2)); lra.
    + intros x d. unfold mix. field. exact Z.
Qed.
(** A zero of an affine function in a square lies between two zeros on the border. *)
Lemma square_zero (N : R -> R -> Prop) a b c : (forall t s r s' r', 0 <= t <= 1 -> N s r -> N s' r' -> N (mix t s s') (mix t r r')) ->
  (forall s r, s = 0 \/ s = 1 -> r = 0 \/ r = 1 -> a + b * s + c * r <> 0) ->
  (forall s r, 0 <= s <= 1 -> 0 <= r <= 1 -> (s = 0 \/ s = 1 \/ r = 0 \/ r = 1) -> a + b * s + c * r = 0 -> N s r) ->
  forall s r, 0 <= s <= 1 -> 0 <= r <= 1 -> a + b * s + c * r = 0 -> N s r.
Proof.
  intros CX CO BO s r HS HR Z.
  assert (D : c <> 0 \/ - b <> 0).
  { destruct (Req_dec c 0) as [->|]; [|auto]. destruct (Req_dec b 0) as [->|]; [|right; lra]. exfalso. apply (CO 0 0); auto. lra. }
  destruct (exit2 s r c (- b) HS HR D) as (k1 & K1 & A1 & B1 & E1).
  assert (D2 : - c <> 0 \/ - - b <> 0) by (destruct D; [left|right]; lra).
  destruct (exit2 s r (- c) (- - b) HS HR D2) as (k2 & K2 & A2 & B2 & E2).
  destruct (back_and_forth k1 k2 K1 K2) as (t & T & M). rewrite (M s c), (M r (- b)). apply CX; [exact T| |]; apply BO; auto; nra.
Qed.
Lemma cube_zero (N : R -> R -> R -> Prop) a b c d :
  (forall t s r v s' r' v', 0 <= t <= 1 -> N s r v -> N s' r' v' -> N (mix t s s') (mix t r r') (mix t v v')) ->
  (forall s r v, s = 0 \/ s = 1 -> r = 0 \/ r = 1 -> v = 0 \/ v = 1 -> a + b * s + c * r + d * v <> 0) ->
  (forall s r v, 0 <= s <= 1 -> r = 0 \/ r = 1 -> v = 0 \/ v = 1 -> a + b * s + c * r + d * v = 0 -> N s r v) ->
  (forall s r v, s = 0 \/ s = 1 -> 0 <= r <= 1 -> v = 0 \/ v = 1 -> a + b * s + c * r + d * v = 0 -> N s r v) ->
  (forall s r v, s = 0 \/ s = 1 -> r = 0 \/ r = 1 -> 0 <= v <= 1 -> a + b * s + c * r + d * v = 0 -> N s r v) ->
  forall s r v, 0 <= s <= 1 -> 0 <= r <= 1 -> 0 <= v <= 1 -> a + b * s + c * r + d * v = 0 -> N s r v.
Proof.
  intros CX CO B1 B2 B3 s r v HS HR HV Z.
  assert (F1 : forall s r v, s = 0 \/ s = 1 -> 0 <= r <= 1 -> 0 <= v <= 1 -> a + b * s + c * r + d * v = 0 -> N s r v).
  { clear - CX CO B2 B3. intros s r v HS HR HV Z. apply (square_zero (fun r v => N s r v) (a + b * s) c d); [| | |exact HR|exact HV|exact Z].
    - intros t r1 v1 r2 v2 T H1 H2. replace s with (mix t s s) by (unfold mix; ring). apply CX; auto.
    - intros r1 v1 R1 V1 E. apply (CO s r1 v1); auto; lra.
    - intros r1 v1 R1 V1 E Z1. destruct E as [E|[E|[E|E]]]; [apply B3|apply B3|apply B2|apply B2]; auto. }
  assert (F2 : forall s r v, 0 <= s <= 1 -> r = 0 \/ r = 1 -> 0 <= v <= 1 -> a + b * s + c * r + d * v = 0 -> N s r v).
  { clear - CX CO B1 B3. intros s r v HS HR HV Z. apply (square_zero (fun s v => N s r v) (a + c * r) b d); [| | |exact HS|exact HV|lra].
    - intros t r1 v1 r2 v2 T H1 H2. replace r with (mix t r r) by (unfold mix; ring). apply CX; auto.
    - intros r1 v1 R1 V1 E. apply (CO r1 r v1); auto; lra.
    - intros r1 v1 R1 V1 E Z1. destruct E as [E|[E|[E|E]]]; [apply B3|apply B3|apply B1|apply B1]; auto; lra. }
  destruct (Req_dec c 0) as [C0|C0]; [destruct (Req_dec b 0) as [B0|B0]|].
  - (* the function does not depend on s: move along s *)
    replace s with (mix s 0 1) by (unfold mix; ring). replace r with (mix s r r) by (unfold mix; ring). replace v with (mix s v v) by (unfold mix; ring).
    apply CX; [lra| |]; apply F1; auto; rewrite B0 in *; lra.
  - destruct (exit2 s r c (- b) HS HR) as (k1 & K1 & A1 & A1' & E1); [right; lra|]. destruct (exit2 s r (- c) (- - b) HS HR) as (k2 & K2 & A2 & A2' & E2); [right; lra|].
    destruct (back_and_forth k1 k2 K1 K2) as (t & T & M). rewrite (M s c), (M r (- b)). replace v with (mix t v v) by (unfold mix; ring).
    apply CX; [exact T| |]; [destruct E1 as [E|[E|[E|E]]]|destruct E2 as [E|[E|[E|E]]]]; [apply F1|apply F1|apply F2|apply F2|apply F1|apply F1|apply F2|apply F2]; auto; nra.
  - destruct (exit2 s r c (- b) HS HR) as (k1 & K1 & A1 & A1' & E1); [left; lra|]. destruct (exit2 s r (- c) (- - b) HS HR) as (k2 & K2 & A2 & A2' & E2); [left; lra|].
    destruct (back_and_forth k1 k2 K1 K2) as (t & T & M). rewrite (M s c), (M r (- b)). replace v with (mix t v v) by (unfold mix; ring).
    apply CX; [exact T| |]; [destruct E1 as [E|[E|[E|E]]]|destruct E2 as [E|[E|[E|E]]]]; [apply F1|apply F1|apply F2|apply F2|apply F1|apply F1|apply F2|apply F2]; auto; nra.
Qed.
End Square.

Lemma between_near e t x x' y y' : 0 <= e -> 0 <= t <= 1 -> dist3 x y <= e -> dist3 x' y' <= e -> dist3 (between t x x') (between t y y') <= e.
Proof.
  intros E T A B. rewrite dist3_norm in *. apply vnorm_le in A; [|exact E]. apply vnorm_le in B; [|exact E]. apply vnorm_le; [exact E|].
  replace (vsub (between t x x') (between t y y')) with (vadd (vscale (1 - t) (vsub x y)) (vscale t (vsub x' y'))) by (clear; vs; f_equal; ring).
  set (v := vsub x y) in *. set (w := vsub x' y') in *. clearbody v w.
  replace (vdot (vadd (vscale (1 - t) v) (vscale t w)) (vadd (vscale (1 - t) v) (vscale t w))) with ((1 - t) * vdot v v + t * vdot w w - t * (1 - t) * vdot (vsub v w) (vsub v w)) by (clear; vs; ring).
  assert (0 <= vdot (vsub v w) (vsub v w)) by apply dot_pos. assert (0 <= t * (1 - t)) by nra. nra.
Qed.
Definition near (pts : list vec3) (x : vec3) : Prop := exists y, in_hull pts y /\ dist3 x y <= min_to_zero.
Lemma near_between pts t x y : 0 <= t <= 1 -> near pts x -> near pts y -> near pts (between t x y).
Proof.
  intros T (x' & X & DX) (y' & Y & DY). exists (between t x' y'). split; [apply hull_between; auto|]. apply between_near; auto. apply Rlt_le, min_to_zero_pos.
Qed.
(** The point of a box with the given local coordinates, as fractions of the edges. *)
Definition at_frac (b : oobb) (s r v : R) : vec3 :=
  to_global (bb_pose b) (Vec (mix s (vx (bb_min b)) (vx (bb_max b))) (mix r (vy (bb_min b)) (vy (bb_max b))) (mix v (vz (bb_min b)) (vz (bb_max b)))).
Lemma at_frac_between b t s r v s' r' v' : between t (at_frac b s r v) (at_frac b s' r' v') = at_frac b (mix t s s') (mix t r r') (mix t v v').
Proof. destruct b as [l h [m p]]. destruct m as [a0 a1 a2 a3 a4 a5 a6 a7 a8]. unfold at_frac, to_global, mix; cbn [bb_min bb_max bb_pose prot ppos]. vs. cbn [m00 m01 m02 m10 m11 m12 m20 m21 m22]. f_equal; ring. Qed.
Lemma at_frac_side b q u : exists a c d e, forall s r v, side q u (at_frac b s r v) = a + c * s + d * r + e * v.
Proof.
  exists (side q u (at_frac b 0 0 0)), (side q u (at_frac b 1 0 0) - side q u (at_frac b 0 0 0)), (side q u (at_frac b 0 1 0) - side q u (at_frac b 0 0 0)), (side q u (at_frac b 0 0 1) - side q u (at_frac b 0 0 0)).
  intros s r v. destruct b as [l h [m p]]. destruct m as [a0 a1 a2 a3 a4 a5 a6 a7 a8]. unfold at_frac, to_global, mix; cbn [bb_min bb_max bb_pose prot ppos]. vs. cbn [m00 m01 m02 m10 m11 m12 m20 m21 m22]. ring.
Qed.
Lemma at_frac_corner b s r v : s = 0 \/ s = 1 -> r = 0 \/ r = 1 -> v = 0 \/ v = 1 -> is_corner b (at_frac b s r v).
Proof.
  intros HS HR HV. eexists. split; [|split; [|split; [|reflexivity]]]; cbn [vx vy vz]; unfold mix; [destruct HS as [-> | ->]|destruct HR as [-> | ->]|destruct HV as [-> | ->]]; (left; ring) || (right; ring).
Qed.
Lemma frac_of l h x : l <= x <= h -> exists s, 0 <= s <= 1 /\ x = mix s l h.
Proof.
  intros H. destruct (Req_dec l h) as [E|E].
  - exists 0. unfold mix. split; lra.
  - exists ((x - l) / (h - l)). split.
    + split; [apply Rle_mult_inv_pos; lra|]. apply (Rmult_le_reg_r (h - l)); [lra|]. unfold Rdiv. rewrite Rmult_assoc, Rinv_l by lra. lra.
    + unfold mix. field. lra.
Qed.
Lemma in_box_frac b x : in_box b x -> exists s r v, 0 <= s <= 1 /\ 0 <= r <= 1 /\ 0 <= v <= 1 /\ x = at_frac b s r v.
Proof.
  intros (q & (X & Y & Z) & ->). destruct (frac_of _ _ _ X) as (s & S1 & S2). destruct (frac_of _ _ _ Y) as (r & R1 & R2). destruct (frac_of _ _ _ Z) as (v & V1 & V2).
  exists s, r, v. repeat split; try lra. unfold at_frac. rewrite <- S2, <- R2, <- V2. destruct q. reflexivity.
Qed.
Lemma mix_within s l h : l <= h -> 0 <= s <= 1 -> l <= mix s l h <= h.
Proof. intros. unfold mix. nra. Qed.
Lemma frac_in_box b s r v : ordered (bb_min b) (bb_max b) -> 0 <= s <= 1 -> 0 <= r <= 1 -> 0 <= v <= 1 -> in_box b (at_frac b s r v).
Proof.
  intros (X & Y & Z) A B C. eexists. split; [|reflexivity]. unfold within; cbn [vx vy vz]. split; [|split]; apply mix_within; auto.
Qed.
Definition edge_ends (b : oobb) (s : vec3 * vec3) : Prop :=
  exists s1 r1 v1 s2 r2 v2, (forall z, In z [s1; r1; v1; s2; r2; v2] -> 0 <= z <= 1) /\ s = (at_frac b s1 r1 v1, at_frac b s2 r2 v2).
Lemma frac_point b x y z s r v : x = mix s (vx (bb_min b)) (vx (bb_max b)) -> y = mix r (vy (bb_min b)) (vy (bb_max b)) -> z = mix v (vz (bb_min b)) (vz (bb_max b)) ->
  to_global (bb_pose b) (Vec x y z) = at_frac b s r v.
Proof. intros -> -> ->. reflexivity. Qed.
Lemma segments_frac b : segments b =
  [(at_frac b 0 0 0, at_frac b 1 0 0); (at_frac b 0 0 0, at_frac b 0 1 0); (at_frac b 0 1 0, at_frac b 1 1 0); (at_frac b 1 0 0, at_frac b 1 1 0);
   (at_frac b 0 0 1, at_frac b 1 0 1); (at_frac b 0 0 1, at_frac b 0 1 1); (at_frac b 1 0 1, at_frac b 1 1 1); (at_frac b 0 1 1, at_frac b 1 1 1);
   (at_frac b 0 1 0, at_frac b 0 1 1); (at_frac b 0 0 0, at_frac b 0 0 1); (at_frac b 1 0 0, at_frac b 1 0 1); (at_frac b 1 1 0, at_frac b 1 1 1)].
Proof.
  unfold segments, box_corners, local_corners; cbn [map List.nth].
  rewrite (frac_point b (vx (bb_min b)) (vy (bb_min b)) (vz (bb_min b)) 0 0 0), (frac_point b (vx (bb_max b)) (vy (bb_min b)) (vz (bb_min b)) 1 0 0),
    (frac_point b (vx (bb_min b)) (vy (bb_max b)) (vz (bb_min b)) 0 1 0), (frac_point b (vx (bb_max b)) (vy (bb_max b)) (vz (bb_min b)) 1 1 0),
    (frac_point b (vx (bb_min b)) (vy (bb_min b)) (vz (bb_max b)) 0 0 1), (frac_point b (vx (bb_max b)) (vy (bb_min b)) (vz (bb_max b)) 1 0 1),
    (frac_point b (vx (bb_min b)) (vy (bb_max b)) (vz (bb_max b)) 0 1 1), (frac_point b (vx (bb_max b)) (vy (bb_max b)) (vz (bb_max b)) 1 1 1) by (unfold mix; ring). reflexivity.
Qed.
Notation found b q u := (fold_left (gather (Plane q u)) (segments b) []).
Lemma found_sound b q u x : ordered (bb_min b) (bb_max b) -> In x (found b q u) -> in_box b x /\ side q u x = 0.
Proof.
  intros O I. pose proof (gather_spec q u (segments b) []) as G. cbv zeta in G. destruct G as (_ & _ & G & _). specialize (G x I). destruct G as [[]|(s & S1 & H)]. apply intersect_some in H. destruct H as ((t & T & ->) & Z & _). split; [|exact Z].
  rewrite segments_frac in S1. cbn [In] in S1.
  repeat (destruct S1 as [<- |S1]; [cbn [fst snd]; rewrite at_frac_between; apply frac_in_box; [exact O| | |]; unfold mix; lra|]). destruct S1.
Qed.
Lemma found_spread b q u : spread min_to_zero (found b q u).
Proof. pose proof (gather_spec q u (segments b) []) as G. cbv zeta in G. destruct G as (_ & _ & _ & G). apply G. intros i j x y H. destruct i; discriminate. Qed.
Lemma found_edge b q u s1 s2 t : In (s1, s2) (segments b) -> (forall c, is_corner b c -> min_to_zero / 2 <= Rabs (side q u c)) -> is_corner b s1 -> is_corner b s2 ->
  0 <= t <= 1 -> side q u (between t s1 s2) = 0 -> near (found b q u) (between t s1 s2).
Proof.
  intros I C C1 C2 T Z. assert (H : hits q u (s1, s2) (between t s1 s2)) by (apply intersect_hit; [exists t; auto|exact Z|apply C, C1|apply C, C2]).
  pose proof (gather_spec q u (segments b) []) as G. cbv zeta in G. destruct G as (_ & G & _). destruct (G _ _ I H) as (y & Y & D). exists y. split; [apply hull_point, Y|]. rewrite dist3_sym. exact D.
Qed.
Lemma found_complete b q u x : (forall c, is_corner b c -> min_to_zero / 2 <= Rabs (side q u c)) -> in_box b x -> side q u x = 0 -> near (found b q u) x.
Proof.
  intros C I Z. destruct (in_box_frac b x I) as (s & r & v & HS & HR & HV & ->). destruct (at_frac_side b q u) as (a & c & d & e & F).
  assert (NZ : forall s r v, s = 0 \/ s = 1 -> r = 0 \/ r = 1 -> v = 0 \/ v = 1 -> a + c * s + d * r + e * v <> 0).
  { intros s1 r1 v1 A1 A2 A3 E. rewrite <- F in E. specialize (C _ (at_frac_corner b s1 r1 v1 A1 A2 A3)). rewrite E, Rabs_R0 in C. assert (P := min_to_zero_pos). lra. }
  apply (cube_zero (fun s r v => near (found b q u) (at_frac b s r v)) a c d e); auto; [| | | |rewrite <- F; exact Z]; clear s r v HS HR HV I Z.
  - intros t s r v s' r' v' T A B. rewrite <- at_frac_between. apply near_between; auto.
  - intros s r v HS HR HV Z. rewrite <- F in Z. replace (at_frac b s r v) with (between s (at_frac b 0 r v) (at_frac b 1 r v)) in * by (rewrite at_frac_between; f_equal; unfold mix; ring).
    apply found_edge; auto; try (apply at_frac_corner; auto). rewrite segments_frac. destruct HR as [-> | ->], HV as [-> | ->]; cbn [In]; tauto.
  - intros s r v HS HR HV Z. rewrite <- F in Z. replace (at_frac b s r v) with (between r (at_frac b s 0 v) (at_frac b s 1 v)) in * by (rewrite at_frac_between; f_equal; unfold mix; ring).
    apply found_edge; auto; try (apply at_frac_corner; auto). rewrite segments_frac. destruct HS as [-> | ->], HV as [-> | ->]; cbn [In]; tauto.
  - intros s r v HS HR HV Z. rewrite <- F in Z. replace (at_frac b s r v) with (between v (at_frac b s r 0) (at_frac b s r 1)) in * by (rewrite at_frac_between; f_equal; unfold mix; ring).
    apply found_edge; auto; try (apply at_frac_corner; auto). rewrite segments_frac. destruct HR as [-> | ->], HS as [-> | ->]; cbn [In]; tauto.
Qed.

(** ** A box in another frame *)
Lemma change_coord_eq b g : exists l h, change_coord b g = Oobb l h g /\
  forall l' h', span (transform (Box (pt (bb_min b)) (pt (bb_max b))) (pmul (inverted g) (bb_pose b))) l' h' -> l = l' /\ h = h'.
Proof.
  unfold change_coord. cbv zeta. do 2 eexists. split; [reflexivity|]. intros l' h' SP.
  assert (E : fold_left widen (map (fun v => let w := to_global (inverted g) (to_global (bb_pose b) v) in BBoxModel.point (vx w) (vy w) (vz w)) (local_corners b))
             (Box (BBoxModel.point flt_max flt_max flt_max) (BBoxModel.point (- flt_max) (- flt_max) (- flt_max))) =
    transform (Box (pt (bb_min b)) (pt (bb_max b))) (pmul (inverted g) (bb_pose b))).
  { unfold transform. cbn [bmin bmax]. replace (has_nan (Box (pt (bb_min b)) (pt (bb_max b)))) with false by reflexivity.
    f_equal. change (local_corners b) with (corners' (bb_min b) (bb_max b)).
    change (map (move _) _) with (map (move (pmul (inverted g) (bb_pose b))) (map pt (corners' (bb_min b) (bb_max b)))). rewrite map_map. apply map_ext. intros v. rewrite move_pt.
    unfold to_global, pt, image, point, pmul. destruct (inverted g) as [m p]. destruct (bb_pose b) as [m' p']. destruct m as [a0 a1 a2 a3 a4 a5 a6 a7 a8], m' as [b0 b1 b2 b3 b4 b5 b6 b7 b8].
    cbn [prot ppos]. unfold mmul; cbn [m00 m01 m02 m10 m11 m12 m20 m21 m22]. vs. cbn [m00 m01 m02 m10 m11 m12 m20 m21 m22]. f_equal; f_equal; ring. }
  cbv zeta in E. rewrite E. destruct SP as [-> ->]. unfold point; cbn [c0 c1 c2]. destruct l', h'; auto.
Qed.
Lemma image_global g v : image g v = to_global g v.
Proof. reflexivity. Qed.
Lemma image_inverted g v : rotation (prot g) -> image (inverted g) (image g v) = v /\ image g (image (inverted g) v) = v.
Proof.
  intros R. change (image (inverted g) (image g v)) with (to_global (inverted g) (to_global g v)). change (image g (image (inverted g) v)) with (to_global g (to_global (inverted g) v)). unfold to_global, inverted; cbv zeta; cbn [prot ppos]. destruct (mapply_inverse (prot g) v R) as [A B]. split.
  - rewrite mapply_vadd, A. generalize (mapply (mtrans (prot g)) (ppos g)). clear. intros w. vs. f_equal; ring.
  - rewrite mapply_vadd, B. replace (vscale (-1) (mapply (mtrans (prot g)) (ppos g))) with (mapply (mtrans (prot g)) (vscale (-1) (ppos g))).
    + destruct (mapply_inverse (prot g) (vscale (-1) (ppos g)) R) as [_ ->]. generalize (ppos g). clear. intros w. vs. f_equal; ring.
    + generalize (mtrans (prot g)) (ppos g). clear. intros [a0 a1 a2 a3 a4 a5 a6 a7 a8] w. vs. cbn [m00 m01 m02 m10 m11 m12 m20 m21 m22]. f_equal; ring.
Qed.
Lemma image_pmul a b v : image (pmul a b) v = image a (image b v).
Proof.
  change (to_global (pmul a b) v = to_global a (to_global b v)). unfold to_global, pmul. destruct a as [m p], b as [m' p']; cbn [prot ppos]. destruct m as [a0 a1 a2 a3 a4 a5 a6 a7 a8], m' as [b0 b1 b2 b3 b4 b5 b6 b7 b8]. unfold mmul.
  cbn [m00 m01 m02 m10 m11 m12 m20 m21 m22]. vs. cbn [m00 m01 m02 m10 m11 m12 m20 m21 m22]. f_equal; ring.
Qed.

(** ** Lines *)
Lemma line_point p d t : Vec (vx p + t * vx d) (vy p + t * vy d) (vz p + t * vz d) = vadd p (vscale t d).
Proof. reflexivity. Qed.
Lemma mk_line_unit p d : / 1000000000 < vnorm d -> exists k u, 0 < k /\ vdot u u = 1 /\ d = vscale k u /\ mk_line p d = Line p u /\ line_valid (mk_line p d) = true.
Proof.
  intros L. assert (N : d <> Vec 0 0 0) by (intros ->; rewrite (proj2 (vnorm_zero (Vec 0 0 0)) eq_refl) in L; lra).
  destruct (vnormalize_unit d N) as (U & k & K & E). exists k, (vnormalize d). assert (M : mk_line p d = Line p (vnormalize d)) by (unfold mk_line; destruct (Rlt_dec (/ 1000000000) (vnorm d)); [reflexivity|contradiction]).
  repeat split; auto. rewrite M. unfold line_valid; cbn [ln_d]. rewrite (vnorm_unit _ U). destruct (Rlt_dec (/ 1000000000) 1); [reflexivity|lra].
Qed.
Lemma nearest_unit p u x : vdot u u = 1 -> nearest_on_line (Line p u) x = vadd p (vscale (vdot u (vsub x p)) u).
Proof. intros U. unfold nearest_on_line, line_valid; cbn [ln_d ln_p]. rewrite (vnorm_unit u U). destruct (Rlt_dec (/ 1000000000) 1); [reflexivity|lra]. Qed.
Lemma line_pythagoras p u x t : vdot u u = 1 ->
  vdot (vsub x (vadd p (vscale t u))) (vsub x (vadd p (vscale t u))) =
  vdot (vsub x (vadd p (vscale (vdot u (vsub x p)) u))) (vsub x (vadd p (vscale (vdot u (vsub x p)) u))) + (t - vdot u (vsub x p)) * (t - vdot u (vsub x p)).
Proof.
  intros U. set (w := vsub x p). replace (vsub x (vadd p (vscale t u))) with (vsub w (vscale t u)) by (unfold w; clear; vs; f_equal; ring).
  replace (vsub x (vadd p (vscale (vdot u w) u))) with (vsub w (vscale (vdot u w) u)) by (unfold w; clear; vs; f_equal; ring).
  assert (G : forall s, vdot (vsub w (vscale s u)) (vsub w (vscale s u)) = vdot w w - 2 * s * vdot u w + s * s * vdot u u) by (intros s; clear; clearbody w; vs; ring).
  rewrite !G, U. ring.
Qed.
(** The nearest point on a line through p with unit direction u. *)
Lemma nearest_line_ok p u x t : vdot u u = 1 -> let n := vadd p (vscale (vdot u (vsub x p)) u) in let y := vadd p (vscale t u) in
  dist3 x n <= dist3 x y /\ (dist3 x y = dist3 x n -> y = n).
Proof.
  intros U n y. rewrite !dist3_norm. assert (E := line_pythagoras p u x t U). fold n y in E. split.
  - apply vnorm_le_iff. rewrite E. assert (Q := Rle_0_sqr (t - vdot u (vsub x p))). unfold Rsqr in Q. lra.
  - intros D. apply vnorm_eq_iff in D. assert (Z : (t - vdot u (vsub x p)) * (t - vdot u (vsub x p)) = 0) by lra. apply Rmult_integral in Z. unfold n, y. f_equal. f_equal. destruct Z; lra.
Qed.
Lemma nearest_segment_ok a b x : a <> b -> let n := nearest_on_segment a b x in
  on_segment a b n /\ forall y, on_segment a b y -> dist3 x n <= dist3 x y /\ (dist3 x y = dist3 x n -> y = n).
Proof.
  intros N n. set (d := vsub b a). assert (DN : d <> Vec 0 0 0) by (intros E; apply N; unfold d in E; clear - E; vs; injection E; intros; f_equal; lra).
  assert (L := vnorm_nz d DN). set (ln := vnorm d) in *. assert (LL : ln * ln = vdot d d) by apply vnorm_sq.
  set (u := vscale (/ ln) d). assert (U : vdot u u = 1).
  { unfold u. replace (vdot (vscale (/ ln) d) (vscale (/ ln) d)) with (/ ln * / ln * vdot d d) by (clear; clearbody d; vs; ring). rewrite <- LL. field. lra. }
  assert (DU : d = vscale ln u) by (unfold u; clear - L; clearbody d; vs; f_equal; field; lra).
  set (lam := vdot u (vsub x a)).
  assert (NE : n = if Rlt_dec lam 0 then a else if Rlt_dec ln lam then b else vadd a (vscale lam u)).
  { unfold n, nearest_on_segment. fold d. fold ln. destruct (Req_EM_T ln 0); [lra|]. cbv zeta. fold u.
    assert (M : mk_line a u = Line a u) by (unfold mk_line; rewrite (vnormalize_of_unit u U); destruct (Rlt_dec (/ 1000000000) (vnorm u)); reflexivity). rewrite M.
    rewrite (nearest_unit a u x U). fold lam. replace (vdot (vsub (vadd a (vscale lam u)) a) u) with (lam * vdot u u) by (clear; clearbody u lam; vs; ring). rewrite U, Rmult_1_r. reflexivity. }
  assert (PT : forall t, between t a b = vadd a (vscale (t * ln) u)).
  { intros t. replace (vscale (t * ln) u) with (vscale t d) by (rewrite DU; clear; clearbody u; vs; f_equal; ring). unfold d. clear. vs. f_equal; ring. }
  assert (PY : forall t, vdot (vsub x (between t a b)) (vsub x (between t a b)) = vdot (vsub x (vadd a (vscale lam u))) (vsub x (vadd a (vscale lam u))) + (t * ln - lam) * (t * ln - lam)).
  { intros t. rewrite PT. apply (line_pythagoras a u x (t * ln) U). }
  assert (GEN : forall t0, 0 <= t0 <= 1 -> n = between t0 a b -> (forall t, 0 <= t <= 1 -> (t0 * ln - lam) * (t0 * ln - lam) <= (t * ln - lam) * (t * ln - lam) /\ ((t * ln - lam) * (t * ln - lam) = (t0 * ln - lam) * (t0 * ln - lam) -> t = t0)) ->
    on_segment a b n /\ forall y, on_segment a b y -> dist3 x n <= dist3 x y /\ (dist3 x y = dist3 x n -> y = n)).
  { intros t0 T0 E0 Q. split; [exists t0; auto|]. intros y (t & T & ->). rewrite !dist3_norm, E0. destruct (Q t T) as [Q1 Q2]. split.
    - apply vnorm_le_iff. rewrite !PY. lra.
    - intros D. apply vnorm_eq_iff in D. rewrite !PY in D. f_equal. apply Q2. lra. }
  destruct (Rlt_dec lam 0) as [A|A]; [|destruct (Rlt_dec ln lam) as [B|B]].
  - apply (GEN 0); [lra|rewrite NE; clear; vs; f_equal; ring|]. intros t T. assert (H : 0 <= t * ln) by nra. assert (Q : (t * ln - lam) * (t * ln - lam) - (0 * ln - lam) * (0 * ln - lam) = t * ln * (t * ln - 2 * lam)) by ring.
    assert (0 <= t * ln * (t * ln - 2 * lam)) by (apply Rmult_le_pos; lra). split; [lra|]. intros E. assert (Z : t * ln * (t * ln - 2 * lam) = 0) by lra. apply Rmult_integral in Z. destruct Z as [Z|Z]; [apply Rmult_integral in Z; destruct Z; lra|]. lra.
  - apply (GEN 1); [lra|rewrite NE; clear; vs; f_equal; ring|]. intros t T. assert (H : 0 <= (1 - t) * ln) by nra. assert (Q : (t * ln - lam) * (t * ln - lam) - (1 * ln - lam) * (1 * ln - lam) = (1 - t) * ln * (2 * (lam - ln) + (1 - t) * ln)) by ring.
    assert (0 <= (1 - t) * ln * (2 * (lam - ln) + (1 - t) * ln)) by (apply Rmult_le_pos; lra). split; [lra|]. intros E.
    assert (Z : (1 - t) * ln * (2 * (lam - ln) + (1 - t) * ln) = 0) by lra. apply Rmult_integral in Z. destruct Z as [Z|Z]; [apply Rmult_integral in Z; destruct Z; lra|]. lra.
  - apply (GEN (lam / ln)).
    + split; [apply Rle_mult_inv_pos; lra|]. apply (Rmult_le_reg_r ln); [lra|]. unfold Rdiv. rewrite Rmult_assoc, Rinv_l by lra. lra.
    + rewrite PT, NE. do 2 f_equal. field. lra.
    + intros t T. replace (lam / ln * ln) with lam by (field; lra). assert (Q := Rle_0_sqr (t * ln - lam)); unfold Rsqr in Q; split; [lra|]. intros E. assert (Z : (t * ln - lam) * (t * ln - lam) = 0) by lra. apply Rmult_integral in Z. apply (Rmult_eq_reg_r ln); [|lra]. replace (lam / ln * ln) with lam by (field; lra). destruct Z; lra.
Qed.

(** ** Two planes *)
Lemma cross_full u v w : vdot w u = 0 -> vdot w v = 0 -> vscale (vdot (vcross u v) (vcross u v)) w = vscale (vdot w (vcross u v)) (vcross u v).
Proof. intros A B. vs. f_equal; nsatz. Qed.
Lemma intersect_planes_eq p1 u1 p2 u2 : vdot u1 u1 = 1 -> vdot u2 u2 = 1 -> let c := vdot u1 u2 in
  if Rlt_dec (Rabs (c - 1)) (/ 1000000) then intersect_planes (Plane p1 u1) (Plane p2 u2) = Line (Vec 0 0 0) (Vec 0 0 0)
  else if Rlt_dec (1 - c * c) (/ 1000000000) then intersect_planes (Plane p1 u1) (Plane p2 u2) = Line (Vec 0 0 0) (Vec 0 0 0)
  else exists pos k u, 0 < k /\ vdot u u = 1 /\ vcross u1 u2 = vscale k u /\ side p1 u1 pos = 0 /\ side p2 u2 pos = 0 /\
       intersect_planes (Plane p1 u1) (Plane p2 u2) = Line (vadd pos (vscale (vdot u (vsub p1 pos)) u)) u.
Proof.
  intros U1 U2 c. unfold intersect_planes; cbn [pl_n pl_p].
  assert (Z : mk_line (Vec 0 0 0) (Vec 0 0 0) = Line (Vec 0 0 0) (Vec 0 0 0)).
  { unfold mk_line. rewrite (proj2 (vnorm_zero (Vec 0 0 0)) eq_refl). destruct (Rlt_dec (/ 1000000000) 0); [lra|reflexivity]. }
  fold c. destruct (Rlt_dec (Rabs (c - 1)) (/ 1000000)) as [A|A]; [exact Z|]. rewrite U1, U2. cbv zeta.
  assert (CN := cross_norm u1 u2 U1 U2). fold c in CN. assert (P := dot_pos (vcross u1 u2)).
  replace (1 * 1 - c * c) with (1 - c * c) by ring. rewrite (Rabs_right (1 - c * c)) by lra.
  destruct (Rlt_dec (1 - c * c) (/ 1000000000)) as [B|B]; [exact Z|].
  set (d1 := vdot u1 p1). set (d2 := vdot u2 p2). set (det := 1 - c * c) in *.
  set (pos := vadd (vscale ((d1 * 1 - d2 * c) / det) u1) (vscale ((d2 * 1 - d1 * c) / det) u2)).
  assert (L : / 1000000000 < vnorm (vcross u1 u2)).
  { apply Rnot_le_lt. intros L. apply vnorm_le in L; [|lra]. lra. }
  destruct (mk_line_unit pos _ L) as (k & u & K & U & E & M & _). exists pos, k, u. repeat split; auto.
  - assert (vdot u1 pos = d1) by (unfold pos; replace (vdot u1 (vadd (vscale ((d1 * 1 - d2 * c) / det) u1) (vscale ((d2 * 1 - d1 * c) / det) u2))) with ((d1 * 1 - d2 * c) / det * vdot u1 u1 + (d2 * 1 - d1 * c) / det * c) by (unfold c; clear; clearbody d1 d2 det; vs; ring); rewrite U1; unfold det; field; fold det; lra).
    clearbody pos. unfold d1 in *. clear - H. vs. lra.
  - assert (vdot u2 pos = d2) by (unfold pos; replace (vdot u2 (vadd (vscale ((d1 * 1 - d2 * c) / det) u1) (vscale ((d2 * 1 - d1 * c) / det) u2))) with ((d1 * 1 - d2 * c) / det * c + (d2 * 1 - d1 * c) / det * vdot u2 u2) by (unfold c; clear; clearbody d1 d2 det; vs; ring); rewrite U2; unfold det; field; fold det; lra).
    clearbody pos. unfold d2 in *. clear - H. vs. lra.
  - rewrite M, (nearest_unit pos u p1 U). destruct (mk_line_unit (vadd pos (vscale (vdot u (vsub p1 pos)) u)) _ L) as (k' & u' & K' & U' & E' & M' & _). rewrite M'. f_equal.
    assert (KK : k = k'). { assert (k * k = k' * k'). { transitivity (vdot (vcross u1 u2) (vcross u1 u2)); [rewrite E|rewrite E'].
        - replace (vdot (vscale k u) (vscale k u)) with (k * k * vdot u u) by (clear; vs; ring). rewrite U. ring.
        - replace (vdot (vscale k' u') (vscale k' u')) with (k' * k' * vdot u' u') by (clear; vs; ring). rewrite U'. ring. } nra. }
    rewrite E, KK in E'. clear - E' K'. vs. injection E'; intros. f_equal; apply (Rmult_eq_reg_l k'); lra.
Qed.

(** ** Triangles *)
Lemma lagrange a b : vdot (vcross a b) (vcross a b) = vdot a a * vdot b b - vdot a b * vdot a b.
Proof. vs. ring. Qed.
Lemma area_cross a b c : triangle_area a b c = vnorm (vcross (vsub b a) (vsub c a)) / 2.
Proof.
  unfold triangle_area. set (p := vsub b a). set (q := vsub c a). cbv zeta.
  assert (Z : vnorm (Vec 0 0 0) = 0) by (apply vnorm_zero; reflexivity).
  destruct (Rle_dec (vnorm p) 0) as [A|A].
  - assert (E : p = Vec 0 0 0) by (apply vnorm_zero; assert (P := vnorm_pos p); lra). rewrite E. replace (vcross (Vec 0 0 0) q) with (Vec 0 0 0) by (clear; clearbody q; vs; f_equal; ring). rewrite Z. field.
  - destruct (Rle_dec (vnorm q) 0) as [B|B].
    + assert (E : q = Vec 0 0 0) by (apply vnorm_zero; assert (P := vnorm_pos q); lra). rewrite E. replace (vcross p (Vec 0 0 0)) with (Vec 0 0 0) by (clear; clearbody p; vs; f_equal; ring). rewrite Z. field.
    + assert (PP := vnorm_sq p). assert (QQ := vnorm_sq q). assert (LG := lagrange p q). assert (D := dot_pos (vcross p q)).
      set (m := vnorm p) in *. set (n := vnorm q) in *.
      replace (vdot (vscale (/ m) p) (vscale (/ n) q)) with (/ m * / n * vdot p q) by (clear; clearbody p q; vs; ring).
      set (k := / m * / n * vdot p q). assert (K : k * (m * n) = vdot p q) by (unfold k; field; lra).
      assert (MN : 0 < m * n) by (apply Rmult_lt_0_compat; lra).
      assert (E : (1 - k * k) * (m * n * (m * n)) = vdot (vcross p q) (vcross p q)) by (rewrite LG, <- PP, <- QQ, <- K; ring).
      unfold vnorm. rewrite <- E, sqrt_mult_alt by (apply Rnot_lt_le; intros F; assert (MM : 0 < m * n * (m * n)) by (apply Rmult_lt_0_compat; exact MN); generalize (Rmult_lt_gt_compat_neg_l _ _ _ F MM); intros; lra). rewrite sqrt_square by lra. field.
Qed.
Lemma vnorm_neg v : vnorm (vscale (-1) v) = vnorm v.
Proof. apply vnorm_eq_iff. vs. ring. Qed.
Lemma area_turn a b c : triangle_area a b c = triangle_area b c a.
Proof. rewrite !area_cross. do 2 f_equal. vs. f_equal; ring. Qed.
Lemma area_swap a b c : triangle_area a b c = triangle_area a c b.
Proof. rewrite !area_cross. rewrite <- vnorm_neg. do 2 f_equal. vs. f_equal; ring. Qed.
Lemma area_height a b c h : on_line a (vsub b a) h -> vdot (vsub c h) (vsub b a) = 0 -> triangle_area a b c = / 2 * dist3 a b * dist3 c h.
Proof.
  intros (t & ->) O. rewrite line_point in *. set (h := vadd a (vscale t (vsub b a))) in *. rewrite area_cross, !dist3_norm.
  assert (E : vcross (vsub b a) (vsub c a) = vcross (vsub b a) (vsub c h)) by (unfold h; clear; vs; f_equal; ring). rewrite E.
  assert (vnorm (vcross (vsub b a) (vsub c h)) = vnorm (vsub a b) * vnorm (vsub c h)); [|lra].
  assert (LG := lagrange (vsub b a) (vsub c h)). rewrite (vdot_sym (vsub b a) (vsub c h)), O in LG.
  replace (vdot (vsub b a) (vsub b a)) with (vdot (vsub a b) (vsub a b)) in LG by (clear; vs; ring). unfold vnorm. rewrite <- sqrt_mult_alt by apply dot_pos. f_equal. lra.
Qed.
Lemma area_zero a b c : triangle_area a b c = 0 <-> a = b \/ on_line a (vsub b a) c.
Proof.
  rewrite area_cross. split.
  - intros Z. assert (N : vnorm (vcross (vsub b a) (vsub c a)) = 0) by lra. apply vnorm_zero in N. destruct (Req_dec (vdot (vsub b a) (vsub b a)) 0) as [D|D].
    + left. apply dot_zero_vec in D. clear - D. vs. injection D; intros; f_equal; lra.
    + right. exists (vdot (vsub c a) (vsub b a) / vdot (vsub b a) (vsub b a)). rewrite line_point. set (u := vsub b a) in *. 
      replace c with (vadd a (vsub c a)) at 1 by (clear; vs; f_equal; ring). f_equal. set (w := vsub c a) in *. clearbody u w.
      assert (E : vscale (vdot u u) w = vscale (vdot w u) u) by (clear - N; vs; injection N; intros; f_equal; nsatz).
      assert (I : vscale (/ vdot u u) (vscale (vdot u u) w) = vscale (/ vdot u u) (vscale (vdot w u) u)) by (rewrite E; reflexivity). clear - I D.
      replace (vscale (/ vdot u u) (vscale (vdot u u) w)) with w in I by (set (k := vdot u u) in *; clearbody k; clear - D; vs; f_equal; field; exact D). etransitivity; [exact I|].
      unfold Rdiv. generalize (vdot w u) (/ vdot u u). clear. intros. vs. f_equal; ring.
  - intros H. assert (Z : vcross (vsub b a) (vsub c a) = Vec 0 0 0).
    { destruct H as [<-|(t & ->)]; [vs; f_equal; ring|]. vs; f_equal; ring. }
    rewrite Z, (proj2 (vnorm_zero _) eq_refl). field.
Qed.
Lemma collinear_area a b c : collinear a b c = true <-> 2 * triangle_area a b c < / 1000000.
Proof.
  unfold collinear. rewrite area_cross. replace (vcross (vsub b a) (vsub b c)) with (vscale (-1) (vcross (vsub b a) (vsub c a))) by (clear; vs; f_equal; ring). rewrite vnorm_neg.
  destruct (Rlt_dec _ (/ 1000000)) as [L|L]; split; intros; try lra; auto; discriminate.
Qed.
Definition triple (ps : list vec3) (i : nat) (a b c : vec3) : Prop := nth_error ps i = Some a /\ nth_error ps (S i) = Some b /\ nth_error ps (S (S i)) = Some c.
Lemma find_normal_cases ps : (find_normal ps = Vec 0 0 1 /\ forall i a b c, triple ps i a b c -> collinear a b c = true) \/
  exists i a b c, triple ps i a b c /\ collinear a b c = false /\ find_normal ps = vnormalize (vcross (vsub b a) (vsub b c)).
Proof.
  induction ps as [|a ps IH]; [left; split; [reflexivity|intros i a b c (H & _); destruct i; discriminate]|].
  destruct ps as [|b ps]; [left; split; [reflexivity|intros i x y z (_ & H & _); destruct i; discriminate]|].
  destruct ps as [|c ps]; [left; split; [reflexivity|intros i x y z (_ & _ & H); destruct i as [|[|i]]; discriminate]|].
  change (find_normal (a :: b :: c :: ps)) with (if collinear a b c then find_normal (b :: c :: ps) else vnormalize (vcross (vsub b a) (vsub b c))).
  destruct (collinear a b c) eqn:E.
  - destruct IH as [[IH1 IH2]|(i & x & y & z & T & C & F)].
    + left. split; [exact IH1|]. intros i x y z T. destruct i as [|i]; [destruct T as (X & Y & Z); cbn in X, Y, Z; congruence|]. apply (IH2 i x y z). exact T.
    + right. exists (S i), x, y, z. auto.
  - right. exists 0%nat, a, b, c. repeat split; auto.
Qed.
Lemma cross_in_plane n u v : vdot n n = 1 -> vdot u n = 0 -> vdot v n = 0 -> vcross u v = vscale (vdot n (vcross u v)) n.
Proof. intros N A B. vs. f_equal; nsatz. Qed.
Lemma not_collinear_cross a b c : collinear a b c = false -> vcross (vsub b a) (vsub b c) <> Vec 0 0 0.
Proof. unfold collinear. destruct (Rlt_dec _ _) as [L|L]; [discriminate|]. intros _ E. apply L. rewrite E, (proj2 (vnorm_zero _) eq_refl). lra. Qed.
Lemma find_normal_unit ps : vdot (find_normal ps) (find_normal ps) = 1.
Proof.
  destruct (find_normal_cases ps) as [[-> _]|(i & a & b & c & T & C & ->)]; [unfold vdot; cbn; ring|]. apply vnormalize_unit, not_collinear_cross, C.
Qed.
Lemma find_normal_plane ps q n i a b c : vdot n n = 1 -> (forall p, In p ps -> side q n p = 0) -> triple ps i a b c -> collinear a b c = false ->
  find_normal ps = n \/ find_normal ps = vscale (-1) n.
Proof.
  intros N PL T C. destruct (find_normal_cases ps) as [[_ A]|(i' & a' & b' & c' & (TA & TB & TC) & C' & E)]; [rewrite (A i a b c T) in C; discriminate|].
  assert (PA := PL _ (nth_error_In _ _ TA)). assert (PB := PL _ (nth_error_In _ _ TB)). assert (PC := PL _ (nth_error_In _ _ TC)).
  assert (U := find_normal_unit ps). rewrite E in *. assert (NZ := not_collinear_cross _ _ _ C').
  assert (X : vcross (vsub b' a') (vsub b' c') = vscale (vdot n (vcross (vsub b' a') (vsub b' c'))) n) by (apply cross_in_plane; [exact N|clear - PA PB; vs; lra|clear - PB PC; vs; lra]).
  set (w := vcross (vsub b' a') (vsub b' c')) in *. destruct (vnormalize_unit w NZ) as (_ & k & K & EK). set (v := vnormalize w) in *.
  assert (V : v = vscale (/ k * vdot n w) n).
  { transitivity (vscale (/ k) w); [rewrite EK at 1; clear - K; clearbody v; vs; f_equal; field; lra|]. rewrite X at 1. generalize (vdot n w). clear. intros. vs. f_equal; ring. }
  set (s := / k * vdot n w) in *. clear E. clearbody s v. subst v. try rewrite V in *. assert (SS : (s - 1) * (s + 1) = 0).
  { replace (vdot (vscale s n) (vscale s n)) with (s * s * vdot n n) in U by (clear; vs; ring). rewrite N in U. lra. }
  apply Rmult_integral in SS. destruct SS as [Z|Z]; [left|right]; [replace s with 1 by lra|replace s with (-1) by lra; reflexivity]. clear. vs. f_equal; ring.
Qed.
Lemma random_point_between x y a b c : random_point x y a b c = between x (between y c b) a.
Proof. unfold random_point. vs. f_equal; ring. Qed.
Lemma hull_bary a b c p : in_hull [a; b; c] p -> exists x y, 0 <= x /\ 0 <= y /\ x + y <= 1 /\ p = vadd (vadd (vscale x a) (vscale y b)) (vscale (1 - x - y) c).
Proof.
  induction 1 as [p I|t p p' T H (x & y & X & Y & S1 & ->) H' (x' & y' & X' & Y' & S1' & ->)].
  - destruct I as [<-|[<-|[<-|[]]]]; [exists 1, 0|exists 0, 1|exists 0, 0]; (repeat split; try lra); vs; f_equal; ring.
  - exists ((1 - t) * x + t * x'), ((1 - t) * y + t * y'). assert (0 <= (1 - t) * x) by nra. assert (0 <= t * x') by nra. assert (0 <= (1 - t) * y) by nra. assert (0 <= t * y') by nra.
    assert ((1 - t) * (x + y) <= 1 - t) by nra. assert (t * (x' + y') <= t) by nra. repeat split; try lra. clear. vs. f_equal; ring.
Qed.

(** ** Spherical coordinates *)
Lemma spherical_round p : / 100000000 <= vnorm p -> to_position (to_spherical p) = p.
Proof.
  intros L. unfold to_spherical. destruct (Rlt_dec (vnorm p) (/ 100000000)); [lra|]. unfold to_position; cbn [sr sphi stheta].
  assert (RR := vnorm_sq p). set (r := vnorm p) in *. assert (RP : 0 < r) by lra. destruct p as [x y z]. unfold vdot in RR; cbn [vx vy vz] in *.
  assert (B : -1 <= z / r <= 1).
  { split; (apply (Rmult_le_reg_r r); [exact RP|]); unfold Rdiv; rewrite Rmult_assoc, Rinv_l by lra; nra. }
  rewrite cos_acos, sin_acos by exact B.
  assert (ST : sqrt (1 - (z / r)²) = sqrt (x * x + y * y) / r).
  { replace (1 - (z / r)²) with ((x * x + y * y) / (r * r)) by (unfold Rsqr; replace (x * x + y * y) with (r * r - z * z) by lra; field; lra). rewrite sqrt_div_alt by nra. rewrite (sqrt_square r) by lra. reflexivity. }
  rewrite ST. destruct (Req_dec (x * x + y * y) 0) as [Z|Z].
  - assert (x = 0) by nra. assert (y = 0) by nra. subst x y. replace (0 * 0 + 0 * 0) with 0 by ring. rewrite sqrt_0. f_equal; field; lra.
  - assert (P : 0 < x * x + y * y) by nra. destruct (atan2_polar y x P) as [CE SE]. rewrite CE, SE. assert (0 < sqrt (x * x + y * y)) by (apply sqrt_lt_R0, P). f_equal; field; lra.
Qed.
Lemma spherical_back r phi theta : / 100000000 <= r -> - PI < phi <= PI -> 0 < theta < PI -> to_spherical (to_position (Spherical r phi theta)) = Spherical r phi theta.
Proof.
  intros R P T. assert (SP : 0 < sin theta) by (apply sin_gt_0; lra). assert (A := sin2_cos2 theta). assert (B := sin2_cos2 phi). unfold Rsqr in *.
  assert (E : vdot (to_position (Spherical r phi theta)) (to_position (Spherical r phi theta)) = r * r) by (unfold to_position, vdot; cbn [sr sphi stheta vx vy vz]; clear - A B; nsatz).
  unfold to_spherical. assert (N : vnorm (to_position (Spherical r phi theta)) = r) by (unfold vnorm; rewrite E; apply sqrt_square; lra). rewrite N.
  destruct (Rlt_dec r (/ 100000000)); [lra|]. unfold to_position; cbn [sr sphi stheta vx vy vz]. f_equal.
  - apply atan2_scaled; [nra|exact P].
  - replace (r * cos theta / r) with (cos theta) by (field; lra). apply acos_cos. lra.
Qed.
