(** A grasp with seven contacts that is force closed, and the hull of its wrenches: it meets what C86 and C88 ask for. *)
From Coq Require Import Reals List Lra Lia Arith.
From Verif Require Import QuatModel QuatSpec QuatProofs GwsModel GwsSpec GwsProofs GwsProps.
Import ListNotations.
Open Scope R_scope.

(** The contact at [p] (in metres) with the outer normal [n], the finger moving against the normal. *)
Definition touch (p n : vec3) : info := Info (vadd (vscale 1000 p) n) (vscale 1000 p) (vadd (vscale 1000 p) n) (vscale 1000 p) (vneg n).
Definition ny := Vec 0 1 0. Definition ny' := Vec 0 (-1) 0. Definition nz' := Vec 0 0 (-1). Definition nx' := Vec (-1) 0 0.
Definition seven : list info :=
  [touch (Vec 0 0 (-1)) ny; touch (Vec (-1) 1 0) ny'; touch (Vec 0 1 1) nz'; touch (Vec 0 1 (-1)) nx'; touch (Vec 1 1 1) ny; touch (Vec 0 (-1) 1) nx'; touch (Vec 0 (-1) (-1)) nz'].
Definition s2 : R := / sqrt 2.
(** Their wrenches. *)
Definition w7 (a b c d e f : R) : wrench := wscale s2 (we a b c d e f).
Definition wrenches : list wrench :=
  [w7 1 1 0 (-1) 1 0; w7 1 (-1) 0 0 0 0; w7 (-1) 0 (-1) 1 1 (-1); w7 (-1) 0 1 (-1) (-1) (-1); w7 1 1 0 1 (-1) 0; w7 (-1) 0 1 1 1 1; w7 (-1) 0 (-1) (-1) (-1) 1].
Definition plane (g : wrench) (h n : R) : facet := Facet (wscale (- / sqrt n) g) (- (h * s2 * / sqrt n)) [wzero].
Definition planes : answer := Answer
  [plane (we 1 2 0 (-2) 2 0) 1 13; plane (we 2 (-4) 0 0 0 0) 2 20; plane (we (-1) 0 (-2) 1 1 (-2)) 1 11; plane (we (-1) 0 2 (-1) (-1) (-2)) 1 11;
   plane (we 1 2 0 2 (-2) 0) 1 13; plane (we (-1) 0 2 1 1 2) 1 11; plane (we (-1) 0 (-2) (-1) (-1) 2) 1 11] wrenches 1.
Definition hull7 (pts : list wrench) : option answer := if list_eq_dec wrench_dec pts wrenches then Some planes else None.
Definition params7 : params := Params 1 (35 / 100) 1 2000 v0 hull7.

Lemma s2_pos : 0 < s2. Proof. apply Rinv_0_lt_compat, sqrt_lt_R0. lra. Qed.
Lemma s2_sq : s2 * s2 = 1 / 2. Proof. unfold s2. rewrite <- Rinv_mult, sqrt_sqrt by lra. field. Qed.
Lemma plane_le g h n x : 0 < n -> wdot (f_normal (plane g h n)) x + f_offset (plane g h n) <= 0 <-> 0 <= wdot g x + h * s2.
Proof.
  intros N. assert (I : 0 < / sqrt n) by (apply Rinv_0_lt_compat, sqrt_lt_R0, N). unfold plane. cbn [f_normal f_offset].
  rewrite (wdot_comm _ x), wdot_scale, (wdot_comm x g). set (k := / sqrt n) in *. set (y := wdot g x). set (t := s2) in *. clearbody k y t.
  replace (- k * y + - (h * t * k)) with (- (k * (y + h * t))) by ring. split; intros H.
  - apply Rmult_le_reg_l with k; [exact I|]. lra.
  - pose proof (Rmult_le_pos k _ (Rlt_le _ _ I) H). lra.
Qed.
Lemma plane_unit g h n : 0 < n -> wdot g g = n -> wdot (f_normal (plane g h n)) (f_normal (plane g h n)) = 1.
Proof.
  intros N G. unfold plane. cbn [f_normal]. rewrite wdot_scale, wdot_comm, wdot_scale, G. transitivity (/ (sqrt n * sqrt n) * n).
  - rewrite Rinv_mult. ring.
  - rewrite sqrt_sqrt by lra. field. lra.
Qed.
Lemma in_planes f : In f (a_facets planes) -> exists g h n, f = plane g h n /\ 0 < n /\ wdot g g = n /\ 0 < h /\ forall w, In w wrenches -> 0 <= wdot g w + h * s2.
Proof.
  pose proof s2_pos as P. intros F. cbn [planes a_facets In] in F.
  repeat (destruct F as [<-|F]; [do 3 eexists; split; [reflexivity|]; split; [lra|]; split; [unfold we; vec; lra|]; split; [lra|]; intros w W; unfold wrenches, w7 in W; cbn [In] in W;
    repeat (destruct W as [<-|W]; [rewrite wdot_scale; unfold we; vec; lra|]); destruct W|]). destruct F.
Qed.
Lemma hull7_ok : qhull_ok hull7.
Proof.
  intros pts a E. unfold hull7 in E. destruct (list_eq_dec wrench_dec pts wrenches) as [-> |]; [|discriminate E]. injection E as <-. pose proof s2_pos as P. split.
  - split; [discriminate|]. split; [discriminate|]. split; [auto|]. intros x. split.
    + intros (cs & L & C & S & <-) f F. destruct (in_planes f F) as (g & h & n & -> & N & _ & _ & W). apply plane_le; [exact N|].
      pose proof (wdot_comb_le (wscale (-1) g) (h * s2) cs wrenches L C) as X. rewrite S, (wdot_comm _ (comb _ _)), wdot_scale, (wdot_comm (comb _ _)) in X.
      assert (-1 * wdot g (comb cs wrenches) <= 1 * (h * s2)); [|lra]. apply X. intros w I. specialize (W w I). rewrite (wdot_comm _ w), wdot_scale, (wdot_comm w). lra.
    + intros H. assert (Y : exists a b c d e f, x = wscale s2 (we a b c d e f)).
      { destruct x as [[a b c] [d e f]]. exists (a / s2), (b / s2), (c / s2), (d / s2), (e / s2), (f / s2). unfold we. vec. veq; field; lra. }
      destruct Y as (a & b & c & d & e & f & ->).
      assert (G : forall g h n, In (plane g h n) (a_facets planes) -> 0 < n -> 0 <= (wdot g (we a b c d e f) + h) / 8).
      { intros g h n I N. specialize (H _ I). apply plane_le in H; [|exact N]. rewrite wdot_scale in H. apply Rmult_le_reg_l with (8 * s2); lra. }
      exists (map (fun gh => (wdot (fst gh) (we a b c d e f) + snd gh) / 8)
        [(we 1 2 0 (-2) 2 0, 1); (we 2 (-4) 0 0 0 0, 2); (we (-1) 0 (-2) 1 1 (-2), 1); (we (-1) 0 2 (-1) (-1) (-2), 1); (we 1 2 0 2 (-2) 0, 1); (we (-1) 0 2 1 1 2, 1); (we (-1) 0 (-2) (-1) (-1) 2, 1)]).
      cbn [map fst snd]. split; [reflexivity|]. split; [|split].
      * repeat (apply Forall_cons; [eapply G; [cbn [planes a_facets In]; tauto|lra]|]). apply Forall_nil.
      * cbn [sum fold_right]. unfold we, wdot, vdot. cbn [fst snd vx vy vz]. field.
      * unfold wrenches, w7. cbn [comb]. unfold wdot, vdot. cbn [fst snd vx vy vz we]. wexp. unfold we. veq; field.
  - intros f F. destruct (in_planes f F) as (g & h & n & -> & N & G & _ & _). split; [exact (plane_unit g h n N G)|discriminate].
Qed.

(** The cone of one contact. *)
Lemma unit_dir e a b c : 0 < e -> a * a + b * b + c * c = 2 -> vnormalize (Vec (e * a) (e * b) (e * c)) = Vec (s2 * a) (s2 * b) (s2 * c).
Proof.
  intros E N. unfold vnormalize, vnorm. replace (vdot _ _) with (2 * (e * e)) by (unfold vdot; cbn [vx vy vz]; rewrite <- N; ring).
  assert (0 < e * e) by (apply Rmult_lt_0_compat; exact E). destruct Rlt_dec as [_|X]; [|lra]. rewrite sqrt_mult, sqrt_square by lra.
  assert (0 < sqrt 2) by (apply sqrt_lt_R0; lra). unfold s2. unfold vscale. cbn [vx vy vz]. f_equal; field; lra.
Qed.
Lemma unit_same v : vdot v v = 1 -> vnormalize v = v.
Proof. intros V. destruct v as [a b c]. unfold vnormalize. destruct Rlt_dec as [_|K]; [|reflexivity]. unfold vnorm. rewrite V, sqrt_1. unfold vscale. cbn [vx vy vz]. f_equal; field. Qed.
Lemma vnorm_one v : vdot v v = 1 -> vnorm v = 1. Proof. intros V. unfold vnorm. rewrite V. apply sqrt_1. Qed.
Ltac q1 := unfold vdot; cbn [vx vy vz]; ring.
Lemma half : sqrt (1 / 2) * sqrt (1 / 2) = 1 / 2. Proof. apply sqrt_sqrt. lra. Qed.
Lemma quarter n : vdot n n = 1 -> vz n = 0 -> get_rotation (Vec 0 0 1) n = Quat (sqrt (1 / 2) * - vy n) (sqrt (1 / 2) * vx n) 0 (sqrt (1 / 2)).
Proof.
  intros N Z. unfold get_rotation. rewrite (unit_same (Vec 0 0 1)) by q1. rewrite (unit_same n N). destruct n as [a b c]. cbn [vx vy vz] in *. subst c.
  assert (C : vcross (Vec 0 0 1) (Vec a b 0) = Vec (- b) a 0) by (unfold vcross; cbn [vx vy vz]; f_equal; ring). rewrite C.
  assert (V : vdot (Vec (- b) a 0) (Vec (- b) a 0) = 1) by (rewrite <- N; unfold vdot; cbn [vx vy vz]; ring).
  rewrite (vnorm_one _ V). destruct (Req_EM_T 1 0); [lra|]. rewrite (unit_same _ V).
  replace (vdot (Vec 0 0 1) (Vec a b 0)) with 0 by (unfold vdot; cbn [vx vy vz]; ring). replace (Rabs (1 - 0)) with 1 by (rewrite Rabs_right; lra). replace (Rabs (1 + 0)) with 1 by (rewrite Rabs_right; lra).
  rewrite Rmult_1_r. unfold vscale. cbn [vx vy vz]. f_equal; ring.
Qed.
Lemma half_turn_z : get_rotation (Vec 0 0 1) nz' = Quat 0 1 0 0.
Proof.
  unfold get_rotation, nz'. rewrite (unit_same (Vec 0 0 1)) by q1. rewrite (unit_same (Vec 0 0 (-1))) by q1.
  assert (C : vcross (Vec 0 0 1) (Vec 0 0 (-1)) = Vec 0 0 0) by (unfold vcross; cbn [vx vy vz]; f_equal; ring). rewrite C.
  rewrite (proj2 (vnorm_zero _) eq_refl). destruct (Req_EM_T 0 0) as [_|X]; [|congruence].
  replace (vdot (Vec 0 0 1) (Vec 0 0 (-1))) with (-1) by q1. destruct (Rlt_dec 0 (-1)); [lra|].
  assert (C2 : vcross (Vec 0 0 1) (Vec 1 0 0) = Vec 0 1 0) by (unfold vcross; cbn [vx vy vz]; f_equal; ring). rewrite C2.
  assert (V : vdot (Vec 0 1 0) (Vec 0 1 0) = 1) by q1. rewrite (vnorm_one _ V). destruct (Req_EM_T 1 0); [lra|]. rewrite (unit_same _ V). reflexivity.
Qed.
Lemma rim0 : exists e, 0 < e /\ vscale 1 (rim 1 (35 / 100) 1 0) = Vec e 0 e.
Proof.
  exists (cos (atan (35 / 100))). split; [apply cos_atan_pos|]. unfold rim. replace (INR 0 * 2 * PI / INR 1) with 0 by (cbn; field). rewrite cos_0, sin_0. unfold vscale. cbn [vx vy vz]. f_equal; ring.
Qed.
Lemma direction n d0 d1 d2 : d0 * d0 + d1 * d1 + d2 * d2 = 2 ->
  (forall e, mapply (to_mat (get_rotation (Vec 0 0 1) n)) (Vec e 0 e) = Vec (e * d0) (e * d1) (e * d2)) ->
  forall p, pushes params7 [Contact p n 1] = [push p (Vec (- (s2 * d0)) (- (s2 * d1)) (- (s2 * d2)))].
Proof.
  intros D M p. unfold pushes. cbn [flat_map p_samples p_mu p_unit params7]. rewrite app_nil_r. unfold cone_points. cbn [seq map c_p c_n c_force].
  destruct rim0 as (e & E & R). rewrite R, M, (unit_dir e d0 d1 d2 E D). reflexivity.
Qed.
Lemma dir_y p : pushes params7 [Contact p ny 1] = [push p (Vec (- (s2 * 1)) (- (s2 * 1)) (- (s2 * 0)))].
Proof.
  apply direction; [ring|]. intros e. rewrite quarter by (reflexivity || (unfold ny; q1)). unfold ny, to_mat, mapply. cbn [qx qy qz qw vx vy vz m00 m01 m02 m10 m11 m12 m20 m21 m22]. pose proof half as H. set (h := sqrt (1 / 2)) in *. clearbody h.
  assert (e * (h * h) = e * (1 / 2)) by (rewrite H; reflexivity). f_equal; lra.
Qed.
Lemma dir_y' p : pushes params7 [Contact p ny' 1] = [push p (Vec (- (s2 * 1)) (- (s2 * -1)) (- (s2 * 0)))].
Proof.
  apply direction; [ring|]. intros e. rewrite quarter by (reflexivity || (unfold ny'; q1)). unfold ny', to_mat, mapply. cbn [qx qy qz qw vx vy vz m00 m01 m02 m10 m11 m12 m20 m21 m22]. pose proof half as H. set (h := sqrt (1 / 2)) in *. clearbody h.
  assert (e * (h * h) = e * (1 / 2)) by (rewrite H; reflexivity). f_equal; lra.
Qed.
Lemma dir_x' p : pushes params7 [Contact p nx' 1] = [push p (Vec (- (s2 * -1)) (- (s2 * 0)) (- (s2 * 1)))].
Proof.
  apply direction; [ring|]. intros e. rewrite quarter by (reflexivity || (unfold nx'; q1)). unfold nx', to_mat, mapply. cbn [qx qy qz qw vx vy vz m00 m01 m02 m10 m11 m12 m20 m21 m22]. pose proof half as H. set (h := sqrt (1 / 2)) in *. clearbody h.
  assert (e * (h * h) = e * (1 / 2)) by (rewrite H; reflexivity). f_equal; lra.
Qed.
Lemma dir_z' p : pushes params7 [Contact p nz' 1] = [push p (Vec (- (s2 * -1)) (- (s2 * 0)) (- (s2 * -1)))].
Proof.
  apply direction; [ring|]. intros e. rewrite half_turn_z. unfold to_mat, mapply. cbn [qx qy qz qw vx vy vz m00 m01 m02 m10 m11 m12 m20 m21 m22]. f_equal; ring.
Qed.
Lemma touch_contact p n : vdot n n = 1 -> mm2m (of_info params7 (touch p n)) = Contact p n 1.
Proof.
  intros N. unfold mm2m, of_info, touch. cbn [c_p c_n c_force obstacle_local finger_local obstacle_global finger_global approach p_center params7].
  replace (vsub (vadd (vscale 1000 p) n) (vscale 1000 p)) with n by (destruct n, p; vec; veq; ring). rewrite (unit_same n N).
  replace (vsub (vscale 1000 p) (vadd (vscale 1000 p) n)) with (vneg n) by (destruct n, p; vec; veq; ring).
  assert (NN : vdot (vneg n) (vneg n) = 1) by (rewrite <- N; vec; ring). rewrite (vnorm_one _ NN), NN. destruct (Rlt_dec (1 / 10 ^ 10) 1) as [_|X].
  - f_equal; [destruct p; vec; veq; field|field].
  - exfalso. apply X. unfold Rdiv. rewrite Rmult_1_l. apply Rmult_lt_reg_l with (10 ^ 10); [apply pow_lt; lra|]. rewrite Rinv_r by (apply pow_nonzero; lra). rewrite Rmult_1_r. apply Rlt_pow_R1; [lra|lia].
Qed.
Lemma pushes_cons c l : pushes params7 (c :: l) = pushes params7 [c] ++ pushes params7 l.
Proof. unfold pushes. cbn [flat_map]. rewrite app_nil_r. reflexivity. Qed.
Lemma seven_points m : wrench_points params7 (contacts_m (set_infos params7 seven m)) = wrenches.
Proof.
  unfold set_infos. cbn [contacts_m]. rewrite map_map. unfold seven. cbn [map].
  rewrite !touch_contact by (unfold ny, ny', nz', nx'; q1). rewrite wrench_points_flip.
  do 6 (rewrite (pushes_cons _ (_ :: _))). rewrite !dir_y, !dir_y', !dir_x', !dir_z'. cbn [app map p_length params7].
  replace (factor 2000) with 1 by (unfold factor; destruct (Req_EM_T 2000 0); [lra|field]).
  unfold wrenches, w7, we, flip. vec. repeat apply f_equal2; try reflexivity; veq; ring.
Qed.

(** All that C86 and C88 ask for. *)
Example C86_closed_case : forall m, qhull_ok (p_qhull params7) /\ seven <> [] /\
  p_qhull params7 (wrench_points params7 (contacts_m (set_infos params7 seven m))) = Some planes /\ (forall f, In f (a_facets planes) -> f_offset f < 0).
Proof.
  intros m. split; [exact hull7_ok|]. split; [discriminate|]. split; [rewrite seven_points; cbn [p_qhull params7]; unfold hull7; destruct list_eq_dec; [reflexivity|congruence]|].
  intros f F. destruct (in_planes f F) as (g & h & n & -> & N & _ & H & _). cbn [plane f_offset]. apply Ropp_lt_gt_0_contravar. pose proof s2_pos.
  apply Rmult_lt_0_compat; [apply Rmult_lt_0_compat; assumption|]. apply Rinv_0_lt_compat, sqrt_lt_R0, N.
Qed.
(** So every wrench can be applied, and the measure says so. *)
Example C86_closed_case_answer : (forall w, applicable params7 (contacts_m (set_infos params7 seven fresh)) w) /\ fst (force_closure params7 (set_infos params7 seven fresh)) = true.
Proof. destruct (C86_closed_case fresh) as (Q & N & E & O). exact (C86_closed params7 seven fresh planes Q N E O). Qed.
Example C88_case_grasp : let m := precalculated 2 1 fresh in
  (4 <= length (wrench_points params7 (contacts_m (set_infos params7 seven m))))%nat /\ 0 < a_volume planes /\
  fst (quality params7 [] (set_infos params7 seven m)) * ows_offset m < flt_max.
Proof.
  intros m. destruct (C86_closed_case m) as (Q & N & E & O). assert (L : (4 <= length (wrench_points params7 (contacts_m (set_infos params7 seven m))))%nat) by (rewrite seven_points; cbn; lia).
  split; [exact L|]. split; [cbn; lra|]. rewrite (quality_after params7 seven m [] N eq_refl). cbv zeta. destruct (hull_nonempty _ _ _ Q L E) as [-> ->]. cbn [ows_offset m precalculated a_volume planes].
  destruct (Rle_dec 2 0); [lra|]. destruct (Rle_dec 1 0); [lra|]. destruct (Req_EM_T 2 0); [lra|].
  match goal with |- ?t / 2 * 2 < _ => replace (t / 2 * 2) with t by field end.
  rewrite (create_some _ _ _ L E). unfold min_offset. cbn [h_faces].
  destruct (Q _ _ E) as [(_ & NV & V & HH) U].
  assert (C : forall f, In f (a_facets planes) -> f_offset f + wdot (f_normal f) (mean (a_verts planes)) <= 0).
  { intros f F. assert (wdot (f_normal f) (mean (a_verts planes)) <= - f_offset f); [|lra]. apply mean_below; [exact NV|]. intros v W. apply V in W. apply in_hull_point in W.
    apply (proj1 (HH v)) with (f := f) in W; [lra|exact F]. }
  match goal with |- fold_left ?s ?fs _ < _ => destruct (min_offset_fold fs flt_max) as (A & B & _); [intros g G; apply in_map_iff in G as (f & <- & F); apply C, F|]; set (r := fold_left s fs flt_max) in * end.
  clearbody r. set (f0 := plane (we 1 2 0 (-2) 2 0) 1 13). assert (F0 : In f0 (a_facets planes)) by (left; reflexivity). pose proof (B _ (in_map _ _ _ F0)) as B0. cbn [dist_norm_center] in B0.
  apply Rle_lt_trans with (1 := B0).
  assert (FM : 1 < flt_max).
  { unfold flt_max. assert (1 <= 2 ^ 127) by (apply pow_R1_Rle; lra). assert (/ 2 ^ 23 < 1) by (rewrite <- Rinv_1; apply Rinv_lt_contravar; [rewrite Rmult_1_l; apply pow_lt; lra|apply Rlt_pow_R1; [lra|lia]]).
    assert (1 * 1 < (2 - / 2 ^ 23) * 2 ^ 127); [|lra]. apply Rlt_le_trans with ((2 - / 2 ^ 23) * 1); [lra|]. apply Rmult_le_compat_l; lra. }
  apply Rle_lt_trans with 1; [|exact FM].
  assert (ME : mean (a_verts planes) = wscale s2 (we (-1 / 7) (1 / 7) 0 0 0 0)).
  { unfold mean. change (a_verts planes) with wrenches. unfold wrenches, w7. cbn [length fold_left]. change (0 <? 7)%nat with true. cbv iota. replace (INR 7) with 7 by (cbn; lra). wexp. unfold we. veq; field. }
  rewrite ME. unfold f0, plane. cbn [f_normal f_offset]. rewrite wdot_comm, !wdot_scale, wdot_comm. 
  pose proof s2_pos as P. pose proof s2_sq as S2. assert (S1 : s2 < 3 / 4) by (destruct (Rlt_dec s2 (3 / 4)); [assumption|]; exfalso; assert (3 / 4 * (3 / 4) <= s2 * s2) by (apply Rmult_le_compat; lra); lra).
  assert (I13 : 0 < / sqrt 13 <= 1). { split; [apply Rinv_0_lt_compat, sqrt_lt_R0; lra|]. rewrite <- Rinv_1. apply Rinv_le_contravar; [lra|]. rewrite <- sqrt_1. apply sqrt_le_1; lra. }
  replace (wdot (we 1 2 0 (-2) 2 0) (we (-1 / 7) (1 / 7) 0 0 0 0)) with (1 / 7) by (unfold we; vec; field). 
  try rewrite (wdot_comm (we _ _ _ _ _ _) (wscale _ _)), wdot_scale.
  set (k := / sqrt 13) in *. set (t := s2) in *. clearbody k t.
  assert (0 < t * k <= 3 / 4). { split; [apply Rmult_lt_0_compat; lra|]. rewrite <- (Rmult_1_r (3 / 4)). apply Rmult_le_compat; lra. }
  replace (wdot _ _) with (t * (1 / 7)) by (rewrite wdot_scale; unfold we; vec; field). lra.
Qed.

(** The answer can be yes although the grasp cannot push the object along the outer normal of its only real contact. *)
Theorem C86_false_yes_refuted : let infos := [touch v0 ny; Info v0 v0 v0 v0 v0] in
  qhull_ok (p_qhull params7) /\ fst (force_closure params7 (set_infos params7 infos fresh)) = true /\
  ~ applicable params7 (contacts_m (set_infos params7 infos fresh)) (Vec 0 1 0, v0).
Proof.
  cbv zeta. split; [exact hull7_ok|].
  assert (Z : c_force (mm2m (of_info params7 (Info v0 v0 v0 v0 v0))) = 0).
  { unfold mm2m, of_info. cbn [c_force obstacle_global finger_global]. replace (vnorm (vsub v0 v0)) with 0; [destruct Rlt_dec; [lra|reflexivity]|]. symmetry. apply vnorm_zero. vec. veq; ring. }
  split.
  - eapply C86_zero_force_refuted; [exact hull7_ok|cbn; lia|right; left; reflexivity|exact Z].
  - cbn [contacts_m set_infos map]. rewrite touch_contact by (unfold ny; q1). intros (cs & L & F & E). apply (f_equal (wdot (Vec 0 1 0, v0))) in E.
    assert (B : forall w, In w (pushes params7 [Contact v0 ny 1; mm2m (of_info params7 (Info v0 v0 v0 v0 v0))]) -> wdot (Vec 0 1 0, v0) w <= 0).
    { intros w W. rewrite (pushes_cons _ (_ :: _)), dir_y in W. apply in_app_or in W as [[<-|[]]|W].
      - pose proof s2_pos. vec. lra.
      - unfold pushes in W. cbn [flat_map] in W. rewrite app_nil_r in W. apply in_map_iff in W as (d & <- & D). rewrite (cone_zero _ _ _ _ _ Z D). vec. lra. }
    pose proof (wdot_comb_le _ 0 cs _ L F B) as X. rewrite E in X. revert X. vec. lra.
Qed.
Print Assumptions C86_false_yes_refuted.
