(** C67-C71: planes, segments and boxes, lines, triangles, spherical coordinates. *)
From Coq Require Import Reals Lra Lia List Bool.
From Verif Require Import QuatModel QuatSpec QuatProofs RpyModel KinModel BBoxModel BBoxSpec BBoxProofs PlaneModel PlaneSpec PlaneProofs.
Import ListNotations.
Open Scope R_scope.

(** ** C67: points and planes *)
(** The projection lies in the plane, is the only nearest point of the plane, and the distance is signed: positive on the side of the normal. *)
Theorem C67_project : forall p n x, n <> Vec 0 0 0 ->
  let pl := mk_plane p n in let y := project x pl in
  side p n y = 0 /\
  (forall z, side p n z = 0 -> dist3 x y <= dist3 x z /\ (dist3 x z = dist3 x y -> z = y)) /\
  Rabs (plane_dist x pl) = dist3 x y /\
  (0 < plane_dist x pl <-> 0 < side p n x) /\ (plane_dist x pl < 0 <-> side p n x < 0) /\
  (on_side x pl = true <-> 0 <= side p n x).
Proof.
  intros p n x N. cbv zeta. destruct (mk_plane_normal p n N) as (k & u & K & U & -> & ->). rewrite !side_scale.
  assert (SC : forall z, k * side p u z = 0 <-> side p u z = 0) by (intros z; apply scale_zero_iff, K).
  split; [rewrite (side_project p u x U); ring|]. split; [|split; [|split; [|split]]].
  - intros z Z. rewrite side_scale in Z. apply SC in Z. assert (E := project_nearest p u x z U Z). assert (E0 := project_nearest p u x (project x (Plane p u)) U (side_project p u x U)).
    set (y := project x (Plane p u)) in *. assert (Y : vdot (vsub y y) (vsub y y) = 0) by (clear; clearbody y; vs; ring). rewrite Y in E0. split.
    + rewrite !dist3_norm. apply vnorm_le_iff. assert (D := dot_pos (vsub y z)). lra.
    + rewrite !dist3_norm. intros D. apply vnorm_eq_iff in D. assert (Q : vdot (vsub y z) (vsub y z) = 0) by lra. apply dot_zero_vec in Q. clear - Q. clearbody y. vs. injection Q; intros. f_equal; lra.
  - rewrite plane_dist_side. symmetry. apply project_dist, U.
  - rewrite plane_dist_side. split; intros; nra.
  - rewrite plane_dist_side. split; intros; nra.
  - rewrite on_side_iff. symmetry. apply scale_le_iff, K.
Qed.
(** The conversion of plane coordinates to space is an isometry onto the plane that takes the origin to the point of the plane. *)
Theorem C67_plane_point : forall p n, n <> Vec 0 0 0 -> let pl := mk_plane p n in
  plane_point (0, 0) pl = p /\
  (forall a, side p n (plane_point a pl) = 0) /\
  (forall a b, dist3 (plane_point a pl) (plane_point b pl) = dist2 a b) /\
  (forall x, side p n x = 0 -> exists a, plane_point a pl = x).
Proof.
  intros p n N. cbv zeta. destruct (mk_plane_normal p n N) as (k & u & K & U & -> & ->). split; [apply plane_point_zero|]. split; [|split].
  - intros a. rewrite side_scale, plane_point_on by exact U. ring.
  - intros a b. apply plane_point_iso, U.
  - intros x X. rewrite side_scale in X. apply scale_zero_iff in X; [|exact K]. apply plane_point_onto; auto.
Qed.
(** The plane coordinates of points have the distances of their projections.  Converted back to space they give the projection moved by a
    vector of the plane that is the same for all points; it is zero if the plane is given by the origin, or has an upright normal. *)
Theorem C67_coordinates : forall p n, n <> Vec 0 0 0 -> let pl := mk_plane p n in
  (forall x y, dist2 (project2 x pl) (project2 y pl) = dist3 (project x pl) (project y pl)) /\
  exists d, vdot n d = 0 /\ (forall x, plane_point (project2 x pl) pl = vadd (project x pl) d) /\
    (p = Vec 0 0 0 \/ (vx n = 0 /\ vy n = 0 /\ 0 < vz n) -> d = Vec 0 0 0).
Proof.
  intros p n N. cbv zeta. destruct (mk_plane_normal p n N) as (k & u & K & U & E & ->). split; [intros x y; apply project2_iso, U|].
  exists (shift p u). split; [|split].
  - rewrite E. assert (F := shift_flat p u U). set (d := shift p u) in *. clearbody d. replace (vdot (vscale k u) d) with (k * vdot u d) by (clear; vs; ring). rewrite F. ring.
  - intros x. apply plane_point_project2, U.
  - intros [-> | (X & Y & Z)]; [apply shift_origin|]. assert (EZ : u = ez); [|rewrite EZ; apply shift_up].
    rewrite E in X, Y, Z. unfold vscale in X, Y, Z; cbn [vx vy vz] in X, Y, Z. destruct u as [x y z]; cbn [vx vy vz] in *. assert (x = 0) by nra. assert (y = 0) by nra. subst x y. unfold vdot in U; cbn [vx vy vz] in U.
    assert (0 < z) by nra. unfold ez. f_equal. nra.
Qed.
(** "Converting the plane coordinates of a point back gives its projection" is wrong: with the normal (1,0,0) through (1,0,0) it is missed. *)
Theorem C67_roundtrip_refuted : exists p n x, n <> Vec 0 0 0 /\ let pl := mk_plane p n in
  project x pl = x /\ plane_point (project2 x pl) pl <> project x pl.
Proof.
  exists (Vec 1 0 0), (Vec 1 0 0), (Vec 1 0 0). assert (N : Vec 1 0 0 <> Vec 0 0 0) by (intros E; injection E; lra). split; [exact N|]. cbv zeta.
  assert (U : vdot (Vec 1 0 0) (Vec 1 0 0) = 1) by (unfold vdot; cbn; ring). unfold mk_plane. rewrite (vnormalize_of_unit _ U).
  assert (PR : project (Vec 1 0 0) (Plane (Vec 1 0 0) (Vec 1 0 0)) = Vec 1 0 0) by (apply project_fix; unfold side; cbn; ring). split; [exact PR|].
  rewrite (plane_point_project2 _ _ _ U), PR. intros E. assert (Z : shift (Vec 1 0 0) (Vec 1 0 0) = Vec 0 0 0).
  { clear - E. set (d := shift _ _) in *. clearbody d. vs. injection E; intros. f_equal; lra. }
  (* the local x and y coordinates of the rotated point are zero, but those of the point are not *)
  unfold shift in Z. cbv zeta in Z. assert (R := turn_up_rot _ U). set (m := turn_up (Vec 1 0 0)) in *.
  assert (B : mapply (mtrans m) (Vec 1 0 0) = ez) by (rewrite <- (turn_up_ez _ U) at 1; exact (proj1 (mapply_inverse m ez R))). rewrite B in Z.
  destruct (mapply_inverse m (Vec (vx (vsub ez (Vec 1 0 0))) (vy (vsub ez (Vec 1 0 0))) 0) R) as [I _]. rewrite Z in I. clear - I. destruct (mtrans m) as [a0 a1 a2 a3 a4 a5 a6 a7 a8].
  unfold mapply, vsub, ez in I; cbn [m00 m01 m02 m10 m11 m12 m20 m21 m22 vx vy vz] in I. injection I; intros; lra.
Qed.
Example C67_example : project (Vec 3 4 5) (mk_plane (Vec 0 0 1) (Vec 0 0 2)) = Vec 3 4 1.
Proof.
  assert (E : mk_plane (Vec 0 0 1) (Vec 0 0 2) = Plane (Vec 0 0 1) (Vec 0 0 1)).
  { unfold mk_plane, vnormalize, vnorm, vdot, vscale; cbn [vx vy vz]. destruct (Rlt_dec 0 (0 * 0 + 0 * 0 + 2 * 2)); [|lra]. replace (0 * 0 + 0 * 0 + 2 * 2) with (2 * 2) by ring. rewrite sqrt_square by lra. f_equal. f_equal; field. }
  rewrite E. unfold project. rewrite plane_dist_side. unfold side, vsub, vscale; cbn [pl_n vx vy vz]. f_equal; ring.
Qed.

(** ** C68: segments, boxes and planes *)
(** A reported point is the only common point of the segment and the plane; a point is reported exactly if one end is on the side of the
    normal or in the plane, the other one is strictly on the other side, and their distances differ by at least 1e-6. *)
Theorem C68_segment : forall p n a b, n <> Vec 0 0 0 -> let pl := mk_plane p n in
  (forall x, intersect_segment a b pl = Some x -> on_segment a b x /\ side p n x = 0 /\ forall y, on_segment a b y -> side p n y = 0 -> y = x) /\
  ((exists x, intersect_segment a b pl = Some x) <->
   ((0 <= side p n a /\ side p n b < 0) \/ (side p n a < 0 /\ 0 <= side p n b)) /\ / 1000000 <= Rabs (plane_dist b pl - plane_dist a pl)).
Proof.
  intros p n a b N. cbv zeta. destruct (mk_plane_normal p n N) as (k & u & K & U & -> & ->). split.
  - intros x H. apply intersect_some in H. destruct H as (O & Z & _ & Q). rewrite side_scale, Z. split; [exact O|]. split; [ring|]. intros y Y YZ. rewrite side_scale in YZ. apply Q; [exact Y|]. apply scale_zero_iff in YZ; auto.
  - rewrite !side_scale, !plane_dist_side. assert (H := intersect_none a b p u). unfold min_to_zero in H. set (sa := side p u a) in *. set (sb := side p u b) in *.
    assert (A : 0 <= k * sa <-> 0 <= sa) by (apply scale_le_iff, K). assert (B : 0 <= k * sb <-> 0 <= sb) by (apply scale_le_iff, K).
    assert (A' : k * sa < 0 <-> sa < 0) by (split; intros; nra). assert (B' : k * sb < 0 <-> sb < 0) by (split; intros; nra).
    rewrite A, B, A', B'. destruct (intersect_segment a b (Plane p u)) as [x|].
    + split; [intros _|intros _; exists x; reflexivity]. assert (NH : ~ ((0 <= sa <-> 0 <= sb) \/ Rabs (sb - sa) < / 1000000)) by (intros F; apply H in F; discriminate).
      split; [|apply Rnot_lt_le; intros F; apply NH; right; exact F]. destruct (Rle_dec 0 sa) as [P|P], (Rle_dec 0 sb) as [Q|Q]; [exfalso; apply NH; left; tauto|left; lra|right; lra|exfalso; apply NH; left; tauto].
    + split; [intros (x & E); discriminate|]. intros [C D]. destruct (proj1 H eq_refl) as [F|F]; lra.
Qed.
(** "A segment that touches the plane is reported, whichever way the normal points" is wrong. *)
Theorem C68_segment_refuted : exists a b p n x, n <> Vec 0 0 0 /\ on_segment a b x /\ side p n x = 0 /\
  intersect_segment a b (mk_plane p n) = None /\ intersect_segment a b (mk_plane p (vscale (-1) n)) = Some x.
Proof.
  exists (Vec 0 0 1), (Vec 0 0 0), (Vec 0 0 0), (Vec 0 0 1), (Vec 0 0 0). split; [intros E; injection E; lra|].
  assert (O : on_segment (Vec 0 0 1) (Vec 0 0 0) (Vec 0 0 0)) by (exists 1; split; [lra|]; unfold between; cbn; f_equal; ring). split; [exact O|]. split; [unfold side; cbn; ring|].
  assert (U : vdot (Vec 0 0 1) (Vec 0 0 1) = 1) by (unfold vdot; cbn; ring). assert (U' : vdot (vscale (-1) (Vec 0 0 1)) (vscale (-1) (Vec 0 0 1)) = 1) by (unfold vdot, vscale; cbn; ring).
  unfold mk_plane. rewrite (vnormalize_of_unit _ U), (vnormalize_of_unit _ U'). split.
  - apply intersect_none. left. unfold side; cbn [vx vy vz]. split; intros; lra.
  - destruct (intersect_segment _ _ (Plane (Vec 0 0 0) (vscale (-1) (Vec 0 0 1)))) as [x|] eqn:E.
    + apply intersect_some in E. destruct E as (_ & _ & _ & Q). f_equal. symmetry. apply Q; [exact O|]. unfold side, vscale; cbn. ring.
    + exfalso. apply intersect_none in E. revert E. unfold side, vscale, min_to_zero; cbn [vx vy vz]. intros [E|E]; [lra|]. revert E. unfold Rabs. destruct (Rcase_abs _); intros; lra.
Qed.
(** The points stored for a box and a plane are in both, and no two of them within 1e-6; and the reported set is complete: if no corner is
    within 5e-7 of the plane then every common point is within 1e-6 of the convex hull of the points found, which are stored if there are at least three. *)
Theorem C68_box : forall b p n, n <> Vec 0 0 0 -> ordered (bb_min b) (bb_max b) -> let pl := mk_plane p n in
  exists pts, intersect_oobb b pl = (if Nat.ltb (length pts) 3 then None else Some pts) /\
    (forall x, In x pts -> in_box b x /\ side p n x = 0) /\ spread (/ 1000000) pts /\
    ((forall c, is_corner b c -> / 2000000 <= Rabs (plane_dist c pl)) ->
     forall x, in_box b x -> side p n x = 0 -> exists y, in_hull pts y /\ dist3 x y <= / 1000000).
Proof.
  intros b p n N O. cbv zeta. destruct (mk_plane_normal p n N) as (k & u & K & U & -> & ->).
  exists (fold_left (gather (Plane p u)) (segments b) []). split; [reflexivity|]. split; [|split].
  - intros x I. destruct (found_sound b p u x O I) as [A B]. split; [exact A|]. rewrite side_scale, B. ring.
  - apply found_spread.
  - intros C x I Z. rewrite side_scale in Z. apply scale_zero_iff in Z; [|exact K]. apply (found_complete b p u x); auto. intros c Hc. specialize (C c Hc). rewrite plane_dist_side in C. unfold min_to_zero. lra.
Qed.
(** "A box that meets a plane in a face is reported" is wrong: nothing is found if the box lies on the side of the normal. *)
Theorem C68_box_refuted : exists b p n, n <> Vec 0 0 0 /\ ordered (bb_min b) (bb_max b) /\
  intersect_oobb b (mk_plane p n) = None /\ forall x y, 0 <= x <= 1 -> 0 <= y <= 1 -> in_box b (Vec x y 0) /\ side p n (Vec x y 0) = 0.
Proof.
  exists (Oobb (Vec 0 0 0) (Vec 1 1 1) pid), (Vec 0 0 0), (Vec 0 0 1). split; [intros E; injection E; lra|]. split; [unfold ordered; cbn; lra|]. split.
  - unfold mk_plane. rewrite (vnormalize_of_unit (Vec 0 0 1)) by (unfold vdot; cbn; ring). set (b := Oobb (Vec 0 0 0) (Vec 1 1 1) pid).
    assert (S1 : forall s, In s (segments b) -> intersect_segment (fst s) (snd s) (Plane (Vec 0 0 0) (Vec 0 0 1)) = None).
    { intros s I. apply intersect_none. left. rewrite segments_frac in I. assert (P : forall a c d, 0 <= d -> 0 <= side (Vec 0 0 0) (Vec 0 0 1) (at_frac b a c d)).
      { intros a c d D. unfold at_frac, to_global, side, mix, b, pid, mid, mapply, vadd; cbn [bb_pose bb_min bb_max prot ppos m00 m01 m02 m10 m11 m12 m20 m21 m22 vx vy vz]. lra. }
      cbn [In] in I. repeat (destruct I as [<-|I]; [cbn [fst snd]; split; intros _; apply P; lra|]). destruct I. }
    unfold intersect_oobb. assert (G : forall ss, (forall s, In s ss -> intersect_segment (fst s) (snd s) (Plane (Vec 0 0 0) (Vec 0 0 1)) = None) -> fold_left (gather (Plane (Vec 0 0 0) (Vec 0 0 1))) ss [] = []).
    { induction ss as [|s ss IH]; intros H; [reflexivity|]. cbn [fold_left]. unfold gather at 2. rewrite (H s (or_introl eq_refl)). apply IH. intros s' I'. apply H. right. exact I'. }
    rewrite (G _ S1). reflexivity.
  - intros x y X Y. split; [|unfold side; cbn; ring]. exists (Vec x y 0). split; [unfold within; cbn [vx vy vz bb_min bb_max]; lra|]. unfold image, pid, mid; cbn [bb_pose prot ppos m00 m01 m02 m10 m11 m12 m20 m21 m22 vx vy vz]. f_equal; ring.
Qed.
(** Given another frame, a box becomes the smallest box of that frame that contains it. *)
Theorem C68_change_frame : forall b g, rotation (prot g) -> ordered (bb_min b) (bb_max b) ->
  (forall q, in_box b (image g q) -> within (Vec (- flt_max) (- flt_max) (- flt_max)) (Vec flt_max flt_max flt_max) q) ->
  let b' := change_coord b g in
  bb_pose b' = g /\ (forall x, in_box b x -> in_box b' x) /\
  forall l h, (forall x, in_box b x -> in_box (Oobb l h g) x) -> forall x, in_box b' x -> in_box (Oobb l h g) x.
Proof.
  intros b g R O FM. cbv zeta. destruct (change_coord_eq b g) as (l & h & -> & E). set (t := pmul (inverted g) (bb_pose b)) in *.
  assert (T : forall v, image t v = image (inverted g) (image (bb_pose b) v)) by (intros v; apply image_pmul).
  assert (BX : forall v, within (bb_min b) (bb_max b) v -> in_box b (image g (image t v))).
  { intros v W. rewrite T. destruct (image_inverted g (image (bb_pose b) v) R) as [_ ->]. exists v. auto. }
  assert (CW : forall k, In k (corners (bb_min b) (bb_max b)) -> within (bb_min b) (bb_max b) k) by (intros k; apply corners_within, O).
  destruct (transform_ok (Box (pt (bb_min b)) (pt (bb_max b))) (bb_min b) (bb_max b) t) as (l' & h' & SP & W1 & W2); [split; reflexivity| |].
  { intros k I. apply FM, BX, CW, I. }
  destruct (E l' h' SP) as [-> ->]. split; [reflexivity|]. split.
  - intros x (v & W & ->). exists (image t v). split; [apply W1, W|]. cbn [bb_pose]. rewrite T. symmetry. apply image_inverted, R.
  - intros l h H x (q & W & ->). cbn [bb_min bb_max bb_pose] in *. destruct (W2 l h) as [A B].
    + intros c I. destruct (H _ (BX c (CW c I))) as (q' & W' & E'). cbn [bb_min bb_max bb_pose] in *. assert (EQ : image t c = q'); [|rewrite EQ; exact W'].
      rewrite <- (proj1 (image_inverted g (image t c) R)), E'. apply image_inverted, R.
    + exists q. split; [|reflexivity]. unfold within in *. cbn [bb_min bb_max]. lra.
Qed.
Example C68_example : exists pts, intersect_oobb (Oobb (Vec 0 0 0) (Vec 2 2 2) pid) (mk_plane (Vec 0 0 1) (Vec 0 0 1)) = Some pts /\
  exists y, in_hull pts y /\ dist3 (Vec 1 1 1) y <= / 1000000.
Proof.
  set (b := Oobb (Vec 0 0 0) (Vec 2 2 2) pid). assert (O : ordered (bb_min b) (bb_max b)) by (unfold ordered; cbn; lra).
  assert (N : Vec 0 0 1 <> Vec 0 0 0) by (intros E; injection E; lra).
  assert (AT : forall x y z, image (bb_pose b) (Vec x y z) = Vec x y z) by (intros; unfold image, b, pid, mid; cbn [bb_pose prot ppos m00 m01 m02 m10 m11 m12 m20 m21 m22 vx vy vz]; f_equal; ring).
  destruct (C68_box b (Vec 0 0 1) (Vec 0 0 1) N O) as (pts & E & _ & _ & C). unfold mk_plane in *. rewrite (vnormalize_of_unit (Vec 0 0 1)) in * by (unfold vdot; cbn; ring).
  assert (D : forall c, is_corner b c -> / 2000000 <= Rabs (plane_dist c (Plane (Vec 0 0 1) (Vec 0 0 1)))).
  { intros c (q & _ & _ & Q & ->). destruct q as [x y z]. rewrite AT, plane_dist_side. unfold side; cbn [vx vy vz] in *. cbn in Q. destruct Q as [-> | ->]; unfold Rabs; destruct (Rcase_abs _); lra. }
  specialize (C D). assert (IN : forall x y, 0 <= x <= 2 -> 0 <= y <= 2 -> exists w, in_hull pts w /\ dist3 (Vec x y 1) w <= / 1000000).
  { intros x y X Y. apply C; [|unfold side; cbn; ring]. exists (Vec x y 1). split; [unfold within; cbn; lra|symmetry; apply AT]. }
  destruct (Nat.ltb (length pts) 3) eqn:L; [|exists pts; split; [exact E|apply IN; lra]]. exfalso.
  (* three corners of the section cannot all be near a segment *)
  assert (HULL : forall w, in_hull pts w -> exists a c t, 0 <= t <= 1 /\ w = between t a c /\ (pts = [a] /\ a = c \/ pts = [a; c])).
  { apply Nat.ltb_lt in L. destruct pts as [|a [|c [|d pts]]]; [| | |cbn in L; lia].
    - intros w H. exfalso. induction H as [w []|t w w' _ _ IH _ _]. exact IH.
    - intros w H. exists a, a, 0. split; [lra|]. assert (w = a); [|subst; split; [vs; f_equal; ring|auto]]. induction H as [w [<-|[]]|t w w' _ _ -> _ ->]; [reflexivity|]. vs. f_equal; ring.
    - intros w H. exists a, c. enough (exists t, 0 <= t <= 1 /\ w = between t a c) as (t & T & W) by (exists t; auto).
      induction H as [w [<-|[<-|[]]]|t w w' T _ (t1 & T1 & ->) _ (t2 & T2 & ->)]; [exists 0|exists 1|exists (mix t t1 t2)]; (split; [try apply mix_within; try lra|unfold mix; clear; vs; f_equal; ring]).
      unfold mix. nra. }
  destruct (IN 0 0) as (w1 & H1 & D1); [lra|lra|]. destruct (IN 2 0) as (w2 & H2 & D2); [lra|lra|]. destruct (IN 0 2) as (w3 & H3 & D3); [lra|lra|].
  destruct (HULL _ H1) as (a & c & t1 & T1 & W1 & P1). destruct (HULL _ H2) as (a2 & c2 & t2 & T2 & W2 & P2). destruct (HULL _ H3) as (a3 & c3 & t3 & T3 & W3 & P3).
  assert (A2 : a2 = a /\ c2 = c) by (destruct P1 as [[P1 Q1]|P1], P2 as [[P2 Q2]|P2]; rewrite P1 in P2; inversion P2; subst; auto; discriminate).
  assert (A3 : a3 = a /\ c3 = c) by (destruct P1 as [[P1 Q1]|P1], P3 as [[P3 Q3]|P3]; rewrite P1 in P3; inversion P3; subst; auto; discriminate).
  destruct A2 as [-> ->], A3 as [-> ->]. clear P1 P2 P3 HULL H1 H2 H3.
  assert (CO : forall x y w, dist3 (Vec x y 1) w <= / 1000000 -> Rabs (x - vx w) <= / 1000000 /\ Rabs (y - vy w) <= / 1000000).
  { intros x y w DW. rewrite dist3_norm in DW. apply vnorm_le in DW; [|lra]. unfold vsub, vdot in DW; cbn [vx vy vz] in DW. 
    assert (SQ : forall z, z * z <= / 1000000 * / 1000000 -> Rabs z <= / 1000000).
    { intros z Z. rewrite <- (Rabs_right (/ 1000000)) by lra. apply Rsqr_le_abs_0. exact Z. }
    assert (Q1 := Rle_0_sqr (x - vx w)); assert (Q2 := Rle_0_sqr (y - vy w)); assert (Q3 := Rle_0_sqr (1 - vz w)); unfold Rsqr in *. split; apply SQ; lra. }
  apply CO in D1. apply CO in D2. apply CO in D3. rewrite W1 in D1. rewrite W2 in D2. rewrite W3 in D3. destruct a as [ax ay az], c as [cx cy cz]. unfold between in *; cbn [vx vy vz] in *.
  destruct D1 as [D1 D1'], D2 as [D2 D2'], D3 as [D3 D3'].
  assert (RB : forall z, Rabs z <= / 1000000 -> - / 1000000 <= z <= / 1000000) by (intros z; unfold Rabs; destruct (Rcase_abs z); lra).
  apply RB in D1, D1', D2, D2', D3, D3'.
  (* x and y along the segment are affine in t *)
  set (x1 := (1 - t1) * ax + t1 * cx) in *. set (y1 := (1 - t1) * ay + t1 * cy) in *. set (x2 := (1 - t2) * ax + t2 * cx) in *. set (y2 := (1 - t2) * ay + t2 * cy) in *. set (x3 := (1 - t3) * ax + t3 * cx) in *. set (y3 := (1 - t3) * ay + t3 * cy) in *.
  assert (COL : (x2 - x1) * (y3 - y1) = (x3 - x1) * (y2 - y1)) by (unfold x1, x2, x3, y1, y2, y3; ring).
  clearbody x1 x2 x3 y1 y2 y3. clear - COL D1 D1' D2 D2' D3 D3'. assert (1 <= (x2 - x1) * (y3 - y1)) by nra. assert ((x3 - x1) * (y2 - y1) <= / 2) by nra. lra.
Qed.

(** ** C69: lines and segments *)
(** The nearest point on a line is on the line, nearer than all other points of it, and gives the distance. *)
Theorem C69_line : forall p d x, / 1000000000 < vnorm d -> let l := mk_line p d in let y := nearest_on_line l x in
  on_line p d y /\ (forall z, on_line p d z -> dist3 x y <= dist3 x z /\ (dist3 x z = dist3 x y -> z = y)) /\ dist_point_line l x = dist3 x y.
Proof.
  intros p d x L. cbv zeta. destruct (mk_line_unit p d L) as (k & u & K & U & E & M & V). unfold dist_point_line. rewrite V, M, (nearest_unit p u x U). split; [|split].
  - exists (vdot u (vsub x p) / k). rewrite line_point, E. f_equal. generalize (vdot u (vsub x p)). clear - K. intros. vs. f_equal; field; lra.
  - intros z (t & ->). rewrite line_point, E. replace (vscale t (vscale k u)) with (vscale (t * k) u) by (clear; vs; f_equal; ring). apply nearest_line_ok, U.
  - rewrite dist3_sym. reflexivity.
Qed.
(** A direction of length at most 1e-9 makes no line: the distance is -1. *)
Theorem C69_no_line : forall p d x, vnorm d <= / 1000000000 -> let l := mk_line p d in
  line_valid l = false /\ nearest_on_line l x = Vec 0 0 0 /\ dist_point_line l x = -1.
Proof.
  intros p d x L. cbv zeta. assert (V : line_valid (mk_line p d) = false).
  { unfold mk_line, line_valid. destruct (Rlt_dec (/ 1000000000) (vnorm d)) as [F|F]; [lra|]. cbn [ln_d]. destruct (Rlt_dec (/ 1000000000) (vnorm d)); [contradiction|reflexivity]. }
  unfold nearest_on_line, dist_point_line. rewrite V. auto.
Qed.
(** The nearest point on a segment with different ends is on the segment and nearer than all other points of it. *)
Theorem C69_segment : forall a b x, a <> b -> let y := nearest_on_segment a b x in
  on_segment a b y /\ (forall z, on_segment a b z -> dist3 x y <= dist3 x z /\ (dist3 x z = dist3 x y -> z = y)) /\ dist_point_segment a b x = dist3 x y.
Proof. intros a b x N. destruct (nearest_segment_ok a b x N) as [A B]. split; [exact A|]. split; [exact B|reflexivity]. Qed.
(** "The nearest point on a segment is on the segment" is wrong if the ends are equal: the origin is returned. *)
Theorem C69_segment_refuted : exists a x, ~ on_segment a a (nearest_on_segment a a x) /\ x = a /\ dist_point_segment a a x = 1.
Proof.
  exists (Vec 1 0 0), (Vec 1 0 0).
  assert (E : forall x, nearest_on_segment (Vec 1 0 0) (Vec 1 0 0) x = Vec 0 0 0).
  { intros x. unfold nearest_on_segment. assert (Z : vnorm (vsub (Vec 1 0 0) (Vec 1 0 0)) = 0) by (apply vnorm_zero; unfold vsub; cbn; f_equal; ring). rewrite Z. destruct (Req_EM_T 0 0); [reflexivity|lra]. }
  split; [|split; [reflexivity|]].
  - rewrite E. intros (t & _ & H). unfold between in H; cbn [vx vy vz] in H. injection H; intros. lra.
  - unfold dist_point_segment. rewrite E. apply vnorm_unit. unfold vsub, vdot; cbn [vx vy vz]. ring.
Qed.
(** Two planes that are not nearly parallel meet in the line returned: it has exactly the common points, and is given by the one nearest to
    the point of the first plane; for nearly parallel planes the result is marked as no line. *)
Theorem C69_planes : forall p1 n1 p2 n2, n1 <> Vec 0 0 0 -> n2 <> Vec 0 0 0 ->
  let l := intersect_planes (mk_plane p1 n1) (mk_plane p2 n2) in let c := vdot n1 n2 / (vnorm n1 * vnorm n2) in
  (line_valid l = true <-> / 1000000 <= Rabs (c - 1) /\ / 1000000000 <= 1 - c * c) /\
  (line_valid l = true ->
    (forall x, on_line (ln_p l) (ln_d l) x <-> side p1 n1 x = 0 /\ side p2 n2 x = 0) /\
    (forall x, side p1 n1 x = 0 -> side p2 n2 x = 0 -> dist3 p1 (ln_p l) <= dist3 p1 x)).
Proof.
  intros p1 n1 p2 n2 N1 N2. cbv zeta. destruct (mk_plane_normal p1 n1 N1) as (k1 & u1 & K1 & U1 & E1 & M1). destruct (mk_plane_normal p2 n2 N2) as (k2 & u2 & K2 & U2 & E2 & M2).
  assert (NK : forall k u, 0 < k -> vdot u u = 1 -> vnorm (vscale k u) = k).
  { intros k u K U. unfold vnorm. replace (vdot (vscale k u) (vscale k u)) with (k * k * vdot u u) by (clear; vs; ring). rewrite U, Rmult_1_r. apply sqrt_square. lra. }
  assert (C : vdot n1 n2 / (vnorm n1 * vnorm n2) = vdot u1 u2).
  { rewrite E1, E2, (NK k1 u1 K1 U1), (NK k2 u2 K2 U2). replace (vdot (vscale k1 u1) (vscale k2 u2)) with (k1 * k2 * vdot u1 u2) by (clear; vs; ring). field. lra. }
  rewrite C, M1, M2. assert (I := intersect_planes_eq p1 u1 p2 u2 U1 U2). cbv zeta in I. set (c := vdot u1 u2) in *.
  assert (V0 : line_valid (Line (Vec 0 0 0) (Vec 0 0 0)) = false) by (unfold line_valid; cbn [ln_d]; rewrite (proj2 (vnorm_zero (Vec 0 0 0)) eq_refl); destruct (Rlt_dec (/ 1000000000) 0); [lra|reflexivity]).
  destruct (Rlt_dec (Rabs (c - 1)) (/ 1000000)) as [A|A]; [rewrite I, V0; split; [split; [discriminate|lra]|discriminate]|].
  destruct (Rlt_dec (1 - c * c) (/ 1000000000)) as [B|B]; [rewrite I, V0; split; [split; [discriminate|lra]|discriminate]|].
  destruct I as (pos & k & u & K & U & X & S1 & S2 & ->). cbn [ln_p ln_d].
  assert (V : line_valid (Line (vadd pos (vscale (vdot u (vsub p1 pos)) u)) u) = true) by (unfold line_valid; cbn [ln_d]; rewrite (vnorm_unit u U); destruct (Rlt_dec (/ 1000000000) 1); [reflexivity|lra]).
  rewrite V. split; [split; [intros _; lra|reflexivity]|]. intros _.
  assert (O1 : vdot u1 u = 0).
  { apply (Rmult_eq_reg_l k); [|lra]. replace (k * vdot u1 u) with (vdot u1 (vscale k u)) by (clear; vs; ring). rewrite <- X. clear. vs. ring. }
  assert (O2 : vdot u2 u = 0).
  { apply (Rmult_eq_reg_l k); [|lra]. replace (k * vdot u2 u) with (vdot u2 (vscale k u)) by (clear; vs; ring). rewrite <- X. clear. vs. ring. }
  assert (IFF : forall x, side p1 n1 x = 0 /\ side p2 n2 x = 0 <-> exists t, x = vadd pos (vscale t u)).
  { intros x. rewrite E1, E2, !side_scale, !scale_zero_iff by assumption. split.
    - intros [Z1 Z2]. assert (W1 : vdot (vsub x pos) u1 = 0) by (clear - Z1 S1; vs; lra). assert (W2 : vdot (vsub x pos) u2 = 0) by (clear - Z2 S2; vs; lra).
      assert (F := cross_full u1 u2 (vsub x pos) W1 W2). rewrite X in F. set (w := vsub x pos) in *. 
      exists (vdot w u). assert (EW : w = vscale (vdot w u) u).
      { replace (vdot (vscale k u) (vscale k u)) with (k * k) in F by (transitivity (k * k * vdot u u); [rewrite U; ring|clear; vs; ring]). replace (vscale (vdot w (vscale k u)) (vscale k u)) with (vscale (k * k) (vscale (vdot w u) u)) in F by (clear; clearbody w; vs; f_equal; ring).
        set (z := vscale (vdot w u) u) in *. clearbody z w. clear - F K. vs. injection F; intros. f_equal; apply (Rmult_eq_reg_l (k * k)); nra. }
      rewrite <- EW. unfold w. clear. vs. f_equal; ring.
    - intros (t & ->). split; [replace (side p1 u1 (vadd pos (vscale t u))) with (side p1 u1 pos + t * vdot u1 u) by (clear; vs; ring); rewrite S1, O1; ring|replace (side p2 u2 (vadd pos (vscale t u))) with (side p2 u2 pos + t * vdot u2 u) by (clear; vs; ring); rewrite S2, O2; ring]. }
  split.
  - intros x. rewrite IFF. split.
    + intros (t & ->). rewrite line_point. exists (vdot u (vsub p1 pos) + t). generalize (vdot u (vsub p1 pos)). clear. intros. vs. f_equal; ring.
    + intros (t & ->). exists (t - vdot u (vsub p1 pos)). rewrite line_point. generalize (vdot u (vsub p1 pos)). clear. intros. vs. f_equal; ring.
  - intros x Z1 Z2. destruct (proj1 (IFF x) (Logic.conj Z1 Z2)) as (t & ->). apply nearest_line_ok, U.
Qed.
(** "Planes that are not parallel have a line" is wrong: below an angle of about 0.0014 they are taken for parallel. *)
Theorem C69_planes_refuted : exists p1 n1 p2 n2, n1 <> Vec 0 0 0 /\ n2 <> Vec 0 0 0 /\ vcross n1 n2 <> Vec 0 0 0 /\
  line_valid (intersect_planes (mk_plane p1 n1) (mk_plane p2 n2)) = false.
Proof.
  exists (Vec 0 0 0), (Vec 0 0 1), (Vec 0 0 0), (Vec 0 (/ 1000) 1).
  assert (N1 : Vec 0 0 1 <> Vec 0 0 0) by (intros E; injection E; lra). assert (N2 : Vec 0 (/ 1000) 1 <> Vec 0 0 0) by (intros E; injection E; lra).
  split; [exact N1|]. split; [exact N2|]. split; [unfold vcross; cbn [vx vy vz]; intros E; injection E; lra|].
  destruct (C69_planes (Vec 0 0 0) (Vec 0 0 1) (Vec 0 0 0) (Vec 0 (/ 1000) 1) N1 N2) as [[H _] _].
  destruct (line_valid _); [|reflexivity]. exfalso. destruct (H eq_refl) as [A _]. clear H. revert A.
  rewrite (vnorm_unit (Vec 0 0 1)) by (unfold vdot; cbn; ring). unfold vnorm, vdot; cbn [vx vy vz].
  set (s := sqrt (0 * 0 + / 1000 * / 1000 + 1 * 1)). assert (SS : s * s = 1 + / 1000000) by (unfold s; rewrite sqrt_sqrt; lra). assert (SP : 0 <= s) by apply sqrt_pos. clearbody s.
  assert (S1 : 1 < s) by nra. assert (S2 : s < 1 + / 1500000) by nra.
  replace ((0 * 0 + 0 * / 1000 + 1 * 1) / (1 * s) - 1) with (- ((s - 1) / s)) by (field; lra). rewrite Rabs_Ropp, Rabs_right by (apply Rle_ge, Rle_mult_inv_pos; lra).
  assert ((s - 1) / s * s = s - 1) by (field; lra). assert (0 < (s - 1) / s) by (apply Rmult_lt_0_compat; [lra|apply Rinv_0_lt_compat; lra]). intros A. nra.
Qed.
Example C69_example : nearest_on_segment (Vec 0 0 0) (Vec 2 0 0) (Vec 5 1 0) = Vec 2 0 0 /\
  (let l := intersect_planes (mk_plane (Vec 0 0 0) (Vec 0 0 1)) (mk_plane (Vec 0 0 0) (Vec 0 1 0)) in line_valid l = true /\ on_line (ln_p l) (ln_d l) (Vec 7 0 0)).
Proof.
  split.
  - assert (N : Vec 0 0 0 <> Vec 2 0 0) by (intros E; injection E; lra). destruct (C69_segment _ _ (Vec 5 1 0) N) as ((t & T & E) & Q & _). set (y := nearest_on_segment _ _ _) in *.
    destruct (Q (Vec 2 0 0)) as [L _]; [exists 1; split; [lra|]; unfold between; cbn; f_equal; ring|]. rewrite !dist3_norm in L. apply vnorm_le_iff in L. rewrite E in L |- *. unfold vsub, vdot, between in *; cbn [vx vy vz] in *.
    assert (t = 1) by nra. subst t. f_equal; ring.
  - cbv zeta. assert (N1 : Vec 0 0 1 <> Vec 0 0 0) by (intros E; injection E; lra). assert (N2 : Vec 0 1 0 <> Vec 0 0 0) by (intros E; injection E; lra).
    destruct (C69_planes (Vec 0 0 0) (Vec 0 0 1) (Vec 0 0 0) (Vec 0 1 0) N1 N2) as [[_ H] Q].
    assert (V : line_valid (intersect_planes (mk_plane (Vec 0 0 0) (Vec 0 0 1)) (mk_plane (Vec 0 0 0) (Vec 0 1 0))) = true).
    { apply H. rewrite !vnorm_unit by (unfold vdot; cbn; ring). unfold vdot; cbn [vx vy vz]. replace ((0 * 0 + 0 * 1 + 1 * 0) / (1 * 1)) with 0 by field. split; [unfold Rabs; destruct (Rcase_abs _); lra|lra]. }
    split; [exact V|]. destruct (Q V) as [Q1 _]. apply Q1. split; unfold side; cbn; ring.
Qed.

(** ** C70: triangles and normals *)
(** The area is half of base times height, does not depend on the order of the corners, and is zero exactly for corners on a line. *)
Theorem C70_area : forall a b c,
  (forall h, on_line a (vsub b a) h -> vdot (vsub c h) (vsub b a) = 0 -> triangle_area a b c = / 2 * dist3 a b * dist3 c h) /\
  triangle_area a b c = triangle_area b c a /\ triangle_area a b c = triangle_area a c b /\
  (triangle_area a b c = 0 <-> a = b \/ on_line a (vsub b a) c).
Proof. intros a b c. split; [intros h; apply area_height|]. split; [apply area_turn|]. split; [apply area_swap|apply area_zero]. Qed.
(** Three points count as collinear exactly if their triangle has an area below 5e-7. *)
Theorem C70_collinear : forall a b c, collinear a b c = true <-> triangle_area a b c < / 2000000.
Proof. intros a b c. rewrite collinear_area. lra. Qed.
(** The normal found always has length one; for points of a plane, three consecutive of which form a triangle, it is the normal of the plane;
    if no three consecutive points do, it is (0,0,1). *)
Theorem C70_normal : forall ps,
  vnorm (find_normal ps) = 1 /\
  (forall q n i a b c, vdot n n = 1 -> (forall p, In p ps -> side q n p = 0) ->
     nth_error ps i = Some a -> nth_error ps (S i) = Some b -> nth_error ps (S (S i)) = Some c -> / 2000000 <= triangle_area a b c ->
     find_normal ps = n \/ find_normal ps = vscale (-1) n) /\
  ((forall i a b c, nth_error ps i = Some a -> nth_error ps (S i) = Some b -> nth_error ps (S (S i)) = Some c -> triangle_area a b c < / 2000000) ->
     find_normal ps = Vec 0 0 1).
Proof.
  intros ps. split; [apply vnorm_unit, find_normal_unit|]. split.
  - intros q n i a b c N PL A B C AR. apply (find_normal_plane ps q n i a b c N PL); [split; auto|]. destruct (collinear a b c) eqn:E; [|reflexivity]. apply C70_collinear in E. lra.
  - intros H. destruct (find_normal_cases ps) as [[E _]|(i & a & b & c & (A & B & C) & F & _)]; [exact E|]. specialize (H i a b c A B C). apply C70_collinear in H. congruence.
Qed.
(** "The normal of points of one plane that are not all on a line is the normal of the plane" is wrong: only consecutive points are looked at. *)
Theorem C70_normal_refuted : exists ps q n a b c, vdot n n = 1 /\ (forall p, In p ps -> side q n p = 0) /\
  In a ps /\ In b ps /\ In c ps /\ triangle_area a b c = / 2 /\ find_normal ps <> n /\ find_normal ps <> vscale (-1) n.
Proof.
  exists [Vec 0 0 0; Vec 0 0 0; Vec 0 1 0; Vec 0 1 0; Vec 0 0 1; Vec 0 0 1], (Vec 0 0 0), (Vec 1 0 0), (Vec 0 0 0), (Vec 0 1 0), (Vec 0 0 1).
  assert (E : find_normal [Vec 0 0 0; Vec 0 0 0; Vec 0 1 0; Vec 0 1 0; Vec 0 0 1; Vec 0 0 1] = Vec 0 0 1).
  { apply C70_normal. intros i a b c A B C. assert (Z : triangle_area a b c = 0); [|lra].
    destruct i as [|[|[|[|i]]]]; [| | | |exfalso; destruct i as [|[|i]]; cbn in C; discriminate]; cbn in A, B, C; injection A as <-; injection B as <-; injection C as <-.
    - apply area_zero. left. reflexivity.
    - rewrite area_turn. apply area_zero. left. reflexivity.
    - apply area_zero. left. reflexivity.
    - rewrite area_turn. apply area_zero. left. reflexivity. }
  split; [unfold vdot; cbn; ring|]. split.
  { intros p I. cbn [In] in I. repeat (destruct I as [<-|I]; [unfold side; cbn; ring|]). destruct I. }
  cbn [In]. split; [tauto|]. split; [tauto|]. split; [tauto|]. rewrite E. split.
  - rewrite area_cross, vnorm_unit; [field|]. unfold vcross, vsub, vdot; cbn [vx vy vz]. ring.
  - split; unfold vscale; cbn [vx vy vz]; intros F; injection F; lra.
Qed.
(** The random points are those of the triangle: none outside, and each of them for some pair of random numbers. *)
Theorem C70_random : forall a b c,
  (forall x y, 0 <= x <= 1 -> 0 <= y <= 1 -> in_hull [a; b; c] (random_point x y a b c)) /\
  (forall p, in_hull [a; b; c] p -> exists x y, 0 <= x <= 1 /\ 0 <= y <= 1 /\ p = random_point x y a b c).
Proof.
  intros a b c. split.
  - intros x y X Y. rewrite random_point_between. apply hull_between; [exact X| |apply hull_point; cbn; auto]. apply hull_between; [exact Y| |]; apply hull_point; cbn; auto.
  - intros p H. destruct (hull_bary a b c p H) as (x & y & X & Y & XY & ->). destruct (Req_dec x 1) as [->|N].
    + exists 1, 0. split; [lra|]. split; [lra|]. assert (y = 0) by lra. subst y. unfold random_point. vs. f_equal; ring.
    + exists x, (y / (1 - x)). split; [lra|]. split.
      * split; [apply Rle_mult_inv_pos; lra|]. apply (Rmult_le_reg_r (1 - x)); [lra|]. unfold Rdiv. rewrite Rmult_assoc, Rinv_l by lra. lra.
      * unfold random_point. vs. f_equal; field; lra.
Qed.
(** "The random points are spread evenly over the triangle" is wrong: half of the draws fall into the quarter next to the first corner. *)
Theorem C70_random_refuted : forall a b c, let b' := between (/ 2) a b in let c' := between (/ 2) a c in
  triangle_area a b' c' = triangle_area a b c / 4 /\
  forall x y, / 2 <= x <= 1 -> 0 <= y <= 1 -> in_hull [a; b'; c'] (random_point x y a b c).
Proof.
  intros a b c b' c'. split.
  - rewrite !area_cross. assert (E : vcross (vsub b' a) (vsub c' a) = vscale (/ 4) (vcross (vsub b a) (vsub c a))) by (unfold b', c'; clear; vs; f_equal; field).
    rewrite E. assert (vnorm (vscale (/ 4) (vcross (vsub b a) (vsub c a))) = / 4 * vnorm (vcross (vsub b a) (vsub c a))); [|lra]. set (w := vcross _ _).
    unfold vnorm. replace (vdot (vscale (/ 4) w) (vscale (/ 4) w)) with (/ 4 * / 4 * vdot w w) by (clear; clearbody w; vs; ring). rewrite sqrt_mult_alt by lra. rewrite sqrt_square by lra. reflexivity.
  - intros x y X Y. replace (random_point x y a b c) with (between (2 * x - 1) (between y c' b') a) by (rewrite random_point_between; unfold b', c'; clear; vs; f_equal; field).
    apply hull_between; [lra| |apply hull_point; cbn; auto]. apply hull_between; [exact Y| |]; apply hull_point; cbn; auto.
Qed.
Example C70_example : triangle_area (Vec 0 0 0) (Vec 3 0 0) (Vec 1 4 0) = 6 /\ find_normal [Vec 0 0 0; Vec 3 0 0; Vec 1 4 0] = Vec 0 0 (-1).
Proof.
  assert (A : triangle_area (Vec 0 0 0) (Vec 3 0 0) (Vec 1 4 0) = 6).
  { rewrite area_cross. replace (vcross _ _) with (vscale 12 (Vec 0 0 1)) by (unfold vcross, vsub, vscale; cbn [vx vy vz]; f_equal; ring). unfold vnorm, vdot, vscale; cbn [vx vy vz]. replace (12 * 0 * (12 * 0) + 12 * 0 * (12 * 0) + 12 * 1 * (12 * 1)) with (12 * 12) by ring. rewrite sqrt_square by lra. field. }
  split; [exact A|]. change (find_normal _) with (if collinear (Vec 0 0 0) (Vec 3 0 0) (Vec 1 4 0) then Vec 0 0 1 else vnormalize (vcross (vsub (Vec 3 0 0) (Vec 0 0 0)) (vsub (Vec 3 0 0) (Vec 1 4 0)))).
  destruct (collinear _ _ _) eqn:C; [apply C70_collinear in C; lra|]. replace (vcross _ _) with (Vec 0 0 (-12)) by (unfold vcross, vsub; cbn [vx vy vz]; f_equal; ring).
  unfold vnormalize, vnorm, vdot, vscale; cbn [vx vy vz]. destruct (Rlt_dec 0 (0 * 0 + 0 * 0 + -12 * -12)); [|lra]. replace (0 * 0 + 0 * 0 + -12 * -12) with (12 * 12) by ring. rewrite sqrt_square by lra. f_equal; field.
Qed.

(** ** C71: spherical coordinates *)
(** The coordinates of a point lie in the ranges of the angles and give the point back; and so do the coordinates, away from the poles. *)
Theorem C71_spherical :
  (forall p, let s := to_spherical p in sr s = dist3 p (Vec 0 0 0) /\ - PI < sphi s <= PI /\ 0 <= stheta s <= PI) /\
  (forall p, / 100000000 <= dist3 p (Vec 0 0 0) -> to_position (to_spherical p) = p) /\
  (forall r phi theta, / 100000000 <= r -> - PI < phi <= PI -> 0 < theta < PI -> to_spherical (to_position (Spherical r phi theta)) = Spherical r phi theta).
Proof.
  assert (D : forall p, dist3 p (Vec 0 0 0) = vnorm p) by (intros p; rewrite dist3_norm; f_equal; vs; f_equal; ring). assert (PP := PI_RGT_0). split; [|split].
  - intros p s. rewrite D. unfold s, to_spherical. destruct (Rlt_dec (vnorm p) (/ 100000000)); cbn [sr sphi stheta]; [lra|]. split; [reflexivity|]. split; [apply RpyProofs.atan2_range|apply acos_bound].
  - intros p H. rewrite D in H. apply spherical_round, H.
  - exact spherical_back.
Qed.
(** "Every point is given back by its coordinates" is wrong: below a distance of 1e-8 the direction is lost. *)
Theorem C71_spherical_refuted : exists p, to_position (to_spherical p) = vscale (-1) p /\ p <> Vec 0 0 0.
Proof.
  exists (Vec 0 0 (- / 1000000000)). split; [|intros E; injection E; lra].
  assert (N : vnorm (Vec 0 0 (- / 1000000000)) = / 1000000000) by (unfold vnorm, vdot; cbn [vx vy vz]; replace (0 * 0 + 0 * 0 + - / 1000000000 * - / 1000000000) with (/ 1000000000 * / 1000000000) by ring; apply sqrt_square; lra).
  unfold to_spherical. rewrite N. destruct (Rlt_dec (/ 1000000000) (/ 100000000)); [|lra]. unfold to_position, vscale; cbn [sr sphi stheta vx vy vz]. rewrite sin_0, cos_0. f_equal; lra.
Qed.
Example C71_example : to_position (to_spherical (Vec 1 (-2) 3)) = Vec 1 (-2) 3.
Proof.
  apply C71_spherical. unfold dist3; cbn [vx vy vz]. apply Rle_trans with (sqrt (1 * 1)); [rewrite sqrt_square; lra|]. apply sqrt_le_1_alt. lra.
Qed.

Print Assumptions C67_project. Print Assumptions C67_plane_point. Print Assumptions C67_coordinates. Print Assumptions C67_roundtrip_refuted.
Print Assumptions C68_segment. Print Assumptions C68_segment_refuted. Print Assumptions C68_box. Print Assumptions C68_box_refuted. Print Assumptions C68_change_frame.
Print Assumptions C69_line. Print Assumptions C69_no_line. Print Assumptions C69_segment. Print Assumptions C69_segment_refuted. Print Assumptions C69_planes. Print Assumptions C69_planes_refuted.
Print Assumptions C70_area. Print Assumptions C70_collinear. Print Assumptions C70_normal. Print Assumptions C70_normal_refuted. Print Assumptions C70_random. Print Assumptions C70_random_refuted.
Print Assumptions C71_spherical. Print Assumptions C71_spherical_refuted.
