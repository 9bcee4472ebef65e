(** C37: bounding boxes. *)
From Coq Require Import Reals List Bool Lra Lia.
From Verif Require Import QuatModel QuatSpec RpyModel BBoxModel BBoxSpec BBoxProofs.
Import ListNotations.
Open Scope R_scope.

(** The box around a non-empty list of points contains all of them and lies inside every box that does; without points it is empty. *)
Theorem C37_smallest : of_points [] = empty /\ forall p ps, exists l h, span (of_points (map pt (p :: ps))) l h /\ ordered l h /\
  (forall q, In q (p :: ps) -> within l h q) /\
  forall k m, (forall q, In q (p :: ps) -> within k m q) -> forall q, within l h q -> within k m q.
Proof.
  split; [reflexivity|]. intros p ps. rewrite of_points_cons.
  destruct (add_points_some (Box (pt p) (pt p)) p p ps ltac:(split; reflexivity)) as (l & h & S & O & W1 & W2 & W3 & _). exists l, h.
  assert (OK : ordered p p) by (unfold ordered; lra). split; [exact S|]. split; [apply O, OK|]. split.
  - intros q [<-|I]; [apply W1; unfold within; lra|apply W2; auto].
  - intros k m H. destruct (W3 k m) as [A B]; [intros q I; apply H; right; exact I|apply H; left; reflexivity|apply H; left; reflexivity|]. intros q. unfold within in *. lra.
Qed.
(** Adding points to a box: the old points and the new ones, and no more than needed. *)
Theorem C37_add_points : forall b l h ps, span b l h -> ordered l h -> exists l' h', span (add_points b (map pt ps)) l' h' /\
  (forall q, within l h q -> within l' h' q) /\ (forall q, In q ps -> within l' h' q) /\
  forall k m, (forall q, within l h q -> within k m q) -> (forall q, In q ps -> within k m q) -> forall q, within l' h' q -> within k m q.
Proof.
  intros b l h ps S O. destruct (add_points_some b l h ps S) as (l' & h' & S2 & O2 & W1 & W2 & W3 & _). exists l', h'. split; [exact S2|]. split; [exact W1|]. split; [auto|].
  intros k m H1 H2. destruct (W3 k m) as [A B]; [exact H2|apply H1; unfold within, ordered in *; lra|apply H1; unfold within, ordered in *; lra|]. intros q. unfold within in *. lra.
Qed.
(** A coordinate that is not a number is left out: the bounds in each dimension are the least and the greatest number met there. *)
Theorem C37_nan : forall ps, let b := of_points ps in
  least (None :: map c0 ps) (c0 (bmin b)) /\ least (None :: map c1 ps) (c1 (bmin b)) /\ least (None :: map c2 ps) (c2 (bmin b)) /\
  greatest (None :: map c0 ps) (c0 (bmax b)) /\ greatest (None :: map c1 ps) (c1 (bmax b)) /\ greatest (None :: map c2 ps) (c2 (bmax b)).
Proof.
  intros ps b. unfold b, of_points. rewrite add_points_coords. cbn [bmin bmax c0 c1 c2 empty]. pose proof lower_least. pose proof upper_greatest. auto 10.
Qed.
(** Adding a box. *)
Theorem C37_add_box : forall b l h b' k m, span b l h -> ordered l h -> span b' k m -> ordered k m ->
  (exists l' h', span (add_box b b') l' h' /\
    (forall p, within l h p -> within l' h' p) /\ (forall p, within k m p -> within l' h' p) /\
    (forall u v, (forall p, within l h p -> within u v p) -> (forall p, within k m p -> within u v p) -> forall p, within l' h' p -> within u v p)) /\
  span (add_box empty b) l h /\ add_box b empty = b.
Proof.
  intros b l h b' k m S O S' O'. split; [apply (add_box_some b l h b' k m); auto|]. split; [apply add_box_empty; auto|reflexivity].
Qed.
(** transform: the image of every point of the box is in the new box, and the new box is inside every box that holds them, as long as
    no coordinate leaves the range of a float. *)
Theorem C37_transform : forall b l h g, span b l h -> ordered l h ->
  (forall q, within l h q -> within (Vec (- flt_max) (- flt_max) (- flt_max)) (Vec flt_max flt_max flt_max) (image g q)) ->
  exists l' h', span (transform b g) l' h' /\ (forall q, within l h q -> within l' h' (image g q)) /\
  forall k m, (forall q, within l h q -> within k m (image g q)) -> forall q, within l' h' q -> within k m q.
Proof.
  intros b l h g S O B. destruct (transform_ok b l h g S) as (l' & h' & S2 & W1 & W2); [intros k I; apply B, corners_within; auto|].
  exists l', h'. split; [exact S2|]. split; [exact W1|]. intros k m H. destruct (W2 k m) as [C D]; [intros c I; apply H, corners_within; auto|]. intros q. unfold within in *. lra.
Qed.
Theorem C37_transform_empty : forall b g, has_nan b = true -> transform b g = b.
Proof. intros b g H. unfold transform. rewrite H. reflexivity. Qed.
(** isInside is exact for a box that has an extent in every dimension; a coordinate of the point that is not a number counts as inside. *)
Theorem C37_is_inside : forall b l h, span b l h -> vx l < vx h -> vy l < vy h -> vz l < vz h ->
  (forall p, is_inside b (pt p) = true <-> within l h p) /\
  (forall p, is_inside b p = true <-> (forall x, c0 p = Some x -> vx l <= x <= vx h) /\ (forall x, c1 p = Some x -> vy l <= x <= vy h) /\ (forall x, c2 p = Some x -> vz l <= x <= vz h)).
Proof.
  intros b l h S X Y Z.
  assert (G : forall p, is_inside b p = true <-> (forall x, c0 p = Some x -> vx l <= x <= vx h) /\ (forall x, c1 p = Some x -> vy l <= x <= vy h) /\ (forall x, c2 p = Some x -> vz l <= x <= vz h)).
  { intros p. rewrite (is_inside_spec b l h p S). split.
    - intros (A & B & C). split; [|split]; intros x E; [specialize (A x E)|specialize (B x E)|specialize (C x E)]; lra.
    - intros (A & B & C). split; [|split]; intros x E; right; left; auto. }
  split; [|exact G]. intros p. rewrite G. unfold within; cbn [pt point c0 c1 c2]. split.
  - intros (A & B & C). auto.
  - intros (A & B & C). split; [|split]; intros x [= <-]; auto.
Qed.
(** In general: a dimension in which the box is flat is not looked at.  So isInside accepts points outside of a flat box. *)
Theorem C37_is_inside_flat : forall b l h, span b l h -> ordered l h -> forall p,
  is_inside b (pt p) = true <-> (vx l = vx h \/ vx l <= vx p <= vx h) /\ (vy l = vy h \/ vy l <= vy p <= vy h) /\ (vz l = vz h \/ vz l <= vz p <= vz h).
Proof.
  intros b l h S (O1 & O2 & O3) p. rewrite (is_inside_spec b l h _ S). cbn [pt point c0 c1 c2]. split.
  - intros (A & B & C). specialize (A _ eq_refl). specialize (B _ eq_refl). specialize (C _ eq_refl). split; [|split]; lra.
  - intros (A & B & C). split; [|split]; intros x [= <-]; lra.
Qed.
(** So a point beside a flat box counts as inside. *)
Theorem C37_is_inside_refuted : exists b l h p, span b l h /\ ordered l h /\ is_inside b (pt p) = true /\ ~ within l h p.
Proof.
  exists (Box (point 0 0 0) (point 1 1 0)), (Vec 0 0 0), (Vec 1 1 0), (Vec 0 0 7). split; [split; reflexivity|]. split; [unfold ordered; cbn [vx vy vz]; lra|]. split.
  - apply (proj2 (C37_is_inside_flat (Box (point 0 0 0) (point 1 1 0)) (Vec 0 0 0) (Vec 1 1 0) ltac:(split; reflexivity) ltac:(unfold ordered; cbn [vx vy vz]; lra) _)). cbn [vx vy vz]. lra.
  - unfold within; cbn [vx vy vz]. lra.
Qed.
(** Nothing is inside an empty box. *)
Theorem C37_is_inside_empty : forall p, is_inside empty p = false.
Proof. exact is_inside_empty. Qed.
(** scale with factors that are not negative: exactly the scaled points.  A negative factor turns the corners round. *)
Theorem C37_scale : forall b l h s, span b l h -> ordered l h -> 0 <= vx s -> 0 <= vy s -> 0 <= vz s -> exists l' h', span (scale b (pt s)) l' h' /\
  forall p, within l' h' p <-> exists q, within l h q /\ p = Vec (vx q * vx s) (vy q * vy s) (vz q * vz s).
Proof.
  intros b l h s S (O1 & O2 & O3) X Y Z. do 2 eexists. split; [apply scale_span; exact S|]. intros p. unfold within; cbn [vx vy vz]. split.
  - intros (A & B & C). apply scale_dim in A; [|auto..]. apply scale_dim in B; [|auto..]. apply scale_dim in C; [|auto..].
    destruct A as (x & A1 & A2), B as (y & B1 & B2), C as (z & D1 & D2). exists (Vec x y z). cbn [vx vy vz]. split; [auto|]. destruct p as [p0 p1 p2]. cbn [vx vy vz] in *. subst. reflexivity.
  - intros (q & (A & B & C) & ->). cbn [vx vy vz]. split; [|split]; apply scale_dim; eauto.
Qed.
(** A negative factor turns the box inside out. *)
Theorem C37_scale_refuted : exists b l h s, span b l h /\ ordered l h /\ exists l' h', span (scale b (pt s)) l' h' /\ ~ ordered l' h'.
Proof.
  exists (Box (point 0 0 0) (point 1 1 1)), (Vec 0 0 0), (Vec 1 1 1), (Vec (- 1) 1 1). split; [split; reflexivity|]. split; [unfold ordered; cbn [vx vy vz]; lra|].
  do 2 eexists. split; [apply (scale_span _ (Vec 0 0 0) (Vec 1 1 1)); split; reflexivity|]. unfold ordered; cbn [vx vy vz]. lra.
Qed.
(** planeGoesThrough: whether the box has points on both sides; undefined for an empty box. *)
Theorem C37_plane : forall b l h q n, span b l h -> ordered l h -> exists r, plane_goes_through b (pt q) (pt n) = Some r /\
  (r = true <-> exists a c, within l h a /\ within l h c /\ 0 <= side q n a /\ side q n c < 0).
Proof. exact plane_spec. Qed.
(** For an empty box the corners are missing: undefined. *)
Theorem C37_plane_refuted : forall q n, plane_goes_through empty q n = None.
Proof. reflexivity. Qed.

Print Assumptions C37_smallest.
Print Assumptions C37_add_points.
Print Assumptions C37_nan.
Print Assumptions C37_add_box.
Print Assumptions C37_transform.
Print Assumptions C37_transform_empty.
Print Assumptions C37_is_inside.
Print Assumptions C37_is_inside_flat.
Print Assumptions C37_is_inside_refuted.
Print Assumptions C37_is_inside_empty.
Print Assumptions C37_scale.
Print Assumptions C37_scale_refuted.
Print Assumptions C37_plane.
Print Assumptions C37_plane_refuted.

(** The box between (-1,-2,-3) and (1,2,3), and a turn about the third axis with a shift: all hypotheses are met. *)
Definition brick : box := Box (point (-1) (-2) (-3)) (point 1 2 3).
Definition turn : pose := Pose (Mat 0 (-1) 0 1 0 0 0 0 1) (Vec 5 0 0).
Example brick_span : span brick (Vec (-1) (-2) (-3)) (Vec 1 2 3).
Proof. split; reflexivity. Qed.
Example brick_ordered : ordered (Vec (-1) (-2) (-3)) (Vec 1 2 3).
Proof. unfold ordered; cbn [vx vy vz]; lra. Qed.
Example brick_turned : forall q, within (Vec (-1) (-2) (-3)) (Vec 1 2 3) q -> within (Vec (- flt_max) (- flt_max) (- flt_max)) (Vec flt_max flt_max flt_max) (image turn q).
Proof.
  intros q. assert (F : 100 < flt_max) by (unfold flt_max; assert (1 <= 2 ^ 23) by lra; assert (A : / 2 ^ 23 <= 1) by (rewrite <- Rinv_1; apply Rinv_le_contravar; lra); assert (1000 <= 2 ^ 127) by lra; nra).
  unfold within, image, turn; cbn [prot ppos m00 m01 m02 m10 m11 m12 m20 m21 m22 vx vy vz]. lra.
Qed.
Example brick_inside : is_inside brick (point 1 0 (-3)) = true /\ is_inside brick (point 1 0 4) = false.
Proof.
  destruct (C37_is_inside brick _ _ brick_span ltac:(cbn [vx]; lra) ltac:(cbn [vy]; lra) ltac:(cbn [vz]; lra)) as [H _]. split.
  - apply (H (Vec 1 0 (-3))). unfold within; cbn [vx vy vz]; lra.
  - destruct (is_inside brick (point 1 0 4)) eqn:E; [|reflexivity]. apply (H (Vec 1 0 4)) in E. unfold within in E; cbn [vx vy vz] in E. lra.
Qed.
