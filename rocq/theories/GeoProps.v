(** C96-C98: lines, planes and triangles. *)
From Coq Require Import Reals List Bool Lra Lia.
From Verif Require Import QuatModel QuatSpec RpyModel JointModel KinModel CrvModel CrvSpec CrvProofs GeoModel GeoSpec GeoProofs.
Import ListNotations.
Open Scope R_scope.

(** C96: rays and triangles.  For a line that is not parallel to the triangle, a hit at [t] is reported exactly if the point at the positive parameter [t] is in the triangle, borders included. *)
Theorem C96_ray : forall zs pos dir a b c, ~ parallel dir a b c ->
  (forall t, intersects_triangle zs pos dir a b c = Some (Fin t) <-> meets pos dir a b c t) /\
  (intersects_triangle zs pos dir a b c = None <-> ~ exists t, meets pos dir a b c t).
Proof.
  intros zs pos dir a b c N. assert (D : det_of dir a b c <> 0) by (rewrite det_parallel; exact N). assert (R := fun t => ray_regular pos dir a b c zs t D). split; [exact R|]. split.
  - intros E (t & M). apply R in M. congruence.
  - intros H. destruct (intersects_triangle zs pos dir a b c) as [x|] eqn:E; [|reflexivity]. destruct (ray_regular_finite pos dir a b c zs x D E) as [t ->]. destruct H. exists t. apply R. reflexivity.
Qed.
(** There is at most one hit. *)
Theorem C96_ray_unique : forall pos dir a b c t t', ~ parallel dir a b c -> meets pos dir a b c t -> meets pos dir a b c t' -> t = t'.
Proof. intros pos dir a b c t t' N A B. destruct (C96_ray true pos dir a b c N) as [R _]. apply R in A. apply R in B. congruence. Qed.
(** The order of the corners does not matter: neither turning nor flipping the triangle changes the answer. *)
Theorem C96_ray_corners : forall zs zs' pos dir a b c, ~ parallel dir a b c ->
  intersects_triangle zs pos dir b a c = intersects_triangle zs' pos dir a b c /\ intersects_triangle zs pos dir b c a = intersects_triangle zs' pos dir a b c.
Proof.
  intros zs zs' pos dir a b c N.
  assert (G : forall a' b' c', ~ parallel dir a' b' c' -> (forall x, in_triangle a' b' c' x <-> in_triangle a b c x) -> intersects_triangle zs pos dir a' b' c' = intersects_triangle zs' pos dir a b c).
  { intros a' b' c' N' I. destruct (C96_ray zs pos dir a' b' c' N') as [R1 R2]. destruct (C96_ray zs' pos dir a b c N) as [R3 R4].
    destruct (intersects_triangle zs pos dir a' b' c') as [x|] eqn:E.
    - assert (D : det_of dir a' b' c' <> 0) by (rewrite det_parallel; exact N'). destruct (ray_regular_finite pos dir a' b' c' zs x D E) as [t ->]. symmetry. apply R3. destruct (proj1 (R1 t) eq_refl) as [P M]. split; [exact P|apply I, M].
    - symmetry. apply R4. intros (t & P & M). apply (proj1 R2 eq_refl). exists t. split; [exact P|apply I, M]. }
  split; apply G.
  - intros H. apply N. unfold parallel in *. geo. lra.
  - intros x. split; intros (s & t & u & S0 & T0 & U0 & E & ->); exists t, s, u; repeat (split; [lra|]); apply veq; cbn [vx vy vz]; ring.
  - intros H. apply N. unfold parallel in *. geo. lra.
  - intros x. split; intros (s & t & u & S0 & T0 & U0 & E & ->); [exists u, s, t|exists t, u, s]; repeat (split; [lra|]); apply veq; cbn [vx vy vz]; ring.
Qed.
(** For a parallel line or a degenerate triangle no finite hit is ever reported ... *)
Theorem C96_ray_parallel : forall zs pos dir a b c x, parallel dir a b c -> intersects_triangle zs pos dir a b c = Some x ->
  x = PInf /\ outer dir (diff c a) = origin.
Proof.
  intros zs pos dir a b c x N E. assert (D : det_of dir a b c = 0) by (apply det_parallel, N). split; [apply (ray_singular pos dir a b c zs x D E)|]. apply (ray_singular_edge pos dir a b c zs x D E).
Qed.
(** ... but a line parallel to the edge from the first to the third corner, beside the plane of the triangle, is reported as a hit (at infinity). *)
Theorem C96_ray_parallel_refuted : ~ (forall zs pos dir a b c, (exists x, intersects_triangle zs pos dir a b c = Some x) -> exists t, meets pos dir a b c t).
Proof.
  intros H. set (a := Vec 0 0 0). set (b := Vec 1 0 0). set (c := Vec 0 1 0). set (pos := Vec 0 0 (1)). set (dir := Vec 0 1 0).
  assert (E : intersects_triangle true pos dir a b c = Some PInf).
  { unfold intersects_triangle, a, b, c, pos, dir. geo. repeat match goal with |- context [Rlt_dec ?x ?y] => destruct (Rlt_dec x y); try lra end; match goal with |- context [Req_EM_T ?x ?y] => destruct (Req_EM_T x y); [|lra] end;
    cbv zeta; cbn [xmul]; repeat match goal with |- context [Rlt_dec ?x ?y] => destruct (Rlt_dec x y); try lra end; cbn; reflexivity. }
  destruct (H true pos dir a b c (ex_intro _ _ E)) as (t & _ & s & u & v & _ & _ & _ & _ & X). injection X as X1 X2 X3. cbn in X3. lra.
Qed.
(** A primitive is hit at [t] exactly if [t] is the smallest hit of its triangles below the largest float; parallel triangles never matter. *)
Theorem C96_primitive : forall zs pos dir M l,
  (forall t, intersects_primitive zs pos dir M l = Some t ->
     t < M /\ (exists a b c, In (a, b, c) l /\ ~ parallel dir a b c /\ meets pos dir a b c t) /\
     forall a b c t', In (a, b, c) l -> ~ parallel dir a b c -> meets pos dir a b c t' -> t <= t') /\
  (intersects_primitive zs pos dir M l = None -> forall a b c t', In (a, b, c) l -> ~ parallel dir a b c -> meets pos dir a b c t' -> M <= t').
Proof.
  intros zs pos dir M l.
  assert (G : forall l m, let r := nearest_hit zs pos dir m l in r <= m /\ (r = m \/ exists a b c, In (a, b, c) l /\ ~ parallel dir a b c /\ meets pos dir a b c r) /\
     forall a b c t', In (a, b, c) l -> ~ parallel dir a b c -> meets pos dir a b c t' -> r <= t').
  { clear l. induction l as [|[[a b] c] l IH]; intros m; cbv zeta.
    - unfold nearest_hit. cbn [fold_left]. split; [lra|]. split; [left; reflexivity|intros a b c t' []].
    - set (m1 := match intersects_triangle (zs (a, b, c)) pos dir a b c with Some (Fin t) => if Rlt_dec t m then t else m | _ => m end).
      change (nearest_hit zs pos dir m ((a, b, c) :: l)) with (nearest_hit zs pos dir m1 l). specialize (IH m1). cbv zeta in IH. set (r := nearest_hit zs pos dir m1 l) in *. clearbody r. destruct IH as (LE & M1 & ALL).
      assert (K : m1 <= m /\ (m1 = m \/ (~ parallel dir a b c /\ meets pos dir a b c m1)) /\ (forall t', ~ parallel dir a b c -> meets pos dir a b c t' -> m1 <= t')).
      { clear -m1. destruct (Req_EM_T (det_of dir a b c) 0) as [D|D].
        - assert (PA : parallel dir a b c) by (apply det_parallel, D). assert (m1 = m) as ->.
          { unfold m1. destruct (intersects_triangle (zs (a, b, c)) pos dir a b c) as [x|] eqn:E; [|reflexivity]. rewrite (ray_singular pos dir a b c _ x D E). reflexivity. }
          split; [lra|]. split; [left; reflexivity|]. intros t' N. contradiction.
        - assert (N : ~ parallel dir a b c) by (rewrite <- det_parallel; exact D). destruct (C96_ray (zs (a, b, c)) pos dir a b c N) as [R1 R2]. unfold m1. destruct (intersects_triangle (zs (a, b, c)) pos dir a b c) as [x|] eqn:E.
          + destruct (ray_regular_finite pos dir a b c _ x D E) as [t ->]. assert (MT : meets pos dir a b c t) by (apply R1; reflexivity). destruct (Rlt_dec t m) as [L|L].
            * split; [lra|]. split; [right; split; assumption|]. intros t' _ MT'. rewrite (C96_ray_unique pos dir a b c t t' N MT MT'). lra.
            * split; [lra|]. split; [left; reflexivity|]. intros t' _ MT'. rewrite (C96_ray_unique pos dir a b c t' t N MT' MT). lra.
          + split; [lra|]. split; [left; reflexivity|]. intros t' _ MT'. destruct (proj1 R2 eq_refl). exists t'. exact MT'. }
      destruct K as (K1 & K2 & K3). split; [lra|]. split.
      + destruct M1 as [->|(a' & b' & c' & I & N & ME)]; [|right; exists a', b', c'; split; [right; exact I|split; assumption]].
        destruct K2 as [K2|[N ME]]; [left; exact K2|right; exists a, b, c; split; [left; reflexivity|split; assumption]].
      + intros a' b' c' t' [E|I] N ME; [injection E as -> -> ->; specialize (K3 t' N ME); lra|apply (ALL a' b' c' t' I N ME)]. }
  specialize (G l M). cbv zeta in G. unfold intersects_primitive. cbv zeta. set (r := nearest_hit zs pos dir M l) in *. destruct G as (LE & K & ALL). destruct (Rlt_dec r M) as [L|L]; split.
  - intros t E. injection E as <-. split; [exact L|]. split; [|exact ALL]. destruct K as [K|K]; [lra|exact K].
  - discriminate.
  - discriminate.
  - intros _ a b c t' I N ME. specialize (ALL a b c t' I N ME). lra.
Qed.
Definition ta := Vec 0 0 0. Definition tb := Vec 2 0 0. Definition tc := Vec 0 2 0.
Example C96_ex_regular : ~ parallel (Vec 0 0 (-1)) ta tb tc /\ meets (Vec (1/2) (1/2) 3) (Vec 0 0 (-1)) ta tb tc 3.
Proof.
  split; [unfold parallel, ta, tb, tc; geo; lra|]. split; [lra|]. exists (1/2), (1/4), (1/4). repeat (split; [lra|]). unfold at_line, ta, tb, tc. apply veq; cbn [vx vy vz]; lra.
Qed.
Example C96_ex_hit : intersects_triangle true (Vec (1/2) (1/2) 3) (Vec 0 0 (-1)) ta tb tc = Some (Fin 3) /\ intersects_primitive (fun _ => true) (Vec (1/2) (1/2) 3) (Vec 0 0 (-1)) 100 [(ta, tb, tc)] = Some 3.
Proof.
  destruct C96_ex_regular as [N M]. assert (E : intersects_triangle true (Vec (1/2) (1/2) 3) (Vec 0 0 (-1)) ta tb tc = Some (Fin 3)) by (apply C96_ray; assumption). split; [exact E|].
  unfold intersects_primitive, nearest_hit. cbn [fold_left]. rewrite E. destruct (Rlt_dec 3 100); [|lra]. destruct (Rlt_dec 3 100); [reflexivity|lra].
Qed.

(** C97: lines and planes.  The closest point of a line is on the line, at the reported parameter, and no other point of the line is nearer. *)
Theorem C97_line_closest : forall pos dir p, dir <> origin ->
  line_closest pos dir p = at_line pos dir (line_t pos dir p) /\
  (forall x, on_line pos dir x -> distance p (line_closest pos dir p) <= distance p x) /\
  (forall t, line_t pos dir (at_line pos dir t) = t).
Proof.
  intros pos dir p N. assert (D : inner dir dir <> 0) by (pose proof (inner_pos dir N); lra). change (inner dir dir) with (vdot dir dir) in D.
  assert (E : line_closest pos dir p = at_line pos dir (line_t pos dir p)).
  { unfold line_closest, line_t. set (n := vdot dir dir) in *. apply veq; unfold at_line, vsub, vscale, vdot; cbn [vx vy vz]; field; exact D. }
  split; [exact E|]. split.
  - intros x (t & ->). apply foot. rewrite E. set (s := line_t pos dir p). assert (K : vdot (vsub p pos) dir - s * vdot dir dir = 0) by (unfold s, line_t; field; exact D). clearbody s.
    replace (inner (diff p (at_line pos dir s)) (diff (at_line pos dir t) (at_line pos dir s))) with ((t - s) * (vdot (vsub p pos) dir - s * vdot dir dir)); [rewrite K; ring|]. geo. ring.
  - intros t. unfold line_t. replace (vdot (vsub (at_line pos dir t) pos) dir) with (t * vdot dir dir); [field; exact D|]. unfold vdot, vsub, at_line. cbn [vx vy vz]. ring.
Qed.
Lemma normalize_dir d : d <> origin -> vnormalize d = vscale (/ sqrt (inner d d)) d /\ 0 < sqrt (inner d d) /\ sqrt (inner d d) * sqrt (inner d d) = inner d d.
Proof.
  intros N. pose proof (inner_pos d N) as P. unfold vnormalize. destruct (Rlt_dec 0 (vdot d d)) as [_|K]; [|destruct (K P)]. split; [reflexivity|]. split; [apply sqrt_lt_R0, P|apply sqrt_sqrt; lra].
Qed.
(** The "distance" to a point is the vector from the closest point to the point. *)
Theorem C97_line_distance : forall pos dir p, dir <> origin -> line_distance pos dir p = diff p (line_closest pos dir p).
Proof.
  intros pos dir p N. unfold line_distance, line_closest. destruct (normalize_dir dir N) as (-> & P & S2). change (vdot dir dir) with (inner dir dir). set (s := sqrt (inner dir dir)) in *. clearbody s. rewrite <- S2.
  unfold vdot, vsub, vscale, diff. cbn [vx vy vz]. apply veq; cbn [vx vy vz]; field; lra.
Qed.
(** Implicit planes: the closest point is on the plane, and no point of the plane is nearer; Get has the sign of the side and is the distance times the length of the normal. *)
Theorem C97_plane_closest : forall n d p, n <> origin ->
  let c := iplane_closest (IPlane n d) p in
  on_plane n d c /\ (forall x, on_plane n d x -> distance p c <= distance p x) /\
  iplane_get (IPlane n d) p = inner n p - d /\ Rabs (iplane_get (IPlane n d) p) = sqrt (inner n n) * distance p c.
Proof.
  intros n d p N c. assert (D := inner_pos n N). assert (E : c = at_line p n ((d - inner n p) / inner n n)).
  { unfold c, iplane_closest. cbn [ip_n ip_d]. change (vdot n n) with (inner n n). set (m := inner n n) in *. unfold vadd, vscale, vdot, at_line, inner. apply veq; cbn [vx vy vz]; field; lra. }
  set (s := (d - inner n p) / inner n n) in *. assert (K : s * inner n n = d - inner n p) by (unfold s; field; lra). clearbody s c. subst c.
  assert (G : iplane_get (IPlane n d) p = inner n p - d).
  { unfold iplane_get, iplane_closest. cbn [ip_n ip_d]. change (vdot n n) with (inner n n). set (m := inner n n) in *. assert (M : m = inner n n) by reflexivity. clearbody m. unfold vdot, vsub, vadd, vscale. cbn [vx vy vz].
    transitivity (- (d - inner n p) * / m * inner n n); [unfold inner; ring|]. rewrite <- M. field. lra. }
  split; [|split; [|split]].
  - unfold on_plane. transitivity (inner n p + s * inner n n); [unfold inner, at_line; cbn [vx vy vz]; ring|]. rewrite K. ring.
  - intros x X. apply foot. unfold on_plane in X. transitivity (- s * ((inner n x - inner n p) - s * inner n n)); [unfold inner, at_line, diff; cbn [vx vy vz]; ring|]. rewrite K, X. ring.
  - exact G.
  - rewrite G, distance_inner. rewrite <- sqrt_mult; [|lra|apply inner_nonneg]. rewrite <- sqrt_Rsqr_abs. f_equal. unfold Rsqr. replace (inner (diff p (at_line p n s)) (diff p (at_line p n s))) with (s * s * inner n n) by (unfold inner, at_line, diff; cbn [vx vy vz]; ring).
    replace (inner n p - d) with (- (s * inner n n)) by lra. ring.
Qed.
(** Normalizing and flipping keep the plane; a plane through a point contains it. *)
Theorem C97_plane_same : forall n d, n <> origin ->
  (forall x, on_plane (ip_n (iplane_normalize (IPlane n d))) (ip_d (iplane_normalize (IPlane n d))) x <-> on_plane n d x) /\ is_unit (ip_n (iplane_normalize (IPlane n d))) /\
  (forall x, on_plane (ip_n (iplane_flipped (IPlane n d))) (ip_d (iplane_flipped (IPlane n d))) x <-> on_plane n d x) /\ (forall x, iplane_get (iplane_flipped (IPlane n d)) x = - iplane_get (IPlane n d) x).
Proof.
  intros n d N. assert (D := inner_pos n N). unfold iplane_normalize, iplane_flipped. cbn [ip_n ip_d]. change (vnorm n) with (sqrt (inner n n)). set (s := sqrt (inner n n)). assert (S0 : 0 < s) by (apply sqrt_lt_R0, D). assert (SS : s * s = inner n n) by (apply sqrt_sqrt; lra). clearbody s.
  split; [|split; [|split]].
  - intros x. unfold on_plane. replace (inner (Vec (vx n / s) (vy n / s) (vz n / s)) x) with (inner n x / s) by (unfold inner; cbn [vx vy vz]; field; lra). split; intros H; [|rewrite H; reflexivity].
    apply (Rmult_eq_reg_r (/ s)); [exact H|]. apply Rinv_neq_0_compat. lra.
  - unfold is_unit. transitivity (inner n n / (s * s)); [unfold inner; cbn [vx vy vz]; field; lra|]. rewrite SS. field. lra.
  - intros x. unfold on_plane, inner. cbn [vx vy vz]. split; intros H; lra.
  - intros x. destruct (C97_plane_closest n d x N) as (_ & _ & -> & _). assert (NN : Vec (- vx n) (- vy n) (- vz n) <> origin).
    { intros H. apply N. unfold origin in *. injection H as H1 H2 H3. apply veq; cbn [vx vy vz]; lra. }
    destruct (C97_plane_closest _ (- d) x NN) as (_ & _ & -> & _). unfold inner. cbn [vx vy vz]. ring.
Qed.
Theorem C97_plane_through : forall pos n, on_plane (ip_n (from_position_normal pos n)) (ip_d (from_position_normal pos n)) pos /\ iplane_get (from_position_normal pos n) pos = 0.
Proof. intros pos n. split; [reflexivity|]. unfold iplane_get, iplane_closest, from_position_normal. cbn [ip_n ip_d]. set (k := / vdot n n). clearbody k. unfold vdot, vsub, vadd, vscale. cbn [vx vy vz]. ring. Qed.
(** GetSignedDistance adds the offset instead of subtracting it: a point of the plane does not have distance zero ... *)
Theorem C97_signed_distance_refuted : ~ (forall n d x, is_unit n -> on_plane n d x -> iplane_signed_distance (IPlane n d) x = 0).
Proof.
  intros H. assert (X : iplane_signed_distance (IPlane (Vec 0 0 1) 1) (Vec 0 0 1) = 0) by (apply H; [unfold is_unit, inner|unfold on_plane, inner]; cbn [vx vy vz]; ring). unfold iplane_signed_distance in X. geo. lra.
Qed.
(** ... it is off by twice the offset. *)
Theorem C97_signed_distance_off : forall n d x, n <> origin -> iplane_signed_distance (IPlane n d) x = iplane_get (IPlane n d) x + 2 * d.
Proof. intros n d x N. destruct (C97_plane_closest n d x N) as (_ & _ & -> & _). unfold iplane_signed_distance, vdot, inner. cbn [ip_n ip_d]. ring. Qed.
(** The intersection of an implicit plane with a plane that is not parallel to it: exactly the common points. *)
Theorem C97_intersect : forall n d pos a b, inner n a <> 0 \/ inner n b <> 0 ->
  let '(lp, ld) := iplane_intersect (IPlane n d) (Plane pos a b) in
  forall x, on_line lp ld x <-> on_plane n d x /\ on_span pos a b x.
Proof.
  intros n d pos a b N. unfold iplane_intersect. cbn [ip_n ip_d p_pos p_dir1 p_dir2].
  assert (G : forall u v, inner n u <> 0 -> forall x, on_line (vadd pos (vscale ((d - vdot n pos) / vdot n u) u)) (vsub v (vscale (vdot n v / vdot n u) u)) x <-> on_plane n d x /\ on_span pos u v x).
  { clear N a b. intros u v N x. change (vdot n u) with (inner n u). change (vdot n v) with (inner n v). change (vdot n pos) with (inner n pos). set (k := (d - inner n pos) / inner n u). set (m := inner n v / inner n u).
    assert (K : k * inner n u = d - inner n pos) by (unfold k; field; exact N). assert (M : m * inner n u = inner n v) by (unfold m; field; exact N). clearbody k m. split.
    - intros (t & ->). split.
      + unfold on_plane. transitivity (inner n pos + k * inner n u + t * (inner n v - m * inner n u)); [unfold inner; geo; ring|]. rewrite K, M. ring.
      + exists (k - t * m), t. apply veq; geo; ring.
    - intros (O & s & t & ->). exists t. unfold on_plane in O. assert (S1 : s = k - t * m).
      { apply (Rmult_eq_reg_r (inner n u)); [|exact N]. transitivity (d - inner n pos - t * inner n v); [rewrite <- O; unfold inner, span_point; cbn [vx vy vz]; ring|]. rewrite <- M, <- K. ring. }
      rewrite S1. apply veq; geo; ring. }
  destruct (Rlt_dec (Rabs (vdot n a)) (Rabs (vdot n b))) as [L|L]; cbv beta iota.
  - intros x. rewrite G.
    + split; intros (O & s & t & ->); (split; [exact O|]); exists t, s; apply veq; geo; ring.
    + intros H. change (vdot n b) with (inner n b) in L. rewrite H, Rabs_R0 in L. pose proof (Rabs_pos (vdot n a)). lra.
  - apply G. intros H. change (vdot n a) with (inner n a) in L. rewrite H, Rabs_R0 in L. destruct N as [N|N]; [contradiction|]. apply L. apply Rabs_pos_lt, N.
Qed.
(** The explicit plane and its implicit form have the same points. *)
Theorem C97_to_implicit : forall pos a b, outer a b <> origin -> forall x, on_plane (ip_n (to_implicit (Plane pos a b))) (ip_d (to_implicit (Plane pos a b))) x <-> on_span pos a b x.
Proof.
  intros pos a b N x. unfold to_implicit, from_position_normal, plane_normal. cbn [ip_n ip_d p_pos p_dir1 p_dir2]. change (vcross a b) with (outer a b). assert (D := inner_pos _ N). set (n := outer a b) in *. unfold on_plane. split.
  - intros H. assert (Z : inner n (diff x pos) = 0) by (change (vdot n pos) with (inner n pos) in H; transitivity (inner n x - inner n pos); [unfold inner, diff; cbn [vx vy vz]; ring|lra]).
    exists (inner (outer (diff x pos) b) n / inner n n), (inner (outer a (diff x pos)) n / inner n n).
    assert (I : inner n n * / inner n n = 1) by (field; lra). set (i := / inner n n) in *. unfold Rdiv. fold i.
    assert (K : forall p q r, inner n n * (p - q) = inner n (diff x pos) * r -> p = q).
    { intros p q r E. rewrite Z in E. apply (Rmult_eq_reg_l (inner n n)); [lra|lra]. }
    apply veq; unfold span_point; cbn [vx vy vz].
    + apply (K _ _ (vx n)). transitivity (inner n n * (vx x - vx pos) - (inner n n * i) * (inner (outer (diff x pos) b) n * vx a + inner (outer a (diff x pos)) n * vx b)); [ring|]. rewrite I. unfold n. geo. ring.
    + apply (K _ _ (vy n)). transitivity (inner n n * (vy x - vy pos) - (inner n n * i) * (inner (outer (diff x pos) b) n * vy a + inner (outer a (diff x pos)) n * vy b)); [ring|]. rewrite I. unfold n. geo. ring.
    + apply (K _ _ (vz n)). transitivity (inner n n * (vz x - vz pos) - (inner n n * i) * (inner (outer (diff x pos) b) n * vz a + inner (outer a (diff x pos)) n * vz b)); [ring|]. rewrite I. unfold n. geo. ring.
  - intros (u & v & ->). unfold n, inner, outer, vdot, span_point. cbn [vx vy vz]. ring.
Qed.
Example C97_ex_intersect : inner (Vec 0 0 1) (Vec 0 0 1) <> 0 /\ on_line (fst (iplane_intersect (IPlane (Vec 0 0 1) 5) (Plane (Vec 0 0 0) (Vec 1 0 0) (Vec 0 0 1)))) (snd (iplane_intersect (IPlane (Vec 0 0 1) 5) (Plane (Vec 0 0 0) (Vec 1 0 0) (Vec 0 0 1)))) (Vec 7 0 5).
Proof.
  split; [unfold inner; cbn; lra|]. pose proof (C97_intersect (Vec 0 0 1) 5 (Vec 0 0 0) (Vec 1 0 0) (Vec 0 0 1)) as H. destruct (iplane_intersect _ _) as [lp ld]. cbn [fst snd]. apply H; [right; unfold inner; cbn; lra|].
  split; [unfold on_plane, inner; cbn; ring|]. exists 7, 5. unfold span_point. apply veq; cbn; ring.
Qed.

(** C98: plane coordinates.  For orthonormal directions, u and v recover a point of the plane, u, v, w recover every point, and (u, v) is the closest point. *)
Theorem C98_plane_coordinates : forall pos a b, is_unit a -> is_unit b -> inner a b = 0 ->
  (forall u v, plane_uvw (Plane pos a b) (plane_point (Plane pos a b) u v) = Some (u, v, 0)) /\
  (forall x, exists u v w, plane_uvw (Plane pos a b) x = Some (u, v, w) /\ x = at_line (plane_point (Plane pos a b) u v) (outer a b) w /\
     forall y, on_span pos a b y -> distance x (plane_point (Plane pos a b) u v) <= distance x y).
Proof.
  intros pos a b UA UB AB. assert (AN : forall v, is_unit v -> assert_normalized v = true).
  { intros v U. unfold assert_normalized. change (vdot v v) with (inner v v). rewrite U. destruct (Rlt_dec 1 (1 - 1/20)); [lra|]. destruct (Rlt_dec (1 + 1/20) 1); [lra|reflexivity]. }
  unfold plane_uvw. cbn [p_pos p_dir1 p_dir2]. rewrite (AN a UA), (AN b UB). cbn [andb]. unfold plane_normal. cbn [p_dir1 p_dir2]. split.
  - intros u v. f_equal. unfold is_unit in *. assert (E1 : vdot a (vsub (plane_point (Plane pos a b) u v) pos) = u * inner a a + v * inner a b) by (unfold plane_point; geo; ring). assert (E2 : vdot b (vsub (plane_point (Plane pos a b) u v) pos) = u * inner a b + v * inner b b) by (unfold plane_point; geo; ring).
    assert (E3 : vdot (vcross a b) (vsub (plane_point (Plane pos a b) u v) pos) = 0) by (unfold plane_point; geo; ring). rewrite E1, E2, E3, UA, UB, AB. f_equal. f_equal; ring.
  - intros x. set (d := vsub x pos). exists (vdot a d), (vdot b d), (vdot (vcross a b) d). split; [reflexivity|].
    assert (REC : x = at_line (plane_point (Plane pos a b) (vdot a d) (vdot b d)) (outer a b) (vdot (vcross a b) d)).
    { assert (NN : inner (outer a b) (outer a b) = 1). { transitivity (inner a a * inner b b - inner a b * inner a b); [unfold inner, outer; cbn [vx vy vz]; ring|]. rewrite UA, UB, AB. ring. }
      (* |n|^2 d = (n.d) n + ((b.b) (a.d) - (a.b)(b.d)) a + ((a.a)(b.d) - (a.b)(a.d)) b *)
      assert (X : inner (outer a b) (outer a b) * vx d = inner (outer a b) d * vx (outer a b) + (inner b b * inner a d - inner a b * inner b d) * vx a + (inner a a * inner b d - inner a b * inner a d) * vx b) by (clearbody d; unfold inner, outer; cbn [vx vy vz]; ring).
      assert (Y : inner (outer a b) (outer a b) * vy d = inner (outer a b) d * vy (outer a b) + (inner b b * inner a d - inner a b * inner b d) * vy a + (inner a a * inner b d - inner a b * inner a d) * vy b) by (clearbody d; unfold inner, outer; cbn [vx vy vz]; ring).
      assert (Z : inner (outer a b) (outer a b) * vz d = inner (outer a b) d * vz (outer a b) + (inner b b * inner a d - inner a b * inner b d) * vz a + (inner a a * inner b d - inner a b * inner a d) * vz b) by (clearbody d; unfold inner, outer; cbn [vx vy vz]; ring).
      rewrite NN, UA, UB, AB in X, Y, Z. change (vdot (vcross a b) d) with (inner (outer a b) d). change (vdot a d) with (inner a d). change (vdot b d) with (inner b d).
      set (w := inner (outer a b) d) in *. set (u := inner a d) in *. set (v := inner b d) in *. set (n := outer a b) in *. assert (DX : vx d = vx x - vx pos) by reflexivity. assert (DY : vy d = vy x - vy pos) by reflexivity. assert (DZ : vz d = vz x - vz pos) by reflexivity.
      clearbody d u v w n. unfold at_line, plane_point, vadd, vscale. cbn [vx vy vz p_pos p_dir1 p_dir2]. apply veq; cbn [vx vy vz]; lra. }
    split; [exact REC|]. intros y (s & t & ->). apply foot. set (w := vdot (vcross a b) d) in *. set (u := vdot a d) in *. set (v := vdot b d) in *. clearbody u v w. rewrite REC. clear.
    unfold plane_point. geo. ring.
Qed.
(** Directions that are normalized but not orthogonal are accepted, and the coordinates are then wrong. *)
Theorem C98_plane_coordinates_refuted : ~ (forall pos a b u v, is_unit a -> is_unit b -> outer a b <> origin -> exists w, plane_uvw (Plane pos a b) (plane_point (Plane pos a b) u v) = Some (u, v, w)).
Proof.
  intros H. destruct (H origin (Vec 1 0 0) (Vec (3/5) (4/5) 0) 0 1) as [w E].
  - unfold is_unit, inner. cbn. ring.
  - unfold is_unit, inner. cbn. field.
  - intros X. unfold outer, origin in X. cbn [vx vy vz] in X. injection X as X. lra.
  - unfold plane_uvw in E. destruct (_ && _); [|discriminate]. unfold plane_point, origin in E. geo. injection E as E1 E2 E3. lra.
Qed.
(** GetOrthonormalVectors: for every vector but zero, a right-handed orthonormal frame whose third axis has its direction. *)
Theorem C98_orthonormal : forall n, n <> origin -> exists v d1 d2, orthonormal_vectors n = (v, d1, d2) /\
  is_unit v /\ is_unit d1 /\ is_unit d2 /\ inner d1 d2 = 0 /\ outer d1 d2 = v /\ n = times (sqrt (inner n n)) v.
Proof.
  intros n N. destruct (normalize_dir n N) as (E & S0 & SS). set (v := vnormalize n) in *. assert (UV : is_unit v).
  { rewrite E. unfold is_unit. transitivity (inner n n / (sqrt (inner n n) * sqrt (inner n n))); [unfold inner, vscale; cbn [vx vy vz]; field; change (sqrt (inner n n) <> 0); lra|]. rewrite SS. field. pose proof (inner_pos n N). lra. }
  assert (NV : n = times (sqrt (inner n n)) v). { rewrite E. set (s := sqrt (inner n n)) in *. clearbody s. unfold times, vscale. apply veq; cbn [vx vy vz]; field; lra. }
  clearbody v. unfold orthonormal_vectors. assert (VV : vnormalize n = v).
  { rewrite (proj1 (normalize_dir n N)). symmetry. exact E. }
  cbv zeta. rewrite VV. set (d := if Rlt_dec (vnorm (vcross v (Vec 0 0 1))) (1/10) then vcross v (Vec 0 1 0) else vcross v (Vec 0 0 1)).
  assert (DV : inner v d = 0). { unfold d. destruct (Rlt_dec _ _); unfold inner, vcross; cbn [vx vy vz]; ring. }
  assert (DN : d <> origin).
  { unfold d. destruct (Rlt_dec (vnorm (vcross v (Vec 0 0 1))) (1/10)) as [L|L]; intros Z.
    - unfold vcross, origin in Z. cbn [vx vy vz] in Z. injection Z as Z1 Z2 Z3. assert (VX : vx v = 0) by lra. assert (VZ : vz v = 0) by lra. unfold is_unit, inner in UV. rewrite VX, VZ in UV.
      unfold vnorm, vdot, vcross in L. cbn [vx vy vz] in L. rewrite VX in L. replace ((vy v * 1 - vz v * 0) * (vy v * 1 - vz v * 0) + (vz v * 0 - 0 * 1) * (vz v * 0 - 0 * 1) + (0 * 0 - vy v * 0) * (0 * 0 - vy v * 0)) with 1 in L by (rewrite VZ; lra). rewrite sqrt_1 in L. lra.
    - apply L. rewrite Z. unfold vnorm, vdot, origin. cbn [vx vy vz]. replace (0 * 0 + 0 * 0 + 0 * 0) with 0 by ring. rewrite sqrt_0. lra. }
  clearbody d. destruct (normalize_dir d DN) as (ED & D0 & DD). set (m := vnormalize d) in *. assert (UM : inner m m = 1).
  { rewrite ED. transitivity (inner d d / (sqrt (inner d d) * sqrt (inner d d))); [unfold inner, vscale; cbn [vx vy vz]; field; change (sqrt (inner d d) <> 0); lra|]. rewrite DD. field. pose proof (inner_pos d DN). lra. }
  assert (VM : inner v m = 0). { rewrite ED. transitivity (/ sqrt (inner d d) * inner v d); [unfold inner, vscale; cbn [vx vy vz]; ring|]. rewrite DV. ring. }
  clearbody m. set (d1 := vscale (-1) m). assert (U1 : inner d1 d1 = 1) by (rewrite <- UM; unfold d1, inner, vscale; cbn [vx vy vz]; ring). assert (V1 : inner v d1 = 0) by (transitivity (- inner v m); [unfold d1, inner, vscale; cbn [vx vy vz]; ring|lra]). clearbody d1.
  set (c := vcross v d1). assert (UC : inner c c = 1) by (transitivity (inner v v * inner d1 d1 - inner v d1 * inner v d1); [unfold c, inner, vcross; cbn [vx vy vz]; ring|rewrite UV, U1, V1; ring]).
  assert (CN : vnormalize c = c). { unfold vnormalize. destruct (Rlt_dec 0 (vdot c c)); [|reflexivity]. unfold vnorm. change (vdot c c) with (inner c c). rewrite UC, sqrt_1. apply veq; unfold vscale; cbn [vx vy vz]; field. }
  exists v, d1, c. rewrite CN. split; [reflexivity|]. split; [exact UV|]. split; [exact U1|]. split; [exact UC|]. split; [unfold c, inner, vcross; cbn [vx vy vz]; ring|]. split; [|exact NV].
  (* d1 x (v x d1) = v (d1.d1) - d1 (d1.v) *)
  assert (T : outer d1 c = Vec (inner d1 d1 * vx v - inner v d1 * vx d1) (inner d1 d1 * vy v - inner v d1 * vy d1) (inner d1 d1 * vz v - inner v d1 * vz d1)).
  { unfold c, outer, vcross, inner. apply veq; cbn [vx vy vz]; ring. }
  rewrite T, U1, V1. apply veq; cbn [vx vy vz]; ring.
Qed.
(** A plane made from a normal has that normal (normalized), and contains its position. *)
Theorem C98_from_normal : forall pos n, n <> origin -> let p := plane_from_normal pos n in
  p_pos p = pos /\ is_unit (p_dir1 p) /\ is_unit (p_dir2 p) /\ inner (p_dir1 p) (p_dir2 p) = 0 /\ n = times (sqrt (inner n n)) (plane_normal p).
Proof.
  intros pos n N p. destruct (C98_orthonormal n N) as (v & d1 & d2 & E & UV & U1 & U2 & O & X & T). assert (P : p = Plane pos d1 d2) by (unfold p, plane_from_normal; rewrite E; reflexivity). rewrite P. cbn [p_pos p_dir1 p_dir2]. unfold plane_normal. cbn [p_dir1 p_dir2].
  change (vcross d1 d2) with (outer d1 d2). rewrite X. auto.
Qed.
(** Swapping the directions turns the normal round and keeps the points. *)
Theorem C98_swapped : forall pos a b, plane_normal (plane_swapped (Plane pos a b)) = opposite (plane_normal (Plane pos a b)) /\ forall u v, plane_point (plane_swapped (Plane pos a b)) u v = plane_point (Plane pos a b) v u.
Proof. intros. split; [|intros]; unfold plane_normal, plane_swapped, plane_point; apply veq; geo; ring. Qed.
(** Moving a plane moves its points. *)
Theorem C98_plane_transform : forall g p u v, plane_point (plane_transform g p) u v = vadd (mapply (prot g) (plane_point p u v)) (ppos g).
Proof. intros g [pos a b] u v. unfold plane_point, plane_transform. apply veq; geo; ring. Qed.

(** Triangles.  Subdividing [n] times gives 3^n triangles ... *)
Theorem C98_subdivide_count : forall n t, length (subdivide n t) = (3 ^ n)%nat.
Proof. induction n as [|n IH]; intros [[a b] c]; [reflexivity|]. cbn [subdivide]. cbv zeta. rewrite !app_length, !IH. cbn [Nat.pow]. lia. Qed.
(** ... that lie in the triangle and together cover it ... *)
Theorem C98_subdivide_cover : forall n a b c x, in_triangle a b c x <-> exists a' b' c', In (a', b', c') (subdivide n (a, b, c)) /\ in_triangle a' b' c' x.
Proof.
  induction n as [|n IH]; intros a b c x; cbn [subdivide]; cbv zeta.
  - split; [intros H; exists a, b, c; split; [left; reflexivity|exact H]|intros (a' & b' & c' & [E|[]] & H); injection E as <- <- <-; exact H].
  - set (m := vscale (/ 3) (vadd (vadd a b) c)). assert (MX : vx m = (vx a + vx b + vx c) / 3 /\ vy m = (vy a + vy b + vy c) / 3 /\ vz m = (vz a + vz b + vz c) / 3) by (unfold m, vscale, vadd; cbn [vx vy vz]; repeat split; field). destruct MX as (MX & MY & MZ). clearbody m.
    assert (C : in_triangle a b c x <-> in_triangle a b m x \/ in_triangle b c m x \/ in_triangle c a m x).
    { split.
      - intros (s & t & u & S0 & T0 & U0 & E & ->). destruct (Rle_dec u s) as [L1|L1]; [destruct (Rle_dec u t) as [L2|L2]|].
        + left. exists (s - u), (t - u), (3 * u). repeat (split; [lra|]). rewrite MX, MY, MZ. apply veq; cbn [vx vy vz]; field.
        + right. right. exists (u - t), (s - t), (3 * t). repeat (split; [lra|]). rewrite MX, MY, MZ. apply veq; cbn [vx vy vz]; field.
        + destruct (Rle_dec s t) as [L2|L2].
          * right. left. exists (t - s), (u - s), (3 * s). repeat (split; [lra|]). rewrite MX, MY, MZ. apply veq; cbn [vx vy vz]; field.
          * right. right. exists (u - t), (s - t), (3 * t). repeat (split; [lra|]). rewrite MX, MY, MZ. apply veq; cbn [vx vy vz]; field.
      - intros [(s & t & u & S0 & T0 & U0 & E & ->)|[(s & t & u & S0 & T0 & U0 & E & ->)|(s & t & u & S0 & T0 & U0 & E & ->)]]; rewrite MX, MY, MZ.
        + exists (s + u / 3), (t + u / 3), (u / 3). repeat (split; [lra|]). apply veq; cbn [vx vy vz]; field.
        + exists (u / 3), (s + u / 3), (t + u / 3). repeat (split; [lra|]). apply veq; cbn [vx vy vz]; field.
        + exists (t + u / 3), (u / 3), (s + u / 3). repeat (split; [lra|]). apply veq; cbn [vx vy vz]; field. }
    rewrite C, !IH. split.
    + intros [(a' & b' & c' & I & H)|[(a' & b' & c' & I & H)|(a' & b' & c' & I & H)]]; exists a', b', c'; (split; [|exact H]); rewrite !in_app_iff; auto.
    + intros (a' & b' & c' & I & H). rewrite !in_app_iff in I. destruct I as [I|[I|I]]; [left|right; left|right; right]; exists a', b', c'; auto.
Qed.
(** ... all with the same orientation and the same share of the area. *)
Theorem C98_subdivide_normal : forall n a b c a' b' c', In (a', b', c') (subdivide n (a, b, c)) ->
  tri_normal (a', b', c') = times (/ 3 ^ n) (tri_normal (a, b, c)) /\ area2 a' b' c' = area2 a b c / 3 ^ n.
Proof.
  assert (A : forall n a b c a' b' c', In (a', b', c') (subdivide n (a, b, c)) -> tri_normal (a', b', c') = times (/ 3 ^ n) (tri_normal (a, b, c))).
  { induction n as [|n IH]; intros a b c a' b' c'; cbn [subdivide]; cbv zeta.
    - intros [E|[]]. injection E as <- <- <-. unfold times. apply veq; cbn [vx vy vz pow]; field.
    - assert (P : 3 ^ n <> 0) by (apply pow_nonzero; lra). rewrite !in_app_iff. intros [I|[I|I]]; apply IH in I; rewrite I; cbn [pow]; set (k := 3 ^ n) in *; clearbody k; unfold tri_normal; apply veq; geo; field; exact P. }
  intros n a b c a' b' c' I. split; [apply (A n _ _ _ _ _ _ I)|]. assert (H := A n _ _ _ _ _ _ I). assert (P : 0 < 3 ^ n) by (apply pow_lt; lra).
  change (area2 a' b' c') with (sqrt (inner (tri_normal (a', b', c')) (tri_normal (a', b', c')))). change (area2 a b c) with (sqrt (inner (tri_normal (a, b, c)) (tri_normal (a, b, c)))). rewrite H. set (m := tri_normal (a, b, c)). clearbody m. set (k := 3 ^ n) in *. clearbody k. clear -P.
  replace (inner (times (/ k) m) (times (/ k) m)) with (/ k * / k * inner m m) by (unfold inner, times; cbn [vx vy vz]; ring). assert (0 < / k) by (apply Rinv_0_lt_compat, P). rewrite sqrt_mult_alt by (apply Rmult_le_pos; lra). rewrite sqrt_square by lra. unfold Rdiv. ring.
Qed.
(** Flipping a triangle turns its normal round and keeps its points; scaling by k multiplies the normal by k^2, so it never turns it round; the centroid is in the triangle. *)
Theorem C98_triangle : forall a b c,
  tri_normal (tri_flipped (a, b, c)) = opposite (tri_normal (a, b, c)) /\ (forall x, in_triangle b a c x <-> in_triangle a b c x) /\ tri_flipped (a, b, c) = (b, a, c) /\
  (forall o k, tri_normal (tri_transform o k (a, b, c)) = times (k * k) (tri_normal (a, b, c))) /\ in_triangle a b c (tri_centroid (a, b, c)) /\
  inner (tri_normal (a, b, c)) (diff b a) = 0 /\ inner (tri_normal (a, b, c)) (diff c a) = 0.
Proof.
  intros a b c. split; [unfold tri_normal, tri_flipped; apply veq; geo; ring|]. split.
  { intros x. split; intros (s & t & u & S0 & T0 & U0 & E & ->); exists t, s, u; repeat (split; [lra|]); apply veq; cbn [vx vy vz]; ring. }
  split; [reflexivity|]. split; [intros o k; unfold tri_normal, tri_transform; apply veq; geo; ring|]. split.
  { exists (1/3), (1/3), (1/3). repeat (split; [lra|]). unfold tri_centroid. apply veq; geo; field. }
  unfold tri_normal. split; geo; ring.
Qed.
Example C98_ex_orthonormal : orthonormal_vectors (Vec 0 0 2) = (Vec 0 0 1, Vec 1 0 0, Vec 0 1 0).
Proof.
  assert (N2 : forall k w, 0 < k -> inner w w = 1 -> vnormalize (vscale k w) = w).
  { intros k w K W. unfold vnormalize, vnorm. replace (vdot (vscale k w) (vscale k w)) with (k * k * inner w w) by (unfold vdot, vscale, inner; cbn [vx vy vz]; ring). rewrite W, Rmult_1_r, sqrt_square by lra. destruct (Rlt_dec 0 (k * k)); [|exfalso; nra]. unfold vscale. apply veq; cbn [vx vy vz]; field; lra. }
  unfold orthonormal_vectors. cbv zeta. assert (E : vnormalize (Vec 0 0 2) = Vec 0 0 1).
  { replace (Vec 0 0 2) with (vscale 2 (Vec 0 0 1)) by (unfold vscale; cbn [vx vy vz]; apply veq; cbn [vx vy vz]; ring). apply N2; [lra|]. unfold inner. cbn [vx vy vz]. ring. }
  rewrite E. assert (Z : vcross (Vec 0 0 1) (Vec 0 0 1) = origin) by (apply veq; unfold vcross, origin; cbn [vx vy vz]; ring). rewrite Z. assert (NZ : vnorm origin = 0) by (unfold vnorm, vdot, origin; cbn [vx vy vz]; replace (0 * 0 + 0 * 0 + 0 * 0) with 0 by ring; apply sqrt_0). rewrite NZ. destruct (Rlt_dec 0 (1/10)); [|lra].
  assert (C1 : vcross (Vec 0 0 1) (Vec 0 1 0) = vscale 1 (Vec (-1) 0 0)) by (apply veq; unfold vcross, vscale; cbn [vx vy vz]; ring). rewrite C1, N2; [|lra|unfold inner; cbn [vx vy vz]; ring].
  assert (C2 : vscale (-1) (Vec (-1) 0 0) = Vec 1 0 0) by (apply veq; unfold vscale; cbn [vx vy vz]; ring). rewrite C2.
  assert (C3 : vcross (Vec 0 0 1) (Vec 1 0 0) = vscale 1 (Vec 0 1 0)) by (apply veq; unfold vcross, vscale; cbn [vx vy vz]; ring). rewrite C3, N2; [reflexivity|lra|unfold inner; cbn [vx vy vz]; ring].
Qed.
Example C98_ex_subdivide : length (subdivide 4 (ta, tb, tc)) = 81%nat. Proof. apply C98_subdivide_count. Qed.

Print Assumptions C96_ray. Print Assumptions C96_ray_unique. Print Assumptions C96_ray_corners. Print Assumptions C96_ray_parallel. Print Assumptions C96_ray_parallel_refuted. Print Assumptions C96_primitive.
Print Assumptions C97_line_closest. Print Assumptions C97_line_distance. Print Assumptions C97_plane_closest. Print Assumptions C97_plane_same. Print Assumptions C97_plane_through. Print Assumptions C97_signed_distance_refuted. Print Assumptions C97_signed_distance_off. Print Assumptions C97_intersect. Print Assumptions C97_to_implicit.
Print Assumptions C98_plane_coordinates. Print Assumptions C98_plane_coordinates_refuted. Print Assumptions C98_orthonormal. Print Assumptions C98_from_normal. Print Assumptions C98_swapped. Print Assumptions C98_plane_transform. Print Assumptions C98_subdivide_count. Print Assumptions C98_subdivide_cover. Print Assumptions C98_subdivide_normal. Print Assumptions C98_triangle.
