(** C86, C87 and C88: force closure, contact cones and grasp quality. *)
From Coq Require Import Reals List Lra Lia Arith.
From Verif Require Import QuatModel QuatSpec QuatProofs GwsModel GwsSpec GwsProofs.
Import ListNotations.
Open Scope R_scope.

(** C86.  The contacts that are used: the obstacle's point relative to the centre of the object in metres, the unit normal that leads
    to the finger, and the part of the finger's movement that presses onto the object. *)
Theorem C86_contacts : forall ps infos m,
  Forall2 (fun i c =>
      vscale 1000 (c_p c) = vsub (obstacle_local i) (p_center ps) /\
      (finger_local i <> obstacle_local i -> vdot (c_n c) (c_n c) = 1 /\ exists k, 0 < k /\ vsub (finger_local i) (obstacle_local i) = vscale k (c_n c)) /\
      (1 / 10 ^ 10 < vnorm (vsub (obstacle_global i) (finger_global i)) ->
         c_force c * vnorm (vsub (obstacle_global i) (finger_global i)) = vdot (approach i) (vsub (obstacle_global i) (finger_global i))))
    infos (contacts_m (set_infos ps infos m)).
Proof.
  intros ps infos m. unfold set_infos. cbn [contacts_m]. induction infos as [|i infos IH]; [constructor|]. cbn [map]. constructor; [|exact IH].
  unfold mm2m, of_info. cbn [c_p c_n c_force]. split; [|split].
  - generalize (p_center ps). intros [a b c]. destruct (obstacle_local i) as [d e f]. vec. veq; field.
  - intros N. apply vnormalize_unit. intros Z. apply N. destruct (finger_local i) as [a b c], (obstacle_local i) as [d e f]. unfold vsub in Z. cbn [vx vy vz] in Z. injection Z as A B C. f_equal; lra.
  - intros P. destruct Rlt_dec as [_|N]; [|contradiction]. assert (0 < 1 / 10 ^ 10) by lra. rewrite (Rmult_comm _ (vnorm _)). 
    replace (vdot (approach i) _) with (vdot (vsub (obstacle_global i) (finger_global i)) (approach i)) by (unfold vdot; ring). field. lra.
Qed.

(** A grasp that can apply every wrench is recognised as force closed, whatever was asked before. *)
Theorem C86_accepted : forall ps infos m, qhull_ok (p_qhull ps) -> infos <> [] ->
  (forall w, applicable ps (contacts_m (set_infos ps infos m)) w) -> fst (force_closure ps (set_infos ps infos m)) = true.
Proof.
  intros ps infos m Q N A. rewrite force_closure_after by exact N. apply origin_inside_hull. cbn [contacts_m set_infos] in A.
  match goal with |- (length ?p < 4)%nat \/ _ => set (pts := p) in * end.
  destruct (lt_dec (length pts) 4) as [L|L]; [left; exact L|]. destruct (p_qhull ps pts) as [a|] eqn:E; [|right; left; reflexivity].
  right; right. exists a. split; [reflexivity|]. intros f F. destruct (Q _ _ E) as [En Un].
  destruct (Rle_dec (f_offset f) 0) as [O|O]; [lra|]. exfalso.
  apply (positive_offset ps _ a f En Un F ltac:(lra)). apply A.
Qed.
(** Rejected grasps: there is a wrench they cannot apply. *)
Theorem C86_rejected : forall ps infos m, qhull_ok (p_qhull ps) -> infos <> [] ->
  fst (force_closure ps (set_infos ps infos m)) = false -> exists w, ~ applicable ps (contacts_m (set_infos ps infos m)) w.
Proof.
  intros ps infos m Q N R. rewrite force_closure_after in R by exact N. cbn [contacts_m set_infos].
  match type of R with origin_inside (create_hull _ ?p) = _ => set (pts := p) in * end.
  unfold create_hull in R. destruct (length pts <? 4)%nat eqn:L; [discriminate R|]. destruct (p_qhull ps pts) as [a|] eqn:E; [|discriminate R].
  destruct (Q _ _ E) as [En Un].
  assert (X : exists f, In f (a_facets a) /\ 0 < f_offset f).
  { unfold origin_inside in R. cbn [h_faces] in R. clear -R. induction (a_facets a) as [|f l IH]; [discriminate R|]. cbn [map forallb dist_plane_zero] in R.
    destruct (Rlt_dec (1 / 10000) (f_offset f)) as [P|P]; [exists f; split; [left; reflexivity|lra]|]. cbn [andb] in R. destruct (IH R) as (g & G & O). exists g. split; [right; exact G|exact O]. }
  destruct X as (f & F & O). eexists. apply (positive_offset ps _ a f En Un F O).
Qed.
(** Accepted with the origin strictly inside the hull: every wrench can be applied. *)
Theorem C86_closed : forall ps infos m a, qhull_ok (p_qhull ps) -> infos <> [] ->
  p_qhull ps (wrench_points ps (contacts_m (set_infos ps infos m))) = Some a -> (forall f, In f (a_facets a) -> f_offset f < 0) ->
  (forall w, applicable ps (contacts_m (set_infos ps infos m)) w) /\ fst (force_closure ps (set_infos ps infos m)) = true.
Proof.
  intros ps infos m a Q N E O. assert (W : forall w, applicable ps (contacts_m (set_infos ps infos m)) w).
  { intros w. destruct (Q _ _ E) as [En Un]. exact (strict_sound ps _ a En O w). }
  split; [exact W|]. apply C86_accepted; assumption.
Qed.
(** Without contacts the answer is no. *)
Theorem C86_no_contacts : forall ps m, fst (force_closure ps (set_infos ps [] m)) = false.
Proof. reflexivity. Qed.

(** With too few cone points, or when qhull fails, the answer is yes, though the grasp cannot apply every wrench. *)
Theorem C86_few_points_refuted : forall ps infos m, infos <> [] -> (length (wrench_points ps (contacts_m (set_infos ps infos m))) < 4)%nat ->
  fst (force_closure ps (set_infos ps infos m)) = true.
Proof. intros ps infos m N L. rewrite force_closure_after by exact N. apply origin_inside_hull. left. exact L. Qed.
Theorem C86_qhull_error_refuted : forall ps infos m, infos <> [] -> p_qhull ps (wrench_points ps (contacts_m (set_infos ps infos m))) = None ->
  fst (force_closure ps (set_infos ps infos m)) = true.
Proof. intros ps infos m N E. rewrite force_closure_after by exact N. apply origin_inside_hull. right; left. exact E. Qed.
(** One contact where finger and object touch exactly (or the finger moves sideways) makes every grasp force closed, since its cone
    consists of the origin. *)
Theorem C86_zero_force_refuted : forall ps infos m c, qhull_ok (p_qhull ps) -> (0 < p_samples ps)%nat ->
  In c (contacts_m (set_infos ps infos m)) -> c_force c = 0 -> fst (force_closure ps (set_infos ps infos m)) = true.
Proof.
  intros ps infos m c Q S I F. destruct infos as [|i infos]; [destruct I|]. rewrite force_closure_after by discriminate. exact (zero_force_inside ps _ c Q I F S).
Qed.

(** C87.  The directions of the cone at a contact: unit vectors, as many as asked for, at 45 degrees to the normal. *)
Theorem C87_directions : forall samples mu unit_force c, vdot (c_n c) (c_n c) = 1 -> 0 < unit_force -> 0 < c_force c ->
  length (cone_points samples mu unit_force c) = samples /\
  forall d, In d (cone_points samples mu unit_force c) ->
    vdot (c_n d) (c_n d) = 1 /\ vdot (c_n d) (c_n c) = 1 / sqrt 2 /\ c_force d = c_force c /\ exists k, vsub (c_p d) (c_p c) = vscale k (c_n d).
Proof.
  intros n mu u c N U F. split; [unfold cone_points; rewrite map_length; apply seq_length|]. intros d I.
  destruct (cone_direction n mu u c d N U ltac:(lra) I) as [A B]. split; [exact A|]. split; [|split].
  - rewrite B. destruct Rlt_dec; [reflexivity|lra].
  - unfold cone_points in I. apply in_map_iff in I as (i & <- & _). reflexivity.
  - unfold cone_points in I. apply in_map_iff in I as (i & <- & _). cbn [c_p c_n].
    match goal with |- exists k, vsub (vadd ?t _) _ = _ => generalize t end. intros cp. assert (X : exists k, cp = vscale k (vnormalize cp)).
    { destruct (Rlt_dec 0 (vdot cp cp)) as [P|P].
      - destruct (vnormalize_unit cp) as (_ & k & _ & K); [intros Z; rewrite Z in P; unfold vdot in P; cbn [vx vy vz] in P; lra|]. exists k. exact K.
      - exists 1. unfold vnormalize. destruct (Rlt_dec 0 (vdot cp cp)); [lra|]. destruct cp as [x y z]. vec. veq; ring. }
    destruct X as [k K]. exists k. rewrite <- K. destruct cp as [x y z], (c_p c) as [x' y' z']. vec. veq; ring.
Qed.
(** They obey Coulomb's law exactly for friction coefficients of at least one. *)
Theorem C87_friction : forall samples mu unit_force c d, vdot (c_n c) (c_n c) = 1 -> 0 < unit_force -> 0 < c_force c ->
  In d (cone_points samples mu unit_force c) -> (within_friction_cone mu (c_n c) (c_n d) <-> 1 <= mu).
Proof.
  intros n mu u c d N U F I. destruct (C87_directions n mu u c N U F) as [_ H]. destruct (H d I) as (D & E & _ & _). unfold within_friction_cone. rewrite E.
  assert (S : 0 < sqrt 2) by (apply sqrt_lt_R0; lra). assert (P : 0 < 1 / sqrt 2) by (apply Rdiv_lt_0_compat; lra).
  assert (SS : (1 / sqrt 2) * (1 / sqrt 2) = 1 / 2) by (transitivity (1 / (sqrt 2 * sqrt 2)); [field; lra|rewrite sqrt_sqrt by lra; reflexivity]).
  assert (T : vnorm (vsub (c_n d) (vscale (1 / sqrt 2) (c_n c))) = 1 / sqrt 2).
  { unfold vnorm. set (k := 1 / sqrt 2) in *. replace (vdot _ _) with (vdot (c_n d) (c_n d) - 2 * k * vdot (c_n d) (c_n c) + k * k * vdot (c_n c) (c_n c)) by (vec; ring).
    rewrite D, E, N. replace (1 - 2 * k * k + k * k * 1) with (k * k) by lra. apply sqrt_square. lra. }
  rewrite T. set (k := 1 / sqrt 2) in *. split.
  - intros [_ L]. apply Rmult_le_reg_r with k; lra.
  - intros M. split; [lra|]. rewrite <- (Rmult_1_l k) at 1. apply Rmult_le_compat_r; lra.
Qed.
(** The friction coefficient is not used as announced: with the default coefficient every direction is outside the friction cone. *)
Theorem C87_default_friction_refuted : forall samples unit_force c d, vdot (c_n c) (c_n c) = 1 -> 0 < unit_force -> 0 < c_force c ->
  In d (cone_points samples (35 / 100) unit_force c) -> ~ within_friction_cone (35 / 100) (c_n c) (c_n d).
Proof. intros n u c d N U F I W. apply (C87_friction n (35 / 100) u c d N U F I) in W. lra. Qed.
(** A finger that moves away from the object still gets a cone, on the other side. *)
Theorem C87_negative_force_refuted : forall samples mu unit_force c d, vdot (c_n c) (c_n c) = 1 -> 0 < unit_force -> c_force c < 0 ->
  In d (cone_points samples mu unit_force c) -> vdot (c_n d) (c_n c) = - (1 / sqrt 2).
Proof. intros n mu u c d N U F I. destruct (cone_direction n mu u c d N U ltac:(lra) I) as [_ B]. rewrite B. destruct Rlt_dec; [lra|]. assert (0 < sqrt 2) by (apply sqrt_lt_R0; lra). field. lra. Qed.

(** C88.  The quality times the offset of the object is the radius of the largest ball in the hull of the wrenches about the mean of
    the hull's vertices. *)
Theorem C88_quality : forall ps infos m sample a,
  let pts := wrench_points ps (contacts_m (set_infos ps infos m)) in
  let q := fst (quality ps sample (set_infos ps infos m)) in
  qhull_ok (p_qhull ps) -> infos <> [] -> ows_done m = true -> 0 < ows_offset m -> (4 <= length pts)%nat -> p_qhull ps pts = Some a -> 0 < a_volume a ->
  q * ows_offset m < flt_max -> largest_ball pts (mean (a_verts a)) (q * ows_offset m).
Proof.
  intros ps infos m sample a pts q Q N D O L E V M.
  assert (X : q * ows_offset m = min_offset (create_hull (p_qhull ps) pts)).
  { unfold q. rewrite (quality_after ps infos m sample N D). fold pts. cbv zeta. destruct (hull_nonempty (p_qhull ps) pts a Q L E) as [-> ->].
    destruct (Rle_dec (ows_offset m) 0); [lra|]. destruct (Rle_dec (a_volume a) 0); [lra|]. destruct (Req_EM_T (ows_offset m) 0); [lra|]. field. assumption. }
  rewrite X in *. pose proof (largest (p_qhull ps) pts a Q L E M) as B. rewrite (create_some _ _ _ L E) in B at 1. exact B.
Qed.
(** Answers are about the contacts that were set last, if there are any. *)
Theorem C88_history : forall ps infos m m' sample sample', infos <> [] ->
  fst (force_closure ps (set_infos ps infos m)) = fst (force_closure ps (set_infos ps infos m')) /\
  (ows_done m = true -> ows_done m' = true -> ows_offset m = ows_offset m' ->
   fst (quality ps sample (set_infos ps infos m)) = fst (quality ps sample' (set_infos ps infos m'))) /\
  (ows_volume m = ows_volume m' -> fst (volume_measure ps (set_infos ps infos m)) = fst (volume_measure ps (set_infos ps infos m'))).
Proof.
  intros ps infos m m' s s' N. split; [rewrite !force_closure_after by exact N; reflexivity|]. split.
  - intros D D' O. rewrite !quality_after by assumption. rewrite O. reflexivity.
  - intros O. rewrite !volume_after by assumption. rewrite O. reflexivity.
Qed.
(** Without contacts the quality is that of the contacts before, although force closure is then denied. *)
Theorem C88_no_contacts_refuted : forall ps infos m sample sample', infos <> [] -> ows_done m = true ->
  let '(q, m') := quality ps sample (set_infos ps infos m) in
  fst (quality ps sample' (set_infos ps [] m')) = q /\ fst (force_closure ps (set_infos ps [] m')) = false.
Proof.
  intros ps infos m s s' N D. pose proof (quality_after ps infos m s N D) as Q. destruct (quality ps s (set_infos ps infos m)) as [q m'] eqn:E. split; [|reflexivity].
  cbn [fst] in Q. rewrite Q. assert (M : m' = ensure_gws ps (set_infos ps infos m)).
  { unfold quality in E. replace (ows_done (set_infos ps infos m)) with true in E by (symmetry; exact D). injection E as _ <-. reflexivity. }
  rewrite M, (ensure_after ps infos m N). unfold quality, set_infos, ensure_gws, calc_gws. cbn [ows_done gws_done gws contacts_m contacts map ows_offset ows_volume fst]. rewrite D. reflexivity.
Qed.
(** The overload for contact points ignores its argument: the measure is left without contacts. *)
Theorem C88_overload_refuted : forall ps arg m, contacts (set_points ps arg m) = [] /\ basic_quality (set_points ps arg m) = 0 /\
  fst (force_closure ps (set_points ps arg m)) = false.
Proof. intros ps arg m. split; [reflexivity|]. split; [|reflexivity]. unfold basic_quality, set_points. cbn. destruct Rlt_dec; lra. Qed.
(** The basic measure. *)
Theorem C88_basic : forall ps infos m, basic_quality (set_infos ps infos m) = Rmin 1 (INR (length infos) / 5).
Proof.
  intros ps infos m. unfold basic_quality, set_infos. cbn [contacts]. rewrite map_length. unfold Rmin.
  destruct (Rlt_dec 1 (INR (length infos) / 5)), (Rle_dec 1 (INR (length infos) / 5)); lra.
Qed.
(** The volume measure is the ratio of the volumes. *)
Theorem C88_volume : forall ps infos m a,
  let pts := wrench_points ps (contacts_m (set_infos ps infos m)) in
  qhull_ok (p_qhull ps) -> infos <> [] -> 1 / 10 ^ 10 < ows_volume m -> (4 <= length pts)%nat -> p_qhull ps pts = Some a -> 0 < a_volume a ->
  fst (volume_measure ps (set_infos ps infos m)) = a_volume a / ows_volume m.
Proof.
  intros ps infos m a pts Q N O L E V. rewrite (volume_after ps infos m N). fold pts. cbv zeta. destruct (hull_nonempty (p_qhull ps) pts a Q L E) as [-> ->].
  assert (0 < 1 / 10 ^ 10) by lra. destruct (Rle_dec (ows_volume m) 0); [lra|]. destruct (Rle_dec (a_volume a) 0); [lra|].
  destruct (Rlt_dec (1 / 10 ^ 10) (ows_volume m)); [reflexivity|contradiction].
Qed.

(** A simplex in wrench space that leaves out the origin, and a qhull that knows only this one hull. *)
Definition we (a b c d e f : R) : wrench := (Vec a b c, Vec d e f).
Lemma we_add a b c d e f a' b' c' d' e' f' : wadd (we a b c d e f) (we a' b' c' d' e' f') = we (a + a') (b + b') (c + c') (d + d') (e + e') (f + f').
Proof. reflexivity. Qed.
Lemma we_scale k a b c d e f : wscale k (we a b c d e f) = we (k * a) (k * b) (k * c) (k * d) (k * e) (k * f).
Proof. reflexivity. Qed.
Lemma we_zero : wzero = we 0 0 0 0 0 0.
Proof. reflexivity. Qed.
Ltac wexp := rewrite ?we_zero; repeat (rewrite ?we_scale, ?we_add).
Definition corners : list wrench := [we 1 0 0 0 0 0; we 2 0 0 0 0 0; we 1 1 0 0 0 0; we 1 0 1 0 0 0; we 1 0 0 1 0 0; we 1 0 0 0 1 0; we 1 0 0 0 0 1].
Definition corner0 : wrench := we 1 0 0 0 0 0.
Definition simplex : answer :=
  Answer [Facet (we (-1) 0 0 0 0 0) 1 [corner0]; Facet (we 0 (-1) 0 0 0 0) 0 [corner0]; Facet (we 0 0 (-1) 0 0 0) 0 [corner0];
          Facet (we 0 0 0 (-1) 0 0) 0 [corner0]; Facet (we 0 0 0 0 (-1) 0) 0 [corner0]; Facet (we 0 0 0 0 0 (-1)) 0 [corner0];
          Facet (wscale (/ sqrt 6) (we 1 1 1 1 1 1)) (- 2 / sqrt 6) [we 2 0 0 0 0 0]] corners (1 / 720).
Definition wrench_dec (a b : wrench) : {a = b} + {a <> b}.
Proof. repeat decide equality; apply Req_EM_T. Defined.
Definition one_hull (pts : list wrench) : option answer := if list_eq_dec wrench_dec pts corners then Some simplex else None.
Lemma s6 : 0 < sqrt 6. Proof. apply sqrt_lt_R0. lra. Qed.
Lemma one_hull_ok : qhull_ok one_hull.
Proof.
  intros pts a E. unfold one_hull in E. destruct (list_eq_dec wrench_dec pts corners) as [-> |]; [|discriminate E]. injection E as <-. pose proof s6 as S6.
  assert (I6 : 0 < / sqrt 6) by (apply Rinv_0_lt_compat, S6). split.
  - unfold encloses. split; [discriminate|]. split; [discriminate|]. split; [auto|]. intros [[a b c] [d e f]]. split.
    + intros (cs & L & P & S & C). destruct cs as [|c0 [|c1 [|c2 [|c3 [|c4 [|c5 [|c6 [|? ?]]]]]]]]; try discriminate L. unfold corners in C. cbn [comb] in C. rewrite we_zero in C. repeat (rewrite ?we_scale, ?we_add in C). unfold we in C.
      injection C as <- <- <- <- <- <-. cbn [sum fold_right] in S. repeat match goal with H : Forall _ (_ :: _) |- _ => inversion H; clear H; subst end.
      intros g G. cbn [simplex a_facets In] in G. repeat (destruct G as [<-|G]; [unfold we; vec; cbn [f_normal f_offset]; vec; try lra|]); [|destruct G].
      unfold Rdiv. match goal with |- ?t <= 0 => replace t with (/ sqrt 6 * (c0 + 2 * c1 + 2 * c2 + 2 * c3 + 2 * c4 + 2 * c5 + 2 * c6 - 2)) by ring end.
      rewrite <- (Rmult_0_r (/ sqrt 6)). apply Rmult_le_compat_l; lra.
    + intros H. unfold simplex in H. cbn [a_facets] in H.
      pose proof (H _ (or_introl eq_refl)) as H0. pose proof (H _ (or_intror (or_introl eq_refl))) as H1. pose proof (H _ (or_intror (or_intror (or_introl eq_refl)))) as H2.
      pose proof (H _ (or_intror (or_intror (or_intror (or_introl eq_refl))))) as H3. pose proof (H _ (or_intror (or_intror (or_intror (or_intror (or_introl eq_refl)))))) as H4.
      pose proof (H _ (or_intror (or_intror (or_intror (or_intror (or_intror (or_introl eq_refl))))))) as H5. pose proof (H _ (or_intror (or_intror (or_intror (or_intror (or_intror (or_intror (or_introl eq_refl)))))))) as H6. clear H.
      unfold we, wscale, wdot, vdot, vscale in *. cbn [fst snd vx vy vz f_normal f_offset] in *.
      assert (T : a + b + c + d + e + f <= 2).
      { apply (Rmult_le_compat_l (sqrt 6)) in H6; [|lra]. rewrite Rmult_0_r in H6. match type of H6 with ?t <= 0 => replace t with (a + b + c + d + e + f - 2) in H6 by (field; lra) end. lra. }
      exists [2 - (a + b + c + d + e + f); a - 1; b; c; d; e; f]. split; [reflexivity|]. split; [do 7 (apply Forall_cons; [lra|]); apply Forall_nil|]. split; [cbn; ring|].
      unfold corners. cbn [comb]. wexp. unfold we. veq; ring.
  - intros g G. cbn [simplex a_facets In] in G. repeat (destruct G as [<-|G]; [split; [unfold we; vec; cbn [f_normal f_offset]; vec; try lra|discriminate]|]); [|destruct G].
    match goal with |- ?t = 1 => replace t with (6 * (/ sqrt 6 * / sqrt 6)) by ring end. rewrite <- Rinv_mult, sqrt_sqrt by lra. field.
Qed.
(** A positive radius does not mean force closure: the ball is not about the origin. *)
Theorem C88_positive_without_closure_refuted :
  qhull_ok one_hull /\ 0 < min_offset (create_hull one_hull corners) < flt_max /\ origin_inside (create_hull one_hull corners) = false.
Proof.
  split; [exact one_hull_ok|]. assert (E : one_hull corners = Some simplex) by (unfold one_hull; destruct list_eq_dec; [reflexivity|congruence]).
  rewrite (create_some one_hull corners simplex ltac:(cbn; lia) E). split.
  - unfold min_offset. cbn [h_faces]. pose proof s6 as S6. assert (I6 : 0 < / sqrt 6) by (apply Rinv_0_lt_compat, S6).
    assert (C : mean (a_verts simplex) = we (8 / 7) (1 / 7) (1 / 7) (1 / 7) (1 / 7) (1 / 7)).
    { unfold mean, simplex, corners. cbn [a_verts length fold_left]. change (0 <? 7)%nat with true. cbv iota. replace (INR 7) with 7 by (cbn; lra). wexp. unfold we. veq; field. }
    assert (FM : 1 < flt_max).
    { unfold flt_max. assert (1 <= 2 ^ 127) by (apply pow_R1_Rle; lra). assert (/ 2 ^ 23 < 1) by (rewrite <- Rinv_1; apply Rinv_lt_contravar; [rewrite Rmult_1_l; apply pow_lt; lra|apply Rlt_pow_R1; [lra|lia]]).
      assert (1 * 1 < (2 - / 2 ^ 23) * 2 ^ 127); [|lra]. apply Rlt_le_trans with ((2 - / 2 ^ 23) * 1); [lra|]. apply Rmult_le_compat_l; lra. }
    assert (N : forall f, In f (a_facets simplex) -> -1 < f_offset f + wdot (f_normal f) (mean (a_verts simplex)) < 0).
    { rewrite C. assert (S1 : / sqrt 6 <= 1). { rewrite <- Rinv_1. apply Rinv_le_contravar; [lra|]. rewrite <- sqrt_1. apply sqrt_le_1; lra. }
      intros g G. cbn [simplex a_facets In] in G. repeat (destruct G as [<-|G]; [unfold we; vec; cbn [f_normal f_offset]; vec; try lra|]). destruct G. }
    match goal with |- _ < fold_left ?s ?fs _ < _ => destruct (min_offset_fold fs flt_max) as (A & B & D); [intros g G; apply in_map_iff in G as (f & <- & F); cbn [dist_norm_center]; specialize (N f F); lra|]; set (r := fold_left s fs flt_max) in * end.
    clearbody r. assert (X : exists f, In f (a_facets simplex)) by (eexists; left; reflexivity). destruct X as (f0 & F0). pose proof (B _ (in_map _ _ _ F0)) as B0. cbn [dist_norm_center] in B0. pose proof (N f0 F0).
    split; [|lra]. destruct D as [D|(g & G & D)]; [lra|]. apply in_map_iff in G as (f & <- & F). cbn [dist_norm_center] in D. specialize (N f F). lra.
  - unfold origin_inside. cbn [h_faces simplex a_facets map forallb dist_plane_zero f_offset]. destruct Rlt_dec as [_|N]; [reflexivity|lra].
Qed.

(** Cases. *)
Example C86_case : qhull_ok one_hull /\ one_hull corners <> None /\
  exists c, In c (contacts_m (set_infos (Params 8 (35/100) 1 100 v0 one_hull) [Info v0 v0 v0 v0 (Vec 0 0 1)] fresh)) /\ c_force c = 0.
Proof.
  split; [exact one_hull_ok|]. split; [unfold one_hull; destruct list_eq_dec; [discriminate|congruence]|].
  eexists. split; [left; reflexivity|]. unfold mm2m, of_info. cbn [c_force obstacle_global finger_global].
  replace (vnorm (vsub v0 v0)) with 0; [destruct Rlt_dec; [lra|reflexivity]|]. symmetry. apply vnorm_zero. vec. veq; ring.
Qed.
Example C87_case : let c := Contact v0 (Vec 0 0 1) 1 in vdot (c_n c) (c_n c) = 1 /\ 0 < c_force c /\ cone_points 8 (35/100) 1 c <> [].
Proof. cbv zeta. cbn [c_n c_force]. split; [unfold vdot; cbn [vx vy vz]; ring|]. split; [lra|discriminate]. Qed.
Print Assumptions C86_accepted.
Print Assumptions C86_closed.
Print Assumptions C87_friction.
Print Assumptions C88_quality.
Print Assumptions C88_positive_without_closure_refuted.
