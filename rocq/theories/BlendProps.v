(** C43: the path with circular blends of the time-optimal trajectory generator, over the reals, in any number of dimensions. *)
From Coq Require Import Reals List Arith Lra Lia Psatz Sorted FunctionalExtensionality.
From Verif Require Import RpyModel RpyProofs BlendModel BlendSpec BlendProofs BlendPath BlendSwitch.
Import ListNotations.
Open Scope R_scope.

(** All facts about the segments at once. *)
Lemma path_facts : forall n dev c1 c2 rest, let pts := c1 :: c2 :: rest in dev <= 0 \/ general n pts -> let l := new_path n dev pts in
  Forall (good n pts (Rmax 0 dev)) l /\ joined n c1 l /\ (gaps l <= if Rlt_dec 0 dev then tiny * INR (length rest) else 0)
  /\ (forall l0 z, pts = l0 ++ [z] -> exists l0' a, l = l0' ++ [new_lin n a z]).
Proof.
  intros n dev c1 c2 rest pts H l. destruct (Rlt_dec 0 dev) as [D|D].
  - rewrite Rmax_right by lra. destruct H as [H|H]; [lra|]. assert (E : pts = [] ++ c1 :: c2 :: rest) by reflexivity. pose proof tiny_pos. assert (Q : 0 <= 0 <= dist n c1 c2 / 2). { split; [lra|]. pose proof (norm_pos n (vsub c1 c2)) as P. rewrite <- dist_norm in P. lra. }
    pose proof (blended_good n dev pts D H rest c1 c2 [] 0 E Q) as B. cbv zeta in B. replace (vadd c1 (vscale 0 (direction n c1 c2))) with c1 in B by (extensionality i; unfold vadd, vscale; ring). destruct B as (B1 & B2 & B3 & B4 & _). auto.
  - rewrite Rmax_left by lra. assert (E : pts = [] ++ c1 :: c2 :: rest) by reflexivity. destruct (plain_good n dev pts ltac:(lra) rest c1 c2 [] E) as (B1 & B2 & B3 & B4). split; [exact B1|]. split; [exact B2|]. split; [unfold l; cbn [new_path]; cbv zeta in B3; unfold pts; cbn [new_path]; lra|exact B4].
Qed.
Lemma blended_facts : forall n dev c1 c2 rest, let pts := c1 :: c2 :: rest in 0 < dev -> general n pts -> let l := new_path n dev pts in
  (bent n pts -> chain (direction n c1 c2) l) /\ (exists l0 z, l = new_lin n c1 z :: l0 /\ 0 < dist n c1 z)
  /\ (forall a b c, (exists m1 m2, pts = m1 ++ a :: b :: c :: m2) -> exists g p, In g l /\ 0 <= p < seg_length g /\ dist n (seg_config g p) b <= dev).
Proof.
  intros n dev c1 c2 rest pts D H l. assert (E : pts = [] ++ c1 :: c2 :: rest) by reflexivity. assert (Q : 0 <= 0 <= dist n c1 c2 / 2). { split; [lra|]. pose proof (norm_pos n (vsub c1 c2)) as P. rewrite <- dist_norm in P. lra. }
  pose proof (blended_good n dev pts D H rest c1 c2 [] 0 E Q) as B. cbv zeta in B. replace (vadd c1 (vscale 0 (direction n c1 c2))) with c1 in B by (extensionality i; unfold vadd, vscale; ring). destruct B as (_ & _ & _ & _ & B5 & B6 & B7). split; [exact B5|]. split; [apply B6; reflexivity|exact B7].
Qed.
Lemma good_lens : forall n pts dev l, Forall (good n pts dev) l -> lens l.
Proof. intros n pts dev l G. apply Forall_forall. intros g I. rewrite Forall_forall in G. apply (g_len _ _ _ _ (G g I)). Qed.
Lemma good_round : forall n pts dev l, Forall (good n pts dev) l -> Forall round l.
Proof. intros n pts dev l G. apply Forall_forall. intros g I. rewrite Forall_forall in G. destruct (G g I) as [H1 _ _ _ H5]. split; assumption. Qed.
Lemma config_some : forall l s v, path_config l s = Some v <-> exists g t, pseg 0 l s = Some (g, t) /\ v = seg_config g t.
Proof.
  intros l s v. unfold path_config. change (path_segment l s) with (pseg 0 l s). destruct (pseg 0 l s) as [[g t]|]; split.
  - intros [= <-]. exists g, t. auto.
  - intros (g' & t' & [= -> ->] & ->). reflexivity.
  - discriminate.
  - intros (? & ? & [=] & _).
Qed.
Lemma path_nonempty : forall n dev c1 c2 rest, new_path n dev (c1 :: c2 :: rest) <> [].
Proof. intros n dev c1 c2 [|c3 r]; cbn; [discriminate|]. destruct (Rlt_dec 0 dev); [|discriminate]. destruct (Rlt_dec _ _); discriminate. Qed.

(** The path starts at the first waypoint and ends at the last. *)
Theorem C43_ends : forall n dev c1 c2 rest z l0, let pts := c1 :: c2 :: rest in pts = l0 ++ [z] -> dev <= 0 \/ general n pts ->
  let l := new_path n dev pts in
  exists p, path_config l 0 = Some p /\ (forall i, (i < n)%nat -> p i = c1 i) /\ path_config l (path_length l) = Some z.
Proof.
  intros n dev c1 c2 rest z l0 pts EZ H l. destruct (path_facts n dev c1 c2 rest H) as (G & J & GP & LA). fold pts in G, J, GP, LA. fold l in G, J, GP, LA. pose proof (good_lens _ _ _ _ G) as LN.
  assert (EN : path_config l (path_length l) = Some z).
  { destruct (LA l0 z EZ) as (l0' & a & E). apply config_some. exists (new_lin n a z), (seg_length (new_lin n a z)). split; [unfold path_length; rewrite E in *; apply pseg_end, LN|]. symmetry. apply lin_last. }
  pose proof (total_le l 0 LN) as TL. destruct (pseg_inside l 0 0 LN (path_nonempty n dev c1 c2 rest)) as (g & t & E & _ & _); [lra|].
  exists (seg_config g t). split; [apply config_some; exists g, t; auto|]. split; [|exact EN].
  destruct (Rlt_dec 0 dev) as [D|D].
  - destruct H as [H|H]; [lra|]. destruct (blended_facts n dev c1 c2 rest D H) as (_ & (m & y & EL & PY) & _). fold pts in EL. fold l in EL. assert (E2 : pseg 0 l (total 0 [] + 0) = Some (new_lin n c1 y, 0)).
    { rewrite EL in *. apply (pseg_at [] 0 (new_lin n c1 y) m 0 LN). rewrite lin_len. lra. }
    cbn [total] in E2. rewrite Rplus_0_l in E2. rewrite E2 in E. injection E as <- <-. intros i _. rewrite lin_first; [reflexivity|]. rewrite lin_len. exact PY.
  - intros i I. symmetry. apply (zero_dist n _ _); [|exact I]. pose proof (reach n pts (Rmax 0 dev) l 0 c1 G J 0 g t ltac:(lra) E). lra.
Qed.
(** It is continuous up to a millionth per corner, and the distance travelled never exceeds the path length used. *)
Theorem C43_continuous : forall n dev c1 c2 rest s s', let pts := c1 :: c2 :: rest in dev <= 0 \/ general n pts ->
  let l := new_path n dev pts in 0 <= s -> s <= s' -> s' <= path_length l ->
  exists p q, path_config l s = Some p /\ path_config l s' = Some q /\ dist n p q <= (s' - s) + (if Rlt_dec 0 dev then tiny * INR (length rest) else 0).
Proof.
  intros n dev c1 c2 rest s s' pts H l B1 B2 B3. destruct (path_facts n dev c1 c2 rest H) as (G & J & GP & LA). fold pts in G, J, GP, LA. fold l in G, J, GP, LA. pose proof (good_lens _ _ _ _ G) as LN. unfold path_length in B3.
  destruct (pseg_inside l 0 s LN (path_nonempty n dev c1 c2 rest)) as (g & t & E & _); [lra|]. destruct (pseg_inside l 0 s' LN (path_nonempty n dev c1 c2 rest)) as (g' & t' & E' & _); [lra|].
  exists (seg_config g t), (seg_config g' t'). split; [apply config_some; eauto|]. split; [apply config_some; eauto|]. pose proof (travel n pts (Rmax 0 dev) l 0 c1 G J s s' g t g' t' B1 B2 B3 E E'). lra.
Qed.
(** No point of the path is farther than the maximal deviation from the polyline through the waypoints, and the path passes every corner within it. *)
Theorem C43_deviation : forall n dev c1 c2 rest, let pts := c1 :: c2 :: rest in dev <= 0 \/ general n pts -> let l := new_path n dev pts in
  (forall s, 0 <= s <= path_length l -> exists p, path_config l s = Some p /\ near_polyline n pts (Rmax 0 dev) p)
  /\ (0 < dev -> forall a b c m1 m2, pts = m1 ++ a :: b :: c :: m2 -> exists s p, 0 <= s <= path_length l /\ path_config l s = Some p /\ dist n p b <= dev).
Proof.
  intros n dev c1 c2 rest pts H l. destruct (path_facts n dev c1 c2 rest H) as (G & J & GP & LA). fold pts in G, J, GP, LA. fold l in G, J, GP, LA. pose proof (good_lens _ _ _ _ G) as LN. split.
  - intros s B. destruct (pseg_inside l 0 s LN (path_nonempty n dev c1 c2 rest) B) as (g & t & E & I & T). exists (seg_config g t). split; [apply config_some; eauto|]. rewrite Forall_forall in G. apply (g_near _ _ _ _ (G g I)), T.
  - intros D a b c m1 m2 X. destruct H as [H|H]; [lra|]. destruct (blended_facts n dev c1 c2 rest D H) as (_ & _ & CO). destruct (CO a b c) as (g & p & I & B1 & B2); [exists m1, m2; exact X|]. fold pts in I. fold l in I.
    apply in_split in I. destruct I as (l1 & l2 & E). exists (total 0 l1 + p), (seg_config g p). rewrite E in *. pose proof (pseg_at l1 0 g l2 p LN B1) as P. split; [|split; [apply config_some; eauto|exact B2]].
    apply Forall_app in LN. destruct LN as [L1 L2]. inversion L2 as [|? ? L3 L4]; subst. pose proof (total_le l1 0 L1). unfold path_length. rewrite total_app. cbn [total]. pose proof (total_le l2 (total 0 l1 + seg_length g) L4). lra.
Qed.
(** Away from segment boundaries the tangent is the derivative of the configuration, has length 1, and the curvature is its derivative. *)
Theorem C43_tangent : forall n dev c1 c2 rest s, let pts := c1 :: c2 :: rest in dev <= 0 \/ general n pts -> let l := new_path n dev pts in
  0 <= s <= path_length l -> ~ boundary l s ->
  exists v k, path_tangent l s = Some v /\ path_curvature l s = Some k /\ dot n v v = 1
  /\ forall i, derivable_pt_lim (fun s => coeff i (path_config l s)) s (v i) /\ derivable_pt_lim (fun s => coeff i (path_tangent l s)) s (k i).
Proof.
  intros n dev c1 c2 rest s pts H l B N. destruct (path_facts n dev c1 c2 rest H) as (G & J & GP & LA). fold pts in G, J, GP, LA. fold l in G, J, GP, LA. pose proof (good_lens _ _ _ _ G) as LN.
  destruct (inside l 0 s LN B) as (l1 & g & l2 & t & E & ES & T); [intros l1 l2 E S; apply N; exists l1, l2; auto|].
  assert (GG : good n pts (Rmax 0 dev) g) by (rewrite Forall_forall in G; apply G; rewrite E; apply in_elt). destruct GG as [_ _ _ GU GR]. destruct (GU ltac:(lra) t) as (v & TV & UV).
  assert (PS : forall z, 0 < z - total 0 l1 < seg_length g -> pseg 0 l z = Some (g, z - total 0 l1)). { intros z Z. rewrite E in *. pose proof (pseg_at l1 0 g l2 (z - total 0 l1) LN ltac:(lra)) as P. replace (total 0 l1 + (z - total 0 l1)) with z in P by ring. exact P. }
  assert (TE : t = s - total 0 l1) by lra. pose proof (PS s ltac:(lra)) as P0. rewrite <- TE in P0.
  exists v, (seg_curvature g t). unfold path_tangent, path_curvature. change (path_segment l s) with (pseg 0 l s). rewrite P0. split; [exact TV|]. split; [reflexivity|]. split; [exact UV|].
  intros i. destruct (seg_deriv g t v i GR T TV) as [D1 D2]. rewrite TE in D1, D2. split.
  - apply derivable_pt_lim_locally_ext with (fun z => seg_config g (z - total 0 l1) i) (total 0 l1) (total 0 l1 + seg_length g); [lra| |apply (dlim_shift (fun z => seg_config g z i) (total 0 l1) s _ D1)].
    intros z Z. unfold path_config. change (path_segment l z) with (pseg 0 l z). rewrite PS by lra. reflexivity.
  - rewrite TE. apply derivable_pt_lim_locally_ext with (fun z => coeff i (seg_tangent g (z - total 0 l1))) (total 0 l1) (total 0 l1 + seg_length g); [lra| |apply (dlim_shift (fun z => coeff i (seg_tangent g z)) (total 0 l1) s _ D2)].
    intros z Z. change (path_segment l z) with (pseg 0 l z). rewrite PS by lra. reflexivity.
Qed.
(** With blends at all corners the direction of travel does not jump from one segment to the next. *)
Theorem C43_smooth : forall n dev c1 c2 rest g g', let pts := c1 :: c2 :: rest in 0 < dev -> general n pts -> bent n pts -> neighbours (new_path n dev pts) g g' ->
  exists v, seg_tangent g (seg_length g) = Some v /\ seg_tangent g' 0 = Some v.
Proof.
  intros n dev c1 c2 rest g g' pts D GE BE (l1 & l2 & E). destruct (blended_facts n dev c1 c2 rest D GE) as (CH & _). specialize (CH BE). fold pts in CH. rewrite E in CH. clear E. generalize dependent (direction n c1 c2). induction l1 as [|a l1 IH]; intros d CH; cbn [app chain] in CH.
  - destruct CH as (_ & d' & T & T' & _). exists d'. auto.
  - destruct CH as (_ & d' & _ & CH). apply (IH d' CH).
Qed.
(** The switching points lie on the path in ascending order; every inner segment boundary is one and is marked as discontinuity; every place
    inside a blend where a coordinate turns is one; and the next switching point is the first one ahead, or the end of the path. *)
Theorem C43_switching : forall n dev c1 c2 rest, let pts := c1 :: c2 :: rest in dev <= 0 \/ general n pts -> let l := new_path n dev pts in
  StronglySorted (fun a b => fst a <= fst b) (path_switching n l) /\ (forall e, In e (path_switching n l) -> 0 <= fst e < path_length l)
  /\ (forall s, boundary l s -> 0 < s < path_length l -> In (s, true) (path_switching n l))
  /\ (forall l1 r len c x y l2 i t, l = l1 ++ Circ r len c x y :: l2 -> (i < n)%nat -> 0 < t < len -> (x i <> 0 \/ y i <> 0) -> coeff i (seg_tangent (Circ r len c x y) t) = 0 -> In (total 0 l1 + t, false) (path_switching n l))
  /\ (forall s, let '(p, b) := next_switching n l s in
      (s < p /\ In (p, b) (path_switching n l) /\ (forall e, In e (path_switching n l) -> s < fst e -> p <= fst e)) \/ (p = path_length l /\ b = true /\ forall e, In e (path_switching n l) -> fst e <= s)).
Proof.
  intros n dev c1 c2 rest pts H l. destruct (path_facts n dev c1 c2 rest H) as (G & _). fold pts in G. fold l in G. pose proof (good_round _ _ _ _ G) as RO. destruct (switching_sorted n l RO (path_nonempty n dev c1 c2 rest)) as [S1 S2]. split; [exact S1|]. split; [exact S2|]. split; [|split].
  - intros s (l1 & l2 & E & ES) B. rewrite E in *. subst s. apply switching_boundary; [exact RO| |lra]. intros ->. cbn in B. lra.
  - intros l1 r len c x y l2 i t E I T NZ Z. rewrite E in *. apply switching_point; [exact RO|]. assert (R : round (Circ r len c x y)) by (rewrite Forall_forall in RO; apply RO, in_elt). destruct R as [_ [R1 R2]]. apply (turning n r len c x y i t R1 R2 I T NZ). exact Z.
  - intros s. apply (next_ok (path_length l) s (path_switching n l) S1).
Qed.
Print Assumptions C43_ends.
Print Assumptions C43_continuous.
Print Assumptions C43_deviation.
Print Assumptions C43_tangent.
Print Assumptions C43_smooth.
Print Assumptions C43_switching.

(** A right-angled corner in the plane. *)
Definition pt (x y : R) : vec := fun i => match i with O => x | S O => y | _ => 0 end.
Definition corner_path : list vec := [pt 0 0; pt 1 0; pt 1 1].
Lemma unit_edge : forall x y u v, (u - x) * (u - x) + (v - y) * (v - y) = 1 -> dist 2 (pt x y) (pt u v) = 1.
Proof. intros x y u v E. unfold dist. replace (dot 2 (vsub (pt x y) (pt u v)) (vsub (pt x y) (pt u v))) with 1; [apply sqrt_1|]. cbn. unfold vsub, pt. nra. Qed.
Lemma three : forall (l1 l2 : list vec) a b c, corner_path = l1 ++ a :: b :: c :: l2 -> a = pt 0 0 /\ b = pt 1 0 /\ c = pt 1 1.
Proof. intros l1 l2 a b c E. destruct l1 as [|? [|? [|? l1]]]; try discriminate E; [injection E as <- <- <-; auto|destruct l1; discriminate E]. Qed.
Example C43_general : general 2 corner_path.
Proof.
  split.
  - intros a b (l1 & l2 & E). assert (T : 2 * tiny < 1) by (unfold tiny; lra). destruct l1 as [|? [|? [|? l1]]]; try discriminate E; try (destruct l1; discriminate E); injection E; intros; subst a b; rewrite unit_edge by ring; exact T.
  - intros l1 l2 a b c E. destruct (three l1 l2 a b c E) as (-> & -> & ->). exists 0%nat. split; [lia|]. unfold direction. rewrite !unit_edge by ring. cbn. lra.
Qed.
Example C43_bent : bent 2 corner_path.
Proof.
  intros l1 l2 a b c E. destruct (three l1 l2 a b c E) as (-> & -> & ->). assert (T : tiny <= 1) by (unfold tiny; lra). apply Rle_trans with (1 := T). unfold dist. apply Rle_trans with (sqrt 1); [rewrite sqrt_1; lra|]. apply sqrt_le_1_alt. unfold direction, vsub. cbn [dot]. rewrite !unit_edge by ring. cbn. lra.
Qed.
Example C43_corner_used : exists p, path_config (new_path 2 (1 / 10) corner_path) 0 = Some p /\ (forall i, (i < 2)%nat -> p i = pt 0 0 i)
  /\ path_config (new_path 2 (1 / 10) corner_path) (path_length (new_path 2 (1 / 10) corner_path)) = Some (pt 1 1).
Proof. apply (C43_ends 2 (1 / 10) (pt 0 0) (pt 1 0) [pt 1 1] (pt 1 1) [pt 0 0; pt 1 0] eq_refl). right. exact C43_general. Qed.
(** Without waypoints there is no segment, and every query is undefined. *)
Example C43_empty : forall n dev s a, path_config (new_path n dev [a]) s = None.
Proof. reflexivity. Qed.
