(** Proofs about the grasp quality measures. *)
From Coq Require Import Reals List Lra Lia Arith.
From Verif Require Import QuatModel QuatSpec QuatProofs GwsModel GwsSpec.
Import ListNotations.
Open Scope R_scope.

Ltac vec := unfold push, wadd, wscale, wdot, wzero, vadd, vsub, vneg, vscale, vcross, vdot, v0; cbn [fst snd vx vy vz].
Ltac veq := repeat match goal with |- (_, _) = (_, _) => apply f_equal2 | |- Vec _ _ _ = Vec _ _ _ => apply f_equal3 end.

Lemma wadd_0_r a : wadd a wzero = a. Proof. destruct a as [[a b c] [d e f]]. vec. veq; ring. Qed.
Lemma wadd_0_l a : wadd wzero a = a. Proof. destruct a as [[a b c] [d e f]]. vec. veq; ring. Qed.
Lemma wadd_comm a b : wadd a b = wadd b a. Proof. vec. veq; ring. Qed.
Lemma wadd_assoc a b c : wadd a (wadd b c) = wadd (wadd a b) c. Proof. vec. veq; ring. Qed.
Lemma wscale_add k a b : wscale k (wadd a b) = wadd (wscale k a) (wscale k b). Proof. vec. veq; ring. Qed.
Lemma wscale_scale k l a : wscale k (wscale l a) = wscale (k * l) a. Proof. vec. veq; ring. Qed.
Lemma wscale_0 k : wscale k wzero = wzero. Proof. vec. veq; ring. Qed.
Lemma wscale_1 a : wscale 1 a = a. Proof. destruct a as [[a b c] [d e f]]. vec. veq; ring. Qed.
Lemma wdot_add a b c : wdot a (wadd b c) = wdot a b + wdot a c. Proof. vec. ring. Qed.
Lemma wdot_scale a k b : wdot a (wscale k b) = k * wdot a b. Proof. vec. ring. Qed.
Lemma wdot_0 a : wdot a wzero = 0. Proof. vec. ring. Qed.
Lemma wdot_pos a : 0 <= wdot a a.
Proof. destruct a as [[a b c] [d e f]]. vec. pose proof (Rle_0_sqr a). pose proof (Rle_0_sqr b). pose proof (Rle_0_sqr c). pose proof (Rle_0_sqr d). pose proof (Rle_0_sqr e). pose proof (Rle_0_sqr f). unfold Rsqr in *. lra. Qed.
Lemma wdot_comm a b : wdot a b = wdot b a. Proof. vec. ring. Qed.

(** Cauchy-Schwarz, for a unit vector. *)
Lemma cauchy n d r : wdot n n = 1 -> 0 <= r -> wdot d d <= r * r -> wdot n d <= r.
Proof.
  intros N R0 D. pose proof (wdot_pos (wadd d (wscale (- wdot n d) n))) as P.
  assert (E : wdot (wadd d (wscale (- wdot n d) n)) (wadd d (wscale (- wdot n d) n)) = wdot d d - wdot n d * wdot n d).
  { rewrite wdot_add, wdot_scale. rewrite (wdot_comm _ d), (wdot_comm _ n), !wdot_add, !wdot_scale, N, (wdot_comm d n). ring. }
  rewrite E in P. destruct (Rle_dec (wdot n d) r) as [H|H]; [exact H|]. exfalso.
  assert (r * r < wdot n d * wdot n d) by (apply Rmult_le_0_lt_compat; lra). lra.
Qed.

(** Combinations. *)
Lemma comb_scale k cs ws : comb (map (Rmult k) cs) ws = wscale k (comb cs ws).
Proof.
  revert ws. induction cs as [|c cs IH]; intros ws; [cbn [comb map]; symmetry; apply wscale_0|].
  destruct ws as [|w ws]; cbn [comb map]; [symmetry; apply wscale_0|]. rewrite IH, wscale_add, wscale_scale. reflexivity.
Qed.
Lemma comb_map (T : wrench -> wrench) cs ws : T wzero = wzero -> (forall a b, T (wadd a b) = wadd (T a) (T b)) ->
  (forall k a, T (wscale k a) = wscale k (T a)) -> comb cs (map T ws) = T (comb cs ws).
Proof.
  intros Z A S. revert ws. induction cs as [|c cs IH]; intros ws; [symmetry; exact Z|].
  destruct ws as [|w ws]; cbn [comb map]; [symmetry; exact Z|]. rewrite IH, A, S. reflexivity.
Qed.
Lemma wdot_comb_le n o cs ws : length cs = length ws -> Forall (fun c => 0 <= c) cs -> (forall w, In w ws -> wdot n w <= o) -> wdot n (comb cs ws) <= sum cs * o.
Proof.
  intros L F. revert ws L. induction F as [|c cs C F IH]; intros [|w ws] L H; try discriminate L; cbn [comb sum fold_right].
  - rewrite wdot_0. lra.
  - rewrite wdot_add, wdot_scale. pose proof (IH ws (f_equal pred L) (fun x I => H x (or_intror I))) as J. cbn [sum] in J.
    pose proof (Rmult_le_compat_l c _ _ C (H w (or_introl eq_refl))). unfold sum in *. lra.
Qed.
Lemma sum_nonneg cs : Forall (fun c => 0 <= c) cs -> 0 <= sum cs.
Proof. induction 1; cbn; unfold sum in *; lra. Qed.
Lemma comb_zeros ws : comb (repeat 0 (length ws)) ws = wzero.
Proof. induction ws as [|w ws IH]; [reflexivity|]. cbn [length repeat comb]. rewrite IH. vec. veq; ring. Qed.
Lemma sum_zeros n : sum (repeat 0 n) = 0.
Proof. induction n; cbn; unfold sum in *; lra. Qed.
Lemma in_hull_point ws w : In w ws -> in_hull ws w.
Proof.
  intros I. apply in_split in I as (l1 & l2 & ->). exists (repeat 0 (length l1) ++ 1 :: repeat 0 (length l2)). split; [|split; [|split]].
  - rewrite !app_length. cbn [length]. rewrite !repeat_length. reflexivity.
  - apply Forall_app. split; [|constructor; [lra|]]; apply Forall_forall; intros x X; apply repeat_spec in X; lra.
  - unfold sum. rewrite fold_right_app. cbn [fold_right]. pose proof (sum_zeros (length l2)) as Z. unfold sum in Z. rewrite Z.
    generalize (length l1). intros n. induction n as [|n IH]; [cbn; lra|]. cbn [repeat fold_right]. rewrite IH. lra.
  - induction l1 as [|a l1 IH]; cbn [length repeat app comb].
    + rewrite comb_zeros, wadd_0_r, wscale_1. reflexivity.
    + rewrite IH. replace (wscale 0 a) with wzero by (vec; veq; ring). apply wadd_0_l.
Qed.

(** The map between the pushes and the wrench points. *)
Definition flip (k : R) (w : wrench) : wrench := (vneg (fst w), vscale k (snd w)).
Lemma flip_0 k : flip k wzero = wzero. Proof. unfold flip. vec. veq; ring. Qed.
Lemma flip_add k a b : flip k (wadd a b) = wadd (flip k a) (flip k b). Proof. unfold flip. vec. veq; ring. Qed.
Lemma flip_scale k c a : flip k (wscale c a) = wscale c (flip k a). Proof. unfold flip. vec. veq; ring. Qed.
Lemma flip_flip k w : k <> 0 -> flip k (flip (/ k) w) = w /\ flip (/ k) (flip k w) = w.
Proof. intros K. destruct w as [[a b c] [d e f]]. unfold flip. vec. split; veq; (ring || (field; exact K)). Qed.

Lemma factor_ok len : factor len <> 0.
Proof.
  unfold factor. destruct (Req_EM_T len 0) as [_|N]; [lra|]. unfold Rdiv. apply Rmult_integral_contrapositive. split; [lra|].
  apply Rinv_neq_0_compat. apply Rmult_integral_contrapositive. split; [exact N|lra].
Qed.
Lemma normalize_parallel a : exists k, vnormalize a = vscale k a.
Proof. unfold vnormalize. destruct (Rlt_dec 0 (vdot a a)); [eexists; reflexivity|]. exists 1. destruct a as [x y z]. vec. veq; ring. Qed.
Lemma wrench_of_cone len cp p f : wrench_point len (Contact (vadd cp p) (vnormalize cp) f) = flip (factor len) (push p (vneg (vnormalize cp))).
Proof.
  unfold wrench_point, flip, push. cbn [c_n c_p fst snd]. destruct (normalize_parallel cp) as [k ->]. destruct cp as [a b c], p as [d e g].
  generalize (factor len). intros m. vec. veq; ring.
Qed.
Lemma wrench_points_flip ps l : wrench_points ps l = map (flip (factor (p_length ps))) (pushes ps l).
Proof.
  unfold wrench_points, pushes. induction l as [|c l IH]; [reflexivity|]. cbn [flat_map]. rewrite !map_app, IH. f_equal.
  unfold cone_points. rewrite !map_map. apply map_ext. intros i. cbn [c_n]. apply wrench_of_cone.
Qed.

(** Force closure. *)
Definition no_margin (a : answer) : Prop := forall f, In f (a_facets a) -> f_offset f < 0.
Lemma shrink (fs : list facet) w : (forall f, In f fs -> f_offset f < 0) ->
  exists e, 0 < e /\ forall f, In f fs -> wdot (f_normal f) (wscale e w) + f_offset f <= 0.
Proof.
  induction fs as [|g fs IH]; intros H; [exists 1; split; [lra|intros f []]|].
  destruct IH as (e & E & I); [intros f F; apply H; right; exact F|].
  pose proof (H g (or_introl eq_refl)) as G. set (d := wdot (f_normal g) w) in *.
  assert (X : exists e2, 0 < e2 /\ e2 * d + f_offset g <= 0).
  { destruct (Rle_dec d 0) as [D|D].
    - exists 1. split; [lra|]. lra.
    - exists (- f_offset g / d). split; [apply Rdiv_lt_0_compat; lra|]. replace (- f_offset g / d * d) with (- f_offset g) by (field; lra). lra. }
  destruct X as (e2 & E2 & X). exists (Rmin e e2). split; [apply Rmin_glb_lt; assumption|].
  intros f [<-|F]; rewrite wdot_scale.
  - fold d. pose proof (Rmin_r e e2). destruct (Rle_dec d 0) as [D|D].
    + assert (0 < Rmin e e2) by (apply Rmin_glb_lt; assumption). assert (Rmin e e2 * d <= 0) by (apply Rmult_le_0_l || (rewrite <- (Rmult_0_r (Rmin e e2)); apply Rmult_le_compat_l; lra)). lra.
    + assert (Rmin e e2 * d <= e2 * d) by (apply Rmult_le_compat_r; lra). lra.
  - specialize (I f F). rewrite wdot_scale in I. set (k := wdot (f_normal f) w) in *. pose proof (Rmin_l e e2). pose proof (H f (or_intror F)).
    assert (0 < Rmin e e2) by (apply Rmin_glb_lt; assumption).
    destruct (Rle_dec k 0) as [K|K].
    + assert (Rmin e e2 * k <= 0) by (rewrite <- (Rmult_0_r (Rmin e e2)); apply Rmult_le_compat_l; lra). lra.
    + assert (Rmin e e2 * k <= e * k) by (apply Rmult_le_compat_r; lra). lra.
Qed.
Lemma applicable_flip ps l w : (exists cs, length cs = length (wrench_points ps l) /\ Forall (fun c => 0 <= c) cs /\ comb cs (wrench_points ps l) = flip (factor (p_length ps)) w) <-> applicable ps l w.
Proof.
  unfold applicable. rewrite wrench_points_flip, map_length.
  assert (K := factor_ok (p_length ps)). set (k := factor (p_length ps)) in *.
  split; intros (cs & L & F & E); exists cs; (split; [exact L|split; [exact F|]]); rewrite comb_map in * by (intros; apply flip_0 || apply flip_add || apply flip_scale).
  - apply (f_equal (flip (/ k))) in E. rewrite !(proj2 (flip_flip k _ K)) in E. exact E.
  - rewrite E. reflexivity.
Qed.
Lemma strict_sound ps l a : encloses (wrench_points ps l) a -> no_margin a -> forall w, applicable ps l w.
Proof.
  intros (_ & _ & _ & H) M w. apply applicable_flip. destruct (shrink (a_facets a) (flip (factor (p_length ps)) w) M) as (e & E & I).
  apply H in I as (cs & L & F & _ & X). exists (map (Rmult (/ e)) cs). rewrite map_length. split; [exact L|]. split.
  - apply Forall_forall. intros c C. apply in_map_iff in C as (d & <- & D). rewrite Forall_forall in F. apply Rmult_le_pos; [|apply F, D].
    apply Rlt_le, Rinv_0_lt_compat, E.
  - rewrite comb_scale, X, wscale_scale, Rinv_l, wscale_1 by lra. reflexivity.
Qed.
Lemma positive_offset ps l a f : encloses (wrench_points ps l) a -> unit_normals a -> In f (a_facets a) -> 0 < f_offset f ->
  ~ applicable ps l (flip (/ factor (p_length ps)) (f_normal f)).
Proof.
  intros (_ & _ & _ & H) U I P A. apply applicable_flip in A as (cs & L & F & E).
  rewrite (proj1 (flip_flip _ _ (factor_ok (p_length ps)))) in E.
  assert (B : forall w, In w (wrench_points ps l) -> wdot (f_normal f) w <= - f_offset f).
  { intros w W. apply in_hull_point in W. apply (proj1 (H w)) with (f := f) in W; [|exact I]. lra. }
  pose proof (wdot_comb_le (f_normal f) (- f_offset f) cs _ L F B) as C. rewrite E, (proj1 (U f I)) in C.
  pose proof (sum_nonneg cs F). pose proof (Rmult_le_pos _ _ H0 (Rlt_le _ _ P)). lra.
Qed.

Lemma create_some qh pts a : (4 <= length pts)%nat -> qh pts = Some a ->
  create_hull qh pts = Hull (flat_map (fun f => firstn 6 (f_verts f)) (a_facets a))
                (map (fun f => Face (f_offset f) (f_offset f + wdot (f_normal f) (mean (a_verts a)))) (a_facets a)) (a_volume a) (mean (a_verts a)).
Proof. intros L E. unfold create_hull. rewrite (proj2 (Nat.ltb_ge _ _) L), E. reflexivity. Qed.
Lemma origin_inside_hull qh pts : origin_inside (create_hull qh pts) = true <->
  (length pts < 4)%nat \/ qh pts = None \/ exists a, qh pts = Some a /\ forall f, In f (a_facets a) -> f_offset f <= 1 / 10000.
Proof.
  unfold create_hull. destruct (Nat.ltb_spec (length pts) 4) as [L|L]; [split; [left; exact L|reflexivity]|].
  destruct (qh pts) as [a|] eqn:E; [|split; [right; left; reflexivity|reflexivity]].
  unfold origin_inside. cbn [h_faces]. rewrite forallb_forall. split.
  - intros H. right; right. exists a. split; [reflexivity|]. intros f F. specialize (H _ (in_map _ _ _ F)). cbn [dist_plane_zero] in H. destruct Rlt_dec as [_|N] in H; [discriminate|]. lra.
  - intros [L2|[D|(b & B & H)]] x X; [lia|discriminate|]. injection B as <-. apply in_map_iff in X as (f & <- & F). cbn [dist_plane_zero]. destruct Rlt_dec as [G|_]; [|reflexivity]. specialize (H f F). lra.
Qed.

Lemma force_closure_after ps infos m : infos <> [] ->
  fst (force_closure ps (set_infos ps infos m)) = origin_inside (create_hull (p_qhull ps) (wrench_points ps (map mm2m (map (of_info ps) infos)))).
Proof. destruct infos as [|i l]; [congruence|]. reflexivity. Qed.

(** The mean of the vertices. *)
Lemma fold_wadd l a : fold_left wadd l a = wadd a (comb (repeat 1 (length l)) l).
Proof.
  revert a. induction l as [|w l IH]; intros a; [cbn; symmetry; apply wadd_0_r|]. cbn [fold_left length repeat comb].
  rewrite IH, wscale_1, wadd_assoc. reflexivity.
Qed.
Lemma sum_repeat c n : sum (repeat c n) = INR n * c.
Proof. induction n as [|n IH]; [cbn; lra|]. cbn [repeat sum fold_right]. unfold sum in IH. rewrite IH, S_INR. lra. Qed.
Lemma mean_below n o l : l <> [] -> (forall v, In v l -> wdot n v <= o) -> wdot n (mean l) <= o.
Proof.
  intros N H. unfold mean. assert (L : (0 < length l)%nat) by (destruct l; [congruence|cbn; lia]). rewrite (proj2 (Nat.ltb_lt _ _) L).
  rewrite fold_wadd, wadd_0_l, wdot_scale. assert (P : 0 < INR (length l)) by (apply lt_0_INR; exact L).
  assert (Q : wdot n (comb (repeat 1 (length l)) l) <= INR (length l) * o).
  { pose proof (wdot_comb_le n o (repeat 1 (length l)) l (repeat_length _ _)) as X. rewrite sum_repeat, Rmult_1_r in X. apply X; [|exact H].
    apply Forall_forall. intros c C. apply repeat_spec in C. lra. }
  apply (Rmult_le_compat_l (/ INR (length l))) in Q; [|apply Rlt_le, Rinv_0_lt_compat, P].
  rewrite <- Rmult_assoc, Rinv_l in Q by lra. lra.
Qed.

(** The least distance. *)
Lemma min_offset_fold fs r0 : (forall f, In f fs -> dist_norm_center f <= 0) ->
  let r := fold_left (fun res f => if Rlt_dec 0 (dist_norm_center f) then res else if Rlt_dec (- dist_norm_center f) res then - dist_norm_center f else res) fs r0 in
  r <= r0 /\ (forall f, In f fs -> r <= - dist_norm_center f) /\ (r = r0 \/ exists f, In f fs /\ r = - dist_norm_center f).
Proof.
  cbv zeta. revert r0. induction fs as [|g fs IH]; intros r0 H; cbn [fold_left]; [split; [lra|split; [intros f []|left; reflexivity]]|].
  pose proof (H g (or_introl eq_refl)) as G. destruct (Rlt_dec 0 (dist_norm_center g)) as [C|_]; [lra|].
  destruct (Rlt_dec (- dist_norm_center g) r0) as [C|C];
    destruct (IH (if Rlt_dec (- dist_norm_center g) r0 then - dist_norm_center g else r0) (fun f F => H f (or_intror F))) as (A & B & D);
    destruct (Rlt_dec (- dist_norm_center g) r0) as [C'|C'] in A, B, D; try lra.
  - split; [lra|]. split; [intros f [<-|F]; [exact A|apply B, F]|]. right. destruct D as [D|(f & F & D)]; [exists g; split; [left; reflexivity|exact D]|exists f; split; [right; exact F|exact D]].
  - split; [exact A|]. split; [intros f [<-|F]; [lra|apply B, F]|]. destruct D as [D|(f & F & D)]; [left; exact D|right; exists f; split; [right; exact F|exact D]].
Qed.

Lemma largest qh pts a : qhull_ok qh -> (4 <= length pts)%nat -> qh pts = Some a -> min_offset (create_hull qh pts) < flt_max ->
  largest_ball pts (h_center (create_hull qh pts)) (min_offset (create_hull qh pts)).
Proof.
  intros Q L E M. destruct (Q pts a E) as ((NF & NV & V & H) & U). rewrite (create_some _ _ _ L E) in *. unfold min_offset in *. cbn [h_faces h_center] in *.
  set (c := mean (a_verts a)) in *.
  assert (C : forall f, In f (a_facets a) -> f_offset f + wdot (f_normal f) c <= 0).
  { intros f F. assert (wdot (f_normal f) c <= - f_offset f); [|lra]. apply mean_below; [exact NV|]. intros v W. apply V in W. apply in_hull_point in W.
    apply (proj1 (H v)) with (f := f) in W; [lra|exact F]. }
  match type of M with fold_left ?s ?fs _ < _ => destruct (min_offset_fold fs flt_max) as (A & B & D); [intros g G; apply in_map_iff in G as (f & <- & F); apply C, F|]; set (r := fold_left s fs flt_max) in * end.
  clearbody r. destruct D as [D|(g & G & D)]; [lra|]. apply in_map_iff in G as (f & <- & F). cbn [dist_norm_center] in D.
  pose proof (C f F) as CF. assert (R0 : 0 <= r) by lra. split; [exact R0|]. split.
  - intros d Dd. apply H. intros g G. rewrite wdot_add. pose proof (B _ (in_map _ _ _ G)) as BG. cbn [dist_norm_center] in BG.
    pose proof (cauchy (f_normal g) d r (proj1 (U g G)) R0 Dd). lra.
  - intros r' R. exists (wscale r' (f_normal f)). split; [rewrite wdot_scale, (wdot_comm (wscale _ _)), wdot_scale, (proj1 (U f F)); lra|].
    intros I. apply (proj1 (H _)) with (f := f) in I; [|exact F]. rewrite wdot_add, wdot_scale, (proj1 (U f F)) in I. lra.
Qed.

(** The directions of a cone. *)
Lemma rot_mapply q v w : unit q -> vdot (mapply (to_mat q) v) (mapply (to_mat q) w) = vdot v w.
Proof.
  intros Q. destruct (to_mat_rotation q Q) as (_ & T & _). destruct v as [a b c], w as [d e f]. unfold mapply, vdot. cbn [vx vy vz].
  set (m := to_mat q) in *. clearbody m. unfold mmul, mtrans, mid in T. cbn [m00 m01 m02 m10 m11 m12 m20 m21 m22] in T. injection T as T00 T01 T02 T10 T11 T12 T20 T21 T22.
  destruct m as [x00 x01 x02 x10 x11 x12 x20 x21 x22]. cbn [m00 m01 m02 m10 m11 m12 m20 m21 m22] in *.
  transitivity (a * d * (x00 * x00 + x10 * x10 + x20 * x20) + a * e * (x00 * x01 + x10 * x11 + x20 * x21) + a * f * (x00 * x02 + x10 * x12 + x20 * x22)
    + b * d * (x01 * x00 + x11 * x10 + x21 * x20) + b * e * (x01 * x01 + x11 * x11 + x21 * x21) + b * f * (x01 * x02 + x11 * x12 + x21 * x22)
    + c * d * (x02 * x00 + x12 * x10 + x22 * x20) + c * e * (x02 * x01 + x12 * x11 + x22 * x21) + c * f * (x02 * x02 + x12 * x12 + x22 * x22)); [ring|].
  rewrite T00, T01, T02, T10, T11, T12, T20, T21, T22. ring.
Qed.
Lemma cos_atan_pos mu : 0 < cos (atan mu).
Proof. destruct (atan_bound mu). apply cos_gt_0; lra. Qed.
Lemma rim_dot n mu u i : vdot (rim n mu u i) (rim n mu u i) = 2 * (u * cos (atan mu)) ^ 2 /\ vz (rim n mu u i) = u * cos (atan mu).
Proof.
  split; [|reflexivity]. unfold rim, vdot. cbn [vx vy vz]. set (t := INR i * 2 * PI / INR n). pose proof (sin2_cos2 t) as S. unfold Rsqr in S.
  set (k := cos (atan mu)). transitivity ((u * k) ^ 2 * (sin t * sin t + cos t * cos t) + (u * k) ^ 2); [ring|]. rewrite S. ring.
Qed.
Lemma up_to n : vdot n n = 1 -> unit (get_rotation (Vec 0 0 1) n) /\ mapply (to_mat (get_rotation (Vec 0 0 1) n)) (Vec 0 0 1) = n.
Proof.
  intros N. assert (NZ : forall v, vdot v v = 1 -> vnormalize v = v).
  { intros [a b c] V. unfold vnormalize. destruct Rlt_dec as [_|K]; [|reflexivity]. unfold vnorm. rewrite V, sqrt_1. unfold vscale. cbn [vx vy vz]. f_equal; field. }
  assert (U : vdot (Vec 0 0 1) (Vec 0 0 1) = 1) by (unfold vdot; cbn [vx vy vz]; ring).
  apply get_rotation_units; auto.
Qed.
Lemma normalize_sq a : 0 < vdot a a -> vdot (vnormalize a) (vnormalize a) = 1 /\ forall b, vdot (vnormalize a) b = vdot a b / sqrt (vdot a a).
Proof.
  intros P. unfold vnormalize. destruct (Rlt_dec 0 (vdot a a)) as [_|N]; [|lra]. unfold vnorm.
  assert (S : 0 < sqrt (vdot a a)) by (apply sqrt_lt_R0; exact P). pose proof (sqrt_sqrt (vdot a a) (Rlt_le _ _ P)) as Q.
  set (s := sqrt (vdot a a)) in *. assert (s <> 0) by lra. split.
  - transitivity (/ s * / s * vdot a a); [vec; ring|]. rewrite <- Q. field. assumption.
  - intros b. vec. field. assumption.
Qed.
Lemma cone_direction n mu u c d : vdot (c_n c) (c_n c) = 1 -> 0 < u -> c_force c <> 0 -> In d (cone_points n mu u c) ->
  vdot (c_n d) (c_n d) = 1 /\ vdot (c_n d) (c_n c) = (if Rlt_dec 0 (c_force c) then 1 else -1) / sqrt 2.
Proof.
  intros N U F I. unfold cone_points in I. apply in_map_iff in I as (i & <- & _). cbn [c_n].
  destruct (up_to (c_n c) N) as [Q M]. set (q := get_rotation (Vec 0 0 1) (c_n c)) in *.
  destruct (rim_dot n mu u i) as [D Z]. set (r := rim n mu u i) in *. pose proof (cos_atan_pos mu) as K. set (k := cos (atan mu)) in *.
  assert (UK : 0 < u * k) by (apply Rmult_lt_0_compat; assumption). set (e := u * k) in *. set (f := c_force c) in *.
  assert (A : vdot (mapply (to_mat q) (vscale f r)) (mapply (to_mat q) (vscale f r)) = 2 * (f * e) ^ 2).
  { rewrite rot_mapply by exact Q. transitivity (f * f * vdot r r); [vec; ring|]. rewrite D. ring. }
  assert (FE : 0 < (f * e) ^ 2). { replace ((f * e) ^ 2) with (Rsqr (f * e)) by (unfold Rsqr; ring). apply Rsqr_pos_lt. intros X. apply Rmult_integral in X as [X|X]; [contradiction|lra]. }
  assert (B : vdot (mapply (to_mat q) (vscale f r)) (c_n c) = f * e).
  { rewrite <- M at 1. rewrite rot_mapply by exact Q. unfold vdot, vscale. cbn [vx vy vz]. rewrite Z. fold e. ring. }
  destruct (normalize_sq (mapply (to_mat q) (vscale f r))) as [S T]; [rewrite A; lra|]. split; [exact S|]. rewrite T, A, B.
  rewrite sqrt_mult by lra. replace ((f * e) ^ 2) with (Rsqr (f * e)) by (unfold Rsqr; ring). rewrite sqrt_Rsqr_abs, Rabs_mult, (Rabs_right e) by lra.
  pose proof (sqrt_lt_R0 2 ltac:(lra)). destruct (Rlt_dec 0 f) as [P|P].
  - rewrite Rabs_right by lra. field. lra.
  - rewrite Rabs_left by lra. field. lra.
Qed.
Lemma cone_zero n mu u c d : c_force c = 0 -> In d (cone_points n mu u c) -> c_n d = v0.
Proof.
  intros F I. unfold cone_points in I. apply in_map_iff in I as (i & <- & _). cbn [c_n]. rewrite F.
  assert (Z : mapply (to_mat (get_rotation (Vec 0 0 1) (c_n c))) (vscale 0 (rim n mu u i)) = v0) by (unfold mapply, vscale, v0; cbn [vx vy vz]; f_equal; ring).
  rewrite Z. unfold vnormalize. destruct Rlt_dec as [P|_]; [unfold vdot, v0 in P; cbn [vx vy vz] in P; lra|reflexivity].
Qed.
Lemma zero_force_inside ps l c : qhull_ok (p_qhull ps) -> In c l -> c_force c = 0 -> (0 < p_samples ps)%nat ->
  origin_inside (create_hull (p_qhull ps) (wrench_points ps l)) = true.
Proof.
  intros Q I F N. apply origin_inside_hull. destruct (lt_dec (length (wrench_points ps l)) 4) as [L|_]; [left; exact L|]. right.
  destruct (p_qhull ps (wrench_points ps l)) as [a|] eqn:E; [|left; reflexivity]. right. exists a. split; [reflexivity|]. intros f Ff.
  destruct (Q _ _ E) as ((_ & _ & _ & H) & _).
  assert (Z : In wzero (wrench_points ps l)).
  { unfold wrench_points. set (d := hd c (cone_points (p_samples ps) (p_mu ps) (p_unit ps) c)).
    assert (D : In d (cone_points (p_samples ps) (p_mu ps) (p_unit ps) c)).
    { unfold d. destruct (cone_points (p_samples ps) (p_mu ps) (p_unit ps) c) eqn:X; [|left; reflexivity]. exfalso. apply (f_equal (@length _)) in X. unfold cone_points in X. rewrite map_length, seq_length in X. cbn in X. lia. }
    apply in_map_iff. exists d. split; [|apply in_flat_map; exists c; split; assumption]. unfold wrench_point. rewrite (cone_zero _ _ _ _ _ F D).
    unfold wzero. f_equal. generalize (factor (p_length ps)). intros k. vec. veq; ring. }
  apply in_hull_point in Z. apply (proj1 (H _)) with (f := f) in Z; [|exact Ff]. rewrite wdot_0 in Z. lra.
Qed.

Lemma ensure_after ps infos m : infos <> [] ->
  ensure_gws ps (set_infos ps infos m) = Measure (map (of_info ps) infos) (map mm2m (map (of_info ps) infos)) true
    (Some (create_hull (p_qhull ps) (wrench_points ps (contacts_m (set_infos ps infos m))))) (ows_done m) (ows_offset m) (ows_volume m).
Proof. destruct infos as [|i l]; [congruence|]. reflexivity. Qed.
Lemma quality_after ps infos m s : infos <> [] -> ows_done m = true ->
  fst (quality ps s (set_infos ps infos m)) =
  let h := create_hull (p_qhull ps) (wrench_points ps (contacts_m (set_infos ps infos m))) in
  if (length (h_verts h) =? 0)%nat then 0 else if Rle_dec (ows_offset m) 0 then 0 else if Rle_dec (h_volume h) 0 then 0
  else if Req_EM_T (ows_offset m) 0 then min_offset h else min_offset h / ows_offset m.
Proof. intros N D. unfold quality. replace (ows_done (set_infos ps infos m)) with true by (symmetry; exact D). cbv iota zeta. rewrite (ensure_after ps infos m N). reflexivity. Qed.
Lemma volume_after ps infos m : infos <> [] ->
  fst (volume_measure ps (set_infos ps infos m)) =
  let h := create_hull (p_qhull ps) (wrench_points ps (contacts_m (set_infos ps infos m))) in
  if (length (h_verts h) =? 0)%nat then 0 else if Rle_dec (ows_volume m) 0 then 0 else if Rle_dec (h_volume h) 0 then 0
  else if Rlt_dec (1 / 10 ^ 10) (ows_volume m) then h_volume h / ows_volume m else h_volume h.
Proof. intros N. unfold volume_measure. rewrite (ensure_after ps infos m N). reflexivity. Qed.
Lemma hull_nonempty qh pts a : qhull_ok qh -> (4 <= length pts)%nat -> qh pts = Some a -> (length (h_verts (create_hull qh pts)) =? 0)%nat = false /\ h_volume (create_hull qh pts) = a_volume a.
Proof.
  intros Q L E. rewrite (create_some _ _ _ L E). cbn [h_verts h_volume]. split; [|reflexivity]. destruct (Q _ _ E) as [(NF & _ & _ & _) U].
  apply Nat.eqb_neq. destruct (a_facets a) as [|f fs] eqn:AF; [congruence|]. cbn [flat_map]. rewrite app_length.
  destruct (U f) as [_ FV]; [rewrite AF; left; reflexivity|]. destruct (f_verts f); [congruence|]. cbn [firstn length]. lia.
Qed.
