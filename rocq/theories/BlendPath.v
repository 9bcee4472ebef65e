(** Proofs for C43: the whole path. *)
From Coq Require Import Reals List Arith Lra Lia Psatz FunctionalExtensionality.
From Verif Require Import RpyModel RpyProofs BlendModel BlendSpec BlendProofs.
Import ListNotations.
Open Scope R_scope.

Section Path.
Context (n : nat).
Notation dot := (dot n). Notation norm := (norm n). Notation dist := (dist n). Notation direction := (direction n).
Notation config := seg_config. Notation tangent := seg_tangent. Notation len := seg_length.

Lemma tiny_pos : 0 < tiny.
Proof. unfold tiny. lra. Qed.
(** * Corners *)
Definition edge_ok (a b : vec) : Prop := 2 * tiny < dist a b.
Definition turn_ok (a b c : vec) : Prop := exists i, (i < n)%nat /\ direction b c i <> - direction a b i.
Lemma dir_unit : forall a b, edge_ok a b -> dot (direction a b) (direction a b) = 1.
Proof.
  intros a b E. pose proof tiny_pos. unfold edge_ok in E. replace (direction a b) with (vscale (/ norm (vsub b a)) (vsub b a)).
  - apply unit_dot. rewrite <- dist_norm, dist_sym. lra.
  - extensionality i. unfold BlendSpec.direction. rewrite dist_sym, dist_norm. unfold vscale, vsub, Rdiv. ring.
Qed.
Lemma half_norm : forall a b, norm (vscale (1 / 2) (vsub b a)) = dist a b / 2.
Proof. intros a b. rewrite norm_scale, Rabs_right by lra. rewrite <- dist_norm, dist_sym. lra. Qed.
Lemma half_dir : forall a b, edge_ok a b -> normalized n (vscale (1 / 2) (vsub b a)) = direction a b.
Proof.
  intros a b E. pose proof tiny_pos. unfold edge_ok in E. rewrite normalized_unit by (rewrite half_norm; lra). rewrite half_norm. extensionality i. unfold vscale, vsub, BlendSpec.direction. field. lra.
Qed.
Record proper (a b c : vec) (dev : R) (g : segment) (h d : R) : Prop := {
  p_h : 0 < h < PI / 2;
  p_dot : dot (direction a b) (direction b c) = cos (2 * h);
  p_d : 0 < d;
  p_da : d <= dist a b / 2;
  p_dc : d <= dist b c / 2;
  p_dev : d <= dev * sin h / (1 - cos h);
  p_g : let s := direction a b in let e := direction b c in let r := d / tan h in let ce := vadd b (vscale (r / cos h) (normalized n (vsub e s))) in
        g = Circ r (2 * h * r) ce (normalized n (vsub (vsub b (vscale d s)) ce)) s }.
Lemma blend_cases : forall a b c dev, 0 < dev -> edge_ok a b -> edge_ok b c -> turn_ok a b c ->
  let g := new_circ n (vscale (1 / 2) (vadd a b)) b (vscale (1 / 2) (vadd b c)) dev in
  (dist (direction a b) (direction b c) < tiny /\ g = no_blend b) \/ (tiny <= dist (direction a b) (direction b c) /\ exists h d, proper a b c dev g h d).
Proof.
  intros a b c dev DV EA EB TU. pose proof tiny_pos as TP. unfold new_circ.
  assert (A1 : vsub b (vscale (1 / 2) (vadd a b)) = vscale (1 / 2) (vsub b a)) by (extensionality i; unfold vsub, vscale, vadd; lra).
  assert (A2 : vsub (vscale (1 / 2) (vadd b c)) b = vscale (1 / 2) (vsub c b)) by (extensionality i; unfold vsub, vscale, vadd; lra).
  assert (A3 : norm (vsub (vscale (1 / 2) (vadd a b)) b) = dist a b / 2).
  { rewrite <- dist_norm, dist_sym, dist_norm, A1. apply half_norm. }
  rewrite A1, A2, A3, !half_norm, !half_dir by assumption. unfold edge_ok in *. destruct (Rlt_dec (dist a b / 2) tiny); [lra|]. destruct (Rlt_dec (dist b c / 2) tiny); [lra|].
  fold (dist (direction a b) (direction b c)). change (norm (vsub (direction a b) (direction b c))) with (dist (direction a b) (direction b c)). destruct (Rlt_dec (dist (direction a b) (direction b c)) tiny) as [F|F]; [left; auto|]. right. split; [lra|].
  pose proof (dir_unit a b EA) as U. pose proof (dir_unit b c EB) as V. set (s := direction a b) in *. set (e := direction b c) in *.
  assert (C1 : dot s e < 1).
  { assert (Q : dist s e * dist s e = 2 - 2 * dot s e) by (rewrite dist_norm, norm_sq, dot_sub, !dot_sub_r, (dot_comm n e s), U, V; ring). nra. }
  assert (C2 : -1 < dot s e).
  { destruct (Rlt_dec (-1) (dot s e)) as [L|L]; [exact L|exfalso]. destruct TU as (i & LI & NE). assert (Q : dot (vadd s e) (vadd s e) = 0).
    { pose proof (dot_pos n (vadd s e)) as P. rewrite dot_add, !dot_add_r, (dot_comm n e s), U, V in *. nra. }
    pose proof (dot_zero n _ Q i LI) as Z. unfold vadd in Z. fold s e in NE. lra. }
  set (h := 1 / 2 * acos (dot s e)). assert (HA : acos (dot s e) = 2 * h) by (unfold h; lra). pose proof (acos_bound_lt (dot s e) (conj C2 C1)) as AB.
  assert (H0 : 0 < h) by lra. assert (H1 : h < PI / 2) by lra. assert (SP : 0 < sin h) by (apply sin_h; assumption). assert (CP : 0 < cos h) by (apply cos_h; assumption). pose proof (sc_h h) as SC. assert (K1 : cos h < 1) by nra.
  set (d := Rmin (Rmin (dist a b / 2) (dist b c / 2)) (dev * sin h / (1 - cos h))). exists h, d.
  assert (D1 : 0 < dev * sin h / (1 - cos h)) by (apply Rdiv_lt_0_compat; [apply Rmult_lt_0_compat; assumption|lra]).
  split.
  - lra.
  - rewrite <- HA. symmetry. apply cos_acos. fold s e. split; lra.
  - unfold d. apply Rmin_glb_lt; [apply Rmin_glb_lt; lra|exact D1].
  - unfold d. apply Rle_trans with (1 := Rmin_l _ _). apply Rmin_l.
  - unfold d. apply Rle_trans with (1 := Rmin_l _ _). apply Rmin_r.
  - unfold d. apply Rmin_r.
  - cbv zeta. fold s e. rewrite HA. reflexivity.
Qed.
(** What the loop needs to know about a blend. *)
Record corner (a b c : vec) (dev : R) (g : segment) (q : R) : Prop := {
  k_q : 0 <= q;
  k_qa : q <= dist a b / 2;
  k_qc : q <= dist b c / 2;
  k_first : config g 0 = vsub b (vscale q (direction a b));
  k_last : config g (len g) = vadd b (vscale q (direction b c));
  k_len : 0 <= len g;
  k_lip : forall s t, 0 <= s <= len g -> 0 <= t <= len g -> dist (config g s) (config g t) <= Rabs (s - t);
  k_near : forall s, 0 <= s <= len g -> exists p, 0 <= p <= q /\ (dist (config g s) (vsub b (vscale p (direction a b))) <= dev \/ dist (config g s) (vadd b (vscale p (direction b c))) <= dev);
  k_corner : (q = 0 /\ len g = 0) \/ exists s, 0 < s < len g /\ dist (config g s) b <= dev;
  k_smooth : tiny <= dist (direction a b) (direction b c) -> tangent g 0 = Some (direction a b) /\ tangent g (len g) = Some (direction b c);
  k_circ : exists r l ce x y, g = Circ r l ce x y /\ 0 < r /\ l < PI * r;
  k_unit : 0 < len g -> forall s, exists v, tangent g s = Some v /\ dot v v = 1 }.
Lemma blend_ok : forall a b c dev, 0 < dev -> edge_ok a b -> edge_ok b c -> turn_ok a b c ->
  exists q, corner a b c dev (new_circ n (vscale (1 / 2) (vadd a b)) b (vscale (1 / 2) (vadd b c)) dev) q.
Proof.
  intros a b c dev DV EA EB TU. pose proof tiny_pos as TP. destruct (blend_cases a b c dev DV EA EB TU) as [[F ->]|(F & h & d & P)].
  - exists 0. unfold edge_ok in *. split; cbn [no_blend seg_length]; try lra.
    + extensionality i. cbn. unfold vadd, vsub, vscale, vzero. ring.
    + extensionality i. cbn. unfold vadd, vsub, vscale, vzero. ring.
    + intros s t Hs Ht. replace s with t by lra. rewrite dist_self. apply Rabs_pos.
    + intros s Hs. exists 0. split; [lra|]. left. replace (config (no_blend b) s) with (vsub b (vscale 0 (direction a b))); [rewrite dist_self; lra|]. extensionality i. cbn. unfold vadd, vsub, vscale, vzero. ring.
    + unfold no_blend. pose proof PI_RGT_0. repeat eexists; lra.
  - exists d. destruct P as [[H0 H1] DT D0 DA DC DD PG]. cbv zeta in PG. rewrite PG. set (s := direction a b) in *. set (e := direction b c) in *.
    pose proof (dir_unit a b EA) as U. pose proof (dir_unit b c EB) as V. fold s in U. fold e in V.
    pose proof (r_pos h d H0 H1 D0) as RP. set (r := d / tan h) in *. set (ce := vadd b (vscale (r / cos h) (normalized n (vsub e s)))) in *. set (x := normalized n (vsub (vsub b (vscale d s)) ce)) in *.
    pose proof (arc_start n b s e h d U V DT H0 H1 D0) as AS. pose proof (arc_end n b s e h d U V DT H0 H1 D0) as AE. pose proof (arc_chord n b s e h d U V DT H0 H1 D0) as AC. pose proof (near_first n b s e h d U V DT H0 H1 D0) as N1. pose proof (near_second n b s e h d U V DT H0 H1 D0) as N2. pose proof (near_corner n b s e h d U V DT H0 H1 D0) as NC. pose proof (end_axis n b s e h d U V DT H0 H1 D0) as EX.
    pose proof (dev_edge h d H0 H1 D0 dev DD) as [DE1 DE2]. pose proof (x_unit n b s e h d U V DT H0 H1 D0) as XU. pose proof (x_orth n b s e h d U V DT H0 H1 D0) as XO.
    fold r in AS, AE, AC, N1, N2, NC, EX, DE2, XU, XO. fold ce in AS, AE, AC, N1, N2, NC, EX, XU, XO. fold x in AS, AE, AC, N1, N2, NC, EX, XU, XO.
    assert (L2 : 2 * h * r / r = 2 * h) by (field; lra). assert (LP : 0 < 2 * h * r) by nra.
    split; cbn [seg_length]; try lra.
    + extensionality i. cbn [seg_config]. cbv zeta. replace (0 / r) with 0 by (field; lra). rewrite AS. fold s. unfold vsub, vscale. reflexivity.
    + extensionality i. cbn [seg_config]. cbv zeta. rewrite L2, AE. fold e. unfold vadd, vscale. reflexivity.
    + intros t u Ht Hu. cbn [seg_config]. cbv zeta. apply Rle_trans with (1 := AC _ _). replace (t / r - u / r) with ((t - u) * / r) by (field; lra). rewrite Rabs_mult, (Rabs_right (/ r)) by (apply Rle_ge, Rlt_le, Rinv_0_lt_compat, RP). right. field. lra.
    + intros t Ht. cbn [seg_config]. cbv zeta. destruct (Rle_dec (t / r) h) as [LE|GT].
      * assert (TB : 0 <= t / r <= h) by (split; [apply Rmult_le_pos; [lra|apply Rlt_le, Rinv_0_lt_compat, RP]|exact LE]). destruct (N1 _ TB) as [B1 B2]. exists (d - r * sin (t / r)). split; [exact B1|]. left. exact (Rle_trans _ _ _ B2 DE2).
      * assert (TB : h <= t / r <= 2 * h) by (split; [lra|rewrite <- L2; apply Rmult_le_compat_r; [apply Rlt_le, Rinv_0_lt_compat, RP|lra]]). destruct (N2 _ TB) as [B1 B2]. exists (d - r * sin (2 * h - t / r)). split; [exact B1|]. right. exact (Rle_trans _ _ _ B2 DE2).
    + right. exists (h * r). split; [nra|]. cbn [seg_config]. cbv zeta. replace (h * r / r) with h by (field; lra). rewrite NC. exact DE1.
    + intros _. cbn [seg_tangent]. cbv zeta. split; f_equal; extensionality i.
      * replace (0 / r) with 0 by (field; lra). rewrite sin_0, cos_0. fold s. unfold vadd, vscale. ring.
      * rewrite L2. fold e. rewrite EX. unfold vadd, vscale. reflexivity.
    + repeat eexists; [exact RP|nra].
    + intros _ t. cbn [seg_tangent]. cbv zeta. eexists. split; [reflexivity|]. rewrite dot_add, !dot_add_r, !dot_scale, !dot_scale_r, (dot_comm n s x), XU, XO, U. pose proof (sin2_cos2 (t / r)) as Q. unfold Rsqr in Q. nra.
Qed.
(** * Lines *)
Lemma lin_config : forall a b s, 0 <= s <= len (new_lin n a b) -> exists q, 0 <= q <= 1 /\ config (new_lin n a b) s = between a b q.
Proof.
  intros a b s H. unfold new_lin in *. cbn [seg_config seg_length] in *. cbv zeta. match goal with |- context [vscale ?q b] => exists q end. split; [|reflexivity].
  destruct (Req_EM_T _ 0); [destruct (Rlt_dec s 0); lra|]. split; [apply Rmax_l|]. apply Rmax_lub; [lra|apply Rmin_l].
Qed.
Lemma lin_first : forall a b, 0 < len (new_lin n a b) -> config (new_lin n a b) 0 = a.
Proof.
  intros a b L. extensionality i. unfold new_lin in *. cbn [seg_config seg_length] in *. cbv zeta. unfold vadd, vscale. destruct (Req_EM_T _ 0) as [Z|NZ]; [rewrite Z in L; lra|]. replace (0 / norm (vsub b a)) with 0 by (field; exact NZ). rewrite Rmin_right, Rmax_left by lra. ring.
Qed.
Lemma lin_last : forall a b, config (new_lin n a b) (len (new_lin n a b)) = b.
Proof.
  intros a b. extensionality i. unfold new_lin. cbn [seg_config seg_length]. cbv zeta. pose proof (norm_pos n (vsub b a)). unfold vadd, vscale. destruct (Req_EM_T _ 0) as [Z|NZ]; [destruct (Rlt_dec _ 0); [lra|ring]|]. replace (norm (vsub b a) / norm (vsub b a)) with 1 by (field; exact NZ). rewrite Rmin_left, Rmax_right by lra. ring.
Qed.
Lemma between_dist : forall a b p q, dist (between a b p) (between a b q) = Rabs (p - q) * dist b a.
Proof. intros a b p q. rewrite !dist_norm, <- norm_scale. f_equal. extensionality i. unfold between, vsub, vscale. ring. Qed.
Lemma clamp_lip : forall x y, Rabs (Rmax 0 (Rmin 1 x) - Rmax 0 (Rmin 1 y)) <= Rabs (x - y).
Proof. intros x y. unfold Rmax, Rmin. repeat destruct (Rle_dec _ _); unfold Rabs; repeat destruct (Rcase_abs _); lra. Qed.
Lemma lin_lip : forall a b s t, dist (config (new_lin n a b) s) (config (new_lin n a b) t) <= Rabs (s - t).
Proof.
  intros a b s t. unfold new_lin. cbn [seg_config]. cbv zeta.
  match goal with |- dist (vadd (vscale _ a) (vscale ?p b)) (vadd (vscale _ a) (vscale ?q b)) <= _ => set (u := p); set (v := q) end.
  change (dist (between a b u) (between a b v) <= Rabs (s - t)). rewrite between_dist. unfold u, v. rewrite dist_norm. destruct (Req_EM_T (norm (vsub b a)) 0) as [Z|NZ]; [rewrite Z, Rmult_0_r; apply Rabs_pos|].
  pose proof (norm_pos n (vsub b a)) as NP. apply Rle_trans with (Rabs (s / norm (vsub b a) - t / norm (vsub b a)) * norm (vsub b a)); [apply Rmult_le_compat_r; [exact NP|apply clamp_lip]|].
  replace (s / norm (vsub b a) - t / norm (vsub b a)) with ((s - t) * / norm (vsub b a)) by (field; exact NZ). rewrite Rabs_mult, (Rabs_right (/ _)) by (apply Rle_ge, Rlt_le, Rinv_0_lt_compat; lra). right. field. exact NZ.
Qed.
Lemma lin_len : forall a b, len (new_lin n a b) = dist a b.
Proof. intros a b. cbn. rewrite dist_sym. reflexivity. Qed.
Lemma lin_tangent : forall a b s, len (new_lin n a b) <> 0 -> tangent (new_lin n a b) s = Some (direction a b).
Proof.
  intros a b s NZ. unfold new_lin in *. cbn [seg_length seg_tangent] in *. destruct (Req_EM_T _ 0); [contradiction|]. f_equal. extensionality i. unfold BlendSpec.direction. rewrite dist_sym, dist_norm. unfold vscale, vsub, Rdiv. ring.
Qed.

(** * Points of an edge *)
Definition on_edge (a b p : vec) : Prop := exists t, 0 <= t <= 1 /\ p = between a b t.
Lemma from_first : forall a b q, edge_ok a b -> vadd a (vscale q (direction a b)) = between a b (q / dist a b).
Proof. intros a b q E. pose proof tiny_pos. unfold edge_ok in E. extensionality i. unfold vadd, vscale, between, BlendSpec.direction. field. lra. Qed.
Lemma from_second : forall a b q, edge_ok a b -> vsub b (vscale q (direction a b)) = between a b (1 - q / dist a b).
Proof. intros a b q E. pose proof tiny_pos. unfold edge_ok in E. extensionality i. unfold vsub, vscale, between, BlendSpec.direction. field. lra. Qed.
Lemma on_first : forall a b q, edge_ok a b -> 0 <= q <= dist a b -> on_edge a b (vadd a (vscale q (direction a b))).
Proof.
  intros a b q E Q. pose proof tiny_pos. rewrite from_first by exact E. unfold edge_ok in E. exists (q / dist a b). split; [|reflexivity]. split; [apply Rmult_le_pos; [lra|apply Rlt_le, Rinv_0_lt_compat; lra]|]. apply (Rmult_le_reg_r (dist a b)); [lra|]. replace (q / dist a b * dist a b) with q by (field; lra). lra.
Qed.
Lemma on_second : forall a b q, edge_ok a b -> 0 <= q <= dist a b -> on_edge a b (vsub b (vscale q (direction a b))).
Proof.
  intros a b q E Q. pose proof tiny_pos. rewrite from_second by exact E. unfold edge_ok in E. exists (1 - q / dist a b). split; [|reflexivity].
  assert (B : 0 <= q / dist a b <= 1); [|lra]. split; [apply Rmult_le_pos; [lra|apply Rlt_le, Rinv_0_lt_compat; lra]|]. apply (Rmult_le_reg_r (dist a b)); [lra|]. replace (q / dist a b * dist a b) with q by (field; lra). lra.
Qed.
Lemma on_between : forall a b p q t, on_edge a b p -> on_edge a b q -> 0 <= t <= 1 -> on_edge a b (between p q t).
Proof.
  intros a b p q t (u & U & ->) (v & V & ->) T. exists ((1 - t) * u + t * v). split; [nra|]. extensionality i. unfold between. ring.
Qed.
Lemma on_near : forall pts a b p d, neighbours pts a b -> on_edge a b p -> 0 <= d -> near_polyline n pts d p.
Proof. intros pts a b p d N (t & T & ->) D. exists a, b, t. split; [exact N|split; [exact T|rewrite dist_self; exact D]]. Qed.

(** * The loop *)
Definition gap (g : segment) : R := match g with Lin _ _ _ => 0 | Circ _ _ _ _ _ => tiny end.
Fixpoint gaps (l : list segment) : R := match l with [] => 0 | g :: l => gap g + gaps l end.
Fixpoint joined (a : vec) (l : list segment) : Prop := match l with [] => True | g :: l => dist a (config g 0) <= gap g /\ joined (config g (len g)) l end.
Fixpoint chain (d : vec) (l : list segment) : Prop := match l with [] => True | g :: l => tangent g 0 = Some d /\ exists d', tangent g (len g) = Some d' /\ chain d' l end.
Record good (pts : list vec) (dev : R) (g : segment) : Prop := {
  g_len : 0 <= len g;
  g_lip : forall s t, 0 <= s <= len g -> 0 <= t <= len g -> dist (config g s) (config g t) <= Rabs (s - t);
  g_near : forall s, 0 <= s <= len g -> near_polyline n pts dev (config g s);
  g_unit : 0 < len g -> forall s, exists v, tangent g s = Some v /\ dot v v = 1;
  g_radius : match g with Circ r l _ _ _ => 0 < r /\ l < PI * r | _ => True end }.
Lemma lin_good : forall pts dev a b p q, neighbours pts a b -> 0 <= dev -> on_edge a b p -> on_edge a b q -> good pts dev (new_lin n p q).
Proof.
  intros pts dev a b p q N D P Q. split.
  - rewrite lin_len. apply sqrt_pos.
  - intros s t _ _. apply lin_lip.
  - intros s S. destruct (lin_config p q s S) as (t & T & ->). apply (on_near pts a b); auto. apply on_between; assumption.
  - intros L s. rewrite lin_tangent by lra. eexists. split; [reflexivity|]. rewrite lin_len in L. replace (direction p q) with (vscale (/ norm (vsub q p)) (vsub q p)).
    + apply unit_dot. rewrite <- dist_norm, dist_sym. exact L.
    + extensionality i. unfold BlendSpec.direction. rewrite dist_sym, dist_norm. unfold vscale, vsub, Rdiv. ring.
  - exact I.
Qed.
Lemma lin_joined : forall a b, dist a (config (new_lin n a b) 0) <= 0.
Proof.
  intros a b. destruct (Req_dec (len (new_lin n a b)) 0) as [Z|NZ].
  - replace (config (new_lin n a b) 0) with b.
    + rewrite lin_len in Z. lra.
    + rewrite <- (lin_last a b) at 1. rewrite Z. reflexivity.
  - pose proof (norm_pos n (vsub b a)) as P. rewrite lin_first; [rewrite dist_self; lra|]. cbn in *. lra.
Qed.
Lemma snoc_cons : forall {T} (a b : T) l0 z rest, a :: b :: rest = l0 ++ [z] -> exists l0', b :: rest = l0' ++ [z].
Proof. intros T a b [|x l0] z rest E; [discriminate|]. injection E as _ E. exists l0. exact E. Qed.
(** Without blends. *)
Lemma plain_good : forall dev pts, dev <= 0 -> forall rest c1 c2 l1, pts = l1 ++ c1 :: c2 :: rest ->
  let l := build n dev c1 c1 c2 rest in
  Forall (good pts 0) l /\ joined c1 l /\ gaps l = 0 /\ (forall l0 z, c1 :: c2 :: rest = l0 ++ [z] -> exists l0' a, l = l0' ++ [new_lin n a z]).
Proof.
  intros dev pts DV. induction rest as [|c3 r IH]; intros c1 c2 l1 E; cbn [build].
  - assert (N : neighbours pts c1 c2) by (exists l1, []; exact E). split; [constructor; [|constructor]|split; [split; [apply lin_joined|exact I]|split; [cbn; ring|]]].
    + apply (lin_good pts 0 c1 c2); auto; [lra|exists 0|exists 1]; (split; [lra|extensionality i; unfold between; ring]).
    + intros l0 z X. exists [], c1. destruct l0 as [|x [|y [|]]]; try discriminate. injection X as _ ->. reflexivity.
  - destruct (Rlt_dec 0 dev) as [L|_]; [lra|]. assert (N : neighbours pts c1 c2) by (exists l1, (c3 :: r); exact E).
    destruct (IH c2 c3 (l1 ++ [c1])) as (G & J & Z & LA); [rewrite <- app_assoc; exact E|]. split; [constructor; [|exact G]|split; [split; [apply lin_joined|rewrite lin_last; exact J]|split; [cbn [gaps gap new_lin]; cbn in Z; rewrite Z; ring|]]].
    + apply (lin_good pts 0 c1 c2); auto; [lra|exists 0|exists 1]; (split; [lra|extensionality i; unfold between; ring]).
    + intros l0 z X. destruct (snoc_cons _ _ _ _ _ X) as [l0' X']. destruct (LA l0' z X') as (l & a & W). exists (new_lin n c1 c2 :: l), a. cbn. f_equal. exact W.
Qed.
(** With blends. *)
Lemma blended_good : forall dev pts, 0 < dev -> general n pts -> forall rest c1 c2 l1 q, pts = l1 ++ c1 :: c2 :: rest -> 0 <= q <= dist c1 c2 / 2 ->
  let start := vadd c1 (vscale q (direction c1 c2)) in
  let l := build n dev start c1 c2 rest in
  Forall (good pts dev) l /\ joined start l /\ gaps l <= tiny * INR (length rest)
  /\ (forall l0 z, c1 :: c2 :: rest = l0 ++ [z] -> exists l0' a, l = l0' ++ [new_lin n a z])
  /\ (bent n pts -> chain (direction c1 c2) l)
  /\ (q = 0 -> exists l0 z, l = new_lin n start z :: l0 /\ 0 < dist start z)
  /\ (forall a b c, (exists m1 m2, c1 :: c2 :: rest = m1 ++ a :: b :: c :: m2) -> exists g p, In g l /\ 0 <= p < len g /\ dist (config g p) b <= dev).
Proof.
  intros dev pts DV GP. pose proof tiny_pos as TP. induction rest as [|c3 r IH]; intros c1 c2 l1 q E Q start l.
  - assert (N : neighbours pts c1 c2) by (exists l1, []; exact E). pose proof (proj1 GP c1 c2 N) as EO. change (edge_ok c1 c2) in EO.
    assert (O1 : on_edge c1 c2 start) by (apply on_first; [exact EO|unfold edge_ok in EO; lra]). assert (O2 : on_edge c1 c2 c2) by (exists 1; split; [lra|extensionality i; unfold between; ring]).
    assert (EQ : start = between c1 c2 (q / dist c1 c2)) by (apply from_first; exact EO). assert (C2 : c2 = between c1 c2 1) by (extensionality i; unfold between; ring). unfold edge_ok in EO.
    assert (DS : dist start c2 = dist c1 c2 - q).
    { rewrite EQ. transitivity (dist (between c1 c2 (q / dist c1 c2)) (between c1 c2 1)); [f_equal; exact C2|]. rewrite between_dist, (dist_sym n c2 c1). rewrite Rabs_left.
      - field. lra.
      - assert (q / dist c1 c2 < 1); [|lra]. apply (Rmult_lt_reg_r (dist c1 c2)); [lra|]. replace (q / dist c1 c2 * dist c1 c2) with q by (field; lra). lra. }
    unfold l. cbn [build]. split; [constructor; [|constructor]|split; [split; [apply lin_joined|exact I]|split; [cbn; lra|split; [|split; [|split]]]]].
    + apply (lin_good pts dev c1 c2); auto. lra.
    + intros l0 z X. exists [], start. destruct l0 as [|x [|y [|]]]; try discriminate. injection X as _ ->. reflexivity.
    + intros _. split; [|exists (direction start c2); split; [apply lin_tangent; rewrite lin_len; lra|exact I]]. rewrite lin_tangent by (rewrite lin_len; lra). f_equal.
      extensionality i. unfold BlendSpec.direction. rewrite DS. unfold start, vadd, vscale, BlendSpec.direction. field. lra.
    + intros _. exists [], c2. split; [reflexivity|lra].
    + intros a b c (m1 & m2 & X). destruct m1 as [|? [|? [|? ?]]]; discriminate.
  - assert (N : neighbours pts c1 c2) by (exists l1, (c3 :: r); exact E). pose proof (proj1 GP c1 c2 N) as EO. change (edge_ok c1 c2) in EO.
    assert (N2 : neighbours pts c2 c3) by (exists (l1 ++ [c1]), r; rewrite <- app_assoc; exact E). pose proof (proj1 GP c2 c3 N2) as EO2. change (edge_ok c2 c3) in EO2.
    assert (TU : turn_ok c1 c2 c3) by (apply (proj2 GP l1 r c1 c2 c3 E)).
    destruct (blend_ok c1 c2 c3 dev DV EO EO2 TU) as (p & K). unfold l. cbn [build]. destruct (Rlt_dec 0 dev) as [_|L]; [|lra]. set (g := new_circ n _ c2 _ dev) in *.
    rewrite (k_last _ _ _ _ _ _ K), (k_first _ _ _ _ _ _ K). pose proof (k_q _ _ _ _ _ _ K) as P0. pose proof (k_qa _ _ _ _ _ _ K) as PA. pose proof (k_qc _ _ _ _ _ _ K) as PC.
    destruct (IH c2 c3 (l1 ++ [c1]) p) as (G & J & Z & LA & CH & FI & CO); [rewrite <- app_assoc; exact E|lra|].
    set (e := vsub c2 (vscale p (direction c1 c2))) in *. set (l2 := build n dev (vadd c2 (vscale p (direction c2 c3))) c2 c3 r) in *.
    assert (O1 : on_edge c1 c2 start) by (apply on_first; [exact EO|unfold edge_ok in EO; lra]). assert (O2 : on_edge c1 c2 e) by (apply on_second; [exact EO|unfold edge_ok in EO; lra]).
    assert (DS : dist start e = dist c1 c2 - q - p).
    { unfold start, e. rewrite from_first, from_second by exact EO. rewrite between_dist, (dist_sym n c2 c1). unfold edge_ok in EO. rewrite Rabs_left1.
      - field. lra.
      - assert (q / dist c1 c2 + p / dist c1 c2 <= 1); [|lra]. apply (Rmult_le_reg_r (dist c1 c2)); [lra|]. replace ((q / dist c1 c2 + p / dist c1 c2) * dist c1 c2) with (q + p) by (field; lra). lra. }
    assert (DIR : 0 < dist start e -> direction start e = direction c1 c2).
    { intros W. rewrite DS in W. extensionality i. unfold BlendSpec.direction. rewrite DS. unfold start, e, vadd, vsub, vscale, BlendSpec.direction. unfold edge_ok in EO. field. lra. }
    assert (GG : good pts dev g).
    { split; [apply (k_len _ _ _ _ _ _ K)|apply (k_lip _ _ _ _ _ _ K)| |apply (k_unit _ _ _ _ _ _ K)|destruct (k_circ _ _ _ _ _ _ K) as (? & ? & ? & ? & ? & -> & RP); exact RP]. intros s S. destruct (k_near _ _ _ _ _ _ K s S) as (p' & P' & [B|B]).
      - destruct (on_second c1 c2 p' EO) as (t & T & X); [unfold edge_ok in EO; lra|]. rewrite X in B. exists c1, c2, t. auto.
      - destruct (on_first c2 c3 p' EO2) as (t & T & X); [unfold edge_ok in EO2; lra|]. rewrite X in B. exists c2, c3, t. auto. }
    assert (GC : gap g = tiny) by (destruct (k_circ _ _ _ _ _ _ K) as (? & ? & ? & ? & ? & -> & _); reflexivity).
    assert (ZN : gaps l2 + tiny <= tiny * INR (length (c3 :: r))) by (cbn [length]; rewrite S_INR; cbv zeta in Z; fold l2 in Z; lra).
    destruct (Rlt_dec tiny (norm (vsub e start))) as [SK|SK]; rewrite <- dist_norm, dist_sym in SK; cbn [app].
    + split; [constructor; [apply (lin_good pts dev c1 c2); auto; lra|constructor; [exact GG|exact G]]|]. split; [split; [apply lin_joined|split]|].
      * rewrite lin_last, (k_first _ _ _ _ _ _ K). fold e. rewrite dist_self, GC. lra.
      * rewrite (k_last _ _ _ _ _ _ K). exact J.
      * split; [cbn [gaps]; rewrite GC; cbn [gap new_lin]; lra|]. split; [|split; [|split]].
        -- intros l0 z X. destruct (snoc_cons _ _ _ _ _ X) as [l0' X']. destruct (LA l0' z X') as (m & a & W). exists (new_lin n start e :: g :: m), a. cbn. do 2 f_equal. exact W.
        -- intros B. destruct (k_smooth _ _ _ _ _ _ K (B l1 r c1 c2 c3 E)) as [T1 T2]. split; [rewrite lin_tangent by (rewrite lin_len; lra); f_equal; apply DIR; lra|]. exists (direction c1 c2). split; [rewrite lin_tangent by (rewrite lin_len; lra); f_equal; apply DIR; lra|]. split; [exact T1|]. exists (direction c2 c3). split; [exact T2|apply CH, B].
        -- intros _. exists (g :: l2), e. split; [reflexivity|lra].
        -- intros a b c (m1 & m2 & X). destruct m1 as [|y m1].
           ++ injection X as <- <- <- <-. destruct (k_corner _ _ _ _ _ _ K) as [[PZ LZ]|(s & S1 & S2)].
              ** destruct (FI PZ) as (m & z & W & PZ'). exists (new_lin n (vadd c2 (vscale p (direction c2 c3))) z), 0. split; [right; right; cbv zeta in W; fold l2 in W; rewrite W; left; reflexivity|]. rewrite lin_len. split; [lra|]. rewrite lin_first by (rewrite lin_len; exact PZ'). subst p. replace (vadd c2 (vscale 0 (direction c2 c3))) with c2; [rewrite dist_self; lra|]. extensionality i. unfold vadd, vscale. ring.
              ** exists g, s. split; [right; left; reflexivity|]. split; [lra|exact S2].
           ++ injection X as _ X. destruct (CO a b c) as (g' & p' & I' & B1 & B2); [exists m1, m2; exact X|]. exists g', p'. split; [right; right; exact I'|auto].
    + split; [constructor; [exact GG|exact G]|]. split; [split|].
      * rewrite (k_first _ _ _ _ _ _ K). fold e. rewrite GC. lra.
      * rewrite (k_last _ _ _ _ _ _ K). exact J.
      * split; [cbn [gaps]; rewrite GC; lra|]. split; [|split; [|split]].
        -- intros l0 z X. destruct (snoc_cons _ _ _ _ _ X) as [l0' X']. destruct (LA l0' z X') as (m & a & W). exists (g :: m), a. cbn. f_equal. exact W.
        -- intros B. destruct (k_smooth _ _ _ _ _ _ K (B l1 r c1 c2 c3 E)) as [T1 T2]. split; [exact T1|]. exists (direction c2 c3). split; [exact T2|apply CH, B].
        -- intros QZ. exfalso. unfold edge_ok in EO. lra.
        -- intros a b c (m1 & m2 & X). destruct m1 as [|y m1].
           ++ injection X as <- <- <- <-. destruct (k_corner _ _ _ _ _ _ K) as [[PZ LZ]|(s & S1 & S2)].
              ** destruct (FI PZ) as (m & z & W & PZ'). exists (new_lin n (vadd c2 (vscale p (direction c2 c3))) z), 0. split; [right; cbv zeta in W; fold l2 in W; rewrite W; left; reflexivity|]. rewrite lin_len. split; [lra|]. rewrite lin_first by (rewrite lin_len; exact PZ'). subst p. replace (vadd c2 (vscale 0 (direction c2 c3))) with c2; [rewrite dist_self; lra|]. extensionality i. unfold vadd, vscale. ring.
              ** exists g, s. split; [left; reflexivity|]. split; [lra|exact S2].
           ++ injection X as _ X. destruct (CO a b c) as (g' & p' & I' & B1 & B2); [exists m1, m2; exact X|]. exists g', p'. split; [right; exact I'|auto].
Qed.

(** * Positions *)
Definition pseg (p : R) (l : list segment) (s : R) : option (segment * R) := match place p l with [] => None | (p0, g) :: r => Some (find_seg p0 g r s) end.
Lemma pseg_one : forall p g s, pseg p [g] s = Some (g, s - p).
Proof. reflexivity. Qed.
Lemma pseg_more : forall p g g' r s, pseg p (g :: g' :: r) s = if Rle_dec (p + len g) s then pseg (p + len g) (g' :: r) s else Some (g, s - p).
Proof. intros p g g' r s. unfold pseg. cbn [place find_seg]. destruct (Rle_dec (p + len g) s); reflexivity. Qed.
Lemma total_app : forall l1 l2 p, total p (l1 ++ l2) = total (total p l1) l2.
Proof. induction l1 as [|g l1 IH]; intros l2 p; [reflexivity|apply IH]. Qed.
Definition lens (l : list segment) : Prop := Forall (fun g => 0 <= len g) l.
Lemma total_le : forall l p, lens l -> p <= total p l.
Proof. induction l as [|g l IH]; intros p H; cbn [total]; [lra|]. inversion H as [|? ? H1 H2]; subst. pose proof (IH (p + len g) H2). lra. Qed.
Lemma pseg_inside : forall l p s, lens l -> l <> [] -> p <= s <= total p l -> exists g t, pseg p l s = Some (g, t) /\ In g l /\ 0 <= t <= len g.
Proof.
  induction l as [|g [|g' r] IH]; intros p s H N B; [contradiction| |].
  - exists g, (s - p). split; [apply pseg_one|]. cbn [total] in B. split; [left; reflexivity|lra].
  - inversion H as [|? ? H1 H2]; subst. rewrite pseg_more. destruct (Rle_dec (p + len g) s) as [L|L].
    + destruct (IH (p + len g) s H2) as (g0 & t & E & I & T); [discriminate|cbn [total] in *; lra|]. exists g0, t. split; [exact E|split; [right; exact I|exact T]].
    + exists g, (s - p). split; [reflexivity|]. split; [left; reflexivity|lra].
Qed.
Lemma pseg_at : forall l1 p g l2 t, lens (l1 ++ g :: l2) -> 0 <= t < len g -> pseg p (l1 ++ g :: l2) (total p l1 + t) = Some (g, t).
Proof.
  induction l1 as [|a l1 IH]; intros p g l2 t H T.
  - cbn [app total]. destruct l2 as [|g' r]; [rewrite pseg_one; do 2 f_equal; ring|]. rewrite pseg_more. destruct (Rle_dec (p + len g) (p + t)); [lra|]. do 2 f_equal. ring.
  - cbn [app total]. inversion H as [|? ? H1 H2]; subst. pose proof (IH (p + len a) g l2 t H2 T) as E. destruct (l1 ++ g :: l2) as [|b r] eqn:EL; [destruct l1; discriminate|]. rewrite pseg_more.
    assert (B : p + len a <= total (p + len a) l1). { apply total_le. assert (X : lens (l1 ++ g :: l2)) by (rewrite EL; exact H2). apply Forall_app in X. apply X. }
    destruct (Rle_dec (p + len a) (total (p + len a) l1 + t)) as [_|N]; [exact E|lra].
Qed.
Lemma pseg_end : forall l1 p g, lens (l1 ++ [g]) -> pseg p (l1 ++ [g]) (total p (l1 ++ [g])) = Some (g, len g).
Proof.
  induction l1 as [|a l1 IH]; intros p g H.
  - cbn. do 2 f_equal. ring.
  - cbn [app total]. inversion H as [|? ? H1 H2]; subst. pose proof (IH (p + len a) g H2) as E. destruct (l1 ++ [g]) as [|b r] eqn:EL; [destruct l1; discriminate|]. rewrite pseg_more.
    pose proof (total_le (b :: r) (p + len a) H2) as B. destruct (Rle_dec (p + len a) (total (p + len a) (b :: r))) as [_|N]; [exact E|lra].
Qed.
Lemma gaps_pos : forall l, 0 <= gaps l.
Proof. induction l as [|g l IH]; cbn [gaps]; [lra|]. pose proof tiny_pos. destruct g; cbn [gap]; lra. Qed.
Lemma reach : forall pts dev l p a, Forall (good pts dev) l -> joined a l -> forall s g t, p <= s <= total p l -> pseg p l s = Some (g, t) -> dist a (config g t) <= (s - p) + gaps l.
Proof.
  intros pts dev. induction l as [|g [|g' r] IH]; intros p a G J s g0 t B E; [discriminate| |].
  - rewrite pseg_one in E. injection E as <- <-. inversion G as [|? ? [G1 G2 _ _ _] _]; subst. destruct J as [J _]. cbn [total gaps] in *. pose proof (G2 0 (s - p) ltac:(lra) ltac:(lra)) as L. rewrite Rabs_left1 in L by lra. pose proof (dist_tri n a (config g 0) (config g (s - p))). lra.
  - rewrite pseg_more in E. inversion G as [|? ? [G1 G2 _ _ _] GR]; subst. destruct J as [J JR]. assert (LR : lens (g' :: r)) by (apply Forall_forall; intros y Y; rewrite Forall_forall in GR; apply (g_len _ _ _ (GR y Y))). destruct (Rle_dec (p + len g) s) as [L|L].
    + pose proof (IH (p + len g) (config g (len g)) GR JR s g0 t ltac:(cbn [total] in *; lra) E) as R. cbn [gaps] in *. pose proof (G2 0 (len g) ltac:(lra) ltac:(lra)) as L2. rewrite Rabs_left1 in L2 by lra. pose proof (dist_tri n a (config g 0) (config g0 t)). pose proof (dist_tri n (config g 0) (config g (len g)) (config g0 t)). lra.
    + injection E as <- <-. pose proof (G2 0 (s - p) ltac:(lra) ltac:(lra)) as L2. rewrite Rabs_left1 in L2 by lra. pose proof (dist_tri n a (config g 0) (config g (s - p))). pose proof (gaps_pos (g' :: r)). cbn [gaps] in *. lra.
Qed.
Lemma travel : forall pts dev l p a, Forall (good pts dev) l -> joined a l -> forall s s' g t g' t', p <= s -> s <= s' -> s' <= total p l -> pseg p l s = Some (g, t) -> pseg p l s' = Some (g', t') -> dist (config g t) (config g' t') <= (s' - s) + gaps l.
Proof.
  intros pts dev. induction l as [|g [|h r] IH]; intros p a G J s s' g1 t1 g2 t2 B1 B2 B3 E1 E2; [discriminate| |].
  - rewrite pseg_one in *. injection E1 as <- <-. injection E2 as <- <-. inversion G as [|? ? [G1 G2 _ _ _] _]; subst. cbn [total] in *. pose proof (G2 (s - p) (s' - p) ltac:(lra) ltac:(lra)) as L. rewrite Rabs_left1 in L by lra. pose proof (gaps_pos [g]). lra.
  - rewrite pseg_more in *. inversion G as [|? ? [G1 G2 _ _ _] GR]; subst. destruct J as [J JR]. destruct (Rle_dec (p + len g) s) as [L|L].
    + destruct (Rle_dec (p + len g) s') as [L'|L']; [|lra]. pose proof (IH (p + len g) _ GR JR s s' g1 t1 g2 t2 L B2 B3 E1 E2) as R. cbn [gaps] in *. pose proof (gaps_pos [g]). cbn [gaps] in *. lra.
    + injection E1 as <- <-. destruct (Rle_dec (p + len g) s') as [L'|L'].
      * pose proof (reach pts dev (h :: r) (p + len g) (config g (len g)) GR JR s' g2 t2 ltac:(cbn [total] in *; lra) E2) as R. pose proof (G2 (s - p) (len g) ltac:(lra) ltac:(lra)) as L2. rewrite Rabs_left1 in L2 by lra. pose proof (dist_tri n (config g (s - p)) (config g (len g)) (config g2 t2)). pose proof (gaps_pos [g]). cbn [gaps] in *. lra.
      * injection E2 as <- <-. pose proof (G2 (s - p) (s' - p) ltac:(lra) ltac:(lra)) as L2. rewrite Rabs_left1 in L2 by lra. pose proof (gaps_pos (g :: h :: r)). lra.
Qed.
Lemma zero_dist : forall a b, dist a b <= 0 -> forall i, (i < n)%nat -> a i = b i.
Proof.
  intros a b H i L. assert (Z : dot (vsub a b) (vsub a b) = 0). { rewrite <- norm_sq, <- dist_norm. pose proof (norm_pos n (vsub a b)) as P. rewrite <- dist_norm in P. nra. }
  pose proof (dot_zero n _ Z i L) as Q. unfold vsub in Q. lra.
Qed.
(** * Derivatives *)
Lemma dlim_scaled : forall f c l s r, 0 < r -> derivable_pt_lim f (s / r) l -> derivable_pt_lim (fun s => c * f (s / r)) s (c * (l * / r)).
Proof.
  intros f c l s r RP H. apply (derivable_pt_lim_scal (fun s => f (s / r)) c). apply (derivable_pt_lim_comp (fun s => s / r) f s (/ r) l); [|exact H].
  apply derivable_pt_lim_ext with (mult_real_fct (/ r) id); [intros z; unfold mult_real_fct, id, Rdiv; ring|]. replace (/ r) with (/ r * 1) at 2 by ring. apply derivable_pt_lim_scal, derivable_pt_lim_id.
Qed.
Lemma seg_deriv : forall g s v i, match g with Circ r l _ _ _ => 0 < r /\ l < PI * r | _ => True end -> 0 < s < len g -> tangent g s = Some v ->
  derivable_pt_lim (fun s => config g s i) s (v i) /\ derivable_pt_lim (fun s => match tangent g s with Some v => v i | None => 0 end) s (seg_curvature g s i).
Proof.
  intros g s v i R S T. destruct g as [a b l|r l c x y]; cbn [seg_length seg_tangent seg_curvature] in *.
  - destruct (Req_EM_T l 0) as [Z|NZ]; [discriminate|]. injection T as <-. split; [|apply derivable_pt_lim_const].
    apply derivable_pt_lim_locally_ext with (fun s => a i + (b i - a i) * / l * s) 0 l; [exact S| |].
    + intros z Z. cbn [seg_config]. cbv zeta. destruct (Req_EM_T l 0); [contradiction|]. unfold vadd, vscale. assert (Q : 0 < z / l < 1).
      { split; [apply Rdiv_lt_0_compat; lra|]. apply (Rmult_lt_reg_r l); [lra|]. replace (z / l * l) with z by (field; lra). lra. }
      rewrite Rmin_right, Rmax_right by lra. field. lra.
    + unfold vscale, vsub. replace (/ l * (b i - a i)) with (0 + (b i - a i) * / l * 1) by ring. apply (derivable_pt_lim_plus (fun _ => a i) (fun s => (b i - a i) * / l * s)); [apply derivable_pt_lim_const|]. apply (derivable_pt_lim_scal id), derivable_pt_lim_id.
  - destruct R as [R _]. injection T as <-. split.
    + apply derivable_pt_lim_ext with (fun s => c i + (r * x i * cos (s / r) + r * y i * sin (s / r))); [intros z; cbn [seg_config]; unfold vadd, vscale; ring|].
      unfold vadd, vscale. replace (- sin (s / r) * x i + cos (s / r) * y i) with (0 + (r * x i * (- sin (s / r) * / r) + r * y i * (cos (s / r) * / r))) by (field; lra).
      apply (derivable_pt_lim_plus (fun _ => c i) (fun s => r * x i * cos (s / r) + r * y i * sin (s / r))); [apply derivable_pt_lim_const|]. apply (derivable_pt_lim_plus (fun s => r * x i * cos (s / r)) (fun s => r * y i * sin (s / r))); apply dlim_scaled; auto; [apply derivable_pt_lim_cos|apply derivable_pt_lim_sin].
    + apply derivable_pt_lim_ext with (fun s => - x i * sin (s / r) + y i * cos (s / r)); [intros z; unfold vadd, vscale; ring|].
      unfold vadd, vscale. replace (-1 / r * (cos (s / r) * x i + sin (s / r) * y i)) with (- x i * (cos (s / r) * / r) + y i * (- sin (s / r) * / r)) by (field; lra).
      apply (derivable_pt_lim_plus (fun s => - x i * sin (s / r)) (fun s => y i * cos (s / r))); apply dlim_scaled; auto; [apply derivable_pt_lim_sin|apply derivable_pt_lim_cos].
Qed.
Lemma dlim_shift : forall f p s l, derivable_pt_lim f (s - p) l -> derivable_pt_lim (fun s => f (s - p)) s l.
Proof.
  intros f p s l H. replace l with (l * 1) by ring. apply (derivable_pt_lim_comp (fun s => s - p) f s 1 l); [|exact H].
  apply derivable_pt_lim_ext with (minus_fct id (fct_cte p)); [reflexivity|]. replace 1 with (1 - 0) by ring. apply derivable_pt_lim_minus; [apply derivable_pt_lim_id|apply derivable_pt_lim_const].
Qed.
(** Strictly inside a segment. *)
Lemma inside : forall l p s, lens l -> p <= s <= total p l -> (forall l1 l2, l = l1 ++ l2 -> s <> total p l1) -> exists l1 g l2 t, l = l1 ++ g :: l2 /\ s = total p l1 + t /\ 0 < t < len g.
Proof.
  induction l as [|g r IH]; intros p s H B N.
  - exfalso. apply (N [] []); [reflexivity|]. cbn in *. lra.
  - inversion H as [|? ? H1 H2]; subst. destruct (Rle_dec (p + len g) s) as [L|L].
    + destruct (IH (p + len g) s H2) as (l1 & g0 & l2 & t & E & S & T); [cbn [total] in B; lra| |].
      * intros l1 l2 E. apply (N (g :: l1) l2). rewrite E. reflexivity.
      * exists (g :: l1), g0, l2, t. rewrite E. split; [reflexivity|]. split; [exact S|exact T].
    + exists [], g, r, (s - p). split; [reflexivity|]. cbn [total]. split; [ring|]. pose proof (N [] (g :: r) eq_refl) as Q. cbn [total] in Q. lra.
Qed.
End Path.
