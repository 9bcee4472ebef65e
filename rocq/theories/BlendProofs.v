(** Proofs for C43. *)
From Coq Require Import Reals List Arith Lra Lia Psatz FunctionalExtensionality.
From Verif Require Import RpyModel RpyProofs BlendModel BlendSpec.
Import ListNotations.
Open Scope R_scope.

(** * Vectors *)
Section Vec.
Context (n : nat).
Notation dot := (dot n). Notation norm := (norm n). Notation dist := (dist n).
Lemma dot_comm : forall a b, dot a b = dot b a.
Proof. intros a b. induction n as [|m IH]; cbn; [reflexivity|rewrite IH; ring]. Qed.
Lemma dot_add : forall a b c, dot (vadd a b) c = dot a c + dot b c.
Proof. intros a b c. induction n as [|m IH]; cbn; [ring|rewrite IH; unfold vadd; ring]. Qed.
Lemma dot_sub : forall a b c, dot (vsub a b) c = dot a c - dot b c.
Proof. intros a b c. induction n as [|m IH]; cbn; [ring|rewrite IH; unfold vsub; ring]. Qed.
Lemma dot_scale : forall k a c, dot (vscale k a) c = k * dot a c.
Proof. intros k a c. induction n as [|m IH]; cbn; [ring|rewrite IH; unfold vscale; ring]. Qed.
Lemma dot_add_r : forall a b c, dot c (vadd a b) = dot c a + dot c b.
Proof. intros a b c. rewrite dot_comm, dot_add, (dot_comm a), (dot_comm b). reflexivity. Qed.
Lemma dot_sub_r : forall a b c, dot c (vsub a b) = dot c a - dot c b.
Proof. intros a b c. rewrite dot_comm, dot_sub, (dot_comm a), (dot_comm b). reflexivity. Qed.
Lemma dot_scale_r : forall k a c, dot c (vscale k a) = k * dot c a.
Proof. intros k a c. rewrite dot_comm, dot_scale, dot_comm. reflexivity. Qed.
Lemma dot_pos : forall a, 0 <= dot a a.
Proof. intros a. induction n as [|m IH]; cbn; [lra|]. pose proof (Rle_0_sqr (a m)) as P. unfold Rsqr in P. lra. Qed.
Lemma dot_zero : forall a, dot a a = 0 -> forall i, (i < n)%nat -> a i = 0.
Proof.
  intros a. induction n as [|m IH]; intros E i L; [lia|]. cbn [BlendModel.dot] in E. pose proof (Rle_0_sqr (a m)) as P. unfold Rsqr in P.
  assert (Q : 0 <= BlendModel.dot m a a) by (clear; induction m as [|m IH]; cbn; [lra|]; pose proof (Rle_0_sqr (a m)) as P; unfold Rsqr in P; lra).
  destruct (Nat.eq_dec i m) as [->|N]; [nra|]. apply IH; [lra|lia].
Qed.
Lemma dot_small : forall a b, (forall i, (i < n)%nat -> a i = 0) -> dot a b = 0.
Proof. intros a b. induction n as [|m IH]; intros H; cbn; [reflexivity|]. rewrite IH by (intros i L; apply H; lia). rewrite H by lia. ring. Qed.
Lemma norm_pos : forall a, 0 <= norm a.
Proof. intros a. apply sqrt_pos. Qed.
Lemma norm_sq : forall a, norm a * norm a = dot a a.
Proof. intros a. apply sqrt_sqrt, dot_pos. Qed.
Lemma norm_of : forall a r, 0 <= r -> dot a a = r * r -> norm a = r.
Proof. intros a r P E. unfold BlendModel.norm. rewrite E. apply sqrt_square, P. Qed.
Lemma norm_scale : forall k a, norm (vscale k a) = Rabs k * norm a.
Proof.
  intros k a. apply norm_of; [apply Rmult_le_pos; [apply Rabs_pos|apply norm_pos]|]. rewrite dot_scale, dot_scale_r, <- norm_sq.
  pose proof (Rsqr_abs k) as E. unfold Rsqr in E. nra.
Qed.
Lemma cauchy : forall a b, dot a b * dot a b <= dot a a * dot b b.
Proof.
  intros a b. pose proof (dot_pos b) as PB. destruct (Req_dec (dot b b) 0) as [Z|NZ].
  - rewrite (dot_comm a b). rewrite (dot_small b a) by (apply dot_zero, Z). rewrite Z. lra.
  - pose proof (dot_pos (vsub (vscale (dot b b) a) (vscale (dot a b) b))) as P. rewrite dot_sub, !dot_sub_r, !dot_scale, !dot_scale_r, (dot_comm b a) in P.
    assert (Q : 0 <= dot b b * (dot a a * dot b b - dot a b * dot a b)) by nra. nra.
Qed.
Lemma cauchy_norm : forall a b, dot a b <= norm a * norm b.
Proof.
  intros a b. pose proof (cauchy a b) as C. rewrite <- !norm_sq in C. pose proof (norm_pos a). pose proof (norm_pos b).
  assert (P : 0 <= norm a * norm b) by (apply Rmult_le_pos; assumption). destruct (Rle_dec (dot a b) (norm a * norm b)) as [L|L]; [exact L|]. nra.
Qed.
Lemma norm_add : forall a b, norm (vadd a b) <= norm a + norm b.
Proof.
  intros a b. pose proof (norm_pos a). pose proof (norm_pos b). pose proof (norm_pos (vadd a b)) as Z. pose proof (norm_sq (vadd a b)) as E. rewrite dot_add, !dot_add_r, (dot_comm b a), <- (norm_sq a), <- (norm_sq b) in E.
  pose proof (cauchy_norm a b). nra.
Qed.
Lemma dist_norm : forall a b, dist a b = norm (vsub a b).
Proof. reflexivity. Qed.
Lemma dist_sym : forall a b, dist a b = dist b a.
Proof. intros a b. rewrite !dist_norm. replace (vsub a b) with (vscale (-1) (vsub b a)) by (extensionality i; unfold vscale, vsub; ring). rewrite norm_scale, (Rabs_left (-1)) by lra. ring. Qed.
Lemma dist_tri : forall a b c, dist a c <= dist a b + dist b c.
Proof. intros a b c. rewrite !dist_norm. replace (vsub a c) with (vadd (vsub a b) (vsub b c)) by (extensionality i; unfold vadd, vsub; ring). apply norm_add. Qed.
Lemma dist_self : forall a, dist a a = 0.
Proof. intros a. rewrite dist_norm. apply norm_of; [lra|]. rewrite dot_small; [ring|]. intros i _. unfold vsub. ring. Qed.
Lemma normalized_unit : forall a, 0 < norm a -> normalized n a = vscale (/ norm a) a.
Proof. intros a P. unfold normalized. destruct (Rlt_dec 0 (dot a a)) as [L|L]; [reflexivity|]. pose proof (norm_sq a). nra. Qed.
Lemma unit_dot : forall a, 0 < norm a -> dot (vscale (/ norm a) a) (vscale (/ norm a) a) = 1.
Proof. intros a P. rewrite dot_scale, dot_scale_r, <- norm_sq. field. lra. Qed.

(** * The blend *)
(** Unit vectors s and e at an angle 2h, and a distance d from the corner. *)
Section Corner.
Context (inter s e : vec) (h d : R).
Hypothesis (S1 : dot s s = 1) (E1 : dot e e = 1) (SE : dot s e = cos (2 * h)) (H0 : 0 < h) (H1 : h < PI / 2) (D0 : 0 < d).
Let r := d / tan h. Let c := vadd inter (vscale (r / cos h) (normalized n (vsub e s))). Let x := normalized n (vsub (vsub inter (vscale d s)) c).
Let arc (t : R) : vec := vadd c (vscale r (vadd (vscale (cos t) x) (vscale (sin t) s))).
Let k := d / (2 * sin h * sin h).
Lemma sin_h : 0 < sin h. Proof. pose proof PI_RGT_0. apply sin_gt_0; lra. Qed.
Lemma cos_h : 0 < cos h. Proof. apply cos_gt_0; lra. Qed.
Lemma sc_h : sin h * sin h + cos h * cos h = 1. Proof. pose proof (sin2_cos2 h) as E. unfold Rsqr in E. exact E. Qed.
Lemma r_is : r = d * cos h / sin h. Proof. pose proof sin_h. pose proof cos_h. unfold r, tan. field. lra. Qed.
Lemma r_pos : 0 < r. Proof. pose proof sin_h. pose proof cos_h. rewrite r_is. apply Rdiv_lt_0_compat; nra. Qed.
Lemma edge : norm (vsub e s) = 2 * sin h.
Proof.
  pose proof sin_h. apply norm_of; [lra|]. rewrite dot_sub, !dot_sub_r, (dot_comm e s), S1, E1, SE, cos_2a_sin. ring.
Qed.
Lemma c_is : c = vadd inter (vscale k (vsub e s)).
Proof.
  pose proof sin_h. pose proof cos_h. unfold c. rewrite normalized_unit by (rewrite edge; lra). rewrite edge, r_is. unfold k. extensionality i. unfold vadd, vscale, vsub. field. lra.
Qed.
Lemma radial : vsub (vsub inter (vscale d s)) c = vsub (vscale (k - d) s) (vscale k e).
Proof. rewrite c_is. extensionality i. unfold vadd, vscale, vsub. ring. Qed.
Lemma radial_norm : norm (vsub (vsub inter (vscale d s)) c) = r.
Proof.
  pose proof sin_h as SP. pose proof sc_h as SC. apply norm_of; [left; apply r_pos|]. rewrite radial, dot_sub, !dot_sub_r, !dot_scale, !dot_scale_r, (dot_comm e s), S1, E1, SE, cos_2a_sin, r_is. unfold k.
  assert (C2 : cos h * cos h = 1 - sin h * sin h) by lra. replace (d * cos h / sin h * (d * cos h / sin h)) with (d * d * (cos h * cos h) / (sin h * sin h)) by (field; lra). rewrite C2. field. lra.
Qed.
Lemma x_is : vscale r x = vsub (vscale (k - d) s) (vscale k e).
Proof.
  pose proof r_pos. unfold x. rewrite normalized_unit by (rewrite radial_norm; assumption). rewrite radial_norm, radial. extensionality i. unfold vscale, vsub. field. lra.
Qed.
Lemma x_unit : dot x x = 1.
Proof. pose proof r_pos. unfold x. rewrite normalized_unit by (rewrite radial_norm; assumption). apply unit_dot. rewrite radial_norm. assumption. Qed.
Lemma k_is : k * (2 * (sin h * sin h)) = d. Proof. pose proof sin_h. unfold k. field. lra. Qed.
Lemma x_orth : dot x s = 0.
Proof.
  pose proof r_pos as RP. assert (E : r * dot x s = 0).
  { rewrite <- dot_scale, x_is, dot_sub, !dot_scale, S1, (dot_comm e s), SE, cos_2a_sin. pose proof k_is. nra. }
  nra.
Qed.
Lemma arc_start : forall i, arc 0 i = inter i - d * s i.
Proof.
  intros i. pose proof (f_equal (fun v => v i) x_is) as X. unfold arc. rewrite c_is. rewrite cos_0, sin_0. unfold vadd, vscale, vsub in *. replace (r * (1 * x i + 0 * s i)) with (r * x i) by ring. rewrite X. ring.
Qed.
Lemma rsin : r * sin h = d * cos h. Proof. pose proof sin_h. rewrite r_is. field. lra. Qed.
Lemma end_axis : forall i, e i = - sin (2 * h) * x i + cos (2 * h) * s i.
Proof.
  intros i. pose proof r_pos as RP. pose proof (f_equal (fun v => v i) x_is) as X. unfold vscale, vsub in X. assert (E : r * (- sin (2 * h) * x i + cos (2 * h) * s i - e i) = 0).
  { replace (r * (- sin (2 * h) * x i + cos (2 * h) * s i - e i)) with (- sin (2 * h) * (r * x i) + r * (cos (2 * h) * s i - e i)) by ring. rewrite X, sin_2a, cos_2a_sin, r_is. unfold k. pose proof sin_h. pose proof sc_h as SC.
    replace (- (2 * sin h * cos h) * ((d / (2 * sin h * sin h) - d) * s i - d / (2 * sin h * sin h) * e i) + d * cos h / sin h * ((1 - 2 * sin h * sin h) * s i - e i)) with 0; [reflexivity|]. field. lra. }
  nra.
Qed.
Lemma arc_end : forall i, arc (2 * h) i = inter i + d * e i.
Proof.
  intros i. pose proof (f_equal (fun v => v i) x_is) as X. unfold arc. rewrite c_is. unfold vadd, vscale, vsub in *. replace (r * (cos (2 * h) * x i + sin (2 * h) * s i)) with (cos (2 * h) * (r * x i) + r * sin (2 * h) * s i) by ring. rewrite X, cos_2a_sin, sin_2a.
  replace (r * (2 * sin h * cos h)) with (2 * (r * sin h) * cos h) by ring. rewrite rsin. pose proof k_is as K. pose proof sc_h as SC.
  replace (2 * (d * cos h) * cos h) with (2 * d * (1 - sin h * sin h)) by (rewrite <- SC; ring). rewrite <- K. ring.
Qed.
Lemma arc_chord : forall t u, dist (arc t) (arc u) <= r * Rabs (t - u).
Proof.
  intros t u. pose proof r_pos as RP. rewrite dist_norm. replace (vsub (arc t) (arc u)) with (vscale r (vadd (vscale (cos t - cos u) x) (vscale (sin t - sin u) s))) by (extensionality i; unfold arc, vadd, vscale, vsub; ring).
  rewrite norm_scale, Rabs_right by lra. apply Rmult_le_compat_l; [lra|].
  assert (E : dot (vadd (vscale (cos t - cos u) x) (vscale (sin t - sin u) s)) (vadd (vscale (cos t - cos u) x) (vscale (sin t - sin u) s)) = 4 * (sin ((t - u) / 2) * sin ((t - u) / 2))).
  { rewrite dot_add, !dot_add_r, !dot_scale, !dot_scale_r, (dot_comm s x), x_unit, x_orth, S1. pose proof (cos_2a_sin ((t - u) / 2)) as C. replace (2 * ((t - u) / 2)) with (t - u) in C by lra. rewrite cos_minus in C.
    pose proof (sin2_cos2 t) as E1'. pose proof (sin2_cos2 u) as E2'. unfold Rsqr in *. nra. }
  unfold BlendModel.norm. rewrite E. replace (4 * (sin ((t - u) / 2) * sin ((t - u) / 2))) with (Rsqr (2 * sin ((t - u) / 2))) by (unfold Rsqr; ring). rewrite sqrt_Rsqr_abs.
  rewrite Rabs_mult, (Rabs_right 2) by lra.
  assert (L : forall a, Rabs (sin a) <= Rabs a).
  { intros a. destruct (Req_dec a 0) as [->|N]; [rewrite sin_0; apply Rle_refl|]. destruct (Rlt_dec 0 a) as [P|P].
    - rewrite (Rabs_right a) by lra. apply Rabs_le. split; [|left; apply sin_lt_x; exact P]. destruct (Rle_dec a PI) as [Q|Q]; [pose proof (sin_ge_0 a ltac:(lra) Q); lra|]. pose proof (SIN_bound a). pose proof PI2_3_2. lra.
    - rewrite (Rabs_left a) by lra. apply Rabs_le. pose proof (sin_lt_x (- a) ltac:(lra)) as Q. rewrite sin_neg in Q. split; [lra|]. destruct (Rle_dec (- a) PI) as [W|W]; [pose proof (sin_ge_0 (- a) ltac:(lra) W) as V; rewrite sin_neg in V; lra|]. pose proof (SIN_bound a). pose proof PI2_3_2. lra. }
  pose proof (L ((t - u) / 2)) as Q. replace (Rabs ((t - u) / 2)) with (Rabs (t - u) / 2) in Q by (unfold Rdiv; rewrite Rabs_mult, (Rabs_right (/ 2)) by lra; ring). lra.
Qed.
(** Distance from the two edges and from the corner. *)
Lemma dev_edge : forall dev, d <= dev * sin h / (1 - cos h) -> d * (1 - cos h) / sin h <= dev /\ r * (1 - cos h) <= dev.
Proof.
  intros dev D. pose proof sin_h as SP. pose proof cos_h as CP. pose proof sc_h as SC. assert (K1 : cos h < 1) by nra.
  assert (A : d * (1 - cos h) / sin h <= dev).
  { apply (Rmult_le_reg_r (sin h)); [exact SP|]. replace (d * (1 - cos h) / sin h * sin h) with (d * (1 - cos h)) by (field; lra). apply (Rmult_le_compat_r (1 - cos h)) in D; [|lra]. replace (dev * sin h / (1 - cos h) * (1 - cos h)) with (dev * sin h) in D by (field; lra). exact D. }
  split; [exact A|]. apply Rle_trans with (2 := A). rewrite r_is. replace (d * cos h / sin h * (1 - cos h)) with (cos h * (d * (1 - cos h) / sin h)) by (field; lra). assert (P : 0 <= d * (1 - cos h) / sin h) by (apply Rlt_le, Rdiv_lt_0_compat; nra). nra.
Qed.
Lemma unit_away : forall (a y : vec) q, dot y y = 1 -> dist (vadd a (vscale q y)) a = Rabs q.
Proof. intros a y q Y. rewrite dist_norm. replace (vsub (vadd a (vscale q y)) a) with (vscale q y) by (extensionality i; unfold vadd, vscale, vsub; ring). rewrite norm_scale. replace (norm y) with 1; [ring|]. symmetry. apply norm_of; [lra|]. rewrite Y. ring. Qed.
Lemma near_first : forall t, 0 <= t <= h -> 0 <= d - r * sin t <= d /\ dist (arc t) (vsub inter (vscale (d - r * sin t) s)) <= r * (1 - cos h).
Proof.
  intros t T. pose proof r_pos as RP. pose proof rsin as RS. pose proof cos_h as CP. pose proof PI_RGT_0. assert (S0 : 0 <= sin t) by (apply sin_ge_0; lra). assert (ST : sin t <= sin h) by (apply sin_incr_1; lra). assert (CT : cos h <= cos t) by (apply cos_decr_1; lra). pose proof (COS_bound t) as CB.
  split; [split; [|nra]|].
  - assert (r * sin t <= r * sin h) by (apply Rmult_le_compat_l; lra). pose proof (COS_bound h). nra.
  - replace (arc t) with (vadd (vsub inter (vscale (d - r * sin t) s)) (vscale (r * (cos t - 1)) x)).
    + rewrite unit_away by apply x_unit. rewrite Rabs_left1 by nra. nra.
    + extensionality i. pose proof (f_equal (fun v => v i) x_is) as X. unfold arc. rewrite c_is. unfold vadd, vscale, vsub in *. replace (r * (cos t - 1) * x i) with (r * x i * cos t - r * x i) by ring. replace (r * (cos t * x i + sin t * s i)) with (r * x i * cos t + r * sin t * s i) by ring. rewrite X. ring.
Qed.
Lemma near_second : forall t, h <= t <= 2 * h -> 0 <= d - r * sin (2 * h - t) <= d /\ dist (arc t) (vadd inter (vscale (d - r * sin (2 * h - t)) e)) <= r * (1 - cos h).
Proof.
  intros t0 T0. set (t := 2 * h - t0). assert (T : 0 <= t <= h) by (unfold t; lra). pose proof r_pos as RP. pose proof rsin as RS. pose proof cos_h as CP. pose proof PI_RGT_0. assert (S0 : 0 <= sin t) by (apply sin_ge_0; lra). assert (ST : sin t <= sin h) by (apply sin_incr_1; lra). assert (CT : cos h <= cos t) by (apply cos_decr_1; lra). pose proof (COS_bound t) as CB.
  split; [split; [|nra]|].
  - assert (r * sin t <= r * sin h) by (apply Rmult_le_compat_l; lra). pose proof (COS_bound h). nra.
  - pose (y := vadd (vscale (cos (2 * h)) x) (vscale (sin (2 * h)) s)). assert (Y : dot y y = 1).
    { unfold y. rewrite dot_add, !dot_add_r, !dot_scale, !dot_scale_r, (dot_comm s x), x_unit, x_orth, S1. pose proof (sin2_cos2 (2 * h)) as Q. unfold Rsqr in Q. nra. }
    replace (arc t0) with (vadd (vadd inter (vscale (d - r * sin t) e)) (vscale (r * (cos t - 1)) y)).
    + rewrite unit_away by exact Y. rewrite Rabs_left1 by nra. nra.
    + extensionality i. pose proof (arc_end i) as AE. pose proof (end_axis i) as EA. replace t0 with (2 * h - t) by (unfold t; ring). unfold arc, y, vadd, vscale in *. rewrite cos_minus, sin_minus.
      replace (inter i + (d - r * sin t) * e i) with ((inter i + d * e i) - r * sin t * e i) by ring. rewrite <- AE. rewrite EA. ring.
Qed.
Lemma near_corner : dist (arc h) inter = d * (1 - cos h) / sin h.
Proof.
  pose proof sin_h as SP. pose proof cos_h as CP. pose proof sc_h as SC. assert (K1 : cos h < 1) by nra. rewrite dist_norm. replace (vsub (arc h) inter) with (vscale (k * (1 - cos h)) (vsub e s)).
  - rewrite norm_scale, edge, Rabs_right; [unfold k; field; lra|]. apply Rle_ge, Rmult_le_pos; [|lra]. unfold k. apply Rlt_le, Rdiv_lt_0_compat; [exact D0|nra].
  - extensionality i. pose proof (f_equal (fun v => v i) x_is) as X. unfold arc. rewrite c_is. unfold vadd, vscale, vsub in *. replace (r * (cos h * x i + sin h * s i)) with (r * x i * cos h + r * sin h * s i) by ring. rewrite X, rsin. ring.
Qed.
End Corner.
End Vec.
