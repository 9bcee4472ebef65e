(** Proofs about the Jacobian. *)
From Coq Require Import Reals List Bool Arith Lia Lra Nsatz.
From Verif Require Import QuatModel QuatSpec QuatProofs RpyModel JointModel KinModel KinSpec KinProofs JacModel JacSpec.
Import ListNotations.
Open Scope R_scope.

(** Derivatives of linear combinations. *)
Lemma lim_ext : forall f g q d e, (forall x, f x = g x) -> d = e -> derivable_pt_lim f q d -> derivable_pt_lim g q e.
Proof.
  intros f g q d e H <- D eps E. destruct (D eps E) as (delta & K). exists delta. intros h H1 H2. rewrite <- !H. now apply K.
Qed.
Lemma lim_lin3 : forall f g h q a b c df dg dh, derivable_pt_lim f q df -> derivable_pt_lim g q dg -> derivable_pt_lim h q dh ->
  derivable_pt_lim (fun x => a * f x + b * g x + c * h x) q (a * df + b * dg + c * dh).
Proof.
  intros. apply (lim_ext (plus_fct (plus_fct (mult_real_fct a f) (mult_real_fct b g)) (mult_real_fct c h)) _ _ (a * df + b * dg + c * dh)); [reflexivity|reflexivity|].
  repeat (apply derivable_pt_lim_plus); now apply derivable_pt_lim_scal.
Qed.
Lemma lim_lin3r : forall f g h q a b c df dg dh, derivable_pt_lim f q df -> derivable_pt_lim g q dg -> derivable_pt_lim h q dh ->
  derivable_pt_lim (fun x => f x * a + g x * b + h x * c) q (df * a + dg * b + dh * c).
Proof.
  intros. eapply lim_ext; [| |apply (lim_lin3 f g h q a b c df dg dh); assumption]; [intros; cbv beta; ring|ring].
Qed.
Lemma lim_add_const : forall f q d c, derivable_pt_lim f q d -> derivable_pt_lim (fun x => f x + c) q d.
Proof.
  intros. apply (lim_ext (plus_fct f (fct_cte c)) _ _ (d + 0)); [reflexivity|ring|]. apply derivable_pt_lim_plus; [assumption|apply derivable_pt_lim_const].
Qed.
Lemma lim_const : forall c q, derivable_pt_lim (fun _ => c) q 0.
Proof. intros. apply (derivable_pt_lim_const c q). Qed.
Lemma lim_id : forall q, derivable_pt_lim (fun x => x) q 1.
Proof. intros. apply (derivable_pt_lim_id q). Qed.
Lemma lim_trig : forall a b c o q, derivable_pt_lim (fun x => a + b * cos (x + o) + c * sin (x + o)) q (- b * sin (q + o) + c * cos (q + o)).
Proof.
  intros. assert (S : derivable_pt_lim (fun x => x + o) q 1) by (apply lim_add_const, lim_id).
  assert (C1 : derivable_pt_lim (comp cos (fun x => x + o)) q (- sin (q + o) * 1)) by (apply derivable_pt_lim_comp; [assumption|apply derivable_pt_lim_cos]).
  assert (S1 : derivable_pt_lim (comp sin (fun x => x + o)) q (cos (q + o) * 1)) by (apply derivable_pt_lim_comp; [assumption|apply derivable_pt_lim_sin]).
  eapply lim_ext; [| |apply (lim_lin3 (fun _ => 1) (comp cos (fun x => x + o)) (comp sin (fun x => x + o)) q a b c _ _ _ (lim_const 1 q) C1 S1)].
  - intros x. unfold comp. ring.
  - ring.
Qed.

Lemma mat_deriv_mul_l : forall C f q d, mat_deriv f q d -> mat_deriv (fun x => mmul C (f x)) q (mmul C d).
Proof.
  intros C f q d (A & B & D & E & F & G & H & I & J). unfold mat_deriv, mmul. cbn [m00 m01 m02 m10 m11 m12 m20 m21 m22].
  repeat match goal with |- _ /\ _ => split end; now apply lim_lin3.
Qed.
Lemma mat_deriv_mul_r : forall C f q d, mat_deriv f q d -> mat_deriv (fun x => mmul (f x) C) q (mmul d C).
Proof.
  intros C f q d (A & B & D & E & F & G & H & I & J). unfold mat_deriv, mmul. cbn [m00 m01 m02 m10 m11 m12 m20 m21 m22].
  repeat match goal with |- _ /\ _ => split end; now apply lim_lin3r.
Qed.
Lemma vec_deriv_apply : forall v f q d, mat_deriv f q d -> vec_deriv (fun x => mapply (f x) v) q (mapply d v).
Proof.
  intros v f q d (A & B & D & E & F & G & H & I & J). unfold vec_deriv, mapply. cbn [vx vy vz].
  split; [|split]; now apply lim_lin3r.
Qed.
Lemma vec_deriv_mapply : forall C f q d, vec_deriv f q d -> vec_deriv (fun x => mapply C (f x)) q (mapply C d).
Proof.
  intros C f q d (A & B & D). unfold vec_deriv, mapply. cbn [vx vy vz]. split; [|split]; now apply lim_lin3.
Qed.
Lemma vec_deriv_add : forall v f q d, vec_deriv f q d -> vec_deriv (fun x => vadd (f x) v) q d.
Proof. intros v f q d (A & B & D). unfold vec_deriv, vadd. cbn [vx vy vz]. split; [|split]; now apply lim_add_const. Qed.
Lemma vec_deriv_ext : forall f g q d e, (forall x, f x = g x) -> d = e -> vec_deriv f q d -> vec_deriv g q e.
Proof.
  intros f g q d e H <- (A & B & C). split; [|split]; (eapply lim_ext; [|reflexivity|]; [|eassumption]); intros; cbv beta; now rewrite <- H.
Qed.
Lemma mat_deriv_ext : forall f g q d e, (forall x, f x = g x) -> d = e -> mat_deriv f q d -> mat_deriv g q e.
Proof.
  intros f g q d e H <- (A & B & D & E & F & G & K & I & J). unfold mat_deriv.
  repeat match goal with |- _ /\ _ => split end; (eapply lim_ext; [|reflexivity|]; [|eassumption]); intros; cbv beta; now rewrite <- H.
Qed.
Lemma vec_deriv_const : forall v q, vec_deriv (fun _ => v) q (Vec 0 0 0).
Proof. intros. split; [|split]; apply lim_const. Qed.
Lemma mat_deriv_const : forall m q, mat_deriv (fun _ => m) q (Mat 0 0 0 0 0 0 0 0 0).
Proof. intros. unfold mat_deriv. cbn. repeat match goal with |- _ /\ _ => split end; apply lim_const. Qed.

(** The derivative of a rotation about a unit axis. *)
Lemma axis_deriv : forall a o q, vx a * vx a + vy a * vy a + vz a * vz a = 1 ->
  mat_deriv (fun x => axisangle2mat a (x + o)) q (mmul (cross_mat a) (axisangle2mat a (q + o))).
Proof.
  intros [a b c] o q N. unfold axisangle2mat, cross_mat, mmul, mat_deriv. cbn [vx vy vz m00 m01 m02 m10 m11 m12 m20 m21 m22] in *.
  assert (AA : a * a = 1 - b * b - c * c) by lra.
  repeat match goal with |- _ /\ _ => split end.
  - eapply lim_ext; [| |apply (lim_trig (a * a) (1 - a * a) 0 o q)]; [intros; cbv beta; ring|]. ring_simplify. replace (a ^ 2) with (1 - b * b - c * c) by lra. ring.
  - eapply lim_ext; [| |apply (lim_trig (a * b) (- (a * b)) (- c) o q)]; [intros; cbv beta; ring|]. ring_simplify. replace (b ^ 2) with (1 - a * a - c * c) by lra. ring.
  - eapply lim_ext; [| |apply (lim_trig (a * c) (- (a * c)) b o q)]; [intros; cbv beta; ring|]. ring_simplify. replace (c ^ 2) with (1 - b * b - a * a) by lra. ring.
  - eapply lim_ext; [| |apply (lim_trig (a * b) (- (a * b)) c o q)]; [intros; cbv beta; ring|]. ring_simplify. replace (a ^ 2) with (1 - b * b - c * c) by lra. ring.
  - eapply lim_ext; [| |apply (lim_trig (b * b) (1 - b * b) 0 o q)]; [intros; cbv beta; ring|]. ring_simplify. replace (b ^ 2) with (1 - a * a - c * c) by lra. ring.
  - eapply lim_ext; [| |apply (lim_trig (b * c) (- (b * c)) (- a) o q)]; [intros; cbv beta; ring|]. ring_simplify. replace (c ^ 2) with (1 - b * b - a * a) by lra. ring.
  - eapply lim_ext; [| |apply (lim_trig (a * c) (- (a * c)) (- b) o q)]; [intros; cbv beta; ring|]. ring_simplify. replace (a ^ 2) with (1 - b * b - c * c) by lra. ring.
  - eapply lim_ext; [| |apply (lim_trig (b * c) (- (b * c)) a o q)]; [intros; cbv beta; ring|]. ring_simplify. replace (b ^ 2) with (1 - a * a - c * c) by lra. ring.
  - eapply lim_ext; [| |apply (lim_trig (c * c) (1 - c * c) 0 o q)]; [intros; cbv beta; ring|]. ring_simplify. replace (c ^ 2) with (1 - b * b - a * a) by lra. ring.
Qed.

(** Rotations and the cross product. *)
Lemma mat_eq : forall a b, m00 a = m00 b -> m01 a = m01 b -> m02 a = m02 b -> m10 a = m10 b -> m11 a = m11 b -> m12 a = m12 b -> m20 a = m20 b -> m21 a = m21 b -> m22 a = m22 b -> a = b.
Proof. intros [] []. cbn. intros. congruence. Qed.
Lemma vec_eq : forall a b, vx a = vx b -> vy a = vy b -> vz a = vz b -> a = b.
Proof. intros [] []. cbn. intros. congruence. Qed.
Definition adjugate (m : mat3) : mat3 := Mat
  (m11 m * m22 m - m12 m * m21 m) (m02 m * m21 m - m01 m * m22 m) (m01 m * m12 m - m02 m * m11 m)
  (m12 m * m20 m - m10 m * m22 m) (m00 m * m22 m - m02 m * m20 m) (m02 m * m10 m - m00 m * m12 m)
  (m10 m * m21 m - m11 m * m20 m) (m01 m * m20 m - m00 m * m21 m) (m00 m * m11 m - m01 m * m10 m).
Lemma rotation_adjugate : forall m, rotation m -> adjugate m = mtrans m.
Proof.
  intros m (H1 & H2 & H3).
  assert (A : mmul (adjugate m) m = mid).
  { transitivity (Mat (mdet m) 0 0 0 (mdet m) 0 0 0 (mdet m)); [|rewrite H3; reflexivity].
    apply mat_eq; unfold mmul, adjugate, mdet; cbn [m00 m01 m02 m10 m11 m12 m20 m21 m22]; ring. }
  transitivity (mmul (adjugate m) (mmul m (mtrans m))); [rewrite H1, mmul_mid_r; reflexivity|]. now rewrite <- mmul_assoc, A, mmul_mid_l.
Qed.
Lemma rotation_cross : forall m a b, rotation m -> mapply m (vcross a b) = vcross (mapply m a) (mapply m b).
Proof.
  intros m [a0 a1 a2] [b0 b1 b2] H. apply rotation_adjugate in H. destruct m as [r00 r01 r02 r10 r11 r12 r20 r21 r22].
  unfold adjugate, mtrans in H. cbn [m00 m01 m02 m10 m11 m12 m20 m21 m22] in H. injection H as E0 E1 E2 E3 E4 E5 E6 E7 E8.
  apply vec_eq; unfold mapply, vcross; cbn [vx vy vz m00 m01 m02 m10 m11 m12 m20 m21 m22].
  - rewrite <- E0, <- E3, <- E6. ring.
  - rewrite <- E1, <- E4, <- E7. ring.
  - rewrite <- E2, <- E5, <- E8. ring.
Qed.
Lemma cross_mat_apply : forall w v, mapply (cross_mat w) v = vcross w v.
Proof. intros. apply vec_eq; unfold mapply, cross_mat, vcross; cbn; ring. Qed.
Lemma mat_apply_ext : forall a b, (forall v, mapply a v = mapply b v) -> a = b.
Proof.
  intros a b H. assert (X := H (Vec 1 0 0)). assert (Y := H (Vec 0 1 0)). assert (Z := H (Vec 0 0 1)). unfold mapply in *. cbn in *.
  injection X as X0 X1 X2. injection Y as Y0 Y1 Y2. injection Z as Z0 Z1 Z2. apply mat_eq; lra.
Qed.
Lemma rotation_cross_mat : forall m w, rotation m -> mmul m (cross_mat w) = mmul (cross_mat (mapply m w)) m.
Proof.
  intros m w H. apply mat_apply_ext. intros v. rewrite !mapply_mmul, !cross_mat_apply. now apply rotation_cross.
Qed.

(** Forward kinematics when one joint is moved. *)
Lemma at_value_node : forall r x q y, node_at (at_value r x q) y = if Nat.eqb x y then option_map (fun n => with_joint (with_value (n_joint n) q) n) (node_at r y) else node_at r y.
Proof. intros. unfold node_at, at_value. cbn [nodes]. apply nth_update. Qed.
Lemma at_value_kids : forall r x q y, kids (at_value r x q) y = kids r y.
Proof. intros. unfold kids. rewrite at_value_node. destruct (Nat.eqb x y); [|reflexivity]. destruct (node_at r y); reflexivity. Qed.
Lemma fk_above : forall r x q y g, fk r y g -> ~ desc r x y -> fk (at_value r x q) y g.
Proof.
  intros r x q y g F. induction F as [n E|p c n g F IH I E]; intros N.
  - apply (fk_root (at_value r x q)). rewrite at_value_node. cbn [root at_value]. destruct (Nat.eqb_spec x (root r)) as [->|]; [exfalso; apply N; constructor|exact E].
  - apply fk_child with p.
    + apply IH. intros D. apply N. now apply d_step with p.
    + now rewrite at_value_kids.
    + rewrite at_value_node. destruct (Nat.eqb_spec x c) as [->|]; [exfalso; apply N; constructor|exact E].
Qed.
Lemma fk_below : forall r x t, tree r -> desc r x t -> exists B, (forall g, fk r x g -> fk r t (pmul g B)) /\ forall q g, fk (at_value r x q) x g -> fk (at_value r x q) t (pmul g B).
Proof.
  intros r x t T D. induction D as [|p z D IH I].
  - exists pid. split; intros; rewrite pmul_pid_r; assumption.
  - destruct IH as (B & B1 & B2). destruct (kid_node r p z T I) as (n & E). exists (pmul B (transform n)). split.
    + intros g F. rewrite <- pmul_assoc. apply fk_child with p; auto.
    + intros q g F. rewrite <- pmul_assoc. apply fk_child with p; [auto|now rewrite at_value_kids|].
      rewrite at_value_node. destruct (Nat.eqb_spec x z) as [->|]; [exfalso; apply (t_acyclic r T p z I D)|exact E].
Qed.
Lemma fk_self : forall r x g n, tree r -> fk r x g -> node_at r x = Some n -> exists P, g = pmul P (transform n) /\
  forall q, fk (at_value r x q) x (pmul P (transform (with_joint (with_value (n_joint n) q) n))).
Proof.
  intros r x g n T F E. inversion F as [m Em H|p c m h Fp I Em]; subst.
  - rewrite E in Em. injection Em as <-. exists (rpose r). split; [reflexivity|]. intros q.
    apply (fk_root (at_value r (root r) q)). rewrite at_value_node. cbn [root at_value]. rewrite Nat.eqb_refl, E. reflexivity.
  - rewrite E in Em. injection Em as <-. exists h. split; [reflexivity|]. intros q. apply fk_child with p.
    + apply fk_above; [assumption|]. apply (t_acyclic r T p x I).
    + now rewrite at_value_kids.
    + rewrite at_value_node, Nat.eqb_refl, E. reflexivity.
Qed.

(** Every pose of forward kinematics is rigid. *)
Lemma axis_ok : forall a t, vx a * vx a + vy a * vy a + vz a * vz a = 1 -> rotation (axisangle2mat a t) /\ mapply (axisangle2mat a t) a = a.
Proof.
  intros a t U. split.
  - assert (Q : axisangle2mat a t = to_mat (Quat (vx a * sin (t / 2)) (vy a * sin (t / 2)) (vz a * sin (t / 2)) (cos (t / 2)))).
    { unfold axisangle2mat. replace (cos t) with (cos (2 * (t / 2))) by (f_equal; field). replace (sin t) with (sin (2 * (t / 2))) by (f_equal; field).
      rewrite cos_2a, sin_2a. assert (SC := sin2_cos2 (t / 2)). unfold Rsqr in SC. destruct a as [x y z]; cbn [vx vy vz] in *.
      set (s := sin (t / 2)) in *. set (c := cos (t / 2)) in *. clearbody s c. unfold to_mat; cbn [qx qy qz qw]. f_equal; nsatz. }
    rewrite Q. apply to_mat_rotation. unfold unit, norm2; cbn [qx qy qz qw]. assert (SC := sin2_cos2 (t / 2)). unfold Rsqr in SC. clear Q. destruct a as [x y z]; cbn [vx vy vz] in *.
    set (s := sin (t / 2)) in *. set (c := cos (t / 2)) in *. clearbody s c. nsatz.
  - assert (SC := sin2_cos2 t). unfold Rsqr in SC. destruct a as [x y z]; unfold mapply, axisangle2mat in *; cbn [vx vy vz m00 m01 m02 m10 m11 m12 m20 m21 m22] in *.
    set (s := sin t) in *. set (c := cos t) in *. clearbody s c. f_equal; nsatz.
Qed.
Lemma mid_rotation : rotation mid.
Proof. repeat split; [apply mmul_mid_l|apply mmul_mid_r|unfold mdet, mid; cbn; ring]. Qed.
Lemma transform_rotation : forall r x n, rigid r -> node_at r x = Some n -> rotation (prot (transform n)).
Proof.
  intros r x n (_ & H) E. destruct (H x n E) as (L & K). unfold transform. destruct (n_kind n) as [|a|d| |]; cbn [prot pmul].
  - exact L.
  - apply mmul_rotation; [exact L|]. now apply axis_ok.
  - rewrite mmul_mid_r. exact L.
  - exact L.
  - apply mid_rotation.
Qed.
Lemma fk_rotation : forall r x g, rigid r -> fk r x g -> rotation (prot g).
Proof.
  intros r x g H F. induction F; cbn [prot pmul]; apply mmul_rotation; eauto using transform_rotation. apply H.
Qed.
Lemma fk_exists : forall r x, tree r -> desc r (root r) x -> exists g, fk r x g.
Proof.
  intros r x T D. induction D as [|p z D (g & F) I].
  - destruct (t_root r T) as (n & E & _). eexists. apply fk_root; eassumption.
  - destruct (kid_node r p z T I) as (n & E). eexists. apply fk_child with p; eassumption.
Qed.
Lemma posed_pose : forall r x g, posed r -> fk r x g -> node_pose r x = g.
Proof. intros r x g P F. destruct (P x g F) as (n & E & <-). unfold node_pose. now rewrite E. Qed.

(** Seen from a coordinate system. *)
Lemma velocity_seen : forall c G q v w, rotation (prot c) -> velocity None G q v w ->
  velocity (Some c) G q (mapply (prot (inverted c)) v) (mapply (prot (inverted c)) w).
Proof.
  intros c G q v w H (V & W). cbn [seen_from] in *. split; cbn [seen_from pmul prot ppos inverted] in *.
  - apply vec_deriv_add. now apply vec_deriv_mapply.
  - rewrite <- mmul_assoc, <- rotation_cross_mat by now apply mtrans_rotation. rewrite mmul_assoc. now apply mat_deriv_mul_l.
Qed.
Lemma velocity_still : forall c g q, velocity c (fun _ => g) q (Vec 0 0 0) (Vec 0 0 0).
Proof.
  intros. split; [apply vec_deriv_const|]. eapply mat_deriv_ext; [reflexivity| |apply mat_deriv_const].
  apply mat_eq; unfold mmul, cross_mat; cbn; ring.
Qed.
Lemma velocity_ext : forall c G H q v w, (forall q, G q = H q) -> velocity c G q v w -> velocity c H q v w.
Proof.
  intros c G H q v w E (V & W). split.
  - eapply vec_deriv_ext; [|reflexivity|exact V]. intros; cbv beta; now rewrite E.
  - eapply mat_deriv_ext; [| |exact W]; [intros; cbv beta; now rewrite E|now rewrite E].
Qed.
Lemma vadd_sub : forall a b c, vsub (vadd a b) (vadd c b) = vsub a c.
Proof. intros. apply vec_eq; unfold vsub, vadd; cbn; ring. Qed.
Lemma mapply_vsub : forall m a b, mapply m (vsub a b) = vsub (mapply m a) (mapply m b).
Proof. intros. apply vec_eq; unfold vsub, mapply; cbn; ring. Qed.
Lemma velocity_revolute : forall Q a o B q, rotation (prot Q) -> vx a * vx a + vy a * vy a + vz a * vz a = 1 ->
  let S q := pmul Q (Pose (axisangle2mat a (q + o)) (Vec 0 0 0)) in
  let axis := mapply (prot (S q)) a in
  velocity None (fun q => pmul (S q) B) q (vcross axis (vsub (ppos (pmul (S q) B)) (ppos (S q)))) axis.
Proof.
  intros Q a o B q HQ U. cbv beta zeta.
  assert (AX : mapply (prot (pmul Q (Pose (axisangle2mat a (q + o)) (Vec 0 0 0)))) a = mapply (prot Q) a).
  { cbn [prot pmul]. rewrite mapply_mmul. f_equal. now apply axis_ok. }
  rewrite AX. clear AX. split; cbn [seen_from pmul prot ppos].
  - eapply vec_deriv_ext; [intros; reflexivity| |].
    2: { apply vec_deriv_add. apply vec_deriv_apply. apply mat_deriv_mul_l. apply axis_deriv. exact U. }
    assert (Z : mapply (prot Q) (Vec 0 0 0) = Vec 0 0 0) by (apply vec_eq; unfold mapply; cbn; ring).
    rewrite Z. rewrite mapply_mmul, mapply_mmul, cross_mat_apply, rotation_cross by exact HQ. f_equal.
    rewrite mapply_mmul. apply vec_eq; unfold vsub, vadd; cbn [vx vy vz]; ring.
  - eapply mat_deriv_ext; [intros; reflexivity| |].
    2: { apply mat_deriv_mul_r. apply mat_deriv_mul_l. apply axis_deriv. exact U. }
    rewrite <- !mmul_assoc, rotation_cross_mat by exact HQ. reflexivity.
Qed.
Lemma lim_affine : forall o k q, derivable_pt_lim (fun x => (x + o) * k) q k.
Proof.
  intros. eapply lim_ext; [| |apply (lim_lin3 (fun x => x) (fun _ => 1) (fun _ => 1) q k (o * k) 0 _ _ _ (lim_id q) (lim_const 1 q) (lim_const 1 q))]; [intros; cbv beta; ring|ring].
Qed.
Lemma velocity_prismatic : forall Q d o B q,
  let S q := pmul Q (Pose mid (vscale (q + o) d)) in
  velocity None (fun q => pmul (S q) B) q (mapply (prot (S q)) d) (Vec 0 0 0).
Proof.
  intros Q d o B q. cbv beta zeta. split; cbn [seen_from pmul prot ppos].
  - eapply vec_deriv_ext with (f := fun x => vadd (mapply (prot Q) (vscale (x + o) d)) (vadd (ppos Q) (mapply (prot Q) (ppos B)))).
    + intros x. rewrite mmul_mid_r. apply vec_eq; unfold vadd; cbn [vx vy vz]; ring.
    + reflexivity.
    + apply vec_deriv_add. rewrite mmul_mid_r. apply vec_deriv_mapply. unfold vec_deriv, vscale. cbn [vx vy vz].
      split; [|split]; apply lim_affine.
  - eapply mat_deriv_ext; [reflexivity| |apply mat_deriv_const]. apply mat_eq; unfold mmul, cross_mat; cbn; ring.
Qed.

(** One column. *)
Lemma vcross_scale : forall k a b, vcross a (vscale k b) = vscale k (vcross a b).
Proof. intros. apply vec_eq; unfold vcross, vscale; cbn; ring. Qed.
Lemma direction_seen : forall c g a, direction_in (Some c) g a = mapply (prot (inverted c)) (direction_in None g a).
Proof. reflexivity. Qed.
Lemma position_seen : forall c g h, vsub (position_in (Some c) g) (position_in (Some c) h) = mapply (prot (inverted c)) (vsub (position_in None g) (position_in None h)).
Proof. intros. cbn [position_in pmul ppos]. now rewrite vadd_sub, mapply_vsub. Qed.
Definition masked (m : selection) (v w : vec3) : vec3 * vec3 := (if s_position m then v else Vec 0 0 0, if s_orientation m then w else Vec 0 0 0).
Lemma column_velocity : forall r x t n cs convert m affected gt, tree r -> posed r -> rigid r -> desc r (root r) x -> fk r t gt ->
  node_at r x = Some n -> match cs with Some c => rotation (prot c) | None => True end -> (affected = true <-> desc r x t) \/ is_robot_node n = false ->
  exists G v w, motion r x t G /\ velocity cs G (value (n_joint n)) v w /\ column cs convert m affected gt n = masked m (in_unit convert (n_kind n) v) w.
Proof.
  intros r x t n cs convert m affected gt T P RG Dx Ft E HC HA.
  destruct (fk_exists r x T Dx) as (gx & Fx). destruct (fk_self r x gx n T Fx E) as (Q0 & EQ & FQ).
  assert (NP : n_pose n = gx) by (destruct (P x gx Fx) as (n' & E' & <-); congruence).
  assert (M0 : masked m (Vec 0 0 0) (Vec 0 0 0) = (Vec 0 0 0, Vec 0 0 0)) by (unfold masked; destruct (s_position m), (s_orientation m); reflexivity).
  assert (SC : vscale (1 / 1000) (Vec 0 0 0) = Vec 0 0 0) by (apply vec_eq; unfold vscale; cbn; ring).
  assert (IU : forall k, in_unit convert k (Vec 0 0 0) = Vec 0 0 0) by (intros []; cbn; try reflexivity; destruct convert; auto).
  assert (DEC : desc r x t \/ ~ desc r x t).
  { destruct (has_child_below (S (length (nodes r))) r x t) as [b|] eqn:EB.
    - destruct (Nat.eq_dec x t) as [->|N]; [left; constructor|]. assert (SB := has_child_below_sound _ _ _ _ _ EB). destruct b.
      + left. destruct (proj1 SB eq_refl) as (k & I & D). apply desc_trans with k; [apply d_step with x; [constructor|exact I]|exact D].
      + right. intros D. apply desc_first in D. destruct D as [D|D]; [congruence|]. apply SB in D. discriminate.
    - exfalso. revert EB. apply (has_child_below_ends r T (length (nodes r)) t [] x (NoDup_nil _)); [intros ? []|lia]. }
  destruct DEC as [D|D].
  2: { exists (fun _ => gt), (Vec 0 0 0), (Vec 0 0 0). split; [intros q; now apply fk_above|]. split; [apply velocity_still|].
       rewrite IU, M0. unfold column. destruct HA as [HA|HA].
       - destruct affected; [exfalso; apply D, HA; reflexivity|reflexivity].
       - unfold is_robot_node in HA. destruct affected; [|reflexivity]. cbn [negb]. destruct (n_kind n); try discriminate; reflexivity. }
  destruct (fk_below r x t T D) as (B & B1 & B2).
  assert (GT : gt = pmul gx B) by (apply (fk_fun r t); auto).
  assert (MO : motion r x t (fun q => pmul (pmul Q0 (transform (with_joint (with_value (n_joint n) q) n))) B)) by (intros q; apply B2, FQ).
  assert (RG' := RG). destruct RG' as (RP & RN). destruct (RN x n E) as (RL & RK).
  assert (RQ : rotation (prot (pmul Q0 (n_local n)))).
  { assert (RX := fk_rotation r x gx RG Fx). rewrite EQ in RX. cbn [prot pmul] in *.
    assert (RT := transform_rotation r x n RG E). apply mmul_rotation; [|exact RL].
    replace (prot Q0) with (mmul (mmul (prot Q0) (prot (transform n))) (mtrans (prot (transform n)))); [apply mmul_rotation; [exact RX|now apply mtrans_rotation]|].
    destruct RT as (R1 & _). now rewrite mmul_assoc, R1, mmul_mid_r. }
  set (q0 := value (n_joint n)) in *. set (o := n_offset n) in *.
  exists (fun q => pmul (pmul Q0 (transform (with_joint (with_value (n_joint n) q) n))) B).
  assert (K : is_robot_node n = true -> affected = true) by (intros R; destruct HA as [HA|HA]; [now apply HA|congruence]).
  destruct (n_kind n) as [|a|d| |] eqn:KN.
  - exists (Vec 0 0 0), (Vec 0 0 0). split; [exact MO|]. split.
    + assert (TE : forall q, transform (with_joint (with_value (n_joint n) q) n) = transform n) by (intros q; unfold transform; cbn [n_kind with_joint]; now rewrite KN).
      eapply velocity_ext; [|apply (velocity_still cs (pmul (pmul Q0 (transform n)) B) q0)]. intros; cbv beta; now rewrite TE.
    + rewrite IU, M0. unfold column. rewrite KN. destruct (negb affected); reflexivity.
  - assert (TE : forall q, pmul Q0 (transform (with_joint (with_value (n_joint n) q) n)) = pmul (pmul Q0 (n_local n)) (Pose (axisangle2mat a (q + o)) (Vec 0 0 0))).
    { intros q. unfold transform. cbn [n_kind n_local n_joint n_offset value with_joint with_value]. rewrite KN, pmul_assoc. reflexivity. }
    assert (GX : pmul (pmul Q0 (n_local n)) (Pose (axisangle2mat a (q0 + o)) (Vec 0 0 0)) = gx).
    { rewrite EQ, <- TE. reflexivity. }
    assert (V0 := velocity_revolute (pmul Q0 (n_local n)) a o B q0 RQ RK). cbv beta zeta in V0. rewrite GX, <- GT in V0.
    assert (V1 : velocity None (fun q => pmul (pmul Q0 (transform (with_joint (with_value (n_joint n) q) n))) B) q0 (vcross (direction_in None gx a) (vsub (position_in None gt) (position_in None gx))) (direction_in None gx a)).
    { eapply velocity_ext; [|exact V0]. intros; cbv beta; now rewrite TE. }
    rewrite (K ltac:(unfold is_robot_node; now rewrite KN)).
    destruct cs as [c|].
    + exists (vcross (direction_in (Some c) gx a) (vsub (position_in (Some c) gt) (position_in (Some c) gx))), (direction_in (Some c) gx a).
      split; [exact MO|]. split.
      * rewrite position_seen, direction_seen, <- rotation_cross by now apply mtrans_rotation. now apply velocity_seen.
      * unfold column, masked. cbn [negb]. rewrite KN, NP. cbv zeta. cbn [in_unit]. destruct convert; rewrite ?vcross_scale; reflexivity.
    + exists (vcross (direction_in None gx a) (vsub (position_in None gt) (position_in None gx))), (direction_in None gx a).
      split; [exact MO|]. split; [exact V1|]. unfold column, masked. cbn [negb]. rewrite KN, NP. cbv zeta. cbn [in_unit]. destruct convert; rewrite ?vcross_scale; reflexivity.
  - assert (TE : forall q, pmul Q0 (transform (with_joint (with_value (n_joint n) q) n)) = pmul (pmul Q0 (n_local n)) (Pose mid (vscale (q + o) d))).
    { intros q. unfold transform. cbn [n_kind n_local n_joint n_offset value with_joint with_value]. rewrite KN, pmul_assoc. reflexivity. }
    assert (GX : pmul (pmul Q0 (n_local n)) (Pose mid (vscale (q0 + o) d)) = gx).
    { rewrite EQ, <- TE. reflexivity. }
    assert (V0 := velocity_prismatic (pmul Q0 (n_local n)) d o B q0). cbv beta zeta in V0. rewrite GX in V0.
    assert (V1 : velocity None (fun q => pmul (pmul Q0 (transform (with_joint (with_value (n_joint n) q) n))) B) q0 (direction_in None gx d) (Vec 0 0 0)).
    { eapply velocity_ext; [|exact V0]. intros; cbv beta; now rewrite TE. }
    rewrite (K ltac:(unfold is_robot_node; now rewrite KN)).
    destruct cs as [c|].
    + exists (direction_in (Some c) gx d), (Vec 0 0 0). split; [exact MO|]. split.
      * rewrite direction_seen. assert (Z : Vec 0 0 0 = mapply (prot (inverted c)) (Vec 0 0 0)) by (apply vec_eq; unfold mapply; cbn; ring). rewrite Z. now apply velocity_seen.
      * unfold column, masked. cbn [negb]. rewrite KN, NP. cbn [in_unit]. destruct (s_orientation m); reflexivity.
    + exists (direction_in None gx d), (Vec 0 0 0). split; [exact MO|]. split; [exact V1|].
      unfold column, masked. cbn [negb]. rewrite KN, NP. cbn [in_unit]. destruct (s_orientation m); reflexivity.
  - exists (Vec 0 0 0), (Vec 0 0 0). split; [exact MO|]. split.
    + assert (TE : forall q, transform (with_joint (with_value (n_joint n) q) n) = transform n) by (intros q; unfold transform; cbn [n_kind with_joint]; now rewrite KN).
      eapply velocity_ext; [|apply (velocity_still cs (pmul (pmul Q0 (transform n)) B) q0)]. intros; cbv beta; now rewrite TE.
    + rewrite IU, M0. unfold column. rewrite KN. destruct (negb affected); reflexivity.
  - exists (Vec 0 0 0), (Vec 0 0 0). split; [exact MO|]. split.
    + assert (TE : forall q, transform (with_joint (with_value (n_joint n) q) n) = transform n) by (intros q; unfold transform; cbn [n_kind with_joint]; now rewrite KN).
      eapply velocity_ext; [|apply (velocity_still cs (pmul (pmul Q0 (transform n)) B) q0)]. intros; cbv beta; now rewrite TE.
    + rewrite IU, M0. unfold column. rewrite KN. destruct (negb affected); reflexivity.
Qed.

(** All columns. *)
Lemma parents_ok : forall r rns t depth, tree r -> (length (nodes r) < depth)%nat ->
  exists ps, parents depth r rns t = Some ps /\ forall x, In x rns -> (member x ps = true <-> desc r x t).
Proof.
  intros r rns t depth T L. destruct depth as [|fuel]; [lia|].
  assert (forall l, exists ps, parents (S fuel) r l t = Some ps /\ (forall y, In y ps -> desc r y t) /\ In t ps /\ forall x, In x l -> desc r x t -> In x ps) as H.
  { induction l as [|x l IH].
    - exists (t :: nil). split; [reflexivity|]. split; [intros y [<-|[]]; constructor|]. split; [left; reflexivity|intros x []].
    - destruct IH as (ps & EP & H1 & H2 & H3). cbn [parents]. rewrite EP.
      assert (NE := has_child_below_ends r T fuel t [] x (NoDup_nil _) ltac:(intros q []) ltac:(cbn; lia)).
      destruct (has_child_below (S fuel) r x t) as [b|] eqn:EB; [|congruence]. assert (SB := has_child_below_sound _ _ _ _ _ EB).
      eexists. split; [reflexivity|]. destruct b.
      + split; [|split].
        * intros y [<-|I]; [|auto]. destruct (proj1 SB eq_refl) as (k & I & D). apply desc_trans with k; [apply d_step with x; [constructor|exact I]|exact D].
        * right. exact H2.
        * intros y [<-|I] D; [left; reflexivity|right; auto].
      + split; [exact H1|]. split; [exact H2|]. intros y [<-|I] D; [|auto]. apply desc_first in D. destruct D as [->|D]; [exact H2|]. apply SB in D. discriminate. }
  destruct (H rns) as (ps & E & H1 & H2 & H3). exists ps. split; [exact E|]. intros x I. unfold member. rewrite existsb_exists. split.
  - intros (y & J & EQ). apply Nat.eqb_eq in EQ. subst. auto.
  - intros D. exists x. split; [auto|apply Nat.eqb_refl].
Qed.
Lemma columns_ok : forall r cs convert m ps g rns, (forall x, In x rns -> exists n, node_at r x = Some n) ->
  exists cols, columns r cs convert m ps g rns = Some cols /\ length cols = length rns /\
    forall i x n, nth_error rns i = Some x -> node_at r x = Some n -> nth_error cols i = Some (column cs convert m (member x ps) g n).
Proof.
  intros r cs convert m ps g. induction rns as [|y rns IH]; intros H.
  - exists []. split; [reflexivity|]. split; [reflexivity|]. intros [|i]; discriminate.
  - destruct IH as (cols & E & L & C); [intros x I; apply H; right; exact I|]. destruct (H y (or_introl eq_refl)) as (n & En). cbn [columns]. rewrite En, E.
    eexists. split; [reflexivity|]. split; [cbn; lia|]. intros [|i] x n' X N; cbn in *.
    + injection X as <-. rewrite En in N. now injection N as <-.
    + eauto.
Qed.
Lemma rows_column : forall m cols i c, nth_error cols i = Some c -> is_column (rows m cols) i (selected m (fst c) (snd c)).
Proof.
  intros m cols i c H. unfold is_column, rows, selected. rewrite !map_app.
  assert (F : forall f : vec3 * vec3 -> R, nth_error (map f cols) i = Some (f c)) by (intros f; now apply map_nth_error).
  repeat f_equal; [destruct (s_x m)|destruct (s_y m)|destruct (s_z m)|destruct (s_orientation m)]; cbn; rewrite ?F; reflexivity.
Qed.
Lemma selected_masked : forall m v w, selected m (fst (masked m v w)) (snd (masked m v w)) = selected m v w.
Proof.
  intros m v w. unfold selected, masked, s_position. destruct (s_x m), (s_y m), (s_z m), (s_orientation m); reflexivity.
Qed.
Lemma rows_shape : forall m cols, (forall row, In row (rows m cols) -> length row = length cols) /\ length (rows m cols) = length (selected m (Vec 0 0 0) (Vec 0 0 0)).
Proof.
  intros m cols. unfold rows, selected. split.
  - intros row I. repeat (apply in_app_or in I; destruct I as [I|I]);
      [destruct (s_x m)|destruct (s_y m)|destruct (s_z m)|destruct (s_orientation m)]; cbn in I;
      repeat match goal with H : _ \/ _ |- _ => destruct H end; subst; try contradiction; apply map_length.
  - rewrite !app_length. destruct (s_x m), (s_y m), (s_z m), (s_orientation m); reflexivity.
Qed.
Lemma tcp_node_ok : forall r t tn, tree r -> tcp_node r t = Some tn -> forall x n, node_at r x = Some n -> (desc r x tn <-> desc r x t) \/ is_robot_node n = false.
Proof.
  intros r t tn T H x n E. unfold tcp_node in H. destruct (node_at r t) as [nt|] eqn:Et; [|discriminate].
  destruct (is_robot_node nt) eqn:K; [injection H as <-; left; reflexivity|].
  destruct (n_parent nt) as [p|] eqn:Ep; [|discriminate]. destruct (node_at r p) as [np|] eqn:Enp; [|discriminate]. destruct (is_robot_node np); [|discriminate]. injection H as <-.
  destruct (Nat.eq_dec x t) as [->|N]; [right; congruence|left].
  assert (I : In t (kids r p)) by (apply (t_links r T); eauto). split; intros D; [now apply d_step with p|].
  inversion D as [|p' z D' I']; subst; [congruence|]. now rewrite (one_parent r p p' t T I I').
Qed.
Lemma proper_is : forall n, proper n <-> is_robot_node n = true.
Proof. intros n. unfold proper, is_robot_node. destruct (n_kind n); split; intros H; try reflexivity; try discriminate; try (split; discriminate); destruct H; congruence. Qed.
Lemma on_robot_tcp : forall r t, on_robot r t -> exists tn, tcp_node r t = Some tn.
Proof.
  intros r t (n & E & H). unfold tcp_node. rewrite E. destruct (is_robot_node n) eqn:K; [eauto|].
  destruct H as [H|(p & m & P & M & H)]; [apply proper_is in H; congruence|]. rewrite P, M. apply proper_is in H. rewrite H. eauto.
Qed.

(** The velocity of a motion is unique. *)
Lemma at_value_desc : forall r x q y z, desc (at_value r x q) y z <-> desc r y z.
Proof. intros. split; apply desc_kids; intros; [symmetry|]; apply at_value_kids. Qed.
Lemma at_value_tree : forall r x q, tree r -> tree (at_value r x q).
Proof.
  intros r x q T. split.
  - intros p c. rewrite at_value_kids, (t_links r T). rewrite at_value_node. destruct (Nat.eqb x c); [|reflexivity].
    split; intros (n & E & P).
    + rewrite E. eexists. split; [reflexivity|exact P].
    + destruct (node_at r c) as [n'|] eqn:E'; [|discriminate]. injection E as <-. eauto.
  - intros p. rewrite at_value_kids. apply (t_once r T).
  - destruct (t_root r T) as (n & E & P). rewrite at_value_node. cbn [root at_value]. destruct (Nat.eqb x (root r)); rewrite E; eexists; (split; [reflexivity|exact P]).
  - intros y c I D. rewrite at_value_kids in I. apply at_value_desc in D. apply (t_acyclic r T y c I D).
Qed.
Lemma at_value_rigid : forall r x q, rigid r -> rigid (at_value r x q).
Proof.
  intros r x q (H1 & H2). split; [exact H1|]. intros y n. rewrite at_value_node. destruct (Nat.eqb x y); [|apply H2].
  destruct (node_at r y) as [m|] eqn:E; [|discriminate]. intros [= <-]. apply (H2 y m E).
Qed.
Lemma velocity_unique : forall c G q v w v' w', rotation (prot (seen_from c (G q))) -> velocity c G q v w -> velocity c G q v' w' -> v = v' /\ w = w'.
Proof.
  intros c G q v w v' w' RG ((V1 & V2 & V3) & W) ((V1' & V2' & V3') & W'). split.
  - apply vec_eq; eapply uniqueness_limite; eassumption.
  - assert (E : mmul (cross_mat w) (prot (seen_from c (G q))) = mmul (cross_mat w') (prot (seen_from c (G q)))).
    { destruct W as (A1 & A2 & A3 & A4 & A5 & A6 & A7 & A8 & A9). destruct W' as (B1 & B2 & B3 & B4 & B5 & B6 & B7 & B8 & B9).
      apply mat_eq; eapply uniqueness_limite; eassumption. }
    apply (f_equal (fun m => mmul m (mtrans (prot (seen_from c (G q)))))) in E. rewrite !mmul_assoc in E. destruct RG as (R1 & _). rewrite R1, !mmul_mid_r in E.
    unfold cross_mat in E. injection E as E1 E2 E3 E4 E5 E6. apply vec_eq; lra.
Qed.
Lemma motion_unique : forall r x t G H, tree r -> motion r x t G -> motion r x t H -> forall q, G q = H q.
Proof. intros r x t G H T MG MH q. eapply fk_fun; [apply (at_value_tree r x q T)|apply MG|apply MH]. Qed.
Lemma motion_rotation : forall r x t G c q, rigid r -> match c with Some c => rotation (prot c) | None => True end -> motion r x t G -> rotation (prot (seen_from c (G q))).
Proof.
  intros r x t G c q RG HC M. assert (H : rotation (prot (G q))) by (eapply fk_rotation; [apply (at_value_rigid r x q RG)|apply M]).
  destruct c as [c|]; [|exact H]. cbn [seen_from pmul prot inverted]. apply mmul_rotation; [now apply mtrans_rotation|exact H].
Qed.
