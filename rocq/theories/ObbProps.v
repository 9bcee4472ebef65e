(** C60: the collision query with oriented boxes is exact on meshes at any poses. *)
From Coq Require Import List ZArith QArith Reals Bool PeanoNat Lia Lra.
From Verif Require Import PqpModel PqpSpec PqpBuildModel PqpBuildSpec PqpBuildProofs ObbModel ObbSpec ObbProofs ObbExact.
Import ListNotations.
Open Scope R_scope.

Lemma mesh_model_built : forall negl junk ini tris o, tris <> [] -> mesh_model negl junk ini tris o -> built (obb_builder negl junk) tris o.
Proof.
  intros negl junk ini tris o H M. destruct (build_model_ok (obb_builder negl junk) ini tris H) as (m & E & B). unfold mesh_model in M. congruence.
Qed.
Lemma relative_point : forall x1 x2 p q, orthonormal (x_R x1) -> (at_pose x1 p = at_pose x2 q <-> p = at_pose (relative_pose x1 x2) q).
Proof.
  intros x1 x2 p q H.
  assert (A : forall x v, at_pose x v = vpv (mxv (x_R x) v) (x_T x)) by (intros; apply vec_eq; unfold at_pose, vpv, mxv; cbn; ring).
  rewrite !A. unfold relative_pose. cbn [x_R x_T]. rewrite mxv_mtxm, <- mtxv_vpv. split; intros E.
  - assert (K : mxv (x_R x1) p = vpv (mxv (x_R x2) q) (vmv (x_T x2) (x_T x1))).
    { assert (vmv (vpv (mxv (x_R x1) p) (x_T x1)) (x_T x1) = vmv (vpv (mxv (x_R x2) q) (x_T x2)) (x_T x1)) by now rewrite E.
      replace (mxv (x_R x1) p) with (vmv (vpv (mxv (x_R x1) p) (x_T x1)) (x_T x1)) by (apply vec_eq; unfold vmv, vpv; cbn [vx vy vz]; ring).
      rewrite H0. apply vec_eq; unfold vmv, vpv; cbn [vx vy vz]; ring. }
    rewrite <- K, mtxv_mxv by assumption. reflexivity.
  - rewrite E, mxv_mtxv by assumption. apply vec_eq; unfold vmv, vpv; cbn [vx vy vz]; ring.
Qed.

Lemma checked : forall negl junk ini size x1 x2 tris1 tris2 o1 o2, orthonormal (x_R x1) -> orthonormal (x_R x2) ->
  tris1 <> [] -> tris2 <> [] -> eigen_converges negl tris1 -> eigen_converges negl tris2 -> mesh_model negl junk ini tris1 o1 -> mesh_model negl junk ini tris2 o2 ->
  forall fuel, (length tris1 + length tris2 < fuel)%nat -> exists b, check_collision size fuel x1 x2 o1 o2 = Some b /\
    (b = false -> ~ meshes_meet x1 x2 tris1 tris2) /\
    (b = true -> exists t1 t2, In t1 tris1 /\ In t2 tris2 /\ tri_contact (corners t1) (move (relative_pose x1 x2) (corners t2)) = true).
Proof.
  intros negl junk ini size x1 x2 tris1 tris2 o1 o2 H1 H2 N1 N2 E1 E2 M1 M2 fuel HF.
  apply mesh_model_built in M1; [|assumption]. apply mesh_model_built in M2; [|assumption].
  assert (HR : orthonormal (x_R (relative_pose x1 x2))) by (cbn; now apply orthonormal_mtxm).
  destruct (proj2 (proj2 (proj2 M1))) as (w1 & _ & (r1 & R1 & _) & _). destruct (proj2 (proj2 (proj2 M2))) as (w2 & _ & (r2 & R2 & _) & _).
  destruct (collide_free negl junk size (relative_pose x1 x2) HR tris1 tris2 o1 o2 E1 E2 M1 M2 r1 r2 R1 R2 true fuel HF) as (r & E & F & T).
  unfold check_collision, child. cbn zeta. rewrite R1, R2, E. exists (negb (length r =? 0)%nat). split; [reflexivity|]. destruct r as [|c r]; cbn [length Nat.eqb negb].
  - split; [|discriminate]. intros _ (t1 & t2 & p & q & I1 & I2 & P1 & P2 & EQ). apply relative_point in EQ; [|assumption]. exact (F eq_refl t1 t2 p q I1 I2 P1 P2 EQ).
  - split; [discriminate|]. intros _. apply T. discriminate.
Qed.

(** If the query reports no collision then no point of one mesh lies on the other: for every pair of meshes, of poses,
    of heuristics for the descent. *)
Theorem C60_free_means_disjoint : forall negl junk ini size x1 x2 tris1 tris2 o1 o2, orthonormal (x_R x1) -> orthonormal (x_R x2) ->
  tris1 <> [] -> tris2 <> [] -> eigen_converges negl tris1 -> eigen_converges negl tris2 -> mesh_model negl junk ini tris1 o1 -> mesh_model negl junk ini tris2 o2 ->
  forall fuel, (length tris1 + length tris2 < fuel)%nat -> exists b, check_collision size fuel x1 x2 o1 o2 = Some b /\
    (b = false -> ~ meshes_meet x1 x2 tris1 tris2).
Proof.
  intros negl junk ini size x1 x2 tris1 tris2 o1 o2 H1 H2 N1 N2 E1 E2 M1 M2 fuel HF.
  destruct (checked negl junk ini size x1 x2 tris1 tris2 o1 o2 H1 H2 N1 N2 E1 E2 M1 M2 fuel HF) as (b & E & F & _). eauto.
Qed.

(** If all triangles have an area the answer is exact. *)
Theorem C60_exact : forall negl junk ini size x1 x2 tris1 tris2 o1 o2, orthonormal (x_R x1) -> orthonormal (x_R x2) ->
  tris1 <> [] -> tris2 <> [] -> eigen_converges negl tris1 -> eigen_converges negl tris2 -> mesh_model negl junk ini tris1 o1 -> mesh_model negl junk ini tris2 o2 ->
  (forall t, In t tris1 -> has_area (corners t)) -> (forall t, In t tris2 -> has_area (corners t)) ->
  forall fuel, (length tris1 + length tris2 < fuel)%nat -> exists b, check_collision size fuel x1 x2 o1 o2 = Some b /\
    (b = true <-> meshes_meet x1 x2 tris1 tris2).
Proof.
  intros negl junk ini size x1 x2 tris1 tris2 o1 o2 H1 H2 N1 N2 E1 E2 M1 M2 A1 A2 fuel HF.
  destruct (checked negl junk ini size x1 x2 tris1 tris2 o1 o2 H1 H2 N1 N2 E1 E2 M1 M2 fuel HF) as (b & E & F & T). exists b. split; [assumption|]. split.
  - intros B. destruct (T B) as (t1 & t2 & I1 & I2 & C). apply tri_contact_exact in C.
    + destruct C as (x & P1 & P2). apply in_tri_unmove in P2 as (q & P2 & ->).
      exists t1, t2, (at_pose (relative_pose x1 x2) q), q. do 4 (split; [assumption|]). apply relative_point; [assumption|reflexivity].
    + exact (A1 t1 I1).
    + apply normal_move; [cbn; now apply orthonormal_mtxm|exact (A2 t2 I2)].
  - intros M. destruct b; [reflexivity|]. destruct (F eq_refl M).
Qed.

(** Two triangles with an area pass the contact test exactly if they share a point, touching included. *)
Theorem C60_contact_exact : forall P Q, has_area P -> has_area Q -> (tri_contact P Q = true <-> exists x, in_tri P x /\ in_tri Q x).
Proof.
  intros P Q HP HQ. split; [now apply tri_contact_exact|]. intros (x & A & B). now apply tri_contact_meet with x.
Qed.
(** Without an area the test may report a contact of triangles apart: two parallel segments. *)
Theorem C60_contact_degenerate_refuted : exists P Q, tri_contact P Q = true /\ ~ exists x, in_tri P x /\ in_tri Q x.
Proof.
  exists (T3 (V3 0 0 0) (V3 1 0 0) (V3 2 0 0)), (T3 (V3 0 5 0) (V3 1 5 0) (V3 2 5 0)). split.
  - unfold tri_contact. cbn zeta. apply forallb_forall. intros ax I. cbn [p1 p2 p3 contact_axes vmv vcross vx vy vz] in I.
    assert (Z : ax = V3 0 0 0) by (repeat (destruct I as [<-|I]; [apply vec_eq; cbn; ring|]); destruct I). subst ax.
    unfold project6, max3, min3. cbn zeta.
    assert (D : forall v, vdot (V3 0 0 0) v = 0) by (intros; unfold vdot; cbn; ring). rewrite !D.
    assert (N : rlt 0 0 = false) by (apply rlt_false; lra). rewrite !N. cbn zeta iota. rewrite ?N. reflexivity.
  - intros (x & (a & b & c & _ & _ & _ & S1 & _ & Y & _) & (a' & b' & c' & _ & _ & _ & S2 & _ & Y' & _)). cbn in Y, Y'. lra.
Qed.

(** Boxes found disjoint share no point, at any relative pose. *)
Theorem C60_boxes : forall R T a b, orthonormal R -> obb_disjoint R T a b <> 0%nat ->
  forall u w, Rabs (vx u) <= vx a -> Rabs (vy u) <= vy a -> Rabs (vz u) <= vz a ->
    Rabs (vx w) <= vx b -> Rabs (vy w) <= vy b -> Rabs (vz w) <= vz b -> u <> at_pose (XF R T) w.
Proof.
  intros R T a b H D u w U0 U1 U2 W0 W1 W2 E. apply D.
  apply (obb_overlap R T a b u w); assumption.
Qed.

(** The box fitted to triangles contains all of them and has orthonormal axes, if the eigenvector routine converges. *)
Theorem C60_fit : forall negl junk ts, ts <> [] -> meigen negl (covariance ts) <> None ->
  let v := fit (obb_builder negl junk) ts in
  orthonormal (o_R v) /\ forall t p, In t ts -> in_tri (corners t) p -> in_obb v p.
Proof.
  intros negl junk ts H E v.
  assert (O : orthonormal (axes_of negl junk ts)).
  { unfold axes_of, eigen. destruct (meigen negl (covariance ts)) as [[e s]|] eqn:M; [|contradiction]. apply frame_orthonormal. now apply meigen_orthonormal in M. }
  split.
  - unfold v. cbn [fit obb_builder]. unfold fit_to_tris. destruct (extent_of _), (extent_of _), (extent_of _). exact O.
  - intros t p I P. unfold v. cbn [fit obb_builder]. now apply (fit_contains _ ts t).
Qed.

(** The eigenvector routine gives orthonormal columns for every matrix on which it converges, and it converges on all
    matrices if small elements are found negligible. *)
Theorem C60_eigen : forall negl a e s, meigen negl a = Some (e, s) -> orthonormal e.
Proof. exact meigen_orthonormal. Qed.

Lemma meigen_clears : forall n i b st, (3 < i)%nat -> meigen_loop (fun _ _ => true) (S (S n)) i b st <> None.
Proof.
  intros n i b st H. remember (S n) as k. cbn [meigen_loop]. cbn zeta. destruct (Req_EM_T _ 0); [discriminate|]. subst k.
  assert (L : (3 <? i)%nat = true) by now apply Nat.ltb_lt. rewrite L.
  assert (C : forall tr x y z, decide (fun _ _ => true) true tr x y z = Clear) by reflexivity.
  unfold pivot01. rewrite C. unfold pivot02. rewrite C. unfold pivot12. rewrite C. cbn [meigen_loop j01 j02 j12].
  destruct (Req_EM_T _ 0) as [|N]; [discriminate|]. exfalso. apply N. rewrite Rabs_R0. ring.
Qed.
Lemma meigen_converges : forall a, meigen (fun _ _ => true) a <> None.
Proof.
  intros a. rewrite meigen_unfold. replace eigen_iterations with (4 + S (S 44))%nat by reflexivity.
  assert (K : forall n k i b st, (4 <= k + i)%nat -> meigen_loop (fun _ _ => true) (k + S (S n)) i b st <> None).
  { intros n. induction k as [|k IH]; intros i b st Hi; [now apply meigen_clears|].
    cbn [Nat.add meigen_loop]. cbn zeta. destruct (Req_EM_T _ 0); [discriminate|]. apply IH. lia. }
  apply K. lia.
Qed.
Example C60_eigen_witness : forall tris, eigen_converges (fun _ _ => true) tris.
Proof. intros tris ts _ _. apply meigen_converges. Qed.

(** A triangle above another: the query says false above it and true where they touch. *)
Definition flat_triangle : list (tri tri3) := [Tri (T3 (V3 0 0 0) (V3 1 0 0) (V3 0 1 0)) 0].
Definition lifted (z : R) : xform := XF midentity (V3 0 0 z).
Example C60_witness : forall junk ini size, exists o, mesh_model (fun _ _ => true) junk ini flat_triangle o /\
  check_collision size 3 (lifted 0) (lifted 0) o o = Some true /\ check_collision size 3 (lifted 0) (lifted 1) o o = Some false.
Proof.
  intros junk ini size. destruct (build_model_ok (obb_builder (fun _ _ => true) junk) ini flat_triangle) as (o & E & _); [discriminate|].
  exists o. split; [exact E|].
  assert (O : forall z, orthonormal (x_R (lifted z))) by (intros; unfold orthonormal; cbn; repeat split; ring).
  assert (A : forall t, In t flat_triangle -> has_area (corners t)).
  { intros t [<-|[]] K. unfold normal, vcross, vmv in K. cbn in K. injection K. intros. lra. }
  assert (X := fun z => C60_exact (fun _ _ => true) junk ini size (lifted 0) (lifted z) flat_triangle flat_triangle o o (O 0) (O z) ltac:(discriminate) ltac:(discriminate)
    (C60_eigen_witness _) (C60_eigen_witness _) E E A A 3%nat ltac:(cbn; lia)).
  split.
  - destruct (X 0) as (b & -> & B). f_equal. apply B. exists (Tri (T3 (V3 0 0 0) (V3 1 0 0) (V3 0 1 0)) 0), (Tri (T3 (V3 0 0 0) (V3 1 0 0) (V3 0 1 0)) 0), (V3 0 0 0), (V3 0 0 0).
    split; [now left|]. split; [now left|]. assert (I : in_tri (T3 (V3 0 0 0) (V3 1 0 0) (V3 0 1 0)) (V3 0 0 0)) by (exists 1, 0, 0; cbn; repeat split; lra). auto.
  - destruct (X 1) as (b & -> & B). f_equal. destruct b; [|reflexivity]. exfalso.
    destruct (proj1 B eq_refl) as (t1 & t2 & p & q & [<-|[]] & [<-|[]] & (a & b & c & _ & _ & _ & _ & _ & _ & Z) & (a' & b' & c' & _ & _ & _ & _ & _ & _ & Z') & EQ).
    unfold at_pose in EQ. cbn in *. injection EQ. intros. lra.
Qed.

Print Assumptions C60_free_means_disjoint.
Print Assumptions C60_exact.
Print Assumptions C60_contact_exact.
Print Assumptions C60_contact_degenerate_refuted.
Print Assumptions C60_boxes.
Print Assumptions C60_fit.
Print Assumptions C60_eigen.
