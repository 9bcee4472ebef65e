(** The claims about the mapping between poses and voxels. *)
From Coq Require Import List ZArith QArith Bool Arith Lia Lqa.
From Verif Require Import GridModel WsPoseModel WsPoseSpec WsPoseProofs.
Import ListNotations.
Open Scope Z_scope.

Lemma forall2_length : forall A B (P : A -> B -> Prop) l m, Forall2 P l m -> length l = length m.
Proof. intros A B P l m H. induction H; [reflexivity|cbn; now f_equal]. Qed.

(** The axes: the given bounds, at least one voxel, voxels narrower than the step. *)
Theorem C18_axes : forall bs t r ds, initialize bs t r = Some ds ->
  map (fun a => (a_lo a, a_hi a)) (map axis_of ds) = bs /\
  Forall (fun a => 0 < a_n a) (map axis_of ds) /\
  Forall2 (fun a s => 0 < width a /\ width a < s)%Q (map axis_of ds) [t; t; t; r; r; r].
Proof.
  intros bs t r ds H. destruct (initialize_ok _ _ _ _ H) as (_ & F & M & S). split; [rewrite map_map; exact M|]. split.
  - rewrite Forall_map. eapply Forall_impl; [|exact F]. intros d (_ & _ & K & _). exact K.
  - rewrite <- S. clear - F. induction F as [|d ds O F IH]; [constructor|]. cbn [map]. constructor; [|exact IH]. split; [now apply width_pos|]. apply O.
Qed.

(** [getVoxelFromPose] gives the voxel that accepts the pose. *)
Theorem C18_voxel : forall bs t r ds x v, initialize bs t r = Some ds ->
  (voxel_from_pose ds x = Some v <-> all3 (fun a y k => accepted a k y) (map axis_of ds) x v).
Proof.
  intros bs t r ds x v H. destruct (initialize_ok _ _ _ _ H) as (_ & F & _). unfold voxel_from_pose. rewrite each_some, all3_map. split; apply all3_impl with (G := okd); try exact F; intros d y k O K; now apply voxel_dim_ok.
Qed.

(** It answers true exactly for the poses inside the bounds widened by one and a half voxels below and half a voxel above. *)
Theorem C18_accepts : forall bs t r ds x, initialize bs t r = Some ds ->
  ((exists v, voxel_from_pose ds x = Some v) <-> Forall2 accepts (map axis_of ds) x).
Proof.
  intros bs t r ds x H. destruct (initialize_ok _ _ _ _ H) as (_ & F & _). unfold voxel_from_pose.
  assert (One : forall d y, okd d -> ((exists k, voxel_dim d y = Some k) <-> accepts (axis_of d) y)).
  { intros d y O. split.
    - intros (k & K). apply (voxel_dim_ok d y k O) in K. unfold accepted, accepts, axis_of in *. cbn [a_lo a_hi a_n] in *. fold (axis_of d) in *. destruct K as (R & A & B). pose proof (width_pos d O) as W. pose proof (hi_eq d O) as Hh.
      assert (M : forall a b, a <= b -> (inject_Z a * width (axis_of d) <= inject_Z b * width (axis_of d))%Q) by (intros a b Hab; apply Qmult_le_compat_r; [now apply injZ|lra]).
      pose proof (M 0 k ltac:(lia)) as M0. change (inject_Z 0) with 0%Q in M0. pose proof (M (k + 1) (d_num d) ltac:(lia)). split; [destruct (k =? 0); lra|destruct (k =? d_num d - 1); lra].
    - intros [A B]. unfold axis_of in A, B. cbn [a_lo a_hi a_n] in A, B. fold (axis_of d) in A, B. pose proof (hi_eq d O) as Hh. assert (Hn : 0 < d_num d) by apply O.
      assert (Q1 : (- (3 # 2) < qpos d y)%Q) by (apply gt_q; [assumption|lra]). assert (Q2 : (qpos d y < inject_Z (d_num d) + (1 # 2))%Q) by (apply lt_q; [assumption|lra]).
      assert (E : exists k, accq (d_num d) k (qpos d y)).
      { set (q := qpos d y) in *. set (n := d_num d) in *. clearbody q n. unfold accq. destruct (Qlt_le_dec q 0) as [N|N].
        - exists 0. rewrite Z.eqb_refl. split; [lia|]. split; [lra|]. change (inject_Z (0 + 1)) with 1%Q. pose proof (injZ 1 n ltac:(lia)) as J. change (inject_Z 1) with 1%Q in J. destruct (0 =? n - 1); lra.
        - destruct (trunc_pos q N) as [T1 T2]. destruct (Z_lt_le_dec (trunc q) n) as [L|L].
          + exists (trunc q). split; [lia|]. split; [destruct (trunc q =? 0); lra|]. destruct (Z.eqb_spec (trunc q) (n - 1)) as [E|K]; [|lra]. rewrite E in T2. replace (n - 1 + 1) with n in T2 by lia. lra.
          + exists (n - 1). rewrite Z.eqb_refl. split; [lia|]. split; [|lra]. pose proof (injZ (n - 1) (trunc q) ltac:(lia)). destruct (n - 1 =? 0); lra. }
      destruct E as (k & K). exists k. apply voxel_dim_ok; [assumption|]. now apply accepted_q. }
  split.
  - intros (v & K). apply each_some in K. clear - One F K. induction K; [constructor|]. apply Forall_cons_iff in F as [F1 F2]. constructor; [apply One; [assumption|now exists c]|now apply IHK].
  - revert x. clear - One F. induction F as [|d ds O F IH]; intros x K; inversion K as [|? y ? x' K1 K2]; subst; [now exists []|]. apply (One d y O) in K1 as (k & K1). destruct (IH _ K2) as (v & K3). exists (k :: v). cbn [each]. now rewrite K1, K3.
Qed.

(** A pose inside the bounds gets a voxel of the grid that contains it. *)
Theorem C18_inside : forall bs t r ds x, initialize bs t r = Some ds -> Forall2 (fun b y => fst b <= y <= snd b)%Q bs x ->
  exists v, voxel_from_pose ds x = Some v /\ all3 (fun a y k => 0 <= k < a_n a /\ part a k y) (map axis_of ds) x v.
Proof.
  intros bs t r ds x H Hx. destruct (initialize_ok _ _ _ _ H) as (_ & F & M & _).
  assert (K : Forall2 accepts (map axis_of ds) x).
  { subst bs. revert x Hx. clear - F. induction F as [|d ds O F IH]; intros x Hx; inversion Hx as [|? y ? x' K1 K2]; subst; [constructor|]. cbn [map]. constructor; [|now apply IH]. cbn [fst snd] in K1. pose proof (width_pos d O). unfold accepts. cbn [a_lo a_hi axis_of]. lra. }
  apply (C18_accepts _ _ _ _ _ H) in K as (v & K). exists v. split; [exact K|]. apply (C18_voxel _ _ _ _ _ _ H) in K. rewrite all3_map in *. subst bs. clear H. revert Hx F. induction K as [|d y k ds x v A K IH]; intros Hx F; [constructor|].
  cbn [map] in Hx. inversion Hx as [|? ? ? ? K1 K2]; subst. apply Forall_cons_iff in F as [O F]. constructor; [|now apply IH]. cbn [fst snd] in K1. destruct A as (R & A & B). split; [exact R|]. unfold part. pose proof (hi_eq d O) as Hh.
  unfold axis_of in *. cbn [a_lo a_hi a_n] in *. fold (axis_of d) in *. split.
  - destruct (Z.eqb_spec k 0) as [->|]; [change (inject_Z 0) with 0%Q; lra|exact A].
  - destruct (Z.eqb_spec k (d_num d - 1)) as [->|]; [replace (d_num d - 1 + 1) with (d_num d) by lia; lra|lra].
Qed.

(** The tolerance is not symmetric: one and a quarter voxels below the lower bound is still the first voxel, three quarters of a
    voxel above the upper bound is outside. *)
Definition cube (n : Z) : list (Q * Q) := repeat (0%Q, inject_Z n) 6.
Theorem C18_tolerance_refuted : exists ds, initialize (cube 10) (10 # 11) (10 # 9) = Some ds /\
  voxel_from_pose ds [- (5 # 4) * (10 # 12); 1; 1; 1; 1; 1]%Q = Some [0; 1; 1; 1; 1; 1] /\ voxel_from_pose ds [10 + (3 # 4) * (10 # 12); 1; 1; 1; 1; 1]%Q = None.
Proof. eexists. split; [vm_compute; reflexivity|]. split; vm_compute; reflexivity. Qed.

(** The pose of a voxel is its centre and belongs to the voxel. *)
Theorem C18_pose : forall bs t r ds v, initialize bs t r = Some ds -> Forall2 (fun a k => 0 <= k < a_n a) (map axis_of ds) v ->
  exists x, pose_from_voxel ds v = Some x /\ voxel_from_pose ds x = Some v /\
    all3 (fun a y k => inner_part a k y /\ y == a_lo a + (inject_Z k + (1 # 2)) * width a)%Q (map axis_of ds) x v.
Proof.
  intros bs t r ds v H Hv. destruct (initialize_ok _ _ _ _ H) as (L & F & _).
  assert (Lv : length (map (fun k => inject_Z k + (1 # 2))%Q v) = length ds) by (apply forall2_length in Hv; rewrite !map_length in *; congruence).
  destruct (pose_loop_ok ds _ [] ds eq_refl ltac:(lia) F Lv) as (x & Hx & A). exists x. split; [exact Hx|].
  assert (G : all3 (fun d y k => 0 <= k < d_num d /\ inner_part (axis_of d) k y /\ (y == d_lo d + (inject_Z k + (1 # 2)) * width (axis_of d))%Q) ds x v).
  { clear H L Hx Lv. revert v x Hv A. induction F as [|d ds O F IH]; intros v x Hv A; inversion Hv as [|? k ? v' R Rv]; subst; cbn [map] in A; inversion A; subst; [constructor|].
    constructor; [|now apply IH]. split; [exact R|]. split; [|assumption]. pose proof (width_pos d O). unfold inner_part. cbn [a_lo axis_of]. fold (axis_of d). rewrite injS. lra. }
  split.
  - apply (C18_voxel _ _ _ _ _ _ H). rewrite all3_map. apply all3_impl with (2 := F) (3 := G). intros d y k O (R & I & _). now apply inner_accepted.
  - rewrite all3_map. apply all3_impl with (2 := F) (3 := G). intros d y k O (R & I & E). split; assumption.
Qed.

(** [getVoxelFromPosition] has another tolerance. *)
Theorem C18_position : forall bs t r ds x v, initialize bs t r = Some ds ->
  (voxel_from_position ds x = Some v <->
   all3 (fun a y k => 0 <= k < a_n a /\ ((k = 0 /\ (a_lo a - width a < y < a_lo a + width a)%Q) \/ (k <> 0 /\ part' a k y))) (map axis_of (firstn 3 ds)) x v).
Proof.
  intros bs t r ds x v H. destruct (initialize_ok _ _ _ _ H) as (_ & F & _). unfold voxel_from_position. rewrite each_some, all3_map.
  assert (F3 : Forall okd (firstn 3 ds)) by (rewrite <- (firstn_skipn 3 ds) in F; now apply Forall_app in F).
  split; apply all3_impl with (G := okd); try exact F3; intros d y k O K; now apply position_dim_ok.
Qed.
(** So a position can have no voxel although a pose at that position has one: the upper border is treated differently. *)
Theorem C18_position_refuted : exists ds, initialize (cube 10) 2 2 = Some ds /\
  voxel_from_pose ds [10; 1; 1; 1; 1; 1]%Q = Some [5; 0; 0; 0; 0; 0] /\ voxel_from_position ds [10; 1; 1]%Q = None.
Proof. eexists. split; [vm_compute; reflexivity|]. split; vm_compute; reflexivity. Qed.

(** The protected [getPoseFromVoxel] adds half a step and not half a voxel: right if the voxels are wider than half a step. *)
Theorem C18_local : forall bs t r ds v, initialize bs t r = Some ds ->
  Forall2 (fun a s => s < 2 * width a)%Q (map axis_of ds) [t; t; t; r; r; r] -> Forall2 (fun a k => 0 <= k < a_n a) (map axis_of ds) v ->
  exists x, pose_from_voxel_local ds v = Some x /\ voxel_from_pose ds x = Some v /\ all3 (fun a y k => inner_part a k y) (map axis_of ds) x v.
Proof.
  intros bs t r ds v H W Hv. destruct (initialize_ok _ _ _ _ H) as (L & F & _ & S). rewrite <- S in W.
  assert (G : exists x, each local_dim ds v = Some x /\ all3 (fun d y k => 0 <= k < d_num d /\ inner_part (axis_of d) k y) ds x v).
  { clear H L S. revert v Hv W. induction F as [|d ds O F IH]; intros v Hv W; inversion Hv as [|? k ? v' R Rv]; subst; [exists []; split; [reflexivity|constructor]|]. cbn [map] in W. inversion W as [|? ? ? ? W1 W2]; subst.
    destruct (IH _ Rv W2) as (x & Ex & Ax). cbn [each]. unfold local_dim at 1. cbn [a_n axis_of] in R. destruct (Z.leb_spec (d_num d) k); [lia|]. rewrite Ex. eexists. split; [reflexivity|]. constructor; [|exact Ax]. split; [exact R|].
    unfold inner_part. cbn [a_lo axis_of]. fold (axis_of d). rewrite injS. pose proof (num_pos d O) as P. assert (Wd := O). destruct Wd as (_ & Sz & _ & S0 & Ws).
    assert (E : (inject_Z k * d_size d / inject_Z (d_num d) == inject_Z k * width (axis_of d))%Q) by (unfold width; cbn [a_lo a_hi a_n axis_of]; rewrite Sz; field; lra). rewrite E. assert (E2 : (d_step d / 2 == (1 # 2) * d_step d)%Q) by field. rewrite E2. change (Axis (d_lo d) (d_hi d) (d_num d)) with (axis_of d) in *. lra. }
  destruct G as (x & Ex & G). exists x. split; [exact Ex|]. split.
  - apply (C18_voxel _ _ _ _ _ _ H). rewrite all3_map. apply all3_impl with (2 := F) (3 := G). intros d y k O (R & I). now apply inner_accepted.
  - rewrite all3_map. apply all3_impl with (2 := F) (3 := G). intros d y k O (R & I). exact I.
Qed.
(** Three voxels in every dimension are enough. *)
Theorem C18_local_three : forall bs t r ds, initialize bs t r = Some ds -> Forall (fun a => 3 <= a_n a) (map axis_of ds) -> Forall2 (fun a s => s < 2 * width a)%Q (map axis_of ds) [t; t; t; r; r; r].
Proof.
  intros bs t r ds H N. unfold initialize in H. destruct (length bs =? 6)%nat eqn:L6; [|discriminate].
  assert (G : forall bs ss ds, init_dims bs ss = Some ds -> Forall (fun a => 3 <= a_n a) (map axis_of ds) -> Forall2 (fun a s => s < 2 * width a)%Q (map axis_of ds) (map d_step ds)).
  { clear. induction bs as [|[lo hi] bs IH]; intros ss ds H N; cbn [init_dims] in H.
    - destruct ss; injection H as <-; constructor.
    - destruct ss as [|s ss]; [discriminate|]. destruct (init_dim lo hi s) as [d|] eqn:E; [|discriminate]. destruct (init_dims bs ss) as [ds'|] eqn:E'; [|discriminate]. injection H as <-. cbn [map] in *. apply Forall_cons_iff in N as [N1 N2].
      constructor; [|now apply (IH ss)]. destruct (init_dim_ok _ _ _ _ E) as (O & <- & <- & <-). assert (Q0 := num_pos d O). assert (W0 := width_pos d O). pose proof (hi_eq d O) as Hh. destruct O as (O1 & _ & _ & O4 & _). cbn [a_n axis_of] in N1.
      assert (Dn : d_num d = trunc ((d_hi d - d_lo d) / d_step d) + 1).
      { unfold init_dim in E. destruct (Qle_bool _ 0); [discriminate|]. destruct (Qle_bool _ _); [discriminate|]. destruct (_ <=? 0); [discriminate|]. injection E as E. rewrite <- E at 1. reflexivity. }
      assert (P : (0 <= (d_hi d - d_lo d) / d_step d)%Q) by (apply Qle_shift_div_l; [assumption|lra]). destruct (trunc_pos _ P) as [T1 [T2 _]]. set (n := trunc ((d_hi d - d_lo d) / d_step d)) in *. rewrite Dn, injS in *.
      assert (T3 : (inject_Z n * d_step d <= d_hi d - d_lo d)%Q). { assert (K : ((d_hi d - d_lo d) == (d_hi d - d_lo d) / d_step d * d_step d)%Q) by (field; lra). rewrite K. apply Qmult_le_compat_r; lra. }
      assert (N3 : (2 <= inject_Z n)%Q) by (change 2%Q with (inject_Z 2); apply injZ; lia).
      set (w := width (axis_of d)) in *. set (m := inject_Z n) in *. clearbody w m. destruct (Qlt_le_dec (d_step d) (2 * w)) as [|C]; [assumption|exfalso]. assert ((m + 1) * w < m * (2 * w))%Q.
      { assert (0 < w * (m - 1))%Q by (apply Qmult_lt_0_compat; lra). lra. }
      assert (m * (2 * w) <= m * d_step d)%Q by (rewrite !(Qmult_comm m); apply Qmult_le_compat_r; lra). lra. }
  destruct (init_dims_ok _ _ _ H) as (_ & M & S). specialize (G _ _ _ H N). apply Nat.eqb_eq in L6. rewrite L6 in S. rewrite S in G. exact G.
Qed.
(** With voxels narrower than half a step the pose belongs to another voxel, or to none. *)
Theorem C18_local_refuted :
  (exists ds x, initialize (cube 10) 10 10 = Some ds /\ pose_from_voxel_local ds [0; 0; 0; 0; 0; 0] = Some x /\ voxel_from_pose ds x = Some [1; 1; 1; 1; 1; 1]) /\
  (exists ds x, initialize (cube 1) 10 10 = Some ds /\ pose_from_voxel_local ds [0; 0; 0; 0; 0; 0] = Some x /\ voxel_from_pose ds x = None).
Proof. split; eexists _, _; (split; [vm_compute; reflexivity|]); (split; [vm_compute; reflexivity|]); vm_compute; reflexivity. Qed.

(** [getVoxelSize] is the width of the voxels for the six dimensions and reads behind the arrays for the number 6. *)
Theorem C18_voxel_size : forall bs t r ds, initialize bs t r = Some ds ->
  (forall i a, (i < 6)%nat -> nth_error (map axis_of ds) i = Some a -> voxel_size ds (Z.of_nat i) = Some (width a)) /\ voxel_size ds 6 = None.
Proof.
  intros bs t r ds H. destruct (initialize_ok _ _ _ _ H) as (L & F & _). split.
  - intros i a Hi N. rewrite nth_error_map in N. destruct (nth_error ds i) as [d|] eqn:E; [|discriminate]. injection N as <-. unfold voxel_size. destruct (Z.ltb_spec (Z.of_nat i) 0); [lia|]. destruct (Z.ltb_spec 6 (Z.of_nat i)); [lia|]. cbn [orb]. rewrite Nat2Z.id, E.
    rewrite Forall_forall in F. destruct (F d (nth_error_In _ _ E)) as (_ & Sz & K & _). destruct (Z.leb_spec (d_num d) 0); [lia|]. unfold width. cbn [a_lo a_hi a_n axis_of]. now rewrite Sz.
  - unfold voxel_size. cbn. change (Pos.to_nat 6) with 6%nat. rewrite (proj2 (nth_error_None ds 6)) by lia. reflexivity.
Qed.

Example C18_example : exists ds, initialize [(-500, 500); (-300, 300); (0, 1000); (- (314 # 100), 314 # 100); (0, 314 # 100); (- (314 # 100), 314 # 100)]%Q 100 (1 # 2) = Some ds /\
  map d_num ds = [11; 7; 11; 13; 7; 13] /\ voxel_from_pose ds [500; -300; 4; 0; 1; -3]%Q = Some [10; 0; 0; 6; 2; 0] /\
  exists x, pose_from_voxel ds [10; 0; 0; 6; 2; 0] = Some x /\ voxel_from_pose ds x = Some [10; 0; 0; 6; 2; 0].
Proof. eexists. split; [vm_compute; reflexivity|]. split; [vm_compute; reflexivity|]. split; [vm_compute; reflexivity|]. eexists. split; vm_compute; reflexivity. Qed.

Print Assumptions C18_axes.
Print Assumptions C18_voxel.
Print Assumptions C18_accepts.
Print Assumptions C18_inside.
Print Assumptions C18_tolerance_refuted.
Print Assumptions C18_pose.
Print Assumptions C18_position.
Print Assumptions C18_position_refuted.
Print Assumptions C18_local.
Print Assumptions C18_local_three.
Print Assumptions C18_local_refuted.
Print Assumptions C18_voxel_size.
