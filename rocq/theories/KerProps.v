(** C99, C100: kernels and Gaussian implicit surfaces. *)
From Coq Require Import Reals List Bool Arith Lra Lia.
From Verif Require Import QuatModel KinModel CrvSpec CrvProofs KerSpec KerModel KerProofs.
Import ListNotations.
Open Scope R_scope.

Lemma coord_sub a p q : coord a (vsub p q) = coord a p - coord a q.
Proof. destruct a as [|[|a]]; reflexivity. Qed.
Lemma coord_shift_same a s p : coord a (shift a s p) = coord a p + s.
Proof. destruct a as [|[|a]]; reflexivity. Qed.
Lemma coord_shift_other a b s p : (a < 3)%nat -> (b < 3)%nat -> a <> b -> coord b (shift a s p) = coord b p.
Proof. intros LA LB N. destruct a as [|[|[|a]]]; destruct b as [|[|[|b]]]; try lia; reflexivity. Qed.
Lemma dj_of K k p1 p2 R0 b : (forall x y z r, k_dx k x y z r R0 = Some (6 * x * (r + K))) -> (b < 3)%nat -> k_full k p1 p2 R0 0 (S b) = Some (- (6 * coord b (vsub p1 p2) * (vnorm (vsub p1 p2) + K))).
Proof. intros H L. cbn [k_full]. unfold k_dj. cbv zeta. destruct (swap_ok (vx (vsub p1 p2)) (vy (vsub p1 p2)) (vz (vsub p1 p2)) b L) as (u & v & ->). rewrite H. destruct b as [|[|[|b]]]; try lia; reflexivity. Qed.
Lemma di_of K k p1 p2 R0 b : (forall x y z r, k_dx k x y z r R0 = Some (6 * x * (r + K))) -> (b < 3)%nat -> k_full k p1 p2 R0 (S b) 0 = Some (6 * coord b (vsub p1 p2) * (vnorm (vsub p1 p2) + K)).
Proof. intros H L. cbn [k_full]. unfold k_di. cbv zeta. destruct (swap_ok (vx (vsub p1 p2)) (vy (vsub p1 p2)) (vz (vsub p1 p2)) b L) as (u & v & ->). rewrite H. destruct b as [|[|[|b]]]; try lia; reflexivity. Qed.
Lemma first_of K c k p1 p2 R0 a : (forall p q, k_val k p q R0 = 2 * vnorm (vsub p q) * vnorm (vsub p q) * vnorm (vsub p q) + 3 * K * vnorm (vsub p q) * vnorm (vsub p q) + c) ->
  partial (fun p => k_val k p p2 R0) p1 a (6 * coord a (vsub p1 p2) * (vnorm (vsub p1 p2) + K)) /\ partial (fun p => k_val k p1 p R0) p2 a (- (6 * coord a (vsub p1 p2) * (vnorm (vsub p1 p2) + K))).
Proof.
  intros V. unfold partial. split.
  - refine (lim_ext _ _ 0 _ _ (lim_eq _ 0 _ _ _ (val_lim (rest a (vsub p1 p2)) (coord a (vsub p1 p2)) (rest_nonneg _ _) K c))).
    + intros s. rewrite V, norm_shift1. reflexivity.
    + rewrite <- norm_rho0. reflexivity.
  - refine (lim_ext _ _ 0 _ _ (lim_eq _ 0 _ _ _ (val_lim (rest a (vsub p2 p1)) (coord a (vsub p2 p1)) (rest_nonneg _ _) K c))).
    + intros s. rewrite V, (norm_sym p1), norm_shift1. reflexivity.
    + rewrite <- norm_rho0, (norm_sym p2), !coord_sub. ring.
Qed.
Definition second_true (K : R) (p1 p2 : vec3) (a b : nat) : R :=
  let d := vsub p1 p2 in let r := vnorm d in
  if Nat.eqb a b then (if Req_EM_T r 0 then - (6 * K) else - (6 * (r + K) + 6 * coord a d * coord a d / r)) else (if Req_EM_T r 0 then 0 else - (6 * coord a d * coord b d / r)).
Lemma second_of K p1 p2 a b : (a < 3)%nat -> (b < 3)%nat -> partial (fun p => - (6 * coord b (vsub p p2) * (vnorm (vsub p p2) + K))) p1 a (second_true K p1 p2 a b).
Proof.
  intros LA LB. unfold partial, second_true. cbv zeta. destruct (Nat.eqb_spec a b) as [<-|N].
  - assert (H := dx_lim (rest a (vsub p1 p2)) (coord a (vsub p1 p2)) (rest_nonneg _ _) K). rewrite <- norm_rho0 in H. refine (lim_ext _ _ 0 _ _ (lim_eq _ 0 _ _ _ (derivable_pt_lim_scal _ (-1) 0 _ H))).
    + intros s. unfold mult_real_fct. rewrite norm_shift1, !coord_sub, coord_shift_same. ring.
    + destruct (Req_EM_T (vnorm (vsub p1 p2)) 0); ring.
  - assert (CZ : rest a (vsub p1 p2) + coord a (vsub p1 p2) * coord a (vsub p1 p2) = 0 -> coord b (vsub p1 p2) = 0).
    { intros Z. assert (V : vnorm (vsub p1 p2) = 0) by (rewrite (norm_rho0 a), rho0, Z; apply sqrt_0). apply norm_zero in V. destruct V as (V1 & V2 & V3). destruct b as [|[|b]]; cbn [coord]; assumption. }
    assert (H := dy_lim (rest a (vsub p1 p2)) (coord a (vsub p1 p2)) (rest_nonneg _ _) (coord b (vsub p1 p2)) K CZ). rewrite <- norm_rho0 in H. refine (lim_ext _ _ 0 _ _ (lim_eq _ 0 _ _ _ (derivable_pt_lim_scal _ (-1) 0 _ H))).
    + intros s. unfold mult_real_fct. rewrite norm_shift1, !(coord_sub b), coord_shift_other by assumption. ring.
    + destruct (Req_EM_T (vnorm (vsub p1 p2)) 0); [ring|]. field. assumption.
Qed.
Lemma didj_diag k p1 p2 R0 a : (a < 3)%nat -> exists y z, k_full k p1 p2 R0 (S a) (S a) = oneg (k_ddx k (coord a (vsub p1 p2)) y z (vnorm (vsub p1 p2)) R0).
Proof. intros L. cbn [k_full]. unfold k_didj. cbv zeta. rewrite Nat.eqb_refl. destruct (swap_ok (vx (vsub p1 p2)) (vy (vsub p1 p2)) (vz (vsub p1 p2)) a L) as (u & v & ->). exists u, v. destruct a as [|[|[|a]]]; try lia; reflexivity. Qed.
Lemma didj_off k p1 p2 R0 a b : (a < 3)%nat -> (b < 3)%nat -> a <> b -> exists z, k_full k p1 p2 R0 (S a) (S b) = oneg (k_dxdy k (coord a (vsub p1 p2)) (coord b (vsub p1 p2)) z (vnorm (vsub p1 p2)) R0).
Proof.
  intros LA LB N. cbn [k_full]. unfold k_didj. cbv zeta. destruct (Nat.eqb_spec a b); [contradiction|]. destruct a as [|[|[|a]]]; destruct b as [|[|[|b]]]; try lia; cbn [nth_error Nat.sub]; eexists; reflexivity.
Qed.

(** C99: the first derivatives that both Williams kernels report are the partial derivatives of the kernel in the first and in the second point, also where the points coincide. *)
Theorem C99_first_derivatives : forall k p1 p2 R0 a, k = williams_plus \/ k = williams_minus -> (a < 3)%nat ->
  (exists d, k_full k p1 p2 R0 (S a) 0 = Some d /\ partial (fun p => k_val k p p2 R0) p1 a d) /\
  (exists d, k_full k p1 p2 R0 0 (S a) = Some d /\ partial (fun p => k_val k p1 p R0) p2 a d).
Proof.
  intros k p1 p2 R0 a K L.
  assert (X : exists K c, (forall x y z r, k_dx k x y z r R0 = Some (6 * x * (r + K))) /\ (forall p q, k_val k p q R0 = 2 * vnorm (vsub p q) * vnorm (vsub p q) * vnorm (vsub p q) + 3 * K * vnorm (vsub p q) * vnorm (vsub p q) + c)).
  { destruct K as [->| ->]; [exists R0, (R0 * R0 * R0)|exists (- R0), (R0 * R0 * R0)]; split; intros; cbn [k_dx k_val williams_plus williams_minus]; cbv zeta; [reflexivity|ring|f_equal; ring|ring]. }
  destruct X as (K' & c & DX & V). destruct (first_of K' c k p1 p2 R0 a V) as [F1 F2]. split; eexists; (split; [|eassumption]); [apply di_of|apply dj_of]; assumption.
Qed.
(** The second derivatives of the plus kernel: the entry (i, j) is the derivative, along axis i of the first point, of the derivative along axis j of the second. *)
Theorem C99_plus_second : forall p1 p2 R0 a b, (a < 3)%nat -> (b < 3)%nat ->
  exists d, k_full williams_plus p1 p2 R0 (S a) (S b) = Some d /\ partial (fun p => match k_full williams_plus p p2 R0 0 (S b) with Some v => v | None => 0 end) p1 a d.
Proof.
  intros p1 p2 R0 a b LA LB. exists (second_true R0 p1 p2 a b). split.
  - unfold second_true. cbv zeta. destruct (Nat.eqb_spec a b) as [<-|N].
    + destruct (didj_diag williams_plus p1 p2 R0 a LA) as (y & z & ->). cbn [k_ddx williams_plus oneg]. f_equal. destruct (Req_EM_T _ 0); [reflexivity|]. ring.
    + destruct (didj_off williams_plus p1 p2 R0 a b LA LB N) as (z & ->). cbn [k_dxdy williams_plus oneg]. f_equal. destruct (Req_EM_T _ 0); ring.
  - assert (H := second_of R0 p1 p2 a b LA LB). unfold partial in *. refine (lim_ext _ _ 0 _ _ H). intros s. rewrite (dj_of R0) by (assumption || reflexivity). reflexivity.
Qed.
(** The second derivatives of the minus kernel are not: the true ones are off by 12 (r - R) on the diagonal and have the opposite sign elsewhere. *)
Theorem C99_minus_second_off : forall p1 p2 R0 a b, (a < 3)%nat -> (b < 3)%nat -> distance p1 p2 <> 0 ->
  exists d, k_full williams_minus p1 p2 R0 (S a) (S b) = Some d /\
  partial (fun p => match k_full williams_minus p p2 R0 0 (S b) with Some v => v | None => 0 end) p1 a (if Nat.eqb a b then d - 12 * (distance p1 p2 - R0) else - d).
Proof.
  intros p1 p2 R0 a b LA LB NZ. rewrite <- norm_distance in *.
  assert (H : partial (fun p => match k_full williams_minus p p2 R0 0 (S b) with Some v => v | None => 0 end) p1 a (second_true (- R0) p1 p2 a b)).
  { assert (H := second_of (- R0) p1 p2 a b LA LB). unfold partial in *. refine (lim_ext _ _ 0 _ _ H). intros s. rewrite (dj_of (- R0)) by (assumption || (intros; cbn [k_dx williams_minus]; f_equal; ring)). reflexivity. }
  unfold second_true in H. cbv zeta in H. destruct (Nat.eqb_spec a b) as [<-|N].
  - destruct (didj_diag williams_minus p1 p2 R0 a LA) as (y & z & E). cbn [k_ddx williams_minus oneg] in E. destruct (Req_EM_T _ 0) as [Z|_] in E; [contradiction|]. eexists. split; [exact E|]. refine (lim_eq _ 0 _ _ _ H). destruct (Req_EM_T _ 0); [contradiction|]. ring.
  - destruct (didj_off williams_minus p1 p2 R0 a b LA LB N) as (z & E). cbn [k_dxdy williams_minus oneg] in E. destruct (Req_EM_T _ 0) as [Z|_] in E; [contradiction|]. eexists. split; [exact E|]. refine (lim_eq _ 0 _ _ _ H). destruct (Req_EM_T _ 0); [contradiction|]. field. assumption.
Qed.
(** The second derivatives WilliamsMinusKernel reports are not the derivatives of its first derivatives. *)
Theorem C99_minus_second_refuted : ~ (forall p1 p2 R0 a b, (a < 3)%nat -> (b < 3)%nat -> 0 <= distance p1 p2 <= R0 ->
  exists d, k_full williams_minus p1 p2 R0 (S a) (S b) = Some d /\ partial (fun p => match k_full williams_minus p p2 R0 0 (S b) with Some v => v | None => 0 end) p1 a d).
Proof.
  intros H. set (p := Vec 1 0 0). set (o := Vec 0 0 0). assert (D : distance p o = 1) by (unfold distance, p, o; cbn [vx vy vz]; replace (_ + _ + _) with 1 by ring; apply sqrt_1).
  destruct (H p o 2 0%nat 0%nat ltac:(lia) ltac:(lia) ltac:(rewrite D; lra)) as (d & E & P). destruct (C99_minus_second_off p o 2 0 0 ltac:(lia) ltac:(lia) ltac:(rewrite D; lra)) as (d' & E' & P'). rewrite E in E'. injection E' as <-. rewrite D in P'. cbn [Nat.eqb] in P'.
  assert (U := uniqueness_limite _ _ _ _ P P'). lra.
Qed.
(** Exchanging the points together with the indices changes nothing, so the covariance matrix is symmetric. *)
Theorem C99_symmetric : forall k p1 p2 R0 i j, k = williams_plus \/ k = williams_minus -> (i < 4)%nat -> (j < 4)%nat -> k_full k p1 p2 R0 i j = k_full k p2 p1 R0 j i.
Proof.
  intros k p1 p2 R0 i j K LI LJ. assert (NS := norm_sym p1 p2).
  assert (X : exists K, forall x y z r, k_dx k x y z r R0 = Some (6 * x * (r + K))). { destruct K as [->| ->]; [exists R0|exists (- R0)]; intros; cbn [k_dx williams_plus williams_minus]; [reflexivity|f_equal; ring]. }
  destruct X as (K' & DX). destruct i as [|i]; destruct j as [|j].
  - cbn [k_full]. f_equal. destruct K as [->| ->]; cbn [k_val williams_plus williams_minus]; cbv zeta; rewrite NS; reflexivity.
  - rewrite (dj_of K'), (di_of K') by (assumption || lia). f_equal. rewrite NS, !coord_sub. ring.
  - rewrite (di_of K'), (dj_of K') by (assumption || lia). f_equal. rewrite NS, !coord_sub. ring.
  - destruct (Nat.eq_dec i j) as [<-|N].
    + destruct (didj_diag k p1 p2 R0 i ltac:(lia)) as (y & z & ->). destruct (didj_diag k p2 p1 R0 i ltac:(lia)) as (y' & z' & ->). rewrite NS, !coord_sub. destruct K as [->| ->]; cbn [k_ddx williams_plus williams_minus oneg]; f_equal; f_equal; destruct (Req_EM_T _ 0); [reflexivity|field; assumption|reflexivity|field; assumption].
    + destruct (didj_off k p1 p2 R0 i j ltac:(lia) ltac:(lia) N) as (z & ->). destruct (didj_off k p2 p1 R0 j i ltac:(lia) ltac:(lia) (not_eq_sym N)) as (z' & ->). rewrite NS, !coord_sub. destruct K as [->| ->]; cbn [k_dxdy williams_plus williams_minus oneg]; f_equal; f_equal; destruct (Req_EM_T _ 0); [reflexivity|field; assumption|reflexivity|field; assumption].
Qed.
(** The Gaussian kernel: symmetric, in (0, 1], one exactly for equal points; all its derivatives throw; and indices above 3 throw for every kernel. *)
Theorem C99_gaussian : forall len p q R0, len <> 0 ->
  k_val (gaussian len) p q R0 = k_val (gaussian len) q p R0 /\ 0 < k_val (gaussian len) p q R0 <= 1 /\ (k_val (gaussian len) p q R0 = 1 <-> p = q) /\
  forall i j, (0 < i + j)%nat -> k_full (gaussian len) p q R0 i j = None.
Proof.
  intros len p q R0 N. cbn [k_val gaussian]. cbv zeta. assert (L2 : 0 < 2 * len * len) by (assert (0 < len * len) by (destruct (Rlt_dec 0 len); nra); lra).
  assert (D0 : 0 <= vdot (vsub p q) (vsub p q)) by (unfold vdot; pose proof (Rle_0_sqr (vx (vsub p q))); pose proof (Rle_0_sqr (vy (vsub p q))); pose proof (Rle_0_sqr (vz (vsub p q))); unfold Rsqr in *; lra).
  assert (Q0 : 0 <= vdot (vsub p q) (vsub p q) / (2 * len * len)) by (apply Rmult_le_pos; [exact D0|left; apply Rinv_0_lt_compat, L2]).
  split; [do 3 f_equal; unfold vdot, vsub; cbn [vx vy vz]; ring|]. split; [|split].
  - split; [apply exp_pos|]. rewrite <- exp_0. destruct Q0 as [Q|Q]; [left; apply exp_increasing; lra|rewrite <- Q; right; f_equal; ring].
  - split.
    + intros E. rewrite <- exp_0 in E. apply exp_inv in E. assert (Z : vdot (vsub p q) (vsub p q) / (2 * len * len) * (2 * len * len) = 0) by (replace (vdot (vsub p q) (vsub p q) / (2 * len * len)) with 0 by lra; ring).
      unfold Rdiv in Z. rewrite Rmult_assoc, Rinv_l, Rmult_1_r in Z by lra. assert (V : vnorm (vsub p q) = 0) by (unfold vnorm; rewrite Z; apply sqrt_0). apply norm_zero in V. unfold vsub in V. cbn [vx vy vz] in V. apply veq; lra.
    + intros <-. replace (vdot (vsub p p) (vsub p p)) with 0 by (unfold vdot, vsub; cbn [vx vy vz]; ring). unfold Rdiv. rewrite Rmult_0_l, Ropp_0. apply exp_0.
  - intros i j S0. destruct i as [|i]; destruct j as [|j]; try lia; cbn [k_full].
    + unfold k_dj. cbv zeta. destruct (swap_axes _ _ _ _) as [[[x y] z]|]; reflexivity.
    + unfold k_di. cbv zeta. destruct (swap_axes _ _ _ _) as [[[x y] z]|]; reflexivity.
    + unfold k_didj. cbv zeta. destruct (Nat.eqb i j); [destruct (swap_axes _ _ _ _) as [[[x y] z]|]; reflexivity|]. destruct (nth_error _ i); [|reflexivity]. destruct (nth_error _ j); [|reflexivity]. destruct (nth_error _ _); reflexivity.
Qed.
Theorem C99_out_of_range : forall k p1 p2 R0 i j, (3 < i \/ 3 < j)%nat -> k_full k p1 p2 R0 i j = None.
Proof.
  intros k p1 p2 R0 i j L. assert (SW : forall x y z n, (3 <= n)%nat -> swap_axes x y z n = None) by (intros x y z n Hn; destruct n as [|[|[|n]]]; try lia; reflexivity).
  destruct i as [|i]; destruct j as [|j]; try lia; cbn [k_full].
  - unfold k_dj. cbv zeta. rewrite SW by lia. reflexivity.
  - unfold k_di. cbv zeta. rewrite SW by lia. reflexivity.
  - unfold k_didj. cbv zeta. destruct (Nat.eqb_spec i j) as [E|E]; [rewrite SW by lia; reflexivity|].
    assert (A : forall n, (3 <= n)%nat -> nth_error [vx (vsub p1 p2); vy (vsub p1 p2); vz (vsub p1 p2)] n = None) by (intros n Hn; apply nth_error_None; cbn [length]; lia).
    destruct L as [L|L]; [rewrite (A i) by lia; reflexivity|rewrite (A j) by lia; destruct (nth_error _ i); reflexivity].
Qed.

(** C100: Gaussian implicit surfaces.  The radius is the greatest distance of two samples. *)
Lemma max_fold (f : vec3 -> R) : forall l m, m <= fold_left (fun r p => Rmax r (f p)) l m /\ (forall p, In p l -> f p <= fold_left (fun r p => Rmax r (f p)) l m) /\ (fold_left (fun r p => Rmax r (f p)) l m = m \/ exists p, In p l /\ fold_left (fun r p => Rmax r (f p)) l m = f p).
Proof.
  induction l as [|q l IH]; intros m; cbn [fold_left]; [split; [lra|split; [intros p []|left; reflexivity]]|].
  destruct (IH (Rmax m (f q))) as (A & B & C). pose proof (Rmax_l m (f q)). pose proof (Rmax_r m (f q)). split; [lra|]. split; [intros p [<-|I]; [lra|apply B, I]|].
  destruct C as [C|(p & I & C)]; [|right; exists p; split; [right; exact I|exact C]]. destruct (Rle_dec m (f q)) as [LE|GT]; [right; exists q; split; [left; reflexivity|]; rewrite C; apply Rmax_right, LE|left; rewrite C; apply Rmax_left; lra].
Qed.
Theorem C100_radius : forall points,
  (forall p q, In p points -> In q points -> distance p q <= radius points) /\
  (points <> [] -> exists p q, In p points /\ In q points /\ radius points = distance p q) /\ (points = [] -> radius points = 0).
Proof.
  intros points. assert (G : forall l m, let r := fold_left (fun R0 p1 => fold_left (fun R0 p2 => Rmax R0 (squared_distance p1 p2)) points R0) l m in
     m <= r /\ (forall p q, In p l -> In q points -> squared_distance p q <= r) /\ (r = m \/ exists p q, In p l /\ In q points /\ r = squared_distance p q)).
  { induction l as [|p0 l IH]; intros m; cbv zeta; cbn [fold_left]; [split; [lra|split; [intros p q []|left; reflexivity]]|].
    destruct (max_fold (squared_distance p0) points m) as (A & B & C). set (m1 := fold_left (fun R0 p2 => Rmax R0 (squared_distance p0 p2)) points m) in *. destruct (IH m1) as (A' & B' & C'). set (r := fold_left _ l m1) in *. clearbody m1 r.
    split; [lra|]. split.
    - intros p q [<-|I] J; [specialize (B q J); lra|apply B'; assumption].
    - destruct C' as [->|(p & q & I & J & E)]; [|right; exists p, q; split; [right; exact I|split; assumption]]. destruct C as [C|(q & J & C)]; [left; exact C|right; exists p0, q; split; [left; reflexivity|split; assumption]]. }
  destruct (G points 0) as (A & B & C). assert (SD : forall p q, sqrt (squared_distance p q) = distance p q) by (intros; apply norm_distance). unfold radius. set (r := fold_left _ points 0) in *. split; [|split].
  - intros p q I J. rewrite <- SD. apply sqrt_le_1_alt, B; assumption.
  - intros N. destruct C as [C|(p & q & I & J & ->)]; [|exists p, q; split; [exact I|split; [exact J|apply SD]]]. destruct points as [|p points]; [destruct N; reflexivity|]. exists p, p. split; [left; reflexivity|]. split; [left; reflexivity|]. rewrite C, sqrt_0, distance_self. reflexivity.
  - intros E. unfold r. rewrite E. apply sqrt_0.
Qed.
Lemma nth_at {A B} (f : A -> B) l i s d : nth_error l i = Some s -> nth i (map f l) d = f s.
Proof. intros E. apply nth_error_nth. rewrite nth_error_map, E. reflexivity. Qed.
(** The prediction at a sample differs from its value by the squared noise of this sample times its weight; so a sample without noise is met exactly. *)
Theorem C100_interpolates : forall k l inv i s, (forall p q r, k_val k p q r = k_val k q p r) -> inverse_of (length l) (covariance k l (radius (points_of l))) inv -> nth_error l i = Some s ->
  s_value s - predict k l inv (s_pos s) = s_noise s * s_noise s * sum_to (length l) (fun j => inv i j * nth j (map s_value l) 0) /\
  (s_noise s = 0 -> predict k l inv (s_pos s) = s_value s).
Proof.
  intros k l inv i s SY IV E. assert (L : (i < length l)%nat) by (apply nth_error_Some; rewrite E; discriminate). assert (A := alpha_solves _ _ _ (fun j => nth j (map s_value l) 0) i IV L). cbv beta in A. rewrite (nth_at s_value l i s 0 E) in A.
  assert (K : sum_to (length l) (fun j => covariance k l (radius (points_of l)) i j * alpha inv (length l) (fun j => nth j (map s_value l) 0) j) = predict k l inv (s_pos s) + s_noise s * s_noise s * alpha inv (length l) (fun j => nth j (map s_value l) 0) i).
  { unfold predict. cbv zeta. set (al := alpha inv (length l) (fun j => nth j (map s_value l) 0)). set (r := radius (points_of l)). rewrite <- (sum_delta (length l) i al L), <- sum_scale, <- sum_add. apply sum_ext. intros j J. unfold covariance, cux. cbv zeta.
    assert (P : at_point (points_of l) i = s_pos s) by (apply nth_at, E). rewrite P. destruct (Nat.leb_spec i j) as [LE|GT].
    - destruct (Nat.eqb_spec i j) as [<-|N]; [rewrite (nth_at s_noise l i s 0 E); ring|ring].
    - rewrite (SY (at_point (points_of l) j)). destruct (Nat.eqb_spec i j) as [EQ|N]; [lia|ring]. }
  rewrite K in A. change (sum_to (length l) (fun j => inv i j * nth j (map s_value l) 0)) with (alpha inv (length l) (fun j => nth j (map s_value l) 0) i). split; [lra|]. intros Z. rewrite Z in A. lra.
Qed.
(** The variance at a sample without noise is zero. *)
Theorem C100_variance : forall k l inv i s, (forall p q r, k_val k p q r = k_val k q p r) -> inverse_of (length l) (covariance k l (radius (points_of l))) inv -> nth_error l i = Some s -> s_noise s = 0 -> variance k l inv (s_pos s) = 0.
Proof.
  intros k l inv i s SY [_ IV] E Z. assert (L : (i < length l)%nat) by (apply nth_error_Some; rewrite E; discriminate). unfold variance. cbv zeta. set (r := radius (points_of l)) in *.
  assert (P : at_point (points_of l) i = s_pos s) by (apply nth_at, E). assert (NZ : nth i (map s_noise l) 0 = 0) by (rewrite (nth_at s_noise l i s 0 E); exact Z).
  assert (C : forall j, (j < length l)%nat -> cux k l r (s_pos s) j = covariance k l r j i).
  { intros j J. unfold covariance, cux. cbv zeta. rewrite P. destruct (Nat.leb_spec j i) as [LE|GT].
    - destruct (Nat.eqb_spec j i) as [->|N]; [rewrite NZ, P; ring|rewrite (SY (s_pos s)); ring].
    - destruct (Nat.eqb_spec j i); [lia|ring]. }
  rewrite (sum_ext _ _ (fun j => (if Nat.eqb i j then 1 else 0) * cux k l r (s_pos s) j)).
  2:{ intros j J. rewrite Rmult_comm. f_equal. rewrite (sum_ext _ _ (fun m => inv j m * covariance k l r m i)) by (intros m M; rewrite C by exact M; reflexivity). rewrite (IV j i J L). rewrite Nat.eqb_sym. reflexivity. }
  rewrite sum_delta by exact L. unfold cux. rewrite P. ring.
Qed.

(** Surfaces with normals: without noise, the surface of the plus kernel contains every contact point, and its gradient there is the normal of the contact. *)
Theorem C100_surface : forall l scale inv i c, inverse_of (4 * length l) (n_covariance williams_plus (map c_pos l) (radius (map c_pos l)) 0 0) inv -> nth_error l i = Some c ->
  n_predict williams_plus l scale inv (c_pos c) = 0 /\
  forall a, (a < 3)%nat -> partial (n_predict williams_plus l scale inv) (c_pos c) a (coord a (c_normal c)).
Proof.
  intros l scale inv i c IV E. assert (L : (i < length l)%nat) by (apply nth_error_Some; rewrite E; discriminate). set (r := radius (map c_pos l)) in *. set (n := (4 * length l)%nat) in *.
  assert (ST : forall j, at_point (map c_pos (n_stored scale l)) j = at_point (map c_pos l) j) by (intros j; unfold n_stored; rewrite map_map; reflexivity).
  assert (P : at_point (map c_pos l) i = c_pos c) by (apply nth_at, E).
  assert (ROW : forall a j, (a < 4)%nat -> (j < n)%nat -> n_covariance williams_plus (map c_pos l) r 0 0 (4 * i + a) j = kd williams_plus (c_pos c) (at_point (map c_pos l) (j / 4)) r a (j mod 4)).
  { intros a j LA J. unfold n_covariance. cbv zeta. replace ((4 * i + a) / 4)%nat with i by (rewrite Nat.mul_comm, Nat.div_add_l, Nat.div_small by lia; lia). replace ((4 * i + a) mod 4)%nat with a by (rewrite Nat.add_comm, Nat.mul_comm, Nat.mod_add, Nat.mod_small by lia; reflexivity).
    rewrite P. replace (if Nat.eqb a 0 then 0 * 0 else 0 * 0) with 0 by (destruct (Nat.eqb a 0); ring). replace (if _ && _ then 0 else 0) with 0 by (destruct (_ && _); reflexivity). rewrite Rplus_0_r. destruct (4 * i + a <=? j)%nat; [reflexivity|].
    unfold kd. rewrite C99_symmetric; [reflexivity|left; reflexivity|apply Nat.mod_upper_bound; lia|exact LA]. }
  assert (VAL : forall a, (a < 4)%nat -> sum_to n (fun j => kd williams_plus (c_pos c) (at_point (map c_pos l) (j / 4)) r a (j mod 4) * alpha inv n (n_values l) j) = match a with O => 0 | S b => coord b (c_normal c) end).
  { intros a LA. assert (LI : (4 * i + a < n)%nat) by (unfold n; lia). assert (A := alpha_solves n _ inv (n_values l) (4 * i + a) IV LI). rewrite (sum_ext n _ _ (fun j J => f_equal (fun x => x * alpha inv n (n_values l) j) (ROW a j LA J))) in A. rewrite A. unfold n_values.
    replace ((4 * i + a) / 4)%nat with i by (rewrite Nat.mul_comm, Nat.div_add_l, Nat.div_small by lia; lia). replace ((4 * i + a) mod 4)%nat with a by (rewrite Nat.add_comm, Nat.mul_comm, Nat.mod_add, Nat.mod_small by lia; reflexivity). rewrite (nth_error_nth l i _ E). reflexivity. }
  split.
  - unfold n_predict. cbv zeta. fold n r. rewrite <- (VAL 0%nat) by lia. apply sum_ext. intros j J. unfold n_cux. rewrite ST. reflexivity.
  - intros a LA. rewrite <- (VAL (S a)) by lia. unfold partial, n_predict. cbv zeta. fold n r. apply (lim_sum n (fun j s => n_cux williams_plus (n_stored scale l) r (shift a s (c_pos c)) j * alpha inv n (n_values l) j)). intros j J.
    assert (D : derivable_pt_lim (fun s => n_cux williams_plus (n_stored scale l) r (shift a s (c_pos c)) j) 0 (kd williams_plus (c_pos c) (at_point (map c_pos l) (j / 4)) r (S a) (j mod 4))).
    { unfold n_cux. rewrite ST. set (q := at_point (map c_pos l) (j / 4)). assert (M : (j mod 4 < 4)%nat) by (apply Nat.mod_upper_bound; lia). destruct (j mod 4)%nat as [|b].
      - destruct (C99_first_derivatives williams_plus (c_pos c) q r a (or_introl eq_refl) LA) as [(d & E1 & D) _]. unfold kd. rewrite E1. exact D.
      - destruct (C99_plus_second (c_pos c) q r a b LA ltac:(lia)) as (d & E1 & D). unfold kd at 2. rewrite E1. exact D. }
    refine (lim_ext _ _ 0 _ _ (lim_eq _ 0 _ _ _ (derivable_pt_lim_scal _ (alpha inv n (n_values l) j) 0 _ D))); [intros s; unfold mult_real_fct; ring|ring].
Qed.
(** The parameter normalScale has no effect on the surface. *)
Theorem C100_normal_scale_ignored : forall k l s s' inv p, n_predict k l s inv p = n_predict k l s' inv p.
Proof. intros. unfold n_predict, n_cux, n_stored. cbv zeta. rewrite !map_map. reflexivity. Qed.
(** The noise does not reach every row of the covariance matrix: the loop runs over the points, of which there are a quarter as many. *)
Theorem C100_noise_refuted : ~ (forall k points R0 noise normal_noise i, (i < 4 * length points)%nat ->
  n_covariance k points R0 noise normal_noise i i = n_covariance k points R0 0 0 i i + (if Nat.eqb (i mod 4) 0 then noise * noise else normal_noise * normal_noise)).
Proof. intros H. specialize (H williams_plus [Vec 0 0 0] 1 1 1 1%nat ltac:(cbn; lia)). unfold n_covariance in H. cbn in H. lra. Qed.
(** ... it reaches exactly the first ones. *)
Theorem C100_noise_rows : forall k points R0 noise normal_noise i, n_covariance k points R0 noise normal_noise i i = n_covariance k points R0 0 0 i i +
  (if (i <? length points)%nat then (if Nat.eqb (i mod 4) 0 then noise * noise else normal_noise * normal_noise) else 0).
Proof. intros. unfold n_covariance. cbv zeta. rewrite Nat.eqb_refl. cbn [andb]. destruct (i <? length points)%nat; destruct (Nat.eqb (i mod 4) 0); ring. Qed.

(** Two contacts at distance one.  Their covariance matrix and its inverse. *)
Definition ex_a : contact := Contact (Vec 0 0 0) (Vec (-1) 0 0).
Definition ex_b : contact := Contact (Vec 1 0 0) (Vec 1 0 0).
Definition ex_matrix : list (list R) :=
  [[1; 0; 0; 0; 6; 12; 0; 0]; [0; -6; 0; 0; -12; -18; 0; 0]; [0; 0; -6; 0; 0; 0; -12; 0]; [0; 0; 0; -6; 0; 0; 0; -12];
   [6; -12; 0; 0; 1; 0; 0; 0]; [12; -18; 0; 0; 0; -6; 0; 0]; [0; 0; -12; 0; 0; 0; -6; 0]; [0; 0; 0; -12; 0; 0; 0; -6]].
Definition ex_inverse : list (list R) :=
  [[2/5; 3/20; 0; 0; -3/5; 7/20; 0; 0]; [3/20; 11/240; 0; 0; -7/20; 13/80; 0; 0]; [0; 0; 1/18; 0; 0; 0; -1/9; 0]; [0; 0; 0; 1/18; 0; 0; 0; -1/9];
   [-3/5; -7/20; 0; 0; 2/5; -3/20; 0; 0]; [7/20; 13/80; 0; 0; -3/20; 11/240; 0; 0]; [0; 0; -1/9; 0; 0; 0; 1/18; 0]; [0; 0; 0; -1/9; 0; 0; 0; 1/18]].
Definition entry (m : list (list R)) (i j : nat) : R := nth j (nth i m []) 0.
Lemma ex_kd (s : R) (p q : vec3) i j : vsub p q = Vec s 0 0 -> (s = 0 \/ s = -1 \/ s = 1) -> (i < 4)%nat -> (j < 4)%nat ->
  kd williams_plus p q 1 i j = match i, j with
    | O, O => if Req_EM_T s 0 then 1 else 6 | O, S O => -12 * s | S O, O => 12 * s
    | S a, S b => if Nat.eqb a b then (if Req_EM_T s 0 then -6 else if Nat.eqb a 0 then -18 else -12) else 0 | _, _ => 0 end.
Proof.
  intros E C LI LJ. assert (N : vnorm (vsub p q) = if Req_EM_T s 0 then 0 else 1).
  { rewrite E. unfold vnorm, vdot. cbn [vx vy vz]. destruct (Req_EM_T s 0) as [->|NZ]; [replace (_ + _ + _) with 0 by ring; apply sqrt_0|]. destruct C as [C|[-> | ->]]; [lra| |]; replace (_ + _ + _) with 1 by ring; apply sqrt_1. }
  unfold kd. destruct i as [|[|[|[|i]]]]; destruct j as [|[|[|[|j]]]]; try lia; cbn [k_full]; unfold k_di, k_dj, k_didj; cbv zeta; cbn [Nat.eqb swap_axes nth_error Nat.sub k_val k_dx k_ddx k_dxdy williams_plus oneg]; cbv zeta; try rewrite N; try rewrite E; cbn [vx vy vz];
  destruct (Req_EM_T s 0) as [Z|Z]; try (destruct (Req_EM_T 0 0) as [_|X]; [|congruence]); try (destruct (Req_EM_T 1 0) as [X|_]; [lra|]); try rewrite Z; try (destruct C as [C|[C|C]]; [lra| |]; rewrite C); field.
Qed.
Lemma ex_radius : radius (map c_pos [ex_a; ex_b]) = 1.
Proof.
  unfold radius. cbn [map fold_left ex_a ex_b c_pos]. unfold squared_distance, vsub, vdot. cbn [vx vy vz].
  replace ((0 - 0) * (0 - 0) + (0 - 0) * (0 - 0) + (0 - 0) * (0 - 0)) with 0 by ring. replace ((1 - 1) * (1 - 1) + (0 - 0) * (0 - 0) + (0 - 0) * (0 - 0)) with 0 by ring. replace ((0 - 1) * (0 - 1) + (0 - 0) * (0 - 0) + (0 - 0) * (0 - 0)) with 1 by ring. replace ((1 - 0) * (1 - 0) + (0 - 0) * (0 - 0) + (0 - 0) * (0 - 0)) with 1 by ring.
  rewrite (Rmax_left 0 0), (Rmax_right 0 1), (Rmax_left 1 1), (Rmax_left 1 0) by lra. apply sqrt_1.
Qed.
Lemma ex_covariance i j : (i < 8)%nat -> (j < 8)%nat -> n_covariance williams_plus (map c_pos [ex_a; ex_b]) 1 0 0 i j = entry ex_matrix i j.
Proof.
  assert (AA : vsub (c_pos ex_a) (c_pos ex_a) = Vec 0 0 0) by (unfold vsub, ex_a; cbn; f_equal; ring).
  assert (BB : vsub (c_pos ex_b) (c_pos ex_b) = Vec 0 0 0) by (unfold vsub, ex_b; cbn; f_equal; ring).
  assert (AB : vsub (c_pos ex_a) (c_pos ex_b) = Vec (-1) 0 0) by (unfold vsub, ex_a, ex_b; cbn; f_equal; ring).
  assert (BA : vsub (c_pos ex_b) (c_pos ex_a) = Vec 1 0 0) by (unfold vsub, ex_a, ex_b; cbn; f_equal; ring).
  assert (KAA := fun i j => ex_kd 0 _ _ i j AA ltac:(lra)). assert (KBB := fun i j => ex_kd 0 _ _ i j BB ltac:(lra)). assert (KAB := fun i j => ex_kd (-1) _ _ i j AB ltac:(lra)). assert (KBA := fun i j => ex_kd 1 _ _ i j BA ltac:(lra)).
  intros LI LJ. unfold n_covariance, at_point. cbv zeta.
  do 8 (destruct i as [|i]; [do 8 (destruct j as [|j]; [cbn [Nat.leb Nat.div Nat.divmod Nat.modulo Nat.sub fst snd nth map Nat.eqb andb length Nat.ltb entry ex_matrix];
    first [rewrite KAA by lia|rewrite KBB by lia|rewrite KAB by lia|rewrite KBA by lia]; cbn [Nat.eqb]; repeat (destruct Req_EM_T; try lra)|]); lia|]). lia.
Qed.
Example C100_surface_nonvacuous : exists inv, inverse_of 8 (n_covariance williams_plus (map c_pos [ex_a; ex_b]) (radius (map c_pos [ex_a; ex_b])) 0 0) inv.
Proof.
  exists (entry ex_inverse). rewrite ex_radius. split; intros i j LI LJ.
  - rewrite (sum_ext 8 _ (fun k => entry ex_matrix i k * entry ex_inverse k j)) by (intros k LK; rewrite ex_covariance by lia; reflexivity).
    do 8 (destruct i as [|i]; [do 8 (destruct j as [|j]; [cbn [sum_to entry ex_matrix ex_inverse nth Nat.eqb]; lra|]); lia|]). lia.
  - rewrite (sum_ext 8 _ (fun k => entry ex_inverse i k * entry ex_matrix k j)) by (intros k LK; rewrite ex_covariance by lia; reflexivity).
    do 8 (destruct i as [|i]; [do 8 (destruct j as [|j]; [cbn [sum_to entry ex_matrix ex_inverse nth Nat.eqb]; lra|]); lia|]). lia.
Qed.
(** ... and so the surface through the two contacts exists: it vanishes at both and its gradient along x at the second is one. *)
Example C100_surface_case : exists inv, n_predict williams_plus [ex_a; ex_b] 1 inv (Vec 0 0 0) = 0 /\ n_predict williams_plus [ex_a; ex_b] 1 inv (Vec 1 0 0) = 0 /\
  partial (n_predict williams_plus [ex_a; ex_b] 1 inv) (Vec 1 0 0) 0 1.
Proof.
  destruct C100_surface_nonvacuous as (inv & IV). exists inv. split; [exact (proj1 (C100_surface [ex_a; ex_b] 1 inv 0 ex_a IV eq_refl))|].
  destruct (C100_surface [ex_a; ex_b] 1 inv 1 ex_b IV eq_refl) as (A & B). split; [exact A|]. exact (B 0%nat ltac:(lia)).
Qed.
(** Two samples with different values under the Gaussian kernel: the matrix has an inverse. *)
Example C100_interpolates_nonvacuous : exists inv, let l := [Sample (Vec 0 0 0) 5 0; Sample (Vec 1 0 0) 7 0] in
  inverse_of 2 (covariance (gaussian 1) l (radius (points_of l))) inv /\ predict (gaussian 1) l inv (Vec 1 0 0) = 7.
Proof.
  set (l := [Sample (Vec 0 0 0) 5 0; Sample (Vec 1 0 0) 7 0]). set (r := radius (points_of l)). destruct (C99_gaussian 1 (Vec 0 0 0) (Vec 1 0 0) r ltac:(lra)) as (SY & (P0 & P1) & U & _). set (e := k_val (gaussian 1) (Vec 0 0 0) (Vec 1 0 0) r) in *.
  assert (N : e <> 1) by (intros X; apply U in X; injection X; lra). assert (D : 1 - e * e <> 0) by nra.
  assert (K0 : k_val (gaussian 1) (Vec 0 0 0) (Vec 0 0 0) r = 1) by (apply (C99_gaussian 1 (Vec 0 0 0) (Vec 0 0 0) r ltac:(lra)); reflexivity). assert (K1 : k_val (gaussian 1) (Vec 1 0 0) (Vec 1 0 0) r = 1) by (apply (C99_gaussian 1 (Vec 1 0 0) (Vec 1 0 0) r ltac:(lra)); reflexivity).
  exists (fun i j => if Nat.eqb i j then / (1 - e * e) else - e / (1 - e * e)). cbv zeta.
  assert (IV : inverse_of 2 (covariance (gaussian 1) l r) (fun i j => if Nat.eqb i j then / (1 - e * e) else - e / (1 - e * e))).
  { assert (C : forall i j, (i < 2)%nat -> (j < 2)%nat -> covariance (gaussian 1) l r i j = if Nat.eqb i j then 1 else e).
    { intros i j LI LJ. unfold covariance, at_point, l, points_of. cbv zeta. destruct i as [|[|i]]; destruct j as [|[|j]]; try lia; cbn [Nat.leb Nat.eqb map nth s_pos s_noise]; fold e; rewrite ?K0, ?K1; ring. }
    split; intros i j LI LJ; cbn [sum_to]; rewrite !C by lia; destruct i as [|[|i]]; destruct j as [|[|j]]; try lia; cbn [Nat.eqb]; field; exact D. }
  split; [exact IV|]. exact (proj2 (C100_interpolates (gaussian 1) l _ 1 (Sample (Vec 1 0 0) 7 0) (fun p q r => proj1 (C99_gaussian 1 p q r ltac:(lra))) IV eq_refl) eq_refl).
Qed.
Example C99_derivative_case : exists d, k_full williams_plus (Vec 1 0 0) (Vec 0 0 0) 1 1 1 = Some d /\ d = -18.
Proof.
  destruct (k_full williams_plus (Vec 1 0 0) (Vec 0 0 0) 1 1 1) as [d|] eqn:E; [|discriminate E]. exists d. split; [reflexivity|]. assert (V : vsub (Vec 1 0 0) (Vec 0 0 0) = Vec 1 0 0) by (unfold vsub; cbn; f_equal; ring). assert (X := ex_kd 1 _ _ 1 1 V ltac:(lra) ltac:(lia) ltac:(lia)). unfold kd in X. rewrite E in X. cbn [Nat.eqb] in X. destruct (Req_EM_T 1 0); lra.
Qed.
Example C100_radius_case : radius [Vec 0 0 0; Vec 1 0 0] = 1.
Proof. exact ex_radius. Qed.

Print Assumptions C99_first_derivatives. Print Assumptions C99_plus_second. Print Assumptions C99_minus_second_off. Print Assumptions C99_minus_second_refuted. Print Assumptions C99_symmetric. Print Assumptions C99_gaussian. Print Assumptions C99_out_of_range.
Print Assumptions C100_radius. Print Assumptions C100_interpolates. Print Assumptions C100_variance. Print Assumptions C100_surface. Print Assumptions C100_normal_scale_ignored. Print Assumptions C100_noise_refuted. Print Assumptions C100_noise_rows.
