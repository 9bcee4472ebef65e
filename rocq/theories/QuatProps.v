(** C28, C29 and C56, C57: quaternions. *)
From Coq Require Import Reals List Lra Nsatz.
From Verif Require Import QuatModel QuatSpec QuatProofs.
Import ListNotations.
Open Scope R_scope.

(** C28.  The algebra. *)
Theorem C28_algebra : forall a b c : quat,
  mul (mul a b) c = mul a (mul b c) /\ mul one a = a /\ mul a one = a /\ norm2 (mul a b) = norm2 a * norm2 b /\
  (a <> zero -> mul a (inverse a) = one /\ mul (inverse a) a = one /\ mul (delta a b) a = b) /\
  inverse_divisor a <> 0 /\ inverse zero = zero.
Proof.
  intros a b c. split; [apply mul_assoc|]. split; [apply mul_one_l|]. split; [apply mul_one_r|]. split; [apply norm_mul|].
  split; [|split; [apply inverse_divisor_ok|apply inverse_zero]]. intros N. destruct (inverse_ok a N) as [R L]. split; [exact R|]. split; [exact L|].
  unfold delta. rewrite mul_assoc, L. apply mul_one_r.
Qed.
(** The matrices of unit quaternions: rotations, products go to products, and two unit quaternions have the same matrix just
    when they are equal or opposite. *)
Theorem C28_matrices : forall a b : quat, unit a -> unit b ->
  rotation (to_mat a) /\ unit (mul a b) /\ to_mat (mul a b) = mmul (to_mat a) (to_mat b) /\ unit (inverse a) /\ to_mat (inverse a) = mtrans (to_mat a) /\
  (to_mat a = to_mat b <-> b = a \/ b = opp a).
Proof.
  intros a b A B. split; [apply to_mat_rotation, A|]. split; [unfold unit in *; rewrite norm_mul, A, B; ring|].
  split; [apply to_mat_mul; assumption|].
  assert (I : inverse a = conj a).
  { unfold unit, norm2 in A. unfold inverse, inverse_divisor. rewrite A. destruct (Req_EM_T 1 0); [lra|]. destruct a as [x y z w]; unfold conj; cbn [qx qy qz qw]. f_equal; field. }
  rewrite I. split; [unfold unit in *; rewrite <- A; destruct a as [x y z w]; unfold norm2, conj; cbn [qx qy qz qw]; ring|].
  split; [destruct a as [x y z w]; unfold to_mat, conj, mtrans; cbn [qx qy qz qw m00 m01 m02 m10 m11 m12 m20 m21 m22]; f_equal; ring|].
  split; [apply to_mat_inj; assumption|]. intros [-> | ->]; [reflexivity|symmetry; apply to_mat_opp].
Qed.
(** The condition is needed: a quaternion that is not a unit gives no rotation. *)
Theorem C28_not_unit_refuted : ~ (forall q, q <> zero -> rotation (to_mat q)).
Proof.
  intros H. destruct (H (Quat 1 1 0 0) ltac:(unfold zero; intros E; injection E; lra)) as (_ & _ & D). revert D.
  unfold mdet, to_mat; cbn [qx qy qz qw m00 m01 m02 m10 m11 m12 m20 m21 m22]. lra.
Qed.

(** C29. *)
(** [slerp] throws outside [0,1]; inside it takes the x and w components from that point, but y is its z and z is its x. *)
Theorem C29_slerp : forall (a b : quat) (t : R), unit a -> unit b ->
  (slerp a b t = None <-> t < 0 \/ 1 < t) /\
  (0 <= t <= 1 -> exists e, on_arc a b t e /\ slerp a b t = Some (Quat (qx e) (qz e) (qx e) (qw e))).
Proof.
  intros a b t A B. unfold slerp. split.
  - destruct (Rlt_dec t 0); [split; auto|]. destruct (Rlt_dec 1 t); [split; auto|]. split; [discriminate|lra].
  - intros T. destruct (Rlt_dec t 0); [lra|]. destruct (Rlt_dec 1 t); [lra|]. exists (eigen_slerp a t b). split; [|reflexivity].
    destruct (slerp_weights a b t A B T) as (s0 & s1 & E & T0 & T1 & P0 & P1 & NE & NB & DE). unfold on_arc. rewrite E.
    assert (NN : norm2 (lin s0 a (s1 * sgn (dot a b)) b) = s0 * s0 + s1 * s1 + 2 * (s0 * s1) * Rabs (dot a b)).
    { rewrite lin_norm, A, B, <- sgn_abs. replace (s1 * sgn (dot a b) * (s1 * sgn (dot a b))) with (s1 * s1 * (sgn (dot a b) * sgn (dot a b))) by ring. rewrite sgn_sq. ring. }
    split; [|split; [|split; [|split]]].
    + exists s0, s1. split; [exact P0|]. split; [exact P1|]. reflexivity.
    + intros Z. destruct (T0 Z) as [-> ->]. unfold lin. destruct a as [x y z w]; cbn [qx qy qz qw]. f_equal; ring.
    + intros Z. destruct (T1 Z) as [-> ->]. unfold sgn. destruct (Rlt_dec (dot a b) 0); [right|left]; unfold lin, opp; destruct b as [x y z w]; cbn [qx qy qz qw]; f_equal; ring.
    + rewrite NN. exact NB.
    + intros C. split; [rewrite NN; apply NE, C|]. rewrite lin_dot by exact A. rewrite <- (DE C), <- sgn_abs. ring.
Qed.
(** So the start is given back just when its vector part has three equal components. *)
Theorem C29_start : forall (a b : quat), unit a -> unit b -> (slerp a b 0 = Some a <-> qx a = qy a /\ qy a = qz a).
Proof.
  intros a b A B. destruct (C29_slerp a b 0 A B) as [_ S]. destruct (S ltac:(lra)) as (e & (_ & E0 & _) & ->). rewrite (E0 eq_refl).
  destruct a as [x y z w]; cbn [qx qy qz qw]. split.
  - intros H. injection H as H1 H2. split; lra.
  - intros [-> ->]. reflexivity.
Qed.
(** The promised behaviour is refuted: the half turn about y interpolated with itself is the zero quaternion. *)
Theorem C29_slerp_refuted : exists a, unit a /\ forall t, 0 <= t <= 1 -> t = 0 \/ t = 1 -> slerp a a t = Some zero.
Proof.
  exists (Quat 0 1 0 0). assert (U : unit (Quat 0 1 0 0)) by (unfold unit, norm2; cbn; ring). split; [exact U|]. intros t T H.
  destruct (C29_slerp _ _ t U U) as [_ S]. destruct (S T) as (e & (_ & E0 & E1 & _) & ->).
  destruct H as [Z|Z]; [rewrite (E0 Z); reflexivity|]. destruct (E1 Z) as [-> | ->]; [reflexivity|].
  unfold opp, zero; cbn [qx qy qz qw]. rewrite Ropp_0. reflexivity.
Qed.

(** C56.  [getRotation]: a unit quaternion that turns the direction of the first vector into that of the second. *)
Theorem C56_get_rotation : forall f t : vec3, f <> Vec 0 0 0 -> t <> Vec 0 0 0 ->
  unit (get_rotation f t) /\
  exists k, 0 < k /\ mapply (to_mat (get_rotation f t)) f = vscale k t /\ vnorm (mapply (to_mat (get_rotation f t)) f) = vnorm f.
Proof.
  intros f t F T. destruct (vnormalize_unit f F) as (F1 & kf & KF & EF). destruct (vnormalize_unit t T) as (T1 & kt & KT & ET).
  destruct (get_rotation_units (vnormalize f) (vnormalize t) F1 T1 (vnormalize_idem f) (vnormalize_idem t)) as [U M].
  rewrite <- get_rotation_normal in U, M. split; [exact U|].
  assert (L : forall m k v, mapply m (vscale k v) = vscale k (mapply m v)).
  { clear. intros m k [x y z]. unfold mapply, vscale; cbn [vx vy vz]. f_equal; ring. }
  assert (E : mapply (to_mat (get_rotation f t)) f = vscale kf (vnormalize t)) by (rewrite EF at 2; rewrite L, M; reflexivity).
  exists (kf / kt). split; [apply Rdiv_lt_0_compat; assumption|]. rewrite E. split.
  - rewrite ET at 2. clear - KT. destruct (vnormalize t) as [x y z]; unfold vscale; cbn [vx vy vz]. f_equal; field; lra.
  - unfold vnorm. f_equal. rewrite EF at 1 2.
    assert (G : forall k v, vdot (vscale k v) (vscale k v) = k * k * vdot v v) by (clear; intros k [x y z]; unfold vdot, vscale; cbn [vx vy vz]; ring).
    rewrite !G, F1, T1. reflexivity.
Qed.
(** With a zero vector the result is the zero quaternion. *)
Theorem C56_zero_refuted : forall t, get_rotation (Vec 0 0 0) t = zero.
Proof.
  intros t. unfold get_rotation.
  assert (N : vnormalize (Vec 0 0 0) = Vec 0 0 0) by (unfold vnormalize, vdot; cbn [vx vy vz]; destruct (Rlt_dec 0 (0 * 0 + 0 * 0 + 0 * 0)); [lra|reflexivity]).
  assert (C : forall v, vcross (Vec 0 0 0) v = Vec 0 0 0) by (intros [x y z]; unfold vcross; cbn [vx vy vz]; f_equal; ring).
  assert (D : forall v, vdot (Vec 0 0 0) v = 0) by (intros [x y z]; unfold vdot; cbn [vx vy vz]; ring).
  rewrite N, !C, D. destruct (Req_EM_T (vnorm (Vec 0 0 0)) 0) as [_|Z]; [|exfalso; apply Z, vnorm_zero; reflexivity].
  destruct (Rlt_dec 0 0); [lra|]. destruct (Req_EM_T (vnorm (Vec 0 0 0)) 0) as [_|Z]; rewrite N; reflexivity.
Qed.

(** C57.  [getMean]: of unit quaternions it is a unit quaternion, of quaternions of one rotation one of that rotation, of nothing the identity. *)
Theorem C57_mean : forall l : list quat, (forall q, In q l -> unit q) ->
  unit (get_mean l) /\ (forall q, In q l -> (forall x, In x l -> to_mat x = to_mat q) -> to_mat (get_mean l) = to_mat q) /\
  (l = [] -> get_mean l = one).
Proof.
  intros l A. split; [|split].
  - destruct l as [|x l]; [unfold get_mean, unit, norm2; cbn; ring|]. unfold get_mean. set (r := fold_left mean_step (x :: l) _).
    change (qx r * qx r + qy r * qy r + qz r * qz r + qw r * qw r) with (norm2 r).
    destruct (Rlt_dec (1 / 10000) (sqrt (norm2 r))) as [M|M]; [apply mean_norm, M|apply A; left; reflexivity].
  - intros q Q S. assert (UQ := A q Q). destruct (mean_same q l UQ) as [-> | ->].
    + intros ->. exact Q.
    + intros x X. apply to_mat_inj; [exact UQ|apply A, X|symmetry; apply S, X].
    + reflexivity.
    + apply to_mat_opp.
  - intros ->. reflexivity.
Qed.

(** Concrete cases: two different rotations (quarter turn about z, half turn about x). *)
Example C28_case : let h := Quat 1 0 0 0 in let j := Quat 0 0 (3/5) (4/5) in
  unit h /\ unit j /\ h <> zero /\ mul h j <> mul j h /\ to_mat h <> to_mat j /\ to_mat j = Mat (7/25) (-24/25) 0 (24/25) (7/25) 0 0 0 1.
Proof.
  cbn zeta. unfold unit, norm2, zero, mul, to_mat; cbn [qx qy qz qw].
  split; [lra|]. split; [lra|]. split; [intros E; injection E; lra|]. split; [intros E; injection E; lra|]. split; [intros E; injection E; lra|]. f_equal; lra.
Qed.
Example C29_case : let a := Quat 0 0 (3/5) (4/5) in let b := Quat 1 0 0 0 in unit a /\ unit b /\ 0 <= 1 / 3 <= 1 /\ Rabs (dot a b) < 1 - flt_eps.
Proof.
  cbn zeta. unfold unit, norm2, dot; cbn [qx qy qz qw]. split; [lra|]. split; [lra|]. split; [lra|].
  replace (0 * 1 + 0 * 0 + 3 / 5 * 0 + 4 / 5 * 0) with 0 by ring. rewrite Rabs_R0. assert (H := flt_eps_pos). lra.
Qed.
(** Vectors in general position, and opposite ones. *)
Example C56_case : Vec 1 2 3 <> Vec 0 0 0 /\ Vec (-1) 5 0 <> Vec 0 0 0 /\ Vec (-2) (-4) (-6) <> Vec 0 0 0.
Proof. split; [|split]; intros E; injection E; lra. Qed.
Example C57_case : let l := [Quat 0 0 (3/5) (4/5); Quat 0 0 (-3/5) (-4/5); Quat 0 0 (3/5) (4/5)] in
  (forall q, In q l -> unit q) /\ forall x, In x l -> to_mat x = to_mat (Quat 0 0 (3/5) (4/5)).
Proof.
  cbn zeta. split.
  - intros q [<- |[<- |[<- |[]]]]; unfold unit, norm2; cbn [qx qy qz qw]; lra.
  - intros q [<- |[<- |[<- |[]]]]; unfold to_mat; cbn [qx qy qz qw]; f_equal; lra.
Qed.
Print Assumptions C28_algebra.
Print Assumptions C28_matrices.
Print Assumptions C29_slerp.
Print Assumptions C56_get_rotation.
Print Assumptions C57_mean.
