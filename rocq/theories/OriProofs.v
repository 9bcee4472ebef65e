(** Proofs about poses and interpolated orientations. *)
From Coq Require Import Reals List Bool Arith Lra Lia Psatz Nsatz.
From Verif Require Import QuatModel QuatSpec RpyModel KinModel KinProofs JacSpec JacProofs IkProofs HelpModel HelpProps OriSpec OriModel.
Import ListNotations.
Open Scope R_scope.

Ltac mats := unfold mmul, mtrans, mapply, mdet, mneg, trace; cbn [m00 m01 m02 m10 m11 m12 m20 m21 m22 vx vy vz].
Lemma trans_mul a b : mtrans (mmul a b) = mmul (mtrans b) (mtrans a).
Proof. mats. f_equal; ring. Qed.
Lemma trans_trans a : mtrans (mtrans a) = a.
Proof. destruct a; reflexivity. Qed.
Lemma det_mul a b : mdet (mmul a b) = mdet a * mdet b.
Proof. mats. ring. Qed.
Lemma det_trans a : mdet (mtrans a) = mdet a.
Proof. mats. ring. Qed.
Lemma orth_mul a b : orthogonal a -> orthogonal b -> orthogonal (mmul a b).
Proof.
  intros (A1 & A2) (B1 & B2). split; rewrite trans_mul.
  - rewrite mmul_assoc, <- (mmul_assoc b), B1, mmul_mid_l. exact A1.
  - rewrite mmul_assoc, <- (mmul_assoc (mtrans a)), A2, mmul_mid_l. exact B2.
Qed.
Lemma orth_trans a : orthogonal a -> orthogonal (mtrans a).
Proof. intros (A1 & A2). split; rewrite trans_trans; assumption. Qed.
Lemma orth_det a : orthogonal a -> mdet a = 1 \/ mdet a = -1.
Proof.
  intros (A1 & _). assert (E : mdet a * mdet a = 1) by (rewrite <- (det_trans a) at 2; rewrite <- det_mul, A1; unfold mdet, mid; cbn; ring). assert (Z : (mdet a - 1) * (mdet a + 1) = 0) by lra. apply Rmult_integral in Z. lra.
Qed.
Lemma neg_orth a : orthogonal a -> orthogonal (mneg a) /\ mdet (mneg a) = - mdet a.
Proof.
  intros (A1 & A2). split; [|mats; ring]. assert (E : mmul (mneg a) (mtrans (mneg a)) = mmul a (mtrans a)) by (mats; f_equal; ring). assert (E' : mmul (mtrans (mneg a)) (mneg a) = mmul (mtrans a) a) by (mats; f_equal; ring). split; [rewrite E; exact A1|rewrite E'; exact A2].
Qed.
Lemma trace_cycle a b : trace (mmul a b) = trace (mmul b a).
Proof. mats. ring. Qed.
Lemma orth_diag w : orthogonal w -> m00 w <= 1 /\ m11 w <= 1 /\ m22 w <= 1.
Proof.
  intros (A & _). revert A. unfold mmul, mtrans, mid. cbn [m00 m01 m02 m10 m11 m12 m20 m21 m22]. intros [= A _ _ _ B _ _ _ C].
  pose proof (Rle_0_sqr (m01 w)). pose proof (Rle_0_sqr (m02 w)). pose proof (Rle_0_sqr (m10 w)). pose proof (Rle_0_sqr (m12 w)). pose proof (Rle_0_sqr (m20 w)). pose proof (Rle_0_sqr (m21 w)). unfold Rsqr in *. split; [nra|split; nra].
Qed.
Lemma apart_trace a q : orthogonal q -> apart a q = trace (mmul a (mtrans a)) + 3 - 2 * trace (mmul (mtrans q) a).
Proof.
  intros (_ & Q). assert (T : trace (mmul (mtrans q) q) = 3) by (rewrite Q; unfold trace, mid; cbn; ring). rewrite <- T. unfold apart. mats. ring.
Qed.
Lemma mod_pi_id a : 0 <= a <= PI -> mod_pi a = a.
Proof.
  intros A. unfold mod_pi, angle_mod, shift_0_2pi, shift_angle. cbn [shift_up]. destruct (Rlt_dec (a + PI) 0); [lra|]. cbn [shift_down]. destruct (Rlt_dec (2 * PI) (a + PI)); [lra|]. ring.
Qed.
Lemma axis_zero a : axisangle2mat a 0 = mid.
Proof. unfold axisangle2mat. cbv zeta. rewrite cos_0, sin_0. unfold mid. f_equal; ring. Qed.
Lemma axis_add a s t : vx a * vx a + vy a * vy a + vz a * vz a = 1 -> axisangle2mat a (s + t) = mmul (axisangle2mat a s) (axisangle2mat a t).
Proof.
  intros U. unfold axisangle2mat. cbv zeta. rewrite cos_plus, sin_plus. destruct a as [x y z]; cbn [vx vy vz] in *. set (cs := cos s). set (ss := sin s). set (ct := cos t). set (st := sin t). clearbody cs ss ct st. mats. f_equal; nsatz.
Qed.
Lemma mat_deriv_comp f g t k d : mat_deriv f (g t) d -> derivable_pt_lim g t k -> mat_deriv (fun x => f (g x)) t (Mat (m00 d * k) (m01 d * k) (m02 d * k) (m10 d * k) (m11 d * k) (m12 d * k) (m20 d * k) (m21 d * k) (m22 d * k)).
Proof.
  intros (A & B & D & E & F & G & H & I & J) K. unfold mat_deriv. cbn [m00 m01 m02 m10 m11 m12 m20 m21 m22].
  repeat match goal with |- _ /\ _ => split end.
  - exact (derivable_pt_lim_comp g (fun x => m00 (f x)) t k (m00 d) K A). - exact (derivable_pt_lim_comp g (fun x => m01 (f x)) t k (m01 d) K B). - exact (derivable_pt_lim_comp g (fun x => m02 (f x)) t k (m02 d) K D).
  - exact (derivable_pt_lim_comp g (fun x => m10 (f x)) t k (m10 d) K E). - exact (derivable_pt_lim_comp g (fun x => m11 (f x)) t k (m11 d) K F). - exact (derivable_pt_lim_comp g (fun x => m12 (f x)) t k (m12 d) K G).
  - exact (derivable_pt_lim_comp g (fun x => m20 (f x)) t k (m20 d) K H). - exact (derivable_pt_lim_comp g (fun x => m21 (f x)) t k (m21 d) K I). - exact (derivable_pt_lim_comp g (fun x => m22 (f x)) t k (m22 d) K J).
Qed.
Lemma lim_local f g t l e : 0 < e -> (forall x, Rabs (x - t) < e -> f x = g x) -> derivable_pt_lim f t l -> derivable_pt_lim g t l.
Proof.
  intros P H D eps PE. destruct (D eps PE) as (dl & Q). assert (M : 0 < Rmin dl e) by (apply Rmin_pos; [apply cond_pos|exact P]). exists (mkposreal _ M). intros h N L. cbn [pos] in L.
  rewrite <- (H (t + h)), <- (H t); [apply Q; [exact N|]; pose proof (Rmin_l dl e); lra|replace (t - t) with 0 by ring; rewrite Rabs_R0; exact P|replace (t + h - t) with h by ring; pose proof (Rmin_r dl e); lra].
Qed.
Lemma mat_deriv_local f g t d e : 0 < e -> (forall x, Rabs (x - t) < e -> f x = g x) -> mat_deriv f t d -> mat_deriv g t d.
Proof.
  intros P H (A & B & D & E & F & G & K & I & J). unfold mat_deriv.
  repeat match goal with |- _ /\ _ => split end; eapply lim_local; try exact P; try eassumption; intros x X; cbv beta; rewrite (H x X); reflexivity.
Qed.
