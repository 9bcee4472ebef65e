From Coq Require Import Reals List Bool Arith Lra Lia.
From Verif Require Import QuatModel KinModel CrvSpec CrvProofs KerSpec KerModel.
Import ListNotations.
Open Scope R_scope.

(** The distance along one axis. *)
Section Rho.
Variables A x : R.
Hypothesis A0 : 0 <= A.
Definition rho (s : R) : R := sqrt (A + (x + s) * (x + s)).
Lemma q_lim : derivable_pt_lim (fun s => A + (x + s) * (x + s)) 0 (2 * x).
Proof. refine (lim_ext _ _ 0 _ _ (lim_eq _ 0 _ _ _ (cubic_lim (A + x * x) (2 * x) 1 0 0))); [intros z; ring|ring]. Qed.
Lemma rho_sq s : rho s * rho s = A + (x + s) * (x + s).
Proof. unfold rho. apply sqrt_sqrt. pose proof (Rle_0_sqr (x + s)). unfold Rsqr in *. lra. Qed.
Lemma rho_lim : 0 < A + x * x -> derivable_pt_lim rho 0 (x / rho 0).
Proof.
  intros P. assert (P' : 0 < A + (x + 0) * (x + 0)) by (replace (x + 0) with x by ring; exact P). assert (H := derivable_pt_lim_comp (fun s => A + (x + s) * (x + s)) sqrt 0 _ _ q_lim (derivable_pt_lim_sqrt _ P')).
  refine (lim_eq _ 0 _ _ _ H). unfold rho. field. apply Rgt_not_eq, sqrt_lt_R0, P'.
Qed.
Lemma rho_zero : A + x * x = 0 -> A = 0 /\ x = 0.
Proof. intros E. assert (0 <= x * x) by nra. split; [lra|]. apply Rsqr_0_uniq. unfold Rsqr. lra. Qed.
Lemma rho0 : rho 0 = sqrt (A + x * x).
Proof. unfold rho. do 2 f_equal. ring. Qed.
(** A function that is s times something small. *)
Lemma lim_small (f g : R -> R) : f 0 = 0 -> (forall s, f s = s * g s) -> (forall s, Rabs (g s) <= Rabs s) -> derivable_pt_lim f 0 0.
Proof.
  intros F0 E B e P. exists (mkposreal e P). intros h N L. cbn [pos] in L. rewrite Rplus_0_l, F0, E. replace ((h * g h - 0) / h - 0) with (g h) by (field; exact N). specialize (B h). lra.
Qed.
Lemma cube_lim : derivable_pt_lim (fun s => rho s * rho s * rho s) 0 (3 * rho 0 * x).
Proof.
  destruct (Req_EM_T (A + x * x) 0) as [Z|N].
  - destruct (rho_zero Z) as [ZA ZX]. assert (E : forall s, rho s = Rabs s). { intros s. unfold rho. rewrite ZA, ZX. replace (0 + (0 + s) * (0 + s)) with (s²) by (unfold Rsqr; ring). apply sqrt_Rsqr_abs. }
    rewrite ZX, Rmult_0_r. assert (U : forall s, rho s * rho s = s * s) by (intros s; rewrite rho_sq, ZA, ZX; ring).
    refine (lim_ext (fun s => s * (s * rho s)) _ 0 _ _ _); [intros s; rewrite U; ring|].
    assert (I := derivable_pt_lim_id 0). assert (L : derivable_pt_lim (fun s => s * rho s) 0 0).
    { apply (lim_small _ rho); [ring|reflexivity|]. intros s. rewrite E, Rabs_Rabsolu. lra. }
    refine (lim_eq _ 0 _ _ _ (derivable_pt_lim_mult id (fun s => s * rho s) 0 _ _ I L)). unfold id. ring.
  - assert (P : 0 < A + x * x) by (assert (0 <= x * x) by nra; lra). assert (L := rho_lim P). assert (R0 : rho 0 <> 0) by (rewrite rho0; apply Rgt_not_eq, sqrt_lt_R0, P).
    refine (lim_eq _ 0 _ _ _ (derivable_pt_lim_mult _ rho 0 _ _ (derivable_pt_lim_mult rho rho 0 _ _ L L) L)). unfold mult_fct. field. exact R0.
Qed.
Lemma val_lim K c : derivable_pt_lim (fun s => 2 * rho s * rho s * rho s + 3 * K * rho s * rho s + c) 0 (6 * x * (rho 0 + K)).
Proof.
  assert (H := derivable_pt_lim_plus _ _ 0 _ _ (derivable_pt_lim_plus _ _ 0 _ _ (derivable_pt_lim_scal _ 2 0 _ cube_lim) (derivable_pt_lim_scal _ (3 * K) 0 _ q_lim)) (derivable_pt_lim_const c 0)).
  refine (lim_ext _ _ 0 _ _ (lim_eq _ 0 _ _ _ H)); [|ring]. intros s. unfold plus_fct, mult_real_fct, fct_cte. rewrite <- rho_sq. ring.
Qed.
Lemma dx_lim K : derivable_pt_lim (fun s => 6 * (x + s) * (rho s + K)) 0 (if Req_EM_T (rho 0) 0 then 6 * K else 6 * (rho 0 + K) + 6 * x * x / rho 0).
Proof.
  assert (LK : derivable_pt_lim (fun s => 6 * K * (x + s)) 0 (6 * K)). { refine (lim_ext _ _ 0 _ _ (lim_eq _ 0 _ _ _ (cubic_lim (6 * K * x) (6 * K) 0 0 0))); [intros z; ring|ring]. }
  destruct (Req_EM_T (rho 0) 0) as [Z|N].
  - rewrite rho0 in Z. assert (Z' : A + x * x = 0) by (apply sqrt_eq_0; [nra|exact Z]). destruct (rho_zero Z') as [ZA ZX]. assert (E : forall s, rho s = Rabs s). { intros s. unfold rho. rewrite ZA, ZX. replace (0 + (0 + s) * (0 + s)) with (s²) by (unfold Rsqr; ring). apply sqrt_Rsqr_abs. }
    assert (L : derivable_pt_lim (fun s => s * rho s) 0 0) by (apply (lim_small _ rho); [ring|reflexivity|intros s; rewrite E, Rabs_Rabsolu; lra]).
    refine (lim_ext _ _ 0 _ _ (lim_eq _ 0 _ _ _ (derivable_pt_lim_plus _ _ 0 _ _ (derivable_pt_lim_scal _ 6 0 _ L) LK))); [|ring]. intros s. unfold plus_fct, mult_real_fct. rewrite ZX. ring.
  - assert (P : 0 < A + x * x). { rewrite rho0 in N. destruct (Rle_lt_or_eq_dec 0 (A + x * x)) as [P|E]; [nra|exact P|]. rewrite <- E, sqrt_0 in N. destruct N. reflexivity. }
    assert (L := rho_lim P). assert (LX : derivable_pt_lim (fun s => x + s) 0 1) by (refine (lim_ext _ _ 0 _ _ (lim_eq _ 0 _ _ _ (cubic_lim x 1 0 0 0))); [intros z; ring|ring]).
    refine (lim_ext _ _ 0 _ _ (lim_eq _ 0 _ _ _ (derivable_pt_lim_plus _ _ 0 _ _ (derivable_pt_lim_scal _ 6 0 _ (derivable_pt_lim_mult _ _ 0 _ _ LX L)) LK))).
    + intros s. unfold plus_fct, mult_real_fct, mult_fct. ring.
    + field. exact N.
Qed.
Lemma dy_lim c K : (A + x * x = 0 -> c = 0) -> derivable_pt_lim (fun s => 6 * c * (rho s + K)) 0 (if Req_EM_T (rho 0) 0 then 0 else 6 * x * c / rho 0).
Proof.
  intros CZ. destruct (Req_EM_T (rho 0) 0) as [Z|N].
  - rewrite rho0 in Z. assert (Z' : A + x * x = 0) by (apply sqrt_eq_0; [nra|exact Z]). rewrite (CZ Z'). refine (lim_ext (fun _ => 0) _ 0 _ _ (derivable_pt_lim_const 0 0)). intros s. ring.
  - assert (P : 0 < A + x * x). { rewrite rho0 in N. destruct (Rle_lt_or_eq_dec 0 (A + x * x)) as [P|E]; [nra|exact P|]. rewrite <- E, sqrt_0 in N. destruct N. reflexivity. }
    refine (lim_ext _ _ 0 _ _ (lim_eq _ 0 _ _ _ (derivable_pt_lim_plus _ _ 0 _ _ (derivable_pt_lim_scal _ (6 * c) 0 _ (rho_lim P)) (derivable_pt_lim_const (6 * c * K) 0)))); [|field; exact N]. intros s. unfold plus_fct, mult_real_fct, fct_cte. ring.
Qed.
End Rho.

(** Connection with vectors. *)
Definition rest (a : nat) (d : vec3) : R := match a with O => vy d * vy d + vz d * vz d | S O => vx d * vx d + vz d * vz d | _ => vx d * vx d + vy d * vy d end.
Lemma rest_nonneg a d : 0 <= rest a d. Proof. unfold rest. destruct a as [|[|a]]; nra. Qed.
Lemma norm_shift1 a s p1 p2 : vnorm (vsub (shift a s p1) p2) = rho (rest a (vsub p1 p2)) (coord a (vsub p1 p2)) s.
Proof. unfold vnorm, rho, vdot, rest, coord, shift, vsub. f_equal. destruct a as [|[|a]]; cbn [vx vy vz]; ring. Qed.
Lemma norm_rho0 a d : vnorm d = rho (rest a d) (coord a d) 0.
Proof. unfold vnorm, rho, vdot, rest, coord. f_equal. destruct a as [|[|a]]; cbn [vx vy vz]; ring. Qed.
Lemma norm_sym p1 p2 : vnorm (vsub p1 p2) = vnorm (vsub p2 p1).
Proof. unfold vnorm, vdot, vsub. cbn [vx vy vz]. f_equal. ring. Qed.
Lemma norm_zero d : vnorm d = 0 -> vx d = 0 /\ vy d = 0 /\ vz d = 0.
Proof.
  intros H. unfold vnorm in H. assert (0 <= vx d * vx d) by nra. assert (0 <= vy d * vy d) by nra. assert (0 <= vz d * vz d) by nra. apply sqrt_eq_0 in H; unfold vdot in *; [|lra]. repeat split; apply Rsqr_0_uniq; unfold Rsqr; lra.
Qed.
Lemma swap_ok x y z i : (i < 3)%nat -> exists b c, swap_axes x y z i = Some (coord i (Vec x y z), b, c).
Proof. intros L. destruct i as [|[|[|i]]]; cbn; try lia; eauto. Qed.

(** Sums. *)
Lemma sum_ext n f g : (forall i, (i < n)%nat -> f i = g i) -> sum_to n f = sum_to n g.
Proof. induction n as [|n IH]; intros H; cbn [sum_to]; [reflexivity|]. rewrite IH, (H n) by (intros; try apply H; lia). reflexivity. Qed.
Lemma sum_add n f g : sum_to n (fun i => f i + g i) = sum_to n f + sum_to n g.
Proof. induction n as [|n IH]; cbn [sum_to]; [ring|]. rewrite IH. ring. Qed.
Lemma sum_scale n c f : sum_to n (fun i => c * f i) = c * sum_to n f.
Proof. induction n as [|n IH]; cbn [sum_to]; [ring|]. rewrite IH. ring. Qed.
Lemma sum_swap n m f : sum_to n (fun i => sum_to m (fun j => f i j)) = sum_to m (fun j => sum_to n (fun i => f i j)).
Proof.
  induction n as [|n IH]; cbn [sum_to]; [induction m as [|m IH]; cbn [sum_to]; [reflexivity|rewrite <- IH; ring]|]. rewrite IH, <- sum_add. reflexivity.
Qed.
Lemma sum_delta n i f : (i < n)%nat -> sum_to n (fun j => (if Nat.eqb i j then 1 else 0) * f j) = f i.
Proof.
  induction n as [|n IH]; intros L; [lia|]. cbn [sum_to]. destruct (Nat.eq_dec i n) as [->|N].
  - rewrite Nat.eqb_refl. rewrite (sum_ext n _ (fun j => 0 * f j)) by (intros j J; destruct (Nat.eqb_spec n j); [lia|reflexivity]). rewrite sum_scale. ring.
  - rewrite IH by lia. destruct (Nat.eqb_spec i n); [contradiction|]. ring.
Qed.
(** The solution of the linear equations. *)
Lemma alpha_solves n cov inv b i : inverse_of n cov inv -> (i < n)%nat -> sum_to n (fun j => cov i j * alpha inv n b j) = b i.
Proof.
  intros [I _] L. unfold alpha. rewrite (sum_ext n _ (fun j => sum_to n (fun k => (cov i j * inv j k) * b k))).
  2:{ intros j J. rewrite <- sum_scale. apply sum_ext. intros k K. ring. }
  rewrite sum_swap. rewrite (sum_ext n _ (fun k => (if Nat.eqb i k then 1 else 0) * b k)).
  2:{ intros k K. rewrite <- (I i k L K), Rmult_comm, <- sum_scale. apply sum_ext. intros j J. ring. }
  apply sum_delta, L.
Qed.
Lemma lim_sum n (f : nat -> R -> R) (d : nat -> R) x : (forall i, (i < n)%nat -> derivable_pt_lim (f i) x (d i)) -> derivable_pt_lim (fun s => sum_to n (fun i => f i s)) x (sum_to n d).
Proof.
  induction n as [|n IH]; intros H; cbn [sum_to]; [apply derivable_pt_lim_const|]. apply (derivable_pt_lim_plus (fun s => sum_to n (fun i => f i s)) (f n)); [apply IH; intros i L; apply H; lia|apply H; lia].
Qed.
