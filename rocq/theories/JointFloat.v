(** What rounding does to the loop of [setJointValueNotInitialized], RobotNode.cpp:160-161: [q] is a float, [2.0f * M_PI] a double, the
    difference is computed in double precision and stored in a float. *)
From Coq Require Import Reals ZArith Lra Lia.
From Flocq Require Import Core.
Open Scope R_scope.

Definition exp32 := FLT_exp (-149) 24.
Definition exp64 := FLT_exp (-1074) 53.
(** The numbers of type [float] (without infinities), and rounding to nearest. *)
Definition float32 (x : R) : Prop := generic_format radix2 exp32 x.
Definition round32 (x : R) : R := round radix2 exp32 ZnearestE x.
Definition round64 (x : R) : R := round radix2 exp64 ZnearestE x.
(** [2.0f * M_PI]: the double nearest to 2 pi. *)
Definition two_pi_d : R := 884279719003555 / 2 ^ 47.
(** [q -= 2.0f * M_PI]. *)
Definition float_step (q : R) : R := round32 (round64 (q - two_pi_d)).
(** [n] rounds of the loop [while (q > hi) q -= 2.0f * M_PI]: [Some] of the value if it has ended. *)
Fixpoint float_lower (n : nat) (hi q : R) : option R :=
  if Rlt_dec hi q then match n with O => None | S n => float_lower n hi (float_step q) end else Some q.

Lemma two_pi_d_bounds : 6 < two_pi_d < 7.
Proof. unfold two_pi_d. split; lra. Qed.

Lemma float_step_large q : float32 q -> 2 ^ 29 <= q -> float_step q = q.
Proof.
  intros F L. assert (PD := two_pi_d_bounds).
  assert (V32 : Valid_exp exp32) by (apply FLT_exp_valid; reflexivity). assert (V64 : Valid_exp exp64) by (apply FLT_exp_valid; reflexivity).
  assert (Q0 : 0 < q) by (assert (0 < 2 ^ 29) by (apply pow_lt; lra); lra).
  set (m := mag radix2 q : Z). assert (MB := bpow_mag_le radix2 q ltac:(lra)). fold m in MB. rewrite Rabs_right in MB by lra.
  assert (M30 : (30 <= m)%Z).
  { unfold m. apply (mag_ge_bpow radix2 q 30). rewrite Rabs_right by lra. change (bpow radix2 (30 - 1)) with (IZR 536870912). lra. }
  assert (E32 : exp32 m = (m - 24)%Z) by (unfold exp32, FLT_exp; lia).
  assert (E32' : exp32 (m - 1) = (m - 25)%Z) by (unfold exp32, FLT_exp; lia).
  set (e := (m - 24)%Z) in *.
  assert (CE : cexp radix2 exp32 q = e) by (unfold cexp; fold m; exact E32).
  set (M := Ztrunc (scaled_mantissa radix2 exp32 q)). assert (QM : q = IZR M * bpow radix2 e).
  { unfold float32, generic_format, F2R in F. cbn [Fnum Fexp] in F. rewrite CE in F. exact F. }
  (* a double close below q *)
  set (p := IZR (8 * M - 1) * bpow radix2 (e - 3)).
  assert (B3 : bpow radix2 e = 8 * bpow radix2 (e - 3)) by (replace e with (3 + (e - 3))%Z at 1 by lia; rewrite bpow_plus; reflexivity).
  assert (PQ : p = q - bpow radix2 (e - 3)) by (unfold p; rewrite QM, B3, minus_IZR, mult_IZR; ring).
  assert (B8 : 8 <= bpow radix2 (e - 3)) by (change 8 with (bpow radix2 3); apply bpow_le; unfold e; lia).
  assert (MU : (M < 2 ^ 24)%Z).
  { apply lt_IZR. apply (Rmult_lt_reg_r (bpow radix2 e)); [apply bpow_gt_0|]. rewrite <- QM. change (IZR (2 ^ 24)) with (bpow radix2 24). rewrite <- bpow_plus.
    replace (24 + e)%Z with m by (unfold e; lia). apply Rabs_lt_inv, bpow_mag_gt. }
  assert (ML : (0 < M)%Z).
  { apply lt_IZR. apply (Rmult_lt_reg_r (bpow radix2 e)); [apply bpow_gt_0|]. rewrite <- QM. rewrite Rmult_0_l. exact Q0. }
  assert (FP : generic_format radix2 exp64 p).
  { apply generic_format_FLT. exists (Float radix2 (8 * M - 1) (e - 3)); [reflexivity| |cbn; unfold e; lia]. cbn [Fnum]. change (radix2 : Z) with 2%Z. lia. }
  assert (FQ : generic_format radix2 exp64 q).
  { apply generic_format_FLT. exists (Float radix2 M e); [exact QM| |cbn; unfold e; lia]. cbn [Fnum]. change (radix2 : Z) with 2%Z. lia. }
  set (y := round64 (q - two_pi_d)).
  assert (YL : p <= y) by (apply round_ge_generic; [exact V64|apply valid_rnd_N|exact FP|rewrite PQ; lra]).
  assert (YU : y <= q) by (apply round_le_generic; [exact V64|apply valid_rnd_N|exact FQ|lra]).
  unfold float_step. fold y. apply Rle_antisym.
  - apply round_le_generic; [exact V32|apply valid_rnd_N|exact F|exact YU].
  - apply round_N_ge_midp; [exact V32|exact F|].
    assert (PR : pred radix2 exp32 q <= q - bpow radix2 (e - 1)).
    { rewrite pred_eq_pos by lra. unfold pred_pos. fold m. 
      destruct (Req_bool_spec q (bpow radix2 (m - 1))) as [H|H].
      - rewrite E32'. replace (m - 25)%Z with (e - 1)%Z by (unfold e; lia). lra.
      - rewrite ulp_neq_0 by lra. rewrite CE. assert (bpow radix2 (e - 1) <= bpow radix2 e) by (apply bpow_le; lia). lra. }
    assert (B1 : bpow radix2 (e - 1) = 4 * bpow radix2 (e - 3)) by (replace (e - 1)%Z with (2 + (e - 3))%Z by lia; rewrite bpow_plus; reflexivity).
    rewrite B1 in PR. lra.
Qed.

(** So the loop never ends for a large float above the limit. *)
Lemma float_lower_diverges hi q : float32 q -> 2 ^ 29 <= q -> hi < q -> forall n, float_lower n hi q = None.
Proof.
  intros F L H n. induction n as [|n IH]; cbn [float_lower]; destruct (Rlt_dec hi q); try contradiction; [reflexivity|]. rewrite float_step_large by assumption. exact IH.
Qed.
Lemma float32_int (z : Z) : (Z.abs z < 2 ^ 24)%Z -> forall e, (0 <= e)%Z -> float32 (IZR z * bpow radix2 e).
Proof. intros H e E. apply generic_format_FLT. exists (Float radix2 z e); [reflexivity|exact H|cbn; lia]. Qed.
