(** Proofs about helpers: angles and rounding. *)
From Coq Require Import Reals List Bool Arith ZArith Lra Lia.
From Flocq Require Import Core.
From Verif Require Import QuatModel HelpSpec HelpModel.
Import ListNotations.
Open Scope R_scope.

Lemma up_some T : 0 < T -> forall fuel a b, shift_up (fun x => x) T fuel a = Some b -> 0 <= b /\ (exists k : nat, b = a + INR k * T) /\ (0 <= a -> b = a) /\ (a < 0 -> b < T).
Proof.
  intros P. induction fuel as [|fuel IH]; intros a b; cbn [shift_up]; destruct (Rlt_dec a 0) as [L|G]; try discriminate.
  - intros [= <-]. split; [lra|]. split; [exists O; cbn; lra|]. split; [reflexivity|lra].
  - intros E. destruct (IH _ _ E) as (A & (k & B) & C & D). split; [exact A|]. split; [exists (S k); rewrite S_INR; lra|]. split; [lra|]. intros _. destruct (Rlt_dec (a + T) 0); [apply D; lra|rewrite C; lra].
  - intros [= <-]. split; [lra|]. split; [exists O; cbn; lra|]. split; [reflexivity|lra].
Qed.
Lemma down_some T : 0 < T -> forall fuel a b, shift_down (fun x => x) T T fuel a = Some b -> b <= T /\ (exists k : nat, b = a - INR k * T) /\ (a <= T -> b = a) /\ (0 <= a -> 0 <= b).
Proof.
  intros P. induction fuel as [|fuel IH]; intros a b; cbn [shift_down]; destruct (Rlt_dec T a) as [L|G]; try discriminate.
  - intros [= <-]. split; [lra|]. split; [exists O; cbn; lra|]. split; [reflexivity|lra].
  - intros E. destruct (IH _ _ E) as (A & (k & B) & C & D). split; [exact A|]. split; [exists (S k); rewrite S_INR; lra|]. split; [lra|]. intros _. apply D. lra.
  - intros [= <-]. split; [lra|]. split; [exists O; cbn; lra|]. split; [reflexivity|lra].
Qed.
Lemma up_ends T : 0 < T -> forall fuel a, - (INR fuel * T) <= a -> shift_up (fun x => x) T fuel a <> None.
Proof.
  intros P. induction fuel as [|fuel IH]; intros a L; cbn [shift_up]; destruct (Rlt_dec a 0); try discriminate; [cbn in L; lra|]. apply IH. rewrite S_INR in L. lra.
Qed.
Lemma down_ends T : 0 < T -> forall fuel a, a <= T + INR fuel * T -> shift_down (fun x => x) T T fuel a <> None.
Proof.
  intros P. induction fuel as [|fuel IH]; intros a L; cbn [shift_down]; destruct (Rlt_dec T a); try discriminate; [cbn in L; lra|]. apply IH. rewrite S_INR in L. lra.
Qed.
Lemma enough T a : 0 < T -> exists n, forall m, (n <= m)%nat -> Rabs a <= INR m * T.
Proof.
  intros P. destruct (archimed (Rabs a / T)) as [U _]. assert (Z0 : (0 <= up (Rabs a / T))%Z). { apply le_IZR. assert (0 <= Rabs a / T) by (apply Rmult_le_pos; [apply Rabs_pos|left; apply Rinv_0_lt_compat, P]). lra. }
  exists (Z.to_nat (up (Rabs a / T))). intros m L. assert (M : IZR (up (Rabs a / T)) <= INR m) by (rewrite INR_IZR_INZ; apply IZR_le; lia).
  assert (E : Rabs a = Rabs a / T * T) by (field; lra). rewrite E at 1. apply Rmult_le_compat_r; lra.
Qed.

(** Rounding to float near 2^30. *)
Lemma float_big x : 1073741824 - 20 <= x <= 1073741824 -> to_float x = 1073741824.
Proof.
  intros B. unfold to_float. assert (H30 : bpow radix2 30 = 1073741824) by (cbn; lra). assert (G : generic_format radix2 (FLT_exp (-149) 24) 1073741824) by (rewrite <- H30; apply generic_format_bpow; unfold FLT_exp; lia).
  destruct (Req_dec x 1073741824) as [->|N]; [apply round_generic; [apply valid_rnd_N|exact G]|].
  assert (M : mag radix2 x = 30%Z :> Z). { apply mag_unique. rewrite Rabs_pos_eq by lra. rewrite H30. replace (bpow radix2 (30 - 1)) with 536870912 by (cbn; lra). lra. }
  unfold round, scaled_mantissa, cexp. rewrite M. replace (FLT_exp (-149) 24 30) with 6%Z by (unfold FLT_exp; lia). replace (bpow radix2 (- (6))) with (/ 64) by (cbn; lra).
  rewrite (Znearest_imp _ _ 16777216) by (apply Rabs_def1; lra). unfold F2R. cbn [Fnum Fexp]. replace (bpow radix2 6) with 64 by (cbn; lra). lra.
Qed.
Lemma double_big x : 1073741824 - 16 <= x <= 1073741824 -> 1073741824 - 16 <= to_double x <= 1073741824.
Proof.
  intros [L U]. unfold to_double. assert (F : forall z : Z, (0 <= z < 2 ^ 53)%Z -> generic_format radix2 (FLT_exp (-1074) 53) (IZR z)).
  { intros z Z0. apply generic_format_FLT. exists (Float radix2 z 0); [unfold F2R; cbn; lra|cbn [Fnum]; rewrite Z.abs_eq by lia; exact (proj2 Z0)|cbn; lia]. }
  split; [apply round_ge_generic|apply round_le_generic]; try apply valid_rnd_N; try (apply FLT_exp_valid; unfold Prec_gt_0; lia); try exact L; try exact U; [replace (1073741824 - 16) with (IZR 1073741808) by (cbn; lra)|]; apply F; lia.
Qed.
