(** Proofs about joint values. *)
From Coq Require Import Reals ZArith Lra Lia.
From Verif Require Import JointModel JointSpec.
Open Scope R_scope.

Lemma two_pi_pos : 0 < two_pi.
Proof. unfold two_pi. assert (H := PI_RGT_0). lra. Qed.
Lemma same_refl x : same_angle x x.
Proof. exists 0%Z. rewrite Rmult_0_l. ring. Qed.
Lemma same_trans x y z : same_angle x y -> same_angle y z -> same_angle x z.
Proof. intros [a ->] [b ->]. exists (a + b)%Z. rewrite plus_IZR. ring. Qed.
Lemma same_plus x : same_angle (x + two_pi) x.
Proof. exists 1%Z. unfold two_pi. ring. Qed.
Lemma same_minus x : same_angle (x - two_pi) x.
Proof. exists (-1)%Z. unfold two_pi. ring. Qed.

Lemma lower_ok f : forall hi q, q - hi <= INR f * two_pi -> exists q', lower f hi q = Some q' /\ q' <= hi /\ same_angle q' q /\ (q <= hi -> q' = q) /\ (hi < q -> hi - two_pi < q').
Proof.
  assert (P := two_pi_pos). induction f as [|f IH]; intros hi q H; cbn [lower].
  - cbn [INR] in H. destruct (Rlt_dec hi q) as [L|L]; [lra|]. exists q. split; [reflexivity|]. split; [lra|]. split; [apply same_refl|]. split; [reflexivity|]. lra.
  - destruct (Rlt_dec hi q) as [L|L].
    + rewrite S_INR in H. destruct (IH hi (q - two_pi)) as (q' & E & A & B & C & D); [lra|]. exists q'. split; [exact E|]. split; [exact A|].
      split; [exact (same_trans _ _ _ B (same_minus q))|]. split; [lra|]. intros _. destruct (Rlt_dec hi (q - two_pi)) as [M|M]; [apply D, M|]. rewrite C by lra. lra.
    + exists q. split; [reflexivity|]. split; [lra|]. split; [apply same_refl|]. split; [reflexivity|]. lra.
Qed.
Lemma raise_ok f : forall lo q, lo - q <= INR f * two_pi -> exists q', raise f lo q = Some q' /\ lo <= q' /\ same_angle q' q /\ (lo <= q -> q' = q) /\ (q < lo -> q' < lo + two_pi).
Proof.
  assert (P := two_pi_pos). induction f as [|f IH]; intros lo q H; cbn [raise].
  - cbn [INR] in H. destruct (Rlt_dec q lo) as [L|L]; [lra|]. exists q. split; [reflexivity|]. split; [lra|]. split; [apply same_refl|]. split; [reflexivity|]. lra.
  - destruct (Rlt_dec q lo) as [L|L].
    + rewrite S_INR in H. destruct (IH lo (q + two_pi)) as (q' & E & A & B & C & D); [lra|]. exists q'. split; [exact E|]. split; [exact A|].
      split; [exact (same_trans _ _ _ B (same_plus q))|]. split; [lra|]. intros _. destruct (Rlt_dec (q + two_pi) lo) as [M|M]; [apply D, M|]. rewrite C by lra. lra.
    + exists q. split; [reflexivity|]. split; [lra|]. split; [apply same_refl|]. split; [reflexivity|]. lra.
Qed.
Lemma rounds_ok d : d <= INR (rounds d) * two_pi.
Proof.
  assert (P := two_pi_pos). unfold rounds. destruct (archimed (d / two_pi)) as [U _]. set (z := up (d / two_pi)) in *.
  assert (D : d = d / two_pi * two_pi) by (field; lra).
  destruct (Z.le_gt_cases 0 z) as [L|L].
  - rewrite INR_IZR_INZ, Z2Nat.id by exact L. rewrite D at 1. apply Rmult_le_compat_r; lra.
  - replace (Z.to_nat z) with 0%nat by lia. cbn [INR]. rewrite Rmult_0_l. assert (IZR z < 0) by (apply IZR_lt in L; exact L). rewrite D.
    assert (d / two_pi < 0) by lra. nra.
Qed.

Lemma int_part_bounds x : IZR (Int_part x) <= x < IZR (Int_part x) + 1.
Proof. destruct (base_Int_part x) as [A B]. lra. Qed.
Lemma rtrunc_bounds x : (0 <= x -> IZR (rtrunc x) <= x < IZR (rtrunc x) + 1) /\ (x <= 0 -> IZR (rtrunc x) - 1 < x <= IZR (rtrunc x)).
Proof.
  unfold rtrunc. destruct (Rle_dec 0 x) as [H|H].
  - split; [intros _; apply int_part_bounds|]. intros Z. assert (x = 0) by lra. subst x. assert (B := int_part_bounds 0). 
    assert (E : Int_part 0 = 0%Z) by (assert (IZR (Int_part 0) <= 0) by lra; assert (-1 < IZR (Int_part 0)) by lra; apply le_IZR in H0; change (-1) with (IZR (-1)) in H1; apply lt_IZR in H1; lia). rewrite E. lra.
  - split; [lra|]. intros _. rewrite opp_IZR. assert (B := int_part_bounds (- x)). lra.
Qed.
Lemma fmod_ok x : same_angle (fmod x two_pi) x /\ (0 <= x -> 0 <= fmod x two_pi < two_pi) /\ (x <= 0 -> - two_pi < fmod x two_pi <= 0).
Proof.
  assert (P := two_pi_pos). unfold fmod. set (y := x / two_pi). assert (X : x = y * two_pi) by (unfold y; field; lra).
  destruct (rtrunc_bounds y) as [A B]. set (k := rtrunc y) in *. split.
  - exists (- k)%Z. rewrite opp_IZR. unfold two_pi. ring.
  - split; intros H.
    + assert (0 <= y) by (unfold y, Rdiv; apply Rmult_le_pos; [exact H|left; apply Rinv_0_lt_compat, P]). specialize (A H0). rewrite X. nra.
    + assert (y <= 0). { unfold y, Rdiv. assert (0 < / two_pi) by (apply Rinv_0_lt_compat, P). nra. } specialize (B H0). rewrite X. nra.
Qed.

(** What the limitless branch does: the sign of a positive number below the lower limit is changed. *)
Lemma set_value_limitless j q : limitless j = true ->
  exists j', set_value j q = Some j' /\ only_value j j' /\ limit_lo j <= value j' /\
   (limit_lo j <= 0 -> same_angle (value j') q) /\
   (within j q -> value j' = q) /\
   (0 <= limit_hi j -> two_pi <= limit_hi j - limit_lo j -> value j' <= limit_hi j).
Proof.
  intros LL. unfold set_value. rewrite LL. assert (P := two_pi_pos).
  set (lo := limit_lo j). set (hi := limit_hi j).
  set (q1 := if Rlt_dec hi q then fmod q two_pi else q).
  assert (Q1 : same_angle q1 q) by (unfold q1; destruct (Rlt_dec hi q); [apply fmod_ok|apply same_refl]).
  destruct (lower_ok (rounds (q1 - hi)) hi q1 (rounds_ok _)) as (q2 & -> & H2 & S2 & E2 & G2).
  set (q3 := if Rlt_dec q2 lo then - fmod (Rabs q2) two_pi else q2).
  assert (Q3 : lo <= 0 -> same_angle q3 q2).
  { intros L0. unfold q3. destruct (Rlt_dec q2 lo) as [L|L]; [|apply same_refl]. rewrite Rabs_left by lra. destruct (fmod_ok (- q2)) as ([k K] & _).
    exists (- k)%Z. rewrite K, opp_IZR. ring. }
  assert (N3 : 0 <= hi -> q3 <= hi).
  { intros H0. unfold q3. destruct (Rlt_dec q2 lo) as [L|L]; [|exact H2]. destruct (fmod_ok (Rabs q2)) as (_ & F & _). specialize (F (Rabs_pos q2)). lra. }
  destruct (raise_ok (rounds (lo - q3)) lo q3 (rounds_ok _)) as (q4 & -> & H4 & S4 & E4 & G4).
  exists (with_value j q4). split; [reflexivity|]. split; [repeat split; reflexivity|]. cbn [value with_value]. split; [exact H4|]. split; [|split].
  - intros L0. exact (same_trans _ _ _ S4 (same_trans _ _ _ (Q3 L0) (same_trans _ _ _ S2 Q1))).
  - intros [A B]. assert (q1 = q) by (unfold q1; destruct (Rlt_dec hi q); [fold hi in B; lra|reflexivity]).
    assert (q2 = q) by (rewrite E2; [assumption|fold hi in B; lra]). assert (q3 = q) by (unfold q3; destruct (Rlt_dec q2 lo); [fold lo in A; lra|assumption]).
    rewrite E4; [assumption|fold lo in A; lra].
  - intros H0 W. destruct (Rlt_dec q3 lo) as [L|L]; [specialize (G4 L); lra|]. rewrite E4 by lra. apply N3, H0.
Qed.
Lemma set_value_ni_limitless j q : limitless j = true ->
  exists j', set_value_not_initialized j q = Some j' /\ only_value j j' /\ limit_lo j <= value j' /\ same_angle (value j') q /\ (within j q -> value j' = q) /\
   (two_pi <= limit_hi j - limit_lo j -> value j' <= limit_hi j).
Proof.
  intros LL. unfold set_value_not_initialized. rewrite LL. set (lo := limit_lo j). set (hi := limit_hi j).
  destruct (lower_ok (rounds (q - hi)) hi q (rounds_ok _)) as (q2 & -> & H2 & S2 & E2 & G2).
  destruct (raise_ok (rounds (lo - q2)) lo q2 (rounds_ok _)) as (q4 & -> & H4 & S4 & E4 & G4).
  exists (with_value j q4). split; [reflexivity|]. split; [repeat split; reflexivity|]. cbn [value with_value]. split; [exact H4|].
  split; [exact (same_trans _ _ _ S4 S2)|]. split.
  - intros [A B]. fold lo hi in A, B. rewrite E4; rewrite E2; lra.
  - intros W. destruct (Rlt_dec q2 lo) as [L|L]; [specialize (G4 L); lra|]. rewrite E4 by lra. exact H2.
Qed.

Lemma delta_angle j target : limitless j = true -> same_angle (value j + get_delta j target) target /\
  (Rabs (target - value j) <= 3 * PI -> Rabs (get_delta j target) <= PI) /\ (Rabs (target - value j) <= PI -> get_delta j target = target - value j).
Proof.
  intros LL. unfold get_delta. rewrite LL. cbn [negb andb]. assert (P := PI_RGT_0). set (d := target - value j).
  destruct (Rlt_dec PI (Rabs d)) as [L|L].
  - unfold signum. destruct (Rlt_dec 0 d) as [D|D].
    + destruct (Rlt_dec d 0); [lra|]. rewrite Rabs_right in * by lra. split; [exists (-1)%Z; unfold two_pi, d; ring|]. split; [|lra].
      intros B. replace (-1 * (1 - 0) * (two_pi - d)) with (d - 2 * PI) by (unfold two_pi; ring). apply Rabs_le. lra.
    + destruct (Rlt_dec d 0) as [D'|D']; [|assert (d = 0) by lra; rewrite H, Rabs_R0 in L; lra]. rewrite Rabs_left in * by lra. split; [exists 1%Z; unfold two_pi, d; ring|]. split; [|lra].
      intros B. replace (-1 * (0 - 1) * (two_pi - - d)) with (d + 2 * PI) by (unfold two_pi; ring). apply Rabs_le. lra.
  - split; [exists 0%Z; unfold d; ring|]. split; [intros _; lra|reflexivity].
Qed.
