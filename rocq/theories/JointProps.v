(** C33 and C59: joint values. *)
From Coq Require Import Reals ZArith Lra Lia.
From Flocq Require Import Core.
From Verif Require Import JointModel JointSpec JointProofs JointFloat.
Open Scope R_scope.

(** C33.  Setting the value of a joint ends, changes nothing but the value, and keeps a requested value that is within the limits.
    A joint with limits that are enforced stores the nearest value within them.  A limitless joint stores the same angle within the
    limits, provided these contain zero and a full turn. *)
Theorem C33_set_value : forall (j : joint) (q : R),
  exists j', set_value j q = Some j' /\ only_value j j' /\
    (within j q -> value j' = q) /\
    (limitless j = false -> enforce j = true -> limit_lo j <= limit_hi j ->
       within j (value j') /\ forall p, within j p -> Rabs (value j' - q) <= Rabs (p - q)) /\
    (limitless j = false -> enforce j = false -> value j' = q) /\
    (limitless j = true -> limit_lo j <= 0 <= limit_hi j -> 2 * PI <= limit_hi j - limit_lo j ->
       within j (value j') /\ same_angle (value j') q).
Proof.
  intros j q. destruct (limitless j) eqn:LL.
  - destruct (set_value_limitless j q LL) as (j' & E & O & A & B & C & D). exists j'. split; [exact E|]. split; [exact O|]. split; [exact C|].
    split; [discriminate|]. split; [discriminate|]. intros _ [Z1 Z2] W. split; [|apply B, Z1]. split; [exact A|]. apply D; assumption.
  - unfold set_value. rewrite LL. destruct (enforce j) eqn:EN.
    + eexists. split; [reflexivity|]. split; [repeat split; reflexivity|]. cbn [value with_value]. unfold within. split; [|split; [|split; [discriminate|discriminate]]].
      * intros [A B]. destruct (Rlt_dec q (limit_lo j)); [lra|]. destruct (Rlt_dec (limit_hi j) q); [lra|reflexivity].
      * intros _ _ L. destruct (Rlt_dec q (limit_lo j)) as [A|A].
        -- destruct (Rlt_dec (limit_hi j) (limit_lo j)); [lra|]. split; [lra|]. intros p [P1 P2]. rewrite !Rabs_right by lra. lra.
        -- destruct (Rlt_dec (limit_hi j) q) as [B|B].
           ++ split; [lra|]. intros p [P1 P2]. rewrite !Rabs_left by lra. lra.
           ++ split; [lra|]. intros p _. rewrite Rminus_diag_eq by reflexivity. rewrite Rabs_R0. apply Rabs_pos.
    + eexists. split; [reflexivity|]. split; [repeat split; reflexivity|]. cbn [value with_value]. split; [reflexivity|]. split; [discriminate|]. split; [reflexivity|discriminate].
Qed.
(** The same for the variant used before initialisation; it always clamps, and for limitless joints it needs no zero between the limits. *)
Theorem C33_set_value_not_initialized : forall (j : joint) (q : R),
  exists j', set_value_not_initialized j q = Some j' /\ only_value j j' /\
    (within j q -> value j' = q) /\
    (limitless j = false -> limit_lo j <= limit_hi j -> within j (value j') /\ forall p, within j p -> Rabs (value j' - q) <= Rabs (p - q)) /\
    (limitless j = true -> same_angle (value j') q /\ (2 * PI <= limit_hi j - limit_lo j -> within j (value j'))).
Proof.
  intros j q. destruct (limitless j) eqn:LL.
  - destruct (set_value_ni_limitless j q LL) as (j' & E & O & A & B & C & D). exists j'. split; [exact E|]. split; [exact O|]. split; [exact C|].
    split; [discriminate|]. intros _. split; [exact B|]. intros W. split; [exact A|apply D, W].
  - unfold set_value_not_initialized. rewrite LL.
    eexists. split; [reflexivity|]. split; [repeat split; reflexivity|]. cbn [value with_value]. unfold within. split; [|split; [|discriminate]].
    + intros [A B]. destruct (Rlt_dec q (limit_lo j)); [lra|]. destruct (Rlt_dec (limit_hi j) q); [lra|reflexivity].
    + intros _ L. destruct (Rlt_dec q (limit_lo j)) as [A|A].
      * destruct (Rlt_dec (limit_hi j) (limit_lo j)); [lra|]. split; [lra|]. intros p [P1 P2]. rewrite !Rabs_right by lra. lra.
      * destruct (Rlt_dec (limit_hi j) q) as [B|B].
        -- split; [lra|]. intros p [P1 P2]. rewrite !Rabs_left by lra. lra.
        -- split; [lra|]. intros p _. rewrite Rminus_diag_eq by reflexivity. rewrite Rabs_R0. apply Rabs_pos.
Qed.
(** Without zero between the limits a limitless joint can end up at another angle: with limits 1 and 8, the request 1/2 stores 2 pi - 1/2. *)
Theorem C33_positive_limits_refuted : forall v, exists j', set_value (Joint 1 8 true true v) (1 / 2) = Some j' /\ value j' = 2 * PI - 1 / 2 /\ ~ same_angle (value j') (1 / 2).
Proof.
  intros v. assert (P4 := PI_4). assert (P3 := PI2_3_2). unfold PI2 in P3. 
  unfold set_value; cbn [limitless limit_hi limit_lo]. destruct (Rlt_dec 8 (1 / 2)); [lra|].
  destruct (lower_ok (rounds (1 / 2 - 8)) 8 (1 / 2) (rounds_ok _)) as (q2 & -> & _ & _ & E & _). rewrite E by lra.
  destruct (Rlt_dec (1 / 2) 1); [|lra].
  assert (F : fmod (Rabs (1 / 2)) two_pi = 1 / 2).
  { rewrite Rabs_right by lra. destruct (fmod_ok (1 / 2)) as ([k K] & B & _). specialize (B ltac:(lra)). unfold two_pi in *.
    assert (k = 0)%Z; [|subst k; rewrite K; ring]. assert (IZR k < 1) by nra. assert (-1 < IZR k) by nra. change 1 with (IZR 1) in H. change (-1) with (IZR (-1)) in H0. apply lt_IZR in H, H0. lia. }
  rewrite F. destruct (raise_ok (rounds (1 - - (1 / 2))) 1 (- (1 / 2)) (rounds_ok _)) as (q4 & -> & A & [k K] & _ & B). specialize (B ltac:(lra)). unfold two_pi in *.
  exists (with_value (Joint 1 8 true true v) q4). split; [reflexivity|]. cbn [value with_value].
  assert (k = 1)%Z. { assert (IZR k < 2) by nra. assert (0 < IZR k) by nra. apply lt_IZR in H, H0. lia. }
  subst k. assert (Q : q4 = 2 * PI - 1 / 2) by lra. split; [exact Q|]. intros [m M]. rewrite Q in M.
  assert (E2 : IZR (1 - m) * (2 * PI) = 1) by (rewrite minus_IZR; lra).
  destruct (Z.le_gt_cases (1 - m) 0) as [H|H].
  - apply IZR_le in H. nra.
  - assert (H1 : (1 <= 1 - m)%Z) by lia. apply IZR_le in H1. nra.
Qed.
(** Without room for a full turn it can end up outside the limits: with limits -1 and 1, the request 2 stays 2. *)
Theorem C33_narrow_limits_refuted : forall v, exists j', set_value (Joint (-1) 1 true true v) 2 = Some j' /\ value j' = 2.
Proof.
  intros v. assert (P4 := PI_4). assert (P3 := PI2_3_2). unfold PI2 in P3. 
  destruct (set_value_limitless (Joint (-1) 1 true true v) 2 eq_refl) as (j' & E & _ & A & B & _). exists j'. split; [exact E|]. cbn [limit_lo] in *.
  revert E A. unfold set_value; cbn [limitless limit_hi limit_lo]. intros E A. destruct (B ltac:(lra)) as [k K].
  assert (U : value j' < -1 + 2 * PI).
  { destruct (Rlt_dec 1 2); [|lra]. destruct (lower_ok (rounds (fmod 2 two_pi - 1)) 1 (fmod 2 two_pi) (rounds_ok _)) as (q2 & E2 & H2 & _). rewrite E2 in E.
    set (q3 := if Rlt_dec q2 (-1) then _ else _) in E. destruct (raise_ok (rounds (-1 - q3)) (-1) q3 (rounds_ok _)) as (q4 & E4 & _ & _ & C & D). rewrite E4 in E. injection E as <-. cbn [value with_value].
    unfold two_pi in *. destruct (Rlt_dec q3 (-1)) as [L|L]; [apply D, L|]. rewrite C by lra. unfold q3 in *. destruct (Rlt_dec q2 (-1)); [|lra].
    assert (F := proj1 (proj2 (fmod_ok (Rabs q2))) (Rabs_pos q2)). unfold two_pi in F. lra. }
  assert (k = 0)%Z. { assert (IZR k < 1) by nra. assert (-1 < IZR k) by nra. change 1 with (IZR 1) in H. change (-1) with (IZR (-1)) in H0. apply lt_IZR in H, H0. lia. }
  subst k. lra.
Qed.
(** In float arithmetic the loop of the variant before initialisation does not end for any float of at least 2^29 above the upper limit:
    subtracting 2 pi gives the same float again. *)
Theorem C33_float_loop_refuted : forall hi q, float32 q -> 2 ^ 29 <= q -> hi < q -> float_step q = q /\ forall n, float_lower n hi q = None.
Proof. intros hi q F L H. split; [apply float_step_large; assumption|apply float_lower_diverges; assumption]. Qed.

(** C59.  The difference to a target: for a limitless joint it leads to the angle of the target, the short way round if the target is at most
    one and a half turns away; for others it is the plain difference, or nothing if the target is outside the limits. *)
Theorem C59_delta : forall (j : joint) (target : R),
  (limitless j = true -> same_angle (value j + get_delta j target) target /\
     (Rabs (target - value j) <= 3 * PI -> Rabs (get_delta j target) <= PI)) /\
  (limitless j = false -> within j target -> value j + get_delta j target = target) /\
  (limitless j = false -> ~ within j target -> get_delta j target = 0).
Proof.
  intros j t. split; [|split].
  - intros LL. destruct (delta_angle j t LL) as (A & B & _). auto.
  - intros LL [A B]. unfold get_delta. rewrite LL. cbn [negb andb]. destruct (Rlt_dec t (limit_lo j)); [lra|]. destruct (Rlt_dec (limit_hi j) t); [lra|]. ring.
  - intros LL N. unfold get_delta. rewrite LL. cbn [negb andb]. destruct (Rlt_dec t (limit_lo j)); [reflexivity|]. destruct (Rlt_dec (limit_hi j) t); [reflexivity|].
    exfalso. apply N. unfold within. lra.
Qed.

(** Concrete cases: a limitless joint of one turn, a limited one, and a large float. *)
Example C33_case : let j := Joint (- PI) PI true true 0 in limit_lo j <= 0 <= limit_hi j /\ 2 * PI <= limit_hi j - limit_lo j /\ ~ within j 10 /\ within (Joint (-1) 2 false true 0) (3 / 2).
Proof. cbn [limit_lo limit_hi]. assert (P := PI_RGT_0). assert (P4 := PI_4). unfold within; cbn [limit_lo limit_hi]. repeat split; lra. Qed.
Example C33_float_case : float32 (IZR 15625000 * bpow radix2 6) /\ IZR 15625000 * bpow radix2 6 = 1000000000 /\ 2 ^ 29 <= 1000000000.
Proof. split; [apply float32_int; lia|]. split; [change (bpow radix2 6) with 64; lra|lra]. Qed.
Example C59_case : let j := Joint (- PI) PI true true 3 in Rabs (-3 - value j) <= 3 * PI.
Proof. cbn [value]. assert (P3 := PI2_3_2). unfold PI2 in P3. rewrite Rabs_left by lra. lra. Qed.
Print Assumptions C33_set_value.
Print Assumptions C33_float_loop_refuted.
Print Assumptions C59_delta.
