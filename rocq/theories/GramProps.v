(** C32: Gram-Schmidt. *)
From Coq Require Import Reals List Arith Lra Lia.
From Verif Require Import GramModel GramSpec GramProofs.
Import ListNotations.
Open Scope R_scope.

(** C32.  The vectors [b] that the rank stage hands on are linearly independent.  If they are pairwise orthogonal already, or there are three
    of them, the call succeeds; the result is orthonormal just when those vectors after the first that belong to a leading orthogonal
    family already had length one; and then each leading part spans what it did before. *)
Theorem C32_gram_schmidt : forall complete basis b,
  let n := length basis in
  (0 < n)%nat -> (forall v, In v basis -> length v = n) ->
  complete basis = Some b -> length b = n -> (forall v, In v b -> length v = n) -> independent n b ->
  leading_orthogonal b n \/ n = 3%nat ->
  exists q, gram_schmidt complete basis = Ret true q /\ length q = n /\
    (orthonormal q <-> forall i v, (1 <= i)%nat -> leading_orthogonal b i -> nth_error b i = Some v -> ldot v v = 1) /\
    (orthonormal q -> forall i v, (1 <= i <= n)%nat -> (span n (firstn i b) v <-> span n (firstn i q) v)).
Proof.
  intros complete basis b n N0 LB CB Ln LV IN OK. unfold gram_schmidt. fold n.
  destruct (Nat.eqb n 0) eqn:E0; [apply Nat.eqb_eq in E0; lia|].
  replace (forallb (fun v => Nat.eqb (length v) n) basis) with true by (symmetry; apply forallb_forall; intros v V; apply Nat.eqb_eq, LB, V).
  cbn [negb]. rewrite CB. destruct b as [|b0 b]; [cbn in Ln; lia|].
  assert (FD : Forall (dim n) (b0 :: b)) by (apply Forall_forall; exact LV).
  assert (P0 : 0 < ldot b0 b0).
  { destruct (Req_dec (ldot b0 b0) 0) as [Z|Z]; [|assert (K := ldot_nonneg b0); lra]. exfalso. apply (IN [] b0 b eq_refl). rewrite (ldot_zero b0 Z), (LV b0) by (left; reflexivity). constructor. }
  destruct (normalize_unit b0 P0) as (U0 & k & K & EK). set (b0' := lnormalize b0) in *.
  assert (ON0 : orthonormal [b0']) by (apply (on_app [] b0'); [intros i j u v I; destruct i; discriminate|intros u []|exact U0]).
  assert (D0 : dim n b0') by (unfold dim; rewrite EK, len_scale; apply LV; left; reflexivity).
  assert (S0 : same_span n [b0] [b0']).
  { apply same_span_in; intros v [<- |[]].
    - replace b0 with (lscale (/ k) b0') by (rewrite EK, lscale_lscale; replace (/ k * k) with 1 by (field; exact K); apply lscale_one). apply span_scale, span_in. left; reflexivity.
    - rewrite EK. apply span_scale, span_in. left; reflexivity. }
  assert (SM : forall mid, same_span n (b0 :: mid) (b0' :: mid)).
  { intros mid. apply same_span_in; intros v [<- |V]; [|apply span_in; right; exact V| |apply span_in; right; exact V].
    - apply (span_mono n [b0']); [|apply S0, span_in; left; reflexivity]. intros w [<- |[]]. apply span_in; left; reflexivity.
    - apply (span_mono n [b0]); [|apply S0, span_in; left; reflexivity]. intros w [<- |[]]. apply span_in; left; reflexivity. }
  assert (F := find_start_ok b [b0']). destruct (find_start [b0'] b) as [[d r]|].
  - destruct F as (mid & EB & ED & CH & x & r' & ER & q & Q & NZ). rewrite EK in CH. apply (chain_first k b0 mid K) in CH.
    assert (NL : forall i, leading_orthogonal (b0 :: b) i -> (i <= length mid)%nat).
    { intros i L. destruct (Nat.le_gt_cases i (length mid)) as [H|H]; [exact H|]. exfalso. apply NZ.
      assert (X : nth_error (b0 :: b) (S (length mid)) = Some x) by (cbn; rewrite EB, nth_error_app2, Nat.sub_diag, ER by lia; reflexivity).
      rewrite ED in Q. cbn [app] in Q. destruct Q as [<- |Q].
      - rewrite EK, ldot_scale, (L 0%nat (S (length mid)) b0 x); [ring|lia|reflexivity|exact X].
      - apply In_nth_error in Q. destruct Q as [a A]. assert (a < length mid)%nat by (apply nth_error_Some; congruence).
        apply (L (S a) (S (length mid))); [lia| |exact X]. cbn. rewrite EB, nth_error_app1 by assumption. exact A. }
    assert (N3 : n = 3%nat).
    { destruct OK as [OK|OK]; [|exact OK]. exfalso. apply NL in OK. rewrite <- Ln in OK. cbn [length] in OK. rewrite EB, app_length, ER in OK. cbn in OK. lia. }
    rewrite (proj2 (Nat.eqb_eq n 3) N3). exists (gs_loop d r). split; [reflexivity|].
    assert (DR : Forall (dim n) r /\ Forall (dim n) mid) by (inversion FD as [|? ? A B]; subst; apply Forall_app in B; tauto).
    assert (LEN : forall l d', length (gs_loop d' l) = (length d' + length l)%nat).
    { clear. induction l as [|y l IH]; intros d'; cbn [gs_loop length]; [lia|]. rewrite IH, app_length. cbn. lia. }
    split; [rewrite LEN, ED, <- Ln, EB; cbn [app length]; rewrite app_length; lia|].
    assert (PRE : forall l d', exists tl, gs_loop d' l = d' ++ tl).
    { clear. induction l as [|y l IH]; intros d'; cbn [gs_loop]; [exists []; rewrite app_nil_r; reflexivity|]. destruct (IH (d' ++ [gs_step d' y])) as [tl ->]. exists (gs_step d' y :: tl). rewrite <- app_assoc. reflexivity. }
    assert (FWD : orthonormal (gs_loop d r) -> forall v, In v mid -> ldot v v = 1).
    { intros O v V. apply (on_in _ v O). destruct (PRE r d) as [tl ->]. apply in_or_app; left. rewrite ED. right. exact V. }
    assert (MAIN : (forall v, In v mid -> ldot v v = 1) -> orthonormal (gs_loop d r) /\ forall i, (length d <= i <= length (b0 :: b))%nat -> same_span n (firstn i (b0 :: b)) (firstn i (gs_loop d r))).
    { intros U. assert (OD : orthonormal d) by (rewrite ED; apply chain_on; [exact ON0|rewrite EK; apply chain_first; assumption|exact U]).
      destruct (gs_loop_ok n r (b0 :: mid) d OD) as (A & _ & _ & _ & B).
      - rewrite ED. cbn [app]. constructor; [exact D0|apply DR].
      - apply DR.
      - rewrite ED. apply SM.
      - rewrite ED. reflexivity.
      - cbn [app]. rewrite <- EB. exact IN.
      - split; [exact A|]. cbn [app] in B. rewrite <- EB in B. exact B. }
    split.
    + split.
      * intros O i v I L V. apply NL in L. destruct i as [|i]; [lia|]. cbn in V. rewrite EB, nth_error_app1 in V by lia. apply (FWD O), (nth_error_In _ _ V).
      * intros U. apply MAIN. intros v V. apply In_nth_error in V. destruct V as [i V]. assert (i < length mid)%nat by (apply nth_error_Some; congruence).
        apply (U (S i) v); [lia| |cbn; rewrite EB, nth_error_app1 by assumption; exact V]. rewrite EB. apply chain_leading; [exact CH|lia].
    + intros O i v I. destruct (MAIN (FWD O)) as [_ B]. destruct (Nat.le_gt_cases (length d) i) as [H|H]; [apply B; lia|].
      destruct (PRE r d) as [tl ->]. rewrite firstn_app. replace (i - length d)%nat with 0%nat by lia. rewrite firstn_O, app_nil_r, ED, EB.
      rewrite ED in H. cbn [app length] in H. destruct i as [|i]; [lia|]. cbn [app firstn]. rewrite firstn_app. replace (i - length mid)%nat with 0%nat by lia. rewrite firstn_O, app_nil_r. apply SM.
  - exists (b0' :: b). rewrite EK in F. apply (chain_first k b0 b K) in F. split; [reflexivity|]. split; [exact Ln|]. split.
    + split.
      * intros O i v I L V. destruct i as [|i]; [lia|]. cbn in V. apply (on_in _ v O). right. apply (nth_error_In _ _ V).
      * intros U. apply (chain_on [b0'] b ON0); [rewrite EK; apply chain_first; assumption|]. intros v V. apply In_nth_error in V. destruct V as [i V].
        assert (i < length b)%nat by (apply nth_error_Some; congruence).
        apply (U (S i) v); [lia| |exact V]. rewrite <- (app_nil_r b). apply chain_leading; [exact F|lia].
    + intros _ i v I. destruct i as [|i]; [lia|]. cbn [firstn]. apply SM.
Qed.

(** In another dimension than three, vectors that are not orthogonal already run into a failed assertion (a vector of dimension n is copied into an Eigen::Vector3f). *)
Theorem C32_dimension : forall complete basis b,
  let n := length basis in
  (0 < n)%nat -> complete basis = Some b -> length b = n -> (forall v, In v b -> 0 < ldot v v) -> ~ leading_orthogonal b n -> n <> 3%nat ->
  gram_schmidt complete basis = Assert.
Proof.
  intros complete basis b n N0 CB Ln NZ NL N3. unfold gram_schmidt. fold n. destruct (Nat.eqb n 0) eqn:E0; [apply Nat.eqb_eq in E0; lia|].
  destruct (negb _); [reflexivity|]. rewrite CB. destruct b as [|b0 b]; [cbn in Ln; lia|].
  destruct (normalize_unit b0 (NZ b0 (or_introl eq_refl))) as (_ & k & K & EK).
  assert (F := find_start_ok b [lnormalize b0]). destruct (find_start [lnormalize b0] b) as [[d r]|].
  - rewrite (proj2 (Nat.eqb_neq n 3) N3). reflexivity.
  - exfalso. apply NL. rewrite EK in F. apply (chain_first k b0 b K) in F. rewrite <- (app_nil_r b). intros a c u v H A V.
    assert (c < length (b0 :: b))%nat by (apply nth_error_Some; rewrite app_nil_r in V; congruence).
    refine (chain_leading b0 b [] c F _ a c u v _ A V); cbn [length] in *; lia.
Qed.

(** The documented behaviour, an orthonormal basis, is refuted by the axes scaled by 1, 2 and 3: only the first vector is normalised. *)
Definition scaled_axes : list vecx := [[1; 0; 0]; [0; 2; 0]; [0; 0; 3]].
Theorem C32_refuted : gram_schmidt Some scaled_axes = Ret true scaled_axes /\ ~ orthonormal scaled_axes.
Proof.
  split.
  - unfold gram_schmidt, scaled_axes. cbn [length Nat.eqb forallb andb negb].
    assert (E : lnormalize [1; 0; 0] = [1; 0; 0]).
    { unfold lnormalize. cbn [ldot]. replace (1 * 1 + (0 * 0 + (0 * 0 + 0))) with 1 by ring. rewrite sqrt_1. destruct (Rlt_dec 0 1); [|lra]. unfold lscale; cbn [map]. rewrite Rinv_1, Rmult_1_l, Rmult_0_r. reflexivity. }
    rewrite E. cbn [find_start existsb ldot app].
    assert (Z : forall x, x = 0 -> nonzero x = false) by (intros; apply nonzero_false; assumption).
    rewrite !Z by ring. reflexivity.
  - intros O. assert (H := O 1%nat 1%nat [0; 2; 0] [0; 2; 0] eq_refl eq_refl). cbn [ldot] in H. destruct (Nat.eq_dec 1 1); [lra|congruence].
Qed.

(** Concrete case: three independent vectors that are not orthogonal. *)
Example C32_case : let b := [[1; 0; 0]; [1; 1; 0]; [1; 1; 1]] in
  (forall v, In v b -> length v = 3%nat) /\ independent 3 b /\ (forall i v, (1 <= i)%nat -> leading_orthogonal b i -> nth_error b i = Some v -> ldot v v = 1).
Proof.
  cbn zeta. split; [intros v [<- |[<- |[<- |[]]]]; reflexivity|]. split.
  - assert (G : forall (f : nat) l, (forall v, In v l -> nth f v 0 = 0) -> forall v, span 3 l v -> length v = 3%nat -> nth f v 0 = 0).
    { intros f l A. assert (NP : forall u v k, length u = length v -> nth k (vplus u v) 0 = nth k u 0 + nth k v 0).
      { clear. induction u as [|x u IH]; destruct v as [|y v]; cbn [length]; intros k H; try lia; [destruct k; cbn; ring|]. destruct k; cbn [vplus nth]; [ring|apply IH; lia]. }
      intros v S. induction S; intros L.
      - destruct f as [|[|[|f]]]; try reflexivity. cbn. destruct f; reflexivity.
      - apply A; assumption.
      - assert (LP : forall u v : list R, length (vplus u v) = Nat.min (length u) (length v)) by (clear; induction u as [|x u IH]; destruct v as [|y v]; cbn [vplus length]; [reflexivity|reflexivity|reflexivity|rewrite IH; reflexivity]).
        destruct (Nat.lt_ge_cases f 3) as [F|F]; [|apply nth_overflow; lia].
        assert (SH : forall u v k, (k < Nat.min (length u) (length v))%nat -> nth k (vplus u v) 0 = nth k u 0 + nth k v 0).
        { clear. induction u as [|x u IH]; destruct v as [|y v]; cbn [length]; intros k H; try lia. destruct k; cbn [vplus nth]; [ring|apply IH; lia]. }
        rewrite LP in L. 
        assert (W : forall l w, (forall v, In v l -> nth f v 0 = 0) -> span 3 l w -> nth f w 0 = 0).
        { clear - SH LP F. intros l w A S. induction S; [destruct f as [|[|[|f]]]; try reflexivity; cbn; destruct f; reflexivity|apply A; assumption| |].
          - destruct (Nat.lt_ge_cases f (Nat.min (length u) (length v))) as [H|H]; [rewrite SH by exact H; rewrite IHS1, IHS2; ring|]. apply nth_overflow. rewrite LP. exact H.
          - rewrite <- (Rmult_0_r k), map_nth, IHS. reflexivity. }
        rewrite SH by lia. rewrite (W l u A S1), (W l v A S2). ring.
      - rewrite map_length in L. rewrite <- (Rmult_0_r k), map_nth, IHS by exact L. reflexivity. }
    intros l1 x l2 E S. destruct l1 as [|a [|c [|d l1]]]; cbn in E.
    + injection E as <- <-. assert (H := G 0%nat [] ltac:(intros v []) _ S eq_refl). cbn in H. lra.
    + injection E as <- <- <-. assert (H := G 1%nat [[1; 0; 0]] ltac:(intros v [<- |[]]; reflexivity) _ S eq_refl). cbn in H. lra.
    + injection E as <- <- <- <-. assert (H := G 2%nat [[1; 0; 0]; [1; 1; 0]] ltac:(intros v [<- |[<- |[]]]; reflexivity) _ S eq_refl). cbn in H. lra.
    + injection E as _ _ _ E. destruct l1; discriminate.
  - intros i v I L _. exfalso. assert (H := L 0%nat 1%nat [1; 0; 0] [1; 1; 0] ltac:(lia) eq_refl eq_refl). cbn [ldot] in H. lra.
Qed.
Print Assumptions C32_gram_schmidt.
