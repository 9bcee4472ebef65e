From Coq Require Import List ZArith QArith Qround Qfield Bool Arith Lia Lqa Permutation.
From Verif Require Import HistModel HistSpec.
Import ListNotations.
Open Scope nat_scope.

Lemma qle_bool_iff a b : Qle_bool a b = true <-> (a <= b)%Q. Proof. apply Qle_bool_iff. Qed.
Lemma le_floor (i : Z) x : (inject_Z i <= x)%Q <-> (i <= Qfloor x)%Z.
Proof.
  split; intros H.
  - apply Qfloor_resp_le in H. rewrite Qfloor_Z in H. exact H.
  - apply Qle_trans with (inject_Z (Qfloor x)); [rewrite <- Zle_Qle; exact H|apply Qfloor_le].
Qed.
(** The position of a value, counted in bins. *)
Definition pos (mn mx : Q) (n : nat) (v : Q) : Q := ((v - mn) / (mx - mn) * inject_Z (Z.of_nat n))%Q.
Lemma nq n : 0 < n -> (0 < inject_Z (Z.of_nat n))%Q.
Proof. intros L. change 0%Q with (inject_Z 0). rewrite <- Zlt_Qlt. lia. Qed.
Lemma edge_pos mn mx n i v : (mn < mx)%Q -> 0 < n -> (edge mn mx n i <= v)%Q <-> (inject_Z (Z.of_nat i) <= pos mn mx n v)%Q.
Proof.
  intros D N. pose proof (nq n N) as NQ. unfold edge, pos. set (I := inject_Z (Z.of_nat i)). set (M := inject_Z (Z.of_nat n)) in *. assert (DD : (0 < mx - mn)%Q) by lra.
  split; intros H.
  - apply Qle_trans with (((mn + (mx - mn) * I / M) - mn) / (mx - mn) * M)%Q; [apply Qle_lteq; right; field; split; lra|].
    apply Qmult_le_compat_r; [|lra]. apply Qmult_le_compat_r; [lra|]. apply Qlt_le_weak, Qinv_lt_0_compat, DD.
  - apply Qle_trans with (mn + (mx - mn) * ((v - mn) / (mx - mn) * M) / M)%Q; [|apply Qle_lteq; right; field; split; lra].
    apply Qplus_le_r. apply Qmult_le_compat_r; [|apply Qlt_le_weak, Qinv_lt_0_compat, NQ]. rewrite !(Qmult_comm (mx - mn)). apply Qmult_le_compat_r; [exact H|lra].
Qed.
Lemma edge_floor mn mx n i v : (mn < mx)%Q -> 0 < n -> Qle_bool (edge mn mx n i) v = (Z.of_nat i <=? Qfloor (pos mn mx n v))%Z.
Proof.
  intros D N. apply eq_true_iff_eq. rewrite Qle_bool_iff, Z.leb_le, (edge_pos mn mx n i v D N). apply le_floor.
Qed.
Lemma index_ok h v mn mx n : h_min h = mn -> h_max h = mx -> length (bins h) = n -> (mn < mx)%Q -> 0 < n -> (mn <= v)%Q -> (pos mn mx n v < inject_Z word)%Q ->
  exists j, value_to_index h v = Some j /\ j < n /\ forall i, i < n -> in_bin mn mx n i v = (i =? j).
Proof.
  intros EM EX EN D N LV W. unfold value_to_index. rewrite EM, EX, EN. destruct (Qeq_bool (mx - mn) 0) eqn:E0; [apply Qeq_bool_iff in E0; lra|]. cbv zeta.
  fold (pos mn mx n v). set (x := pos mn mx n v) in *.
  assert (X0 : (0 <= x)%Q).
  { unfold x, pos. apply Qmult_le_0_compat; [|apply Qlt_le_weak, nq, N]. apply Qmult_le_0_compat; [lra|]. apply Qlt_le_weak, Qinv_lt_0_compat. lra. }
  assert (F0 : (0 <= Qfloor x)%Z) by (apply le_floor; exact X0).
  unfold to_index. destruct (Qle_bool x (-1)) eqn:E1; [apply Qle_bool_iff in E1; lra|]. destruct (Qle_bool 0 x) eqn:E2; [|apply Qle_bool_iff in X0; congruence]. cbn [negb].
  assert (FW : (Qfloor x < word)%Z). { rewrite Zlt_Qlt. apply Qle_lt_trans with x; [apply Qfloor_le|exact W]. }
  apply Z.ltb_lt in FW. rewrite FW. destruct n as [|l]; [lia|]. exists (Nat.min l (Z.to_nat (Qfloor x))). split; [f_equal; lia|]. split; [lia|].
  intros i Li. unfold in_bin. rewrite !edge_floor by assumption. fold x. clearbody x. clear -Li F0.
  destruct (Z.leb_spec (Z.of_nat i) (Qfloor x)); destruct (Z.leb_spec (Z.of_nat (S i)) (Qfloor x)); destruct (Nat.eqb_spec (S i) (S l)); destruct (Nat.eqb_spec i (Nat.min l (Z.to_nat (Qfloor x)))); cbn; try reflexivity; exfalso; lia.
Qed.
Lemma bump_ok : forall l j, j < length l -> exists b, bump l j = Some b /\ length b = length l /\ forall i, nth i b 0 = nth i l 0 + (if i =? j then 1 else 0).
Proof.
  induction l as [|x l IH]; intros j L; [cbn in L; lia|]. destruct j as [|j].
  - exists (S x :: l). split; [reflexivity|]. split; [reflexivity|]. intros [|i]; cbn; lia.
  - cbn [length] in L. destruct (IH j ltac:(lia)) as (b & E & LB & NB). exists (x :: b). cbn [bump]. rewrite E. split; [reflexivity|]. split; [cbn; lia|]. intros [|i]; [cbn; lia|]. cbn [nth]. rewrite NB. reflexivity.
Qed.
Lemma insert_all_ok mn mx n : (mn < mx)%Q -> 0 < n -> forall vs h, h_min h = mn -> h_max h = mx -> length (bins h) = n ->
  (forall v, In v vs -> (mn <= v)%Q /\ (pos mn mx n v < inject_Z word)%Q) ->
  exists h', insert_all h vs = Some h' /\ h_min h' = mn /\ h_max h' = mx /\ length (bins h') = n /\ forall i, i < n -> nth i (bins h') 0 = nth i (bins h) 0 + members mn mx n i vs.
Proof.
  intros D N. induction vs as [|v vs IH]; intros h A B C V.
  - exists h. cbn [insert_all]. repeat (split; [auto|]). intros i L. unfold members. cbn. lia.
  - destruct (V v (or_introl eq_refl)) as [V1 V2]. destruct (index_ok h v mn mx n A B C D N V1 V2) as (j & E & LJ & IB). cbn [insert_all]. unfold insert. rewrite E.
    destruct (bump_ok (bins h) j ltac:(lia)) as (b & EB & LB & NB). rewrite EB.
    destruct (IH (Hist (h_min h) (h_max h) b) A B ltac:(cbn; lia) (fun w W => V w (or_intror W))) as (h' & E' & A' & B' & C' & NN). exists h'. split; [exact E'|]. split; [exact A'|]. split; [exact B'|]. split; [exact C'|].
    intros i L. rewrite (NN i L). cbn [bins]. rewrite NB. unfold members. cbn [filter]. rewrite (IB i L). destruct (i =? j); cbn [length]; lia.
Qed.
Lemma sum_members mn mx n vs : (mn < mx)%Q -> 0 < n -> (forall v, In v vs -> (mn <= v)%Q /\ (pos mn mx n v < inject_Z word)%Q) ->
  list_sum (map (fun i => members mn mx n i vs) (seq 0 n)) = length vs.
Proof.
  intros D N. assert (Z0 : list_sum (map (fun _ => 0) (seq 0 n)) = 0). { clear. induction (seq 0 n); cbn; auto. }
  assert (ADD : forall (f g : nat -> nat) l, list_sum (map (fun i => f i + g i) l) = list_sum (map f l) + list_sum (map g l)) by (intros f g; unfold list_sum; induction l as [|x l IHl]; cbn [map fold_right]; [reflexivity|rewrite IHl; lia]).
  assert (ONE : forall j s k, s <= j < s + k -> list_sum (map (fun i => if i =? j then 1 else 0) (seq s k)) = 1).
  { intros j s k. revert s. induction k as [|k IHk]; intros s L; [lia|]. cbn [seq map list_sum fold_right]. destruct (Nat.eqb_spec s j) as [->|NE].
    - cut (list_sum (map (fun i => if i =? j then 1 else 0) (seq (S j) k)) = 0); [unfold list_sum; intros ->; reflexivity|]. clear. assert (K : forall m, j < m -> list_sum (map (fun i => if i =? j then 1 else 0) (seq m k)) = 0); [|apply K; lia].
      induction k as [|k IHk]; intros m L; [reflexivity|]. cbn. destruct (Nat.eqb_spec m j); [lia|]. apply IHk. lia.
    - change (list_sum (map (fun i => if i =? j then 1 else 0) (seq (S s) k)) = 1). apply IHk. lia. }
  induction vs as [|v vs IH]; intros V; [unfold members; cbn; exact Z0|].
  destruct (V v (or_introl eq_refl)) as [V1 V2]. destruct (index_ok (Hist mn mx (repeat 0 n)) v mn mx n eq_refl eq_refl (repeat_length 0 n) D N V1 V2) as (j & _ & LJ & IB).
  transitivity (list_sum (map (fun i => (if i =? j then 1 else 0) + members mn mx n i vs) (seq 0 n))).
  - f_equal. apply map_ext_in. intros i I. apply in_seq in I. unfold members. cbn [filter]. rewrite IB by lia. destruct (i =? j); reflexivity.
  - rewrite ADD, ONE by lia. rewrite IH; [reflexivity|]. intros w W. apply V. right. exact W.
Qed.
(** First best element. *)
Lemma element_ok better : (forall a b c, better a b = false -> better b c = false -> better a c = false) -> (forall a b c, better a b = true -> better c b = false -> better a c = true) -> (forall a, better a a = false) ->
  (forall a b, better a b = true -> better b a = false) ->
  forall l i best k pre, length pre = i -> k < i -> nth k pre 0 = best -> (forall m, m < i -> better (nth m pre 0) best = false) -> (forall m, m < k -> better best (nth m pre 0) = true) ->
  let r := element_index better l i best k in r < i + length l /\ (forall m, m < i + length l -> better (nth m (pre ++ l) 0) (nth r (pre ++ l) 0) = false) /\ (forall m, m < r -> better (nth r (pre ++ l) 0) (nth m (pre ++ l) 0) = true).
Proof.
  intros T1 T2 IR AS. induction l as [|x l IH]; intros i best k pre LP LK NK A B; cbn [element_index]; cbv zeta.
  - rewrite app_nil_r. cbn [length]. rewrite NK. split; [lia|]. split; [intros m L; apply A; lia|exact B].
  - assert (N2 : forall m, m < i -> nth m (pre ++ [x]) 0 = nth m pre 0) by (intros m L; apply app_nth1; lia).
    assert (NX : nth i (pre ++ [x]) 0 = x) by (rewrite app_nth2 by lia; rewrite LP, Nat.sub_diag; reflexivity).
    replace (pre ++ x :: l) with ((pre ++ [x]) ++ l) by (rewrite <- app_assoc; reflexivity). replace (i + length (x :: l)) with (S i + length l) by (cbn; lia).
    destruct (better x best) eqn:E; apply IH; try (rewrite app_length; cbn; lia); try lia.
    + intros m L. destruct (Nat.eq_dec m i) as [->|NE]; [rewrite NX; apply IR|]. rewrite N2 by lia. apply T1 with best; [apply A; lia|]. apply AS. exact E.
    + intros m L. rewrite N2 by lia. apply T2 with best; [exact E|]. apply A. lia.
    + rewrite N2 by lia. exact NK.
    + intros m L. destruct (Nat.eq_dec m i) as [->|NE]; [rewrite NX; exact E|]. rewrite N2 by lia. apply A. lia.
    + intros m L. rewrite N2 by lia. apply B. exact L.
Qed.
Lemma first_ok better : (forall a b c, better a b = false -> better b c = false -> better a c = false) -> (forall a b c, better a b = true -> better c b = false -> better a c = true) -> (forall a, better a a = false) ->
  (forall a b, better a b = true -> better b a = false) -> forall l, l <> [] ->
  first_of better l < length l /\ (forall m, m < length l -> better (nth m l 0) (nth (first_of better l) l 0) = false) /\ (forall m, m < first_of better l -> better (nth (first_of better l) l 0) (nth m l 0) = true).
Proof.
  intros T1 T2 IR AS [|x l] NE; [congruence|]. cbn [first_of]. apply (element_ok better T1 T2 IR AS l 1 x 0 [x]); cbn; try lia; try reflexivity.
  intros [|[|m]] L; try lia. apply IR.
Qed.
Lemma range_ok : forall vs a, let mn := fold_left qmin vs a in let mx := fold_left qmax vs a in
  (mn <= a)%Q /\ (a <= mx)%Q /\ (forall v, In v vs -> (mn <= v <= mx)%Q) /\ In mn (a :: vs) /\ In mx (a :: vs).
Proof.
  assert (QM : forall a b, (qmin a b <= a)%Q /\ (qmin a b <= b)%Q /\ (qmin a b = a \/ qmin a b = b)).
  { intros a b. unfold qmin. destruct (Qle_bool a b) eqn:E; cbn [negb]; [apply Qle_bool_iff in E; split; [lra|]; split; [exact E|auto]|].
    assert (~ (a <= b)%Q) by (intros K; apply Qle_bool_iff in K; congruence). split; [lra|]. split; [lra|auto]. }
  assert (QX : forall a b, (a <= qmax a b)%Q /\ (b <= qmax a b)%Q /\ (qmax a b = a \/ qmax a b = b)).
  { intros a b. unfold qmax. destruct (Qle_bool b a) eqn:E; cbn [negb]; [apply Qle_bool_iff in E; split; [lra|]; split; [exact E|auto]|].
    assert (~ (b <= a)%Q) by (intros K; apply Qle_bool_iff in K; congruence). split; [lra|]. split; [lra|auto]. }
  assert (MIN : forall vs a, (fold_left qmin vs a <= a)%Q /\ (forall v, In v vs -> (fold_left qmin vs a <= v)%Q) /\ In (fold_left qmin vs a) (a :: vs)).
  { induction vs as [|w vs IH]; intros a; cbn [fold_left]; [split; [lra|]; split; [intros v []|left; reflexivity]|]. destruct (IH (qmin a w)) as (A & B & C). destruct (QM a w) as (M1 & M2 & M3).
    split; [lra|]. split; [intros v [<-|I]; [lra|apply B, I]|]. destruct C as [C|C]; [|right; right; exact C]. rewrite <- C. destruct M3 as [-> | ->]; [left; reflexivity|right; left; reflexivity]. }
  assert (MAX : forall vs a, (a <= fold_left qmax vs a)%Q /\ (forall v, In v vs -> (v <= fold_left qmax vs a)%Q) /\ In (fold_left qmax vs a) (a :: vs)).
  { induction vs as [|w vs IH]; intros a; cbn [fold_left]; [split; [lra|]; split; [intros v []|left; reflexivity]|]. destruct (IH (qmax a w)) as (A & B & C). destruct (QX a w) as (M1 & M2 & M3).
    split; [lra|]. split; [intros v [<-|I]; [lra|apply B, I]|]. destruct C as [C|C]; [|right; right; exact C]. rewrite <- C. destruct M3 as [-> | ->]; [left; reflexivity|right; left; reflexivity]. }
  intros vs a. cbv zeta. destruct (MIN vs a) as (A & B & C). destruct (MAX vs a) as (A' & B' & C'). split; [exact A|]. split; [exact A'|]. split; [intros v I; split; auto|auto].
Qed.
