From Coq Require Import List ZArith QArith Bool PeanoNat Permutation Lia.
From Verif Require Import PqpModel PqpSpec PqpBuildModel PqpBuildSpec.
Import ListNotations.
Open Scope nat_scope.

(** Arrays as lists. *)
Lemma list_ext : forall {A} (a b : list A), (forall i, nth_error a i = nth_error b i) -> a = b.
Proof.
  induction a as [|x a IH]; intros [|y b] H; auto.
  - specialize (H 0). discriminate.
  - specialize (H 0). discriminate.
  - assert (E := H 0). injection E as ->. f_equal. apply IH. intros i. exact (H (S i)).
Qed.

Lemma assign_app : forall {A} (a : list A) y b x, assign (a ++ y :: b) (length a) x = Some (a ++ x :: b).
Proof. induction a as [|z a IH]; intros y b x; cbn; [reflexivity|]. now rewrite IH. Qed.

Lemma assign_ok : forall {A} (l : list A) i x, i < length l -> exists l', assign l i x = Some l' /\ length l' = length l /\
  nth_error l' i = Some x /\ (forall j, j <> i -> nth_error l' j = nth_error l j).
Proof.
  intros A l i x. revert i. induction l as [|y l IH]; intros [|i] H; cbn in *; try lia.
  - exists (x :: l). cbn. split; [reflexivity|]. split; [reflexivity|]. split; [reflexivity|]. intros [|j] Hj; [contradiction|reflexivity].
  - destruct (IH i ltac:(lia)) as (l' & -> & L & E & O). exists (y :: l'). cbn. split; [reflexivity|]. split; [lia|]. split; [assumption|].
    intros [|j] Hj; [reflexivity|]. cbn. apply O. lia.
Qed.

Lemma nth_error_sub : forall {A} (l : list A) f n i, nth_error (sub l f n) i = if i <? n then nth_error l (f + i) else None.
Proof.
  intros A l f n i. unfold sub.
  assert (G : forall (k : list A) n i, nth_error (firstn n k) i = if i <? n then nth_error k i else None).
  { clear. induction k as [|x k IH]; intros [|n] [|i]; try reflexivity.
    - cbn [firstn nth_error]. now destruct (S i <? S n).
    - cbn [firstn nth_error]. rewrite IH. change (S i <? S n) with (i <? n). reflexivity. }
  rewrite G. destruct (i <? n); [|reflexivity]. clear. revert f. induction l as [|x l IH]; intros [|f]; cbn; auto.
  now destruct (i).
Qed.

Lemma sub_length : forall {A} (l : list A) f n, f + n <= length l -> length (sub l f n) = n.
Proof. intros. unfold sub. rewrite firstn_length, skipn_length. lia. Qed.

Lemma sub_ext : forall {A} (l l' : list A) f n, (forall i, f <= i < f + n -> nth_error l' i = nth_error l i) -> sub l' f n = sub l f n.
Proof.
  intros A l l' f n H. apply list_ext. intros i. rewrite !nth_error_sub. destruct (Nat.ltb_spec i n); [|reflexivity]. apply H. lia.
Qed.

Lemma sub_app : forall {A} (l : list A) f n k, k <= n -> sub l f n = sub l f k ++ sub l (f + k) (n - k).
Proof.
  intros A l f n k H. apply list_ext. intros i. destruct (le_lt_dec (f + k) (length l)) as [L|L].
  - destruct (Nat.ltb_spec i k).
    + rewrite nth_error_app1 by (rewrite sub_length; lia). rewrite !nth_error_sub. destruct (Nat.ltb_spec i n), (Nat.ltb_spec i k); try lia. reflexivity.
    + rewrite nth_error_app2 by (rewrite sub_length; lia). rewrite sub_length by lia. rewrite !nth_error_sub.
      destruct (Nat.ltb_spec i n), (Nat.ltb_spec (i - k) (n - k)); try lia; [|reflexivity]. f_equal. lia.
  - assert (E : sub l (f + k) (n - k) = []). { unfold sub. rewrite skipn_all2 by lia. apply firstn_nil. }
    rewrite E, app_nil_r, !nth_error_sub. destruct (Nat.ltb_spec i n), (Nat.ltb_spec i k); try lia; try reflexivity.
    apply nth_error_None. lia.
Qed.

Lemma sub_all : forall {A} (l : list A), sub l 0 (length l) = l.
Proof. intros. unfold sub. cbn. apply firstn_all. Qed.

Lemma splice_ok : forall {A} (l : list A) f r, f + length r <= length l ->
  length (splice l f r) = length l /\ sub (splice l f r) f (length r) = r /\
  (forall i, i < f \/ f + length r <= i -> nth_error (splice l f r) i = nth_error l i).
Proof.
  intros A l f r H. unfold splice.
  assert (L1 : length (firstn f l) = f) by (rewrite firstn_length; lia).
  split; [|split].
  - rewrite !app_length, skipn_length, firstn_length. lia.
  - unfold sub. rewrite skipn_app, L1, Nat.sub_diag. rewrite skipn_all2 by lia. cbn [app skipn]. rewrite firstn_app, Nat.sub_diag, firstn_all. cbn. apply app_nil_r.
  - assert (SK : forall (k : list A) n i, nth_error (skipn n k) i = nth_error k (n + i)).
    { clear. induction k as [|x k IH]; intros [|n] i; cbn; auto; now destruct i. }
    intros i [Hi|Hi].
    + rewrite nth_error_app1 by lia. rewrite <- (firstn_skipn f l) at 2. rewrite nth_error_app1 by lia. reflexivity.
    + rewrite nth_error_app2 by lia. rewrite nth_error_app2 by lia. rewrite SK, L1. f_equal. lia.
Qed.

Section Proofs.
Context {V G : Type}.
Variable bd : builder V G.

Lemma nth_split : forall {A} (l : list A) i x, nth_error l i = Some x -> exists a b, l = a ++ x :: b /\ length a = i.
Proof. intros A l i x H. apply nth_error_split in H as (a & b & -> & <-). eauto. Qed.

Lemma swap_perm : forall {A} (l : list A) i c ti tc, c <= i -> nth_error l i = Some ti -> nth_error l c = Some tc ->
  exists l1 l2, assign l i tc = Some l1 /\ assign l1 c ti = Some l2 /\ Permutation l2 l.
Proof.
  intros A l i c ti tc Hc Ei Ec. destruct (Nat.eq_dec c i) as [->|N].
  - rewrite Ei in Ec. injection Ec as <-. apply nth_split in Ei as (a & b & -> & <-). exists (a ++ ti :: b), (a ++ ti :: b).
    rewrite !assign_app. auto.
  - apply nth_split in Ec as (a & r & -> & <-). rewrite nth_error_app2 in Ei by lia.
    destruct (i - length a) as [|k] eqn:Ek; [lia|]. cbn in Ei. apply nth_split in Ei as (m & b & -> & <-).
    assert (E1 : a ++ tc :: m ++ ti :: b = (a ++ tc :: m) ++ ti :: b) by (now rewrite <- app_assoc).
    rewrite E1. replace i with (length (a ++ tc :: m)) by (rewrite app_length; cbn; lia). rewrite assign_app.
    eexists _, (a ++ ti :: m ++ tc :: b). split; [reflexivity|]. rewrite <- app_assoc. cbn [app]. rewrite assign_app. split; [reflexivity|].
    rewrite <- ?app_assoc. cbn [app]. apply Permutation_app_head. eapply Permutation_trans; [apply perm_skip; symmetry; apply Permutation_middle|].
    eapply Permutation_trans; [apply perm_swap|]. apply perm_skip. apply Permutation_middle.
Qed.

Lemma split_loop_ok : forall (p : tri G -> bool) n i c1 l, c1 <= i -> i + n = length l ->
  exists l' c, split_loop p n i c1 l = Some (l', c) /\ Permutation l' l /\ c <= i + n.
Proof.
  induction n as [|n IH]; intros i c1 l Hc Hn; cbn [split_loop].
  - exists l, c1. split; [reflexivity|]. split; [reflexivity|lia].
  - destruct (nth_error l i) as [ti|] eqn:Ei; [|apply nth_error_None in Ei; lia].
    destruct (p ti).
    + destruct (nth_error l c1) as [tc|] eqn:Ec; [|apply nth_error_None in Ec; lia].
      destruct (swap_perm l i c1 ti tc Hc Ei Ec) as (l1 & l2 & -> & -> & P2).
      destruct (IH (S i) (S c1) l2) as (l' & c & E & P' & C'); [lia|rewrite (Permutation_length P2); lia|].
      exists l', c. split; [exact E|]. split; [eapply Permutation_trans; eassumption|lia].
    + destruct (IH (S i) c1 l) as (l' & c & E & P' & C'); [lia|lia|]. exists l', c. split; [exact E|]. split; [assumption|lia].
Qed.

Lemma split_tris_ok : forall p (l : list (tri G)), 2 <= length l -> exists l' k, split_tris p l = Some (l', k) /\ Permutation l' l /\ 0 < k < length l.
Proof.
  intros p l H. unfold split_tris. destruct (split_loop_ok p (length l) 0 0 l) as (l' & c & -> & P & C); [lia|lia|].
  eexists _, _. split; [reflexivity|]. split; [assumption|].
  assert (1 <= length l / 2) by (apply Nat.div_le_lower_bound; lia). assert (length l / 2 < length l) by (apply Nat.div_lt; lia).
  destruct (Nat.eqb_spec c 0), (Nat.eqb_spec c (length l)); cbn [orb]; lia.
Qed.

(** The tree at slot [b], its other volumes in the slots [lo, lo + 2 (num - 1)), over the triangles
    [first, first + num). *)
Inductive btree (bvs : list (bvol V)) (tris : list (tri G)) : nat -> nat -> nat -> nat -> Prop :=
| btree_leaf : forall b lo f v, nth_error bvs b = Some v -> first_child v = (- (Z.of_nat f + 1))%Z -> f + 1 <= length tris ->
    (exists ts, Permutation ts (sub tris f 1) /\ vol v = fit bd ts) -> btree bvs tris b lo f 1
| btree_node : forall b lo f num k v, nth_error bvs b = Some v -> first_child v = Z.of_nat lo -> 0 < k < num -> f + num <= length tris ->
    (exists ts, Permutation ts (sub tris f num) /\ vol v = fit bd ts) ->
    btree bvs tris lo (lo + 2) f k -> btree bvs tris (lo + 1) (lo + 2 * k) (f + k) (num - k) ->
    btree bvs tris b lo f num.

Lemma btree_frame : forall bvs tris b lo f num, btree bvs tris b lo f num -> forall bvs' tris', length tris' = length tris ->
  nth_error bvs' b = nth_error bvs b -> (forall i, lo <= i < lo + 2 * (num - 1) -> nth_error bvs' i = nth_error bvs i) ->
  (forall i, f <= i < f + num -> nth_error tris' i = nth_error tris i) -> btree bvs' tris' b lo f num.
Proof.
  intros bvs tris b lo f num H. induction H as [b lo f v Hv Hf Ht Hfit|b lo f num k v Hv Hf Hk Ht Hfit H1 IH1 H2 IH2]; intros bvs' tris' L Eb Es Et.
  - apply btree_leaf with v; auto; [congruence|congruence|]. rewrite (sub_ext tris tris' f 1 Et). assumption.
  - apply btree_node with k v; auto; [congruence|congruence|..].
    + rewrite (sub_ext tris tris' f num Et). assumption.
    + apply IH1; auto; [apply Es; lia|intros; apply Es; lia|intros; apply Et; lia].
    + apply IH2; auto; [apply Es; lia|intros; apply Es; lia|intros; apply Et; lia].
Qed.

Lemma build_recurse_ok : forall fuel st bn first num, num < fuel -> 0 < num -> first + num <= length (s_tris st) ->
  bn < s_num st -> s_num st + 2 * (num - 1) <= length (s_bvs st) ->
  exists st', build_recurse bd fuel st bn first num = Some st' /\ s_num st' = s_num st + 2 * (num - 1) /\
    length (s_bvs st') = length (s_bvs st) /\ length (s_tris st') = length (s_tris st) /\
    (forall i, i <> bn -> (i < s_num st \/ s_num st' <= i) -> nth_error (s_bvs st') i = nth_error (s_bvs st) i) /\
    (forall i, i < first \/ first + num <= i -> nth_error (s_tris st') i = nth_error (s_tris st) i) /\
    Permutation (sub (s_tris st') first num) (sub (s_tris st) first num) /\
    btree (s_bvs st') (s_tris st') bn (s_num st) first num.
Proof.
  induction fuel as [|fuel IH]; intros [tris bvs nb] bn first num Hf Hn Ht Hb Hs; [lia|]. cbn [build_recurse s_tris s_bvs s_num] in *.
  destruct (Nat.eqb_spec num 0), (Nat.ltb_spec (length tris) (first + num)); try lia. cbn [orb].
  destruct (Nat.eqb_spec num 1) as [->|N1].
  - destruct (assign_ok bvs bn (BVol (- (Z.of_nat first + 1)) (fit bd (sub tris first 1)))) as (bvs' & -> & L & E & O); [lia|].
    eexists. split; [reflexivity|]. cbn [s_num s_bvs s_tris]. split; [lia|]. split; [assumption|]. split; [reflexivity|].
    split; [intros; now apply O|]. split; [auto|]. split; [reflexivity|].
    eapply btree_leaf; [exact E|reflexivity|lia|]. exists (sub tris first 1). split; reflexivity.
  - set (ts := sub tris first num). assert (Lts : length ts = num) by (apply sub_length; lia).
    destruct (assign_ok bvs bn (BVol (Z.of_nat nb) (fit bd ts))) as (bvs1 & -> & L1 & E1 & O1); [lia|].
    destruct (split_tris_ok (below bd ts) ts) as (ts' & k & -> & P1 & Hk); [lia|]. rewrite Lts in Hk.
    assert (Lts' : length ts' = num) by (rewrite (Permutation_length P1); exact Lts).
    destruct (splice_ok tris first ts') as (LS & SS & OS); [lia|]. rewrite Lts' in SS, OS.
    rewrite E1. cbn [first_child]. rewrite Nat2Z.id. set (tris1 := splice tris first ts') in *.
    destruct (IH (BState tris1 bvs1 (nb + 2)) nb first k) as (st2 & -> & N2 & LB2 & LT2 & FB2 & FT2 & P2 & B2); cbn [s_tris s_bvs s_num]; try lia.
    cbn [s_tris s_bvs s_num] in *. rewrite (FB2 bn) by lia. rewrite E1. cbn [first_child]. rewrite Nat2Z.id.
    destruct st2 as [tris2 bvs2 nb2]. cbn [s_tris s_bvs s_num] in *.
    destruct (IH (BState tris2 bvs2 nb2) (nb + 1) (first + k) (num - k)) as (st3 & -> & N3 & LB3 & LT3 & FB3 & FT3 & P3 & B3); cbn [s_tris s_bvs s_num]; try lia.
    cbn [s_tris s_bvs s_num] in *. destruct st3 as [tris3 bvs3 nb3]. cbn [s_tris s_bvs s_num] in *.
    assert (PP : Permutation (sub tris3 first num) ts).
    { rewrite (sub_app tris3 first num k) by lia. rewrite (sub_ext tris2 tris3 first k) by (intros; apply FT3; lia).
      rewrite P2, P3. rewrite (sub_ext tris1 tris2 (first + k) (num - k)) by (intros; apply FT2; lia).
      rewrite <- sub_app by lia. rewrite SS. exact P1. }
    exists (BState tris3 bvs3 nb3). cbn [s_tris s_bvs s_num]. split; [reflexivity|]. split; [lia|]. split; [lia|]. split; [lia|].
    split; [|split; [|split]].
    + intros i Hi Hr. rewrite FB3 by lia. rewrite FB2 by lia. apply O1. assumption.
    + intros i Hi. rewrite FT3 by lia. rewrite FT2 by lia. apply OS. lia.
    + exact PP.
    + eapply btree_node with (k := k).
      * rewrite FB3 by lia. rewrite FB2 by lia. exact E1.
      * reflexivity.
      * exact Hk.
      * lia.
      * exists ts. split; [now symmetry|reflexivity].
      * apply (btree_frame _ _ _ _ _ _ B2); [lia|apply FB3; lia|intros; apply FB3; lia|intros; apply FT3; lia].
      * replace (nb + 2 * k) with nb2 by lia. exact B3.
Qed.

Lemma make_parent_relative_ok : forall fuel tris bvs b lo f num P, btree bvs tris b lo f num -> num < fuel -> b < lo ->
  lo + 2 * (num - 1) <= length bvs ->
  exists bvs', make_parent_relative bd fuel bvs b P = Some bvs' /\ length bvs' = length bvs /\
    (forall i, i <> b -> (i < lo \/ lo + 2 * (num - 1) <= i) -> nth_error bvs' i = nth_error bvs i) /\
    (exists v, nth_error bvs b = Some v /\ nth_error bvs' b = Some (BVol (first_child v) (relative bd P (vol v)))) /\
    (forall j v k, j = b \/ lo <= j < lo + 2 * (num - 1) -> nth_error bvs j = Some v -> (0 <= first_child v)%Z ->
       k = Z.to_nat (first_child v) \/ k = Z.to_nat (first_child v) + 1 ->
       lo <= k < lo + 2 * (num - 1) /\
       exists c, nth_error bvs k = Some c /\ nth_error bvs' k = Some (BVol (first_child c) (relative bd (vol v) (vol c)))).
Proof.
  induction fuel as [|fuel IH]; intros tris bvs b lo f num P HB Hf Hlo Hlen; [lia|]. cbn [make_parent_relative].
  inversion HB as [b' lo' f' v Hv Hfc Ht Hfit|b' lo' f' num' k v Hv Hfc Hk Ht Hfit H1 H2]; subst.
  - rewrite Hv. unfold leaf. destruct (Z.ltb_spec (first_child v) 0); [|lia]. rewrite Hv.
    assert (b < length bvs) by (apply nth_error_Some; congruence).
    destruct (assign_ok bvs b (BVol (first_child v) (relative bd P (vol v)))) as (bvs' & -> & L & E & O); [assumption|].
    exists bvs'. split; [reflexivity|]. split; [assumption|]. split; [intros; now apply O|]. split; [eauto|].
    intros j w k [->|Hj] Hw Hpos Hkk; [rewrite Hv in Hw; injection Hw as <-; lia|lia].
  - rewrite Hv. unfold leaf. destruct (Z.ltb_spec (first_child v) 0); [lia|]. rewrite Hfc, Nat2Z.id.
    destruct (IH tris bvs lo (lo + 2) f k (vol v) H1) as (bvs1 & -> & L1 & F1 & (v1 & V1 & V1') & C1); try lia.
    rewrite (F1 b) by lia. rewrite Hv, Hfc, Nat2Z.id.
    assert (H2' : btree bvs1 tris (lo + 1) (lo + 2 * k) (f + k) (num - k)).
    { apply (btree_frame _ _ _ _ _ _ H2); [reflexivity|apply F1; lia|intros; apply F1; lia|reflexivity]. }
    destruct (IH tris bvs1 (lo + 1) (lo + 2 * k) (f + k) (num - k) (vol v) H2') as (bvs2 & -> & L2 & F2 & (v2 & V2 & V2') & C2); try lia.
    rewrite (F2 b) by lia. rewrite (F1 b) by lia. rewrite Hv.
    destruct (assign_ok bvs2 b (BVol (first_child v) (relative bd P (vol v)))) as (bvs3 & E3 & L3 & B3 & O3).
    { assert (b < length bvs) by (apply nth_error_Some; congruence). lia. }
    exists bvs3. split; [exact E3|]. split; [lia|]. split; [|split].
    + intros i Hi Hr. rewrite O3 by assumption. rewrite F2 by lia. apply F1; lia.
    + eauto.
    + rewrite F1 in V2 by lia.
      intros j w kk Hj Hw Hpos Hkk. destruct (Nat.eq_dec j b) as [->|Nj].
      * rewrite Hv in Hw. injection Hw as <-. rewrite Hfc, Nat2Z.id in Hkk. split; [lia|]. destruct Hkk as [->| ->].
        -- exists v1. split; [assumption|]. rewrite O3 by lia. rewrite F2 by lia. exact V1'.
        -- exists v2. split; [assumption|]. rewrite O3 by lia. exact V2'.
      * assert (D : (j = lo \/ lo + 2 <= j < lo + 2 + 2 * (k - 1)) \/ (j = lo + 1 \/ lo + 2 * k <= j < lo + 2 * k + 2 * (num - k - 1))) by lia.
        destruct D as [D|D].
        -- destruct (C1 j w kk D Hw Hpos Hkk) as (R1 & c & Ec & Ec'). split; [lia|]. exists c. split; [assumption|].
           rewrite O3 by lia. rewrite F2 by lia. exact Ec'.
        -- rewrite <- (F1 j) in Hw by lia. destruct (C2 j w kk D Hw Hpos Hkk) as (R2 & c & Ec & Ec'). split; [lia|]. exists c.
           rewrite F1 in Ec by lia. split; [assumption|]. rewrite O3 by lia. exact Ec'.
Qed.

(** The tree of the specification. *)
Lemma btree_tree : forall bvs tris b lo f num, btree bvs tris b lo f num -> forall m : model V G, m_tris m = tris ->
  (forall i v, nth_error bvs i = Some v -> exists v', nth_error (m_bvs m) i = Some v' /\ first_child v' = first_child v) ->
  tree m b (seq f num).
Proof.
  intros bvs tris b lo f num H m Em Hm. induction H as [b lo f v Hv Hf Ht Hfit|b lo f num k v Hv Hf Hk Ht Hfit H1 IH1 H2 IH2].
  - destruct (Hm b v Hv) as (v' & Hv' & Ef). destruct (nth_error tris f) as [t|] eqn:E; [|apply nth_error_None in E; lia].
    apply tree_leaf with v' t; [assumption|lia|now rewrite Em].
  - destruct (Hm b v Hv) as (v' & Hv' & Ef). replace (seq f num) with (seq f k ++ seq (f + k) (num - k)).
    + apply tree_node with v' lo; auto. congruence.
    + rewrite <- seq_app. f_equal. lia.
Qed.

Lemma tree_det : forall (m : model V G) b l, tree m b l -> forall l', tree m b l' -> l' = l.
Proof.
  intros m b l H. induction H as [b v i t Hv Hf Ht|b v c l1 l2 Hv Hf H1 IH1 H2 IH2]; intros l' H'; inversion H' as [b' v' i' t' Hv' Hf' Ht'|b' v' c' k1 k2 Hv' Hf' T1 T2]; subst;
    rewrite Hv in Hv'; injection Hv' as <-; try lia.
  - f_equal. lia.
  - assert (c' = c) by lia. subst c'. f_equal; auto.
Qed.

(** The triangles below a volume and their fit, for every slot of the tree. *)
Lemma btree_slot : forall bvs tris b lo f num, btree bvs tris b lo f num ->
  forall j, j = b \/ lo <= j < lo + 2 * (num - 1) -> exists lo' f' n', btree bvs tris j lo' f' n'.
Proof.
  intros bvs tris b lo f num H. induction H as [b lo f v Hv Hf Ht Hfit|b lo f num k v Hv Hf Hk Ht Hfit H1 IH1 H2 IH2]; intros j Hj.
  - destruct Hj as [->|Hj]; [|lia]. exists lo, f, 1. eapply btree_leaf; eauto.
  - destruct (Nat.eq_dec j b) as [->|N]; [exists lo, f, num; eapply btree_node; eauto|].
    assert (D : (j = lo \/ lo + 2 <= j < lo + 2 + 2 * (k - 1)) \/ (j = lo + 1 \/ lo + 2 * k <= j < lo + 2 * k + 2 * (num - k - 1))) by lia.
    destruct D; auto.
Qed.

Lemma btree_fit : forall bvs tris b lo f num, btree bvs tris b lo f num -> f + num <= length tris /\
  exists v ts, nth_error bvs b = Some v /\ Permutation ts (sub tris f num) /\ vol v = fit bd ts.
Proof. intros bvs tris b lo f num H. destruct H as [b lo f v Hv Hf Ht (ts & P & E)|b lo f num k v Hv Hf Hk Ht (ts & P & E) H1 H2]; eauto 8. Qed.

Lemma sub_map : forall {A} (l : list A) f n, f + n <= length l -> map Some (sub l f n) = map (fun i => nth_error l i) (seq f n).
Proof.
  intros A l f n H. apply list_ext. intros i. rewrite !nth_error_map, nth_error_sub.
  destruct (Nat.ltb_spec i n) as [L|L].
  - assert (E : nth_error (seq f n) i = Some (f + i)).
    { clear -L. revert f i L. induction n as [|n IH]; intros f [|i] L; cbn; try lia; [f_equal; lia|]. rewrite IH by lia. f_equal. lia. }
    rewrite E. cbn. destruct (nth_error l (f + i)) eqn:E2; [reflexivity|]. apply nth_error_None in E2. lia.
  - assert (E : nth_error (seq f n) i = None) by (apply nth_error_None; rewrite seq_length; lia). now rewrite E.
Qed.

Lemma tree_slot : forall (m : model V G) b l, tree m b l -> b < length (m_bvs m).
Proof. intros m b l H. destruct H; apply nth_error_Some; congruence. Qed.

Theorem build_model_ok : forall junk tris, tris <> [] -> exists m, build_model bd junk tris = Some m /\ built bd tris m.
Proof.
  intros junk tris Hne. assert (Hn : 0 < length tris) by (destruct tris; [contradiction|cbn; lia]).
  unfold build_model. set (n := length tris) in *.
  destruct (build_recurse_ok (S n) (BState tris (repeat junk (2 * n - 1)) 1) 0 0 n) as (st & -> & N & LB & LT & _ & _ & PM & BT);
    cbn [s_tris s_bvs s_num]; rewrite ?repeat_length; try lia.
  destruct st as [tris' bvs nb]. cbn [s_tris s_bvs s_num] in *. rewrite repeat_length in LB.
  destruct (make_parent_relative_ok (S n) tris' bvs 0 1 0 n (world bd) BT) as (bvs' & -> & L & F & (v0 & V0 & V0') & C); try lia.
  exists (Model tris' bvs'). split; [reflexivity|].
  assert (SAME : forall i v, nth_error bvs i = Some v -> exists v', nth_error bvs' i = Some v' /\ first_child v' = first_child v).
  { intros i v Hv. assert (i < length bvs) by (apply nth_error_Some; congruence). destruct (Nat.eq_dec i 0) as [->|Ni].
    - rewrite V0 in Hv. injection Hv as <-. eauto.
    - destruct (nth_error bvs' i) as [v'|] eqn:E'; [|apply nth_error_None in E'; lia]. exists v'. split; [reflexivity|].
      assert (PAR : exists j w, (j = 0 \/ 1 <= j < 1 + 2 * (n - 1)) /\ nth_error bvs j = Some w /\ (0 <= first_child w)%Z /\ (i = Z.to_nat (first_child w) \/ i = Z.to_nat (first_child w) + 1)).
      { assert (G1 : forall b lo f num, btree bvs tris' b lo f num -> lo <= i < lo + 2 * (num - 1) ->
           exists j w, (j = b \/ lo <= j < lo + 2 * (num - 1)) /\ nth_error bvs j = Some w /\ (0 <= first_child w)%Z /\ (i = Z.to_nat (first_child w) \/ i = Z.to_nat (first_child w) + 1)).
        { intros b lo f num HB. induction HB as [b lo f w Hw Hf Ht Hfit|b lo f num k w Hw Hf Hk Ht Hfit H1 IH1 H2 IH2]; intros Hi; [lia|].
          destruct (Nat.eq_dec i lo); [exists b, w; repeat split; auto; lia|]. destruct (Nat.eq_dec i (lo + 1)); [exists b, w; repeat split; auto; lia|].
          destruct (le_lt_dec (lo + 2 * k) i).
          - destruct IH2 as (j & w' & Hj & R); [lia|]. exists j, w'. split; [lia|exact R].
          - destruct IH1 as (j & w' & Hj & R); [lia|]. exists j, w'. split; [lia|exact R]. }
        destruct (G1 0 1 0 n BT) as (j & w & Hj & R); [lia|]. exists j, w. split; [exact Hj|exact R]. }
      destruct PAR as (j & w & Hj & Hw & Hp & Hi). destruct (C j w i Hj Hw Hp Hi) as (_ & c & Ec & Ec').
      rewrite Ec' in E'. injection E' as <-. rewrite Hv in Ec. injection Ec as <-. reflexivity. }
  assert (BACK : forall i v', nth_error bvs' i = Some v' -> exists v, nth_error bvs i = Some v /\ first_child v' = first_child v).
  { intros i v' Hv'. destruct (nth_error bvs i) as [v|] eqn:E; [|apply nth_error_None in E; assert (i < length bvs') by (apply nth_error_Some; congruence); lia].
    exists v. split; [reflexivity|]. destruct (SAME i v E) as (v2 & E2 & F2). rewrite Hv' in E2. injection E2 as <-. assumption. }
  split; [|split; [|split]]; cbn [m_tris m_bvs].
  - assert (E1 : sub tris' 0 n = tris') by (rewrite <- (sub_all tris') at 2; f_equal; lia). rewrite E1 in PM.
    unfold n in PM. rewrite sub_all in PM. exact PM.
  - fold n. lia.
  - fold n. apply (btree_tree _ _ _ _ _ _ BT (Model tris' bvs') eq_refl). exact SAME.
  - exists (fun b => match nth_error bvs b with Some v => vol v | None => world bd end). split; [|split].
    + intros b l HT. assert (Hb := tree_slot _ _ _ HT). cbn [m_bvs] in Hb.
      destruct (btree_slot _ _ _ _ _ _ BT b ltac:(lia)) as (lo' & f' & n' & HB).
      assert (ET := btree_tree _ _ _ _ _ _ HB (Model tris' bvs') eq_refl SAME). rewrite (tree_det _ _ _ ET l HT).
      destruct (btree_fit _ _ _ _ _ _ HB) as (Hl & v & ts & Hv & P & Ev). exists (map Some ts). split.
      * rewrite <- sub_map by lia. now apply Permutation_map.
      * exists ts. split; [reflexivity|]. now rewrite Hv.
    + eexists. split; [exact V0'|]. cbn [vol]. now rewrite V0.
    + intros b v k Hb Hv Hp Hk. destruct (BACK b v Hv) as (w & Hw & Ef). rewrite Ef in Hp, Hk.
      destruct (C b w k ltac:(lia) Hw Hp Hk) as (_ & c & Ec & Ec'). eexists. split; [exact Ec'|]. cbn [vol]. now rewrite Hw, Ec.
Qed.
End Proofs.

Section EndToEnd.
Context {V G P X : Type}.
Variables (bd : builder V G) (g : geometry V G P X) (start : V -> V -> X) (placed : X -> V -> V -> Prop).
Hypothesis L : laws bd g start placed.
Variables (tris1 tris2 : list (tri G)) (o1 o2 : model V G).
Hypothesis B1 : built bd tris1 o1.
Hypothesis B2 : built bd tris2 o2.
Variables r1 r2 : bvol V.
Hypothesis R1 : nth_error (m_bvs o1) 0 = Some r1.
Hypothesis R2 : nth_error (m_bvs o2) 0 = Some r2.
Let x0 := start (vol r1) (vol r2).

Definition has_world (o : model V G) (w : nat -> V) : Prop :=
  (forall b l, tree o b l -> exists ts, Permutation ts (map (fun i => nth_error (m_tris o) i) l) /\
       exists us, ts = map Some us /\ w b = fit bd us) /\
    (exists r, nth_error (m_bvs o) 0 = Some r /\ vol r = relative bd (world bd) (w 0)) /\
    (forall b v k, b < length (m_bvs o) -> nth_error (m_bvs o) b = Some v -> (0 <= first_child v)%Z ->
       k = Z.to_nat (first_child v) \/ k = Z.to_nat (first_child v) + 1 ->
       exists c, nth_error (m_bvs o) k = Some c /\ vol c = relative bd (w b) (w k)).

Lemma met_placed : forall w1 w2, has_world o1 w1 -> has_world o2 w2 -> forall x b1 b2, met g o1 o2 x0 x b1 b2 ->
  placed x (w1 b1) (w2 b2) /\ (exists v p, nth_error (m_bvs o1) b1 = Some v /\ vol v = relative bd p (w1 b1)) /\
  (exists v p, nth_error (m_bvs o2) b2 = Some v /\ vol v = relative bd p (w2 b2)).
Proof.
  intros w1 w2 (F1 & (q1 & Q1 & E1) & C1) (F2 & (q2 & Q2 & E2) & C2) x b1 b2 HM.
  rewrite R1 in Q1. rewrite R2 in Q2. injection Q1 as <-. injection Q2 as <-.
  induction HM as [|x b1 b2 v k c HM IH Hv Hp Hk Hc|x b1 b2 v k c HM IH Hv Hp Hk Hc].
  - split; [unfold x0; rewrite E1, E2; apply (law_start _ _ _ _ L)|]. split; [exists r1, (world bd)|exists r2, (world bd)]; auto.
  - destruct IH as (PL & W1 & W2). assert (Hb : b1 < length (m_bvs o1)) by (apply nth_error_Some; congruence).
    destruct (C1 b1 v k Hb Hv Hp Hk) as (c' & Ec & Er). rewrite Hc in Ec. injection Ec as <-.
    split; [rewrite Er; now apply (law_enter1 _ _ _ _ L)|]. split; [exists c, (w1 b1); auto|assumption].
  - destruct IH as (PL & W1 & W2). assert (Hb : b2 < length (m_bvs o2)) by (apply nth_error_Some; congruence).
    destruct (C2 b2 v k Hb Hv Hp Hk) as (c' & Ec & Er). rewrite Hc in Ec. injection Ec as <-.
    split; [rewrite Er; now apply (law_enter2 _ _ _ _ L)|]. split; [assumption|exists c, (w2 b2); auto].
Qed.

Lemma below_in : forall (o : model V G) w b l i t, has_world o w -> tree o b l -> In i l -> nth_error (m_tris o) i = Some t ->
  exists us, w b = fit bd us /\ In t us.
Proof.
  intros o w b l i t (F & _) HT Hi Ht. destruct (F b l HT) as (ts & HP & us & -> & E). exists us. split; [assumption|].
  assert (K : In (Some t) (map Some us)).
  { apply (Permutation_in _ (Permutation_sym HP)). apply in_map_iff. exists i. auto. }
  apply in_map_iff in K as (t' & K & Hin). now injection K as ->.
Qed.

Lemma built_overlap_sound : overlap_sound g o1 o2 x0.
Proof.
  destruct B1 as (_ & _ & _ & w1 & W1), B2 as (_ & _ & _ & w2 & W2).
  intros x b1 b2 v1 v2 l1 l2 i j HM Hv1 Hv2 T1 T2 Hi Hj (t1 & t2 & E1 & E2 & C).
  destruct (met_placed w1 w2 W1 W2 x b1 b2 HM) as (PL & (u1 & p1 & U1 & K1) & (u2 & p2 & U2 & K2)).
  rewrite Hv1 in U1. rewrite Hv2 in U2. injection U1 as <-. injection U2 as <-.
  destruct (below_in o1 w1 b1 l1 i t1 W1 T1 Hi E1) as (us1 & F1 & I1), (below_in o2 w2 b2 l2 j t2 W2 T2 Hj E2) as (us2 & F2 & I2).
  rewrite K1, K2, F1, F2. rewrite F1, F2 in PL. exact (law_overlap _ _ _ _ L x us1 us2 p1 p2 t1 t2 PL I1 I2 C).
Qed.

Lemma built_bvdist_sound : bvdist_sound g o1 o2 x0.
Proof.
  destruct B1 as (_ & _ & _ & w1 & W1), B2 as (_ & _ & _ & w2 & W2).
  intros x b1 b2 v1 v2 l1 l2 i j d pts HM Hv1 Hv2 T1 T2 Hi Hj (t1 & t2 & E1 & E2 & C).
  destruct (met_placed w1 w2 W1 W2 x b1 b2 HM) as (PL & (u1 & p1 & U1 & K1) & (u2 & p2 & U2 & K2)).
  rewrite Hv1 in U1. rewrite Hv2 in U2. injection U1 as <-. injection U2 as <-.
  destruct (below_in o1 w1 b1 l1 i t1 W1 T1 Hi E1) as (us1 & F1 & I1), (below_in o2 w2 b2 l2 j t2 W2 T2 Hj E2) as (us2 & F2 & I2).
  rewrite K1, K2, F1, F2. rewrite F1, F2 in PL. replace d with (fst (g_tridist g (corners t1) (corners t2))) by now rewrite C.
  exact (law_distance _ _ _ _ L x us1 us2 p1 p2 t1 t2 PL I1 I2).
Qed.

Lemma built_complete : forall tris (o : model V G), built bd tris o -> complete_tree o.
Proof.
  intros tris o (HP & _ & HT & _). exists (seq 0 (length tris)). split; [assumption|]. now rewrite (Permutation_length HP).
Qed.

Lemma flat_map_seq : forall {A C} (f : A -> list C) (l : list A),
  flat_map (fun i => match nth_error l i with Some t => f t | None => [] end) (seq 0 (length l)) = flat_map f l.
Proof.
  intros A C f l.
  assert (G1 : forall k s, (forall i, nth_error l (s + i) = nth_error k i) ->
    flat_map (fun i => match nth_error l i with Some t => f t | None => [] end) (seq s (length k)) = flat_map f k).
  { induction k as [|t k IH]; intros s H; [reflexivity|]. cbn [length seq flat_map]. assert (H0 := H 0). rewrite Nat.add_0_r in H0. rewrite H0. cbn [nth_error].
    f_equal. apply IH. intros i. change (nth_error k i) with (nth_error (t :: k) (S i)). rewrite <- (H (S i)). f_equal. lia. }
  now apply G1.
Qed.

Lemma all_contacts_touching : Permutation (all_contacts g o1 o2) (touching g tris1 tris2).
Proof.
  assert (E : all_contacts g o1 o2 = touching g (m_tris o1) (m_tris o2)).
  { unfold all_contacts, contacts, touching. rewrite <- (flat_map_seq _ (m_tris o1)). apply flat_map_ext. intros i. unfold contact_of.
    destruct (nth_error (m_tris o1) i) as [t1|].
    - rewrite <- (flat_map_seq _ (m_tris o2)). apply flat_map_ext. intros j. destruct (nth_error (m_tris o2) j); reflexivity.
    - induction (seq 0 (length (m_tris o2))) as [|j l IH]; [reflexivity|]. cbn. exact IH. }
  rewrite E. destruct B1 as (P1 & _), B2 as (P2 & _). unfold touching.
  assert (FP : forall {A C} (f f' : A -> list C) l l', (forall a, Permutation (f a) (f' a)) -> Permutation l l' -> Permutation (flat_map f l) (flat_map f' l')).
  { clear. intros A C f f' l l' H HP. assert (E1 : Permutation (flat_map f l) (flat_map f' l)).
    { clear HP. induction l as [|a l IH]; cbn; [constructor|]. now apply Permutation_app. }
    rewrite E1. clear E1. induction HP; cbn.
    - constructor.
    - now apply Permutation_app_head.
    - rewrite !app_assoc. apply Permutation_app_tail, Permutation_app_comm.
    - eapply Permutation_trans; eassumption. }
  apply FP; [|exact P1]. intros t1. apply FP; [|exact P2]. reflexivity.
Qed.
End EndToEnd.

(** The call protocol. *)
Section Protocol.
Context {V G : Type}.
Variable bd : builder V G.

Definition consistent (m : pmodel V G) : Prop :=
  match pm_phase m with Empty => pm_b m = Null /\ m_tris (pm_model m) = [] | Begun => pm_b m <> Owned | Processed => pm_b m = Owned end.

Lemma pstep_consistent : forall m c m' s, consistent m -> pstep bd m c = Some (m', s) -> consistent m'.
Proof.
  intros [ph b mo] c m' s H E. unfold consistent in *. cbn [pm_phase pm_b pm_model] in *.
  destruct c as [|t|j]; cbn [pstep] in E; unfold begin_model, add_tri, end_model in E; cbn [pm_phase pm_b pm_model] in E.
  - destruct ph; [injection E as <- <-; cbn; destruct H as [-> _]; discriminate|..];
      (destruct (delete_ok b) eqn:D; [|discriminate]); injection E as <- <-; cbn; destruct b; cbn; congruence.
  - destruct ph; injection E as <- <-; cbn; auto. destruct H as [-> _]. discriminate.
  - destruct ph; [|..|injection E as <- <-; exact H].
    + destruct H as [H1 H2]. rewrite H2 in E. injection E as <- <-. cbn. auto.
    + destruct (m_tris mo) eqn:Et.
      * injection E as <- <-. cbn. auto.
      * destruct (build_model bd j (t :: l)); [|discriminate]. injection E as <- <-. reflexivity.
Qed.

Lemma pcalls_consistent : forall cs m m' ss, consistent m -> pcalls bd m cs = Some (m', ss) -> consistent m'.
Proof.
  induction cs as [|c cs IH]; intros m m' ss H E; cbn [pcalls] in E; [now injection E as <- <-|].
  destruct (pstep bd m c) as [[m1 s1]|] eqn:E1; [|discriminate]. destruct (pcalls bd m1 cs) as [[m2 ss2]|] eqn:E2; [|discriminate].
  injection E as <- <-. eapply IH; [|exact E2]. eapply pstep_consistent; eassumption.
Qed.

Lemma add_all : forall ts m, pm_phase m <> Processed -> ts <> [] -> exists m', pcalls bd m (map AddT ts) = Some (m', map (fun _ => PQP_OK) ts) /\
  pm_phase m' = Begun /\ pm_b m' = pm_b m /\ m_tris (pm_model m') = m_tris (pm_model m) ++ ts.
Proof.
  induction ts as [|t ts IH]; intros [ph b mo] Hp Hne; [contradiction|]. cbn [map pcalls pstep]. unfold add_tri. cbn [pm_phase pm_b pm_model] in *.
  destruct ph; [..|contradiction].
  all: destruct ts as [|t' ts]; [eexists; split; [reflexivity|]; cbn; auto|].
  all: destruct (IH (PModel Begun b (Model (m_tris mo ++ [t]) []))) as (m' & -> & P' & Q' & T'); [discriminate|discriminate|];
       exists m'; split; [reflexivity|]; split; [assumption|]; split; [assumption|]; cbn in T'; rewrite T', <- app_assoc; reflexivity.
Qed.
End Protocol.
