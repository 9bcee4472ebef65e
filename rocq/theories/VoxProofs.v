From Coq Require Import List ZArith QArith Bool Arith Lia Lqa Permutation Qround.
From Verif Require Import VoxModel VoxSpec.
Import ListNotations.
Open Scope nat_scope.

(** Bits. *)
Lemma bits_sum_S : forall b n, bits_sum b (seq 0 (S n)) = bits_sum b (seq 0 n) + (if b n then 2 ^ n else 0).
Proof.
  intros b n. rewrite seq_S. unfold bits_sum at 1. rewrite fold_left_app. cbn [fold_left Nat.add]. fold (bits_sum b (seq 0 n)). destruct (b n); lia.
Qed.
Lemma bits_sum_lt : forall b n, bits_sum b (seq 0 n) < 2 ^ n.
Proof. intros b. induction n as [|n IH]; [cbn; lia|]. rewrite bits_sum_S. cbn [Nat.pow]. destruct (b n); lia. Qed.
Lemma testbit_add_pow : forall a n j : nat, a < 2 ^ n -> Nat.testbit (a + 2 ^ n) j = if j =? n then true else Nat.testbit a j.
Proof.
  intros a n j H. destruct (Nat.eqb_spec j n) as [->|N].
  - rewrite Nat.testbit_eqb. replace (a + 2 ^ n) with (1 * 2 ^ n + a) by lia. rewrite Nat.div_add_l by (apply Nat.pow_nonzero; lia).
    rewrite Nat.div_small by assumption. reflexivity.
  - destruct (Nat.lt_ge_cases j n) as [L|L].
    + rewrite !Nat.testbit_eqb. replace (2 ^ n) with (2 ^ (n - j) * 2 ^ j) by (rewrite <- Nat.pow_add_r; f_equal; lia).
      rewrite Nat.div_add by (apply Nat.pow_nonzero; lia). replace (n - j) with (S (n - j - 1)) by lia. cbn [Nat.pow].
      replace (a / 2 ^ j + 2 * 2 ^ (n - j - 1)) with (a / 2 ^ j + 2 ^ (n - j - 1) * 2) by lia. now rewrite Nat.mod_add by lia.
    + assert (2 ^ S n <= 2 ^ j) by (apply Nat.pow_le_mono_r; lia). cbn [Nat.pow] in *.
      rewrite !Nat.testbit_eqb, !Nat.div_small by lia. reflexivity.
Qed.
Lemma bits_sum_bit : forall b n j, j < n -> Nat.testbit (bits_sum b (seq 0 n)) j = b j.
Proof.
  intros b. induction n as [|n IH]; intros j Hj; [lia|]. rewrite bits_sum_S. destruct (b n) eqn:E.
  - rewrite testbit_add_pow by apply bits_sum_lt. destruct (Nat.eqb_spec j n) as [->|]; [now rewrite E|apply IH; lia].
  - rewrite Nat.add_0_r. destruct (Nat.eq_dec j n) as [->|]; [|apply IH; lia].
    rewrite E, Nat.testbit_eqb, Nat.div_small by apply bits_sum_lt. reflexivity.
Qed.
Lemma bits_sum_ext : forall b b' n, (forall i, i < n -> b i = b' i) -> bits_sum b (seq 0 n) = bits_sum b' (seq 0 n).
Proof. intros b b'. induction n as [|n IH]; intros H; [reflexivity|]. rewrite !bits_sum_S, IH by (intros; apply H; lia). now rewrite H by lia. Qed.
Lemma bits_sum_testbit : forall n i, i < 2 ^ n -> bits_sum (Nat.testbit i) (seq 0 n) = i.
Proof.
  induction n as [|n IH]; intros i H; [cbn in *; lia|]. rewrite bits_sum_S. cbn [Nat.pow] in H.
  destruct (Nat.lt_ge_cases i (2 ^ n)) as [L|L].
  - rewrite IH by assumption. replace (Nat.testbit i n) with false; [lia|]. symmetry. rewrite Nat.testbit_eqb, Nat.div_small by assumption. reflexivity.
  - set (a := i - 2 ^ n). assert (Ha : a < 2 ^ n) by lia. replace i with (a + 2 ^ n) by lia.
    rewrite (bits_sum_ext (Nat.testbit (a + 2 ^ n)) (Nat.testbit a)).
    + rewrite IH by assumption. rewrite testbit_add_pow by assumption. rewrite Nat.eqb_refl. reflexivity.
    + intros j Hj. rewrite testbit_add_pow by assumption. destruct (Nat.eqb_spec j n); [lia|reflexivity].
Qed.

(** Lists. *)
Lemma nth_put_same : forall {A} (l : list A) i x, i < length l -> nth_error (put l i x) i = Some x.
Proof. induction l as [|y l IH]; intros i x H; [cbn in H; lia|]. destruct i; [reflexivity|]. cbn. apply IH. cbn in H. lia. Qed.
Lemma nth_put_other : forall {A} (l : list A) i j x, i <> j -> nth_error (put l i x) j = nth_error l j.
Proof. induction l as [|y l IH]; intros i j x H; [reflexivity|]. destruct i, j; try reflexivity; [lia|]. cbn. apply IH. lia. Qed.
Lemma put_length : forall {A} (l : list A) i x, length (put l i x) = length l.
Proof. induction l as [|y l IH]; intros [|i] x; cbn; auto. Qed.
Lemma nthq_map : forall f d i, i < d -> nthq (map f (seq 0 d)) i = f i.
Proof.
  intros f d i H. unfold nthq. assert (G : nth_error (map f (seq 0 d)) i = Some (f i)).
  { rewrite nth_error_map. replace (nth_error (seq 0 d) i) with (Some i); [reflexivity|]. symmetry.
    rewrite (nth_error_nth' (seq 0 d) 0) by now rewrite seq_length. now rewrite seq_nth. }
  now apply nth_error_nth with (d := 0%Q) in G.
Qed.
Lemma in_dims : forall c i, In i (dims c) <-> i < c_dim c.
Proof. intros. unfold dims. rewrite in_seq. lia. Qed.

(** Comparisons. *)
Lemma gt_true : forall x y, Qgt_bool x y = true <-> (y < x)%Q.
Proof.
  intros x y. unfold Qgt_bool. rewrite negb_true_iff. split; intros H.
  - apply Qnot_le_lt. intros K. apply Qle_bool_iff in K. congruence.
  - destruct (Qle_bool x y) eqn:E; [|reflexivity]. apply Qle_bool_iff in E. lra.
Qed.
Lemma gt_false : forall x y, Qgt_bool x y = false <-> (x <= y)%Q.
Proof. intros x y. unfold Qgt_bool. rewrite negb_false_iff. apply Qle_bool_iff. Qed.

Section Geo.
Variable c : cfg.
Hypothesis Shape : length (c_size c) = c_dim c.

Lemma extends_length : forall l, length (extends c l) = c_dim c.
Proof. induction l as [|l IH]; [exact Shape|]. change (extends c (S l)) with (map (fun x => (x * (1 # 2))%Q) (extends c l)). rewrite map_length. exact IH. Qed.
Lemma extends_S : forall l i, i < c_dim c -> nthq (extends c (S l)) i = (nthq (extends c l) i * (1 # 2))%Q.
Proof.
  intros l i H. change (extends c (S l)) with (map (fun x => (x * (1 # 2))%Q) (extends c l)). unfold nthq. rewrite (nth_indep _ 0%Q (0 * (1 # 2))%Q) by (rewrite map_length, extends_length; exact H).
  apply (map_nth (fun x => (x * (1 # 2))%Q)).
Qed.

Definition cov (pos : list Q) (l : nat) (p : list Q) : Prop :=
  forall i, i < c_dim c -> (nthq pos i <= nthq p i)%Q /\ (nthq p i <= nthq pos i + nthq (extends c l) i)%Q.
Lemma covers_iff : forall pos l p, covers c pos l p = true <-> cov pos l p.
Proof.
  intros pos l p. unfold covers, cov. rewrite forallb_forall. split; intros H i Hi.
  - specialize (H i (proj2 (in_dims c i) Hi)). apply negb_true_iff, orb_false_iff in H as [H1 H2]. split; now apply gt_false.
  - apply in_dims in Hi. destruct (H i Hi) as [H1 H2]. apply negb_true_iff, orb_false_iff. split; now apply gt_false.
Qed.
Lemma covers_dec : forall pos l p, cov pos l p \/ ~ cov pos l p.
Proof. intros. rewrite <- covers_iff. destruct (covers c pos l p); auto. Qed.

Definition idx (pos : list Q) (l : nat) (p : list Q) : nat := bits_sum (right_half c pos l p) (dims c).
Definition cpos (pos : list Q) (l i : nat) : list Q :=
  map (fun j => if Nat.testbit i j then (nthq pos j + nthq (extends c l) j * (1 # 2))%Q else nthq pos j) (dims c).

Lemma idx_lt : forall pos l p, idx pos l p < num_children c.
Proof. intros. apply bits_sum_lt. Qed.
Lemma idx_bit : forall pos l p j, j < c_dim c -> Nat.testbit (idx pos l p) j = right_half c pos l p j.
Proof. intros. unfold idx, dims. now apply bits_sum_bit. Qed.
Lemma child_pos_eq : forall pos l p, child_pos c pos l p = cpos pos l (idx pos l p).
Proof. intros pos l p. unfold child_pos, cpos. apply map_ext_in. intros j Hj. apply in_dims in Hj. now rewrite idx_bit. Qed.
Lemma cpos_nth : forall pos l i j, j < c_dim c -> nthq (cpos pos l i) j = if Nat.testbit i j then (nthq pos j + nthq (extends c l) j * (1 # 2))%Q else nthq pos j.
Proof. intros. unfold cpos, dims. now rewrite nthq_map. Qed.

Lemma right_true : forall pos l p i, right_half c pos l p i = true <-> (nthq pos i + nthq (extends c l) i * (1 # 2) < nthq p i)%Q.
Proof. intros. apply gt_true. Qed.
Lemma right_false : forall pos l p i, right_half c pos l p i = false <-> (nthq p i <= nthq pos i + nthq (extends c l) i * (1 # 2))%Q.
Proof. intros. apply gt_false. Qed.

Lemma cov_child : forall pos l p, cov pos l p -> cov (cpos pos l (idx pos l p)) (S l) p.
Proof.
  intros pos l p H i Hi. destruct (H i Hi) as [H1 H2]. rewrite cpos_nth, extends_S, idx_bit by assumption. destruct (right_half c pos l p i) eqn:E.
  - apply right_true in E. split; lra.
  - apply right_false in E. split; lra.
Qed.

Lemma idx_eq : forall pos l p q, idx pos l p = idx pos l q <-> forall i, i < c_dim c -> right_half c pos l p i = right_half c pos l q i.
Proof.
  intros pos l p q. split; intros H.
  - intros i Hi. now rewrite <- !idx_bit, H by assumption.
  - unfold idx, dims. now apply bits_sum_ext.
Qed.

Fixpoint same_path (n l : nat) (pos p q : list Q) : bool :=
  match n with
  | O => true
  | S n => (idx pos l p =? idx pos l q) && same_path n (S l) (cpos pos l (idx pos l p)) p q
  end.

(** One dimension. *)
Fixpoint same1 (n : nat) (lo w p q : Q) : bool :=
  match n with
  | O => true
  | S n => Bool.eqb (Qgt_bool p (lo + w * (1 # 2))%Q) (Qgt_bool q (lo + w * (1 # 2))%Q) &&
           same1 n (if Qgt_bool p (lo + w * (1 # 2))%Q then (lo + w * (1 # 2))%Q else lo) (w * (1 # 2))%Q p q
  end.
Lemma same_path_dims : forall n l pos p q, same_path n l pos p q =
  forallb (fun i => same1 n (nthq pos i) (nthq (extends c l) i) (nthq p i) (nthq q i)) (dims c).
Proof.
  induction n as [|n IH]; intros l pos p q; cbn [same_path same1].
  - symmetry. apply forallb_forall. auto.
  - rewrite IH. apply eq_true_iff_eq. rewrite andb_true_iff, !forallb_forall, Nat.eqb_eq, idx_eq. split.
    + intros [H1 H2] i Hi. specialize (H2 i Hi). apply in_dims in Hi. specialize (H1 i Hi). rewrite cpos_nth, extends_S, idx_bit in H2 by assumption.
      unfold right_half in *. rewrite H1, eqb_reflx. rewrite H1 in H2. exact H2.
    + intros H. split.
      * intros i Hi. specialize (H i (proj2 (in_dims c i) Hi)). apply andb_true_iff in H as [H _]. now apply eqb_prop.
      * intros i Hi. specialize (H i Hi). apply in_dims in Hi. apply andb_true_iff in H as [_ H]. rewrite cpos_nth, extends_S, idx_bit by assumption. exact H.
Qed.
End Geo.

(** One dimension and the intervals. *)
Lemma two_pow_S : forall n, inject_Z (2 ^ Z.of_nat (S n)) == 2 * inject_Z (2 ^ Z.of_nat n).
Proof. intros n. rewrite Nat2Z.inj_succ, Z.pow_succ_r by lia. now rewrite inject_Z_mult. Qed.
Lemma scale_le : forall a b u, (0 < u)%Q -> (a <= b)%Z -> (inject_Z a * u <= inject_Z b * u)%Q.
Proof. intros a b u Hu H. apply Qmult_le_compat_r; [now rewrite <- Zle_Qle|lra]. Qed.

Lemma same1_intervals : forall n lo w u p q, (0 < u)%Q -> (w == inject_Z (2 ^ Z.of_nat n) * u)%Q ->
  (lo <= p <= lo + w)%Q -> (lo <= q <= lo + w)%Q ->
  (same1 n lo w p q = true <-> exists k, (0 <= k < 2 ^ Z.of_nat n)%Z /\ in_interval lo u k p /\ in_interval lo u k q).
Proof.
  induction n as [|n IH]; intros lo w u p q Hu Hw Hp Hq.
  - cbn [same1]. split; [|reflexivity]. intros _. cbn in Hw. exists 0%Z. split; [cbn; lia|]. unfold in_interval. cbn.
    assert (G : forall x, (lo <= x <= lo + w)%Q -> (lo + inject_Z 0 * u < x /\ x <= lo + inject_Z 1 * u)%Q \/ (0%Z = 0%Z /\ (x == lo)%Q)).
    { intros x Hx. unfold inject_Z in *. destruct (Qlt_le_dec lo x); [left; split; lra|right; split; [reflexivity|lra]]. }
    split; now apply G.
  - cbn [same1]. set (h := (w * (1 # 2))%Q). assert (Hh : (h == inject_Z (2 ^ Z.of_nat n) * u)%Q).
    { unfold h. rewrite Hw, two_pow_S. ring. }
    assert (P2 : (2 ^ Z.of_nat (S n) = 2 * 2 ^ Z.of_nat n)%Z) by (rewrite Nat2Z.inj_succ, Z.pow_succ_r; lia).
    assert (Ww : (w == h + h)%Q) by (unfold h; ring).
    set (M := (2 ^ Z.of_nat n)%Z) in *. assert (HM : (0 < M)%Z) by (apply Z.pow_pos_nonneg; lia).
    (* an index in the left half, one in the right half *)
    assert (LEFT : forall k x, (0 <= k < M)%Z -> in_interval lo u k x -> (x <= lo + h)%Q).
    { intros k x Hk [[_ H]|[_ H]].
      - pose proof (scale_le (k + 1) M u Hu ltac:(lia)). lra.
      - pose proof (scale_le 0 M u Hu ltac:(lia)) as K. unfold inject_Z in K at 1. lra. }
    assert (RIGHT : forall k x, (M <= k)%Z -> in_interval lo u k x -> (lo + h < x)%Q).
    { intros k x Hk [[H _]|[H _]]; [|lia]. pose proof (scale_le M k u Hu ltac:(lia)). lra. }
    assert (SHIFT : forall k x, (0 <= k)%Z -> (lo + h < x)%Q -> in_interval (lo + h)%Q u k x <-> in_interval lo u (M + k) x).
    { intros k x Hk Hx. unfold in_interval. rewrite <- Z.add_assoc, !(inject_Z_plus M). split.
      - intros [[H1 H2]|[-> H]]; [|lra]. left. split; lra.
      - intros [[H1 H2]|[H _]]; [|lia]. left. split; lra. }
    destruct (Qgt_bool p (lo + h)) eqn:Ep, (Qgt_bool q (lo + h)) eqn:Eq; cbn [Bool.eqb andb].
    + apply gt_true in Ep, Eq. rewrite (IH (lo + h)%Q h u p q Hu Hh) by (split; lra). split.
      * intros (k & Hk & K1 & K2). exists (M + k)%Z. split; [lia|]. split; now apply SHIFT.
      * intros (k & Hk & K1 & K2). destruct (Z_lt_le_dec k M) as [L|L]; [pose proof (LEFT k p ltac:(lia) K1); lra|].
        exists (k - M)%Z. split; [lia|]. split; apply SHIFT; try lia; try assumption; now replace (M + (k - M))%Z with k by lia.
    + apply gt_true in Ep. apply gt_false in Eq. split; [discriminate|]. intros (k & Hk & K1 & K2).
      destruct (Z_lt_le_dec k M) as [L|L]; [pose proof (LEFT k p ltac:(lia) K1); lra|pose proof (RIGHT k q L K2); lra].
    + apply gt_true in Eq. apply gt_false in Ep. split; [discriminate|]. intros (k & Hk & K1 & K2).
      destruct (Z_lt_le_dec k M) as [L|L]; [pose proof (LEFT k q ltac:(lia) K2); lra|pose proof (RIGHT k p L K1); lra].
    + apply gt_false in Ep, Eq. rewrite (IH lo h u p q Hu Hh) by (split; lra). split.
      * intros (k & Hk & K1 & K2). exists k. split; [lia|]. now split.
      * intros (k & Hk & K1 & K2). destruct (Z_lt_le_dec k M) as [L|L]; [|pose proof (RIGHT k p L K1); lra]. exists k. split; [lia|]. now split.
Qed.

Lemma interval_within : forall lo hi n k x, (lo < hi)%Q -> (0 <= k < 2 ^ Z.of_nat n)%Z -> in_interval lo (width n lo hi) k x -> (lo <= x <= hi)%Q.
Proof.
  intros lo hi n k x H Hk K. set (M := (2 ^ Z.of_nat n)%Z) in *. assert (HM : (0 < inject_Z M)%Q) by (change 0%Q with (inject_Z 0); rewrite <- Zlt_Qlt; lia).
  unfold width in K. fold M in K. set (u := ((hi - lo) / inject_Z M)%Q) in *. assert (Hu : (0 < u)%Q) by (apply Qlt_shift_div_l; [assumption|lra]).
  assert (E : (inject_Z M * u == hi - lo)%Q) by (unfold u; field; lra).
  destruct K as [[K1 K2]|[_ K]]; [|split; lra].
  pose proof (scale_le 0 k u Hu ltac:(lia)) as S0. pose proof (scale_le (k + 1) M u Hu ltac:(lia)). unfold inject_Z in S0 at 1. split; lra.
Qed.

(** The structure of the elements. *)
Section Trees.
Context {T : Type}.
Variable c : cfg.
Hypothesis Shape : length (c_size c) = c_dim c.

Fixpoint good (n l : nat) (pos : list Q) (e : elem T) : Prop :=
  e_pos e = pos /\ e_level e = l /\
  match n with
  | O => e_leaf e = true /\ e_children e = []
  | S n => e_leaf e = false /\ e_entry e = None /\ length (e_children e) = num_children c /\
           forall i ch, nth_error (e_children e) i = Some (Some ch) -> good n (S l) (cpos c pos l i) ch
  end.
(** Every leaf has an entry, every inner element a leaf. *)
Fixpoint filled (n : nat) (e : elem T) : Prop :=
  match n with
  | O => e_entry e <> None
  | S n => (exists i ch, nth_error (e_children e) i = Some (Some ch)) /\ forall i ch, nth_error (e_children e) i = Some (Some ch) -> filled n ch
  end.
Definition semi (n : nat) (e : elem T) : Prop :=
  match n with
  | O => True
  | S n => forall i ch, nth_error (e_children e) i = Some (Some ch) -> filled n ch
  end.
Lemma filled_semi : forall n e, filled n e -> semi n e.
Proof. intros [|n] e H; cbn in *; tauto. Qed.

(** The leaf at a position. *)
Fixpoint look (n l : nat) (pos : list Q) (e : elem T) (q : list Q) : option (elem T) :=
  match n with
  | O => Some e
  | S n =>
      if covers c pos l q then
        match nth_error (e_children e) (idx c pos l q) with
        | Some (Some ch) => look n (S l) (cpos c pos l (idx c pos l q)) ch q
        | _ => None
        end
      else None
  end.

Lemma child_indx_good : forall n l pos e q, good (S n) l pos e -> child_indx c e q = if covers c pos l q then Some (idx c pos l q) else None.
Proof. intros n l pos e q (E1 & E2 & E3 & _). unfold child_indx. rewrite E1, E2, E3. now destruct (covers c pos l q). Qed.

Lemma get_leaf_look : forall n l pos e q, good n l pos e -> get_leaf (S n) c e q = Some (look n l pos e q).
Proof.
  induction n as [|n IH]; intros l pos e q G.
  - destruct G as (_ & _ & Lf & _). cbn. now rewrite Lf.
  - assert (G' := G). destruct G as (E1 & E2 & Lf & En & Len & Ch). change (get_leaf (S (S n)) c e q) with
      (if e_leaf e then Some (Some e) else match child_indx c e q with None => Some None | Some i => match nth_error (e_children e) i with None => None | Some None => Some None | Some (Some ch) => get_leaf (S n) c ch q end end).
    rewrite Lf, (child_indx_good n l pos e q G'). cbn [look]. destruct (covers c pos l q); [|reflexivity].
    destruct (nth_error (e_children e) (idx c pos l q)) as [[ch|]|] eqn:E; [|reflexivity|].
    + apply IH. now apply Ch.
    + apply nth_error_None in E. pose proof (idx_lt c pos l q). lia.
Qed.

Lemma get_entry_leaf : forall fuel (e : elem T) q, get_entry fuel c e q = match get_leaf fuel c e q with None => None | Some None => Some None | Some (Some e') => Some (e_entry e') end.
Proof.
  induction fuel as [|fuel IH]; intros e q; [reflexivity|]. cbn [get_entry get_leaf]. destruct (e_leaf e); [reflexivity|].
  destruct (child_indx c e q) as [i|]; [|reflexivity]. destruct (nth_error (e_children e) i) as [[ch|]|]; [apply IH|reflexivity|reflexivity].
Qed.

Lemma look_good : forall n l pos e q e', good n l pos e -> look n l pos e q = Some e' -> e_leaf e' = true.
Proof.
  induction n as [|n IH]; intros l pos e q e' G H; cbn [look] in H.
  - injection H as <-. apply G.
  - destruct G as (_ & _ & _ & _ & _ & Ch). destruct (covers c pos l q); [|discriminate].
    destruct (nth_error (e_children e) (idx c pos l q)) as [[ch|]|] eqn:E; try discriminate. eapply IH; [exact (Ch _ _ E)|eassumption].
Qed.

Lemma has_entry_look : forall n l pos e q, good n l pos e -> semi (S n) (Elem 0 [] 0 false None [Some e]) -> cov c pos l q ->
  has_entry (S n) c e q = Some (match look n l pos e q with Some _ => true | None => false end).
Proof.
  intros n l pos e q G S0 Hq. assert (FL : filled n e) by (apply (S0 0); reflexivity). clear S0. revert l pos e G FL Hq. induction n as [|n IH]; intros l pos e G FL Hq.
  - destruct G as (E1 & E2 & Lf & _). cbn in *. rewrite Lf, E1, E2. apply covers_iff in Hq; [|assumption..]. rewrite Hq. destruct (e_entry e); [reflexivity|contradiction].
  - assert (G' := G). destruct G as (E1 & E2 & Lf & En & Len & Ch). change (has_entry (S (S n)) c e q) with
      (if e_leaf e then Some (covers c (e_pos e) (e_level e) q && match e_entry e with Some _ => true | None => false end)
       else match child_indx c e q with None => Some false | Some i => match nth_error (e_children e) i with None => None | Some None => Some false | Some (Some ch) => has_entry (S n) c ch q end end).
    rewrite Lf, (child_indx_good n l pos e q G'). cbn [look]. assert (Cq := Hq). apply covers_iff in Cq. rewrite Cq.
    destruct (nth_error (e_children e) (idx c pos l q)) as [[ch|]|] eqn:E; [|reflexivity|].
    + apply IH; [now apply Ch|destruct FL as [_ FL]; exact (FL _ ch E)|now apply cov_child].
    + apply nth_error_None in E. pose proof (idx_lt c pos l q). lia.
Qed.

(** A new element. *)
Lemma new_good : forall n l pos id, c_levels c = l + n + 1 -> good n l pos (new_elem c id pos l : elem T) /\ semi n (new_elem c id pos l : elem T) /\ e_id (new_elem c id pos l : elem T) = id.
Proof.
  intros n l pos id H. unfold new_elem. destruct (Nat.leb_spec (c_levels c - 1) l).
  - assert (n = 0) by lia. subst n. cbn. auto.
  - destruct n as [|n]; [lia|]. assert (N : forall i ch, nth_error (repeat (@None (elem T)) (num_children c)) i = Some (Some ch) -> False).
    { intros i ch E. apply nth_error_In, repeat_spec in E. discriminate. }
    split; [|split; [cbn; intros i ch E; now elim (N i ch)|reflexivity]]. cbn. split; [reflexivity|]. split; [reflexivity|]. split; [reflexivity|]. split; [reflexivity|]. split; [apply repeat_length|].
    intros i ch E. now elim (N i ch).
Qed.
Lemma look_new : forall n l pos id q, n <> 0 -> c_levels c = l + n + 1 -> look n l pos (new_elem c id pos l : elem T) q = None.
Proof.
  intros [|n] l pos id q Hn H; [lia|]. cbn [look]. destruct (covers c pos l q); [|reflexivity]. unfold new_elem. destruct (Nat.leb_spec (c_levels c - 1) l); [lia|].
  cbn [e_children]. destruct (nth_error _ _) as [[ch|]|] eqn:E; try reflexivity. apply nth_error_In, repeat_spec in E. discriminate.
Qed.

(** All elements, and the leaves. *)
Fixpoint nodes (n : nat) (e : elem T) : list (elem T) :=
  e :: match n with O => [] | S n => flat_map (fun oc => match oc with Some ch => nodes n ch | None => [] end) (e_children e) end.
Fixpoint leaves (n : nat) (e : elem T) : list (elem T) :=
  match n with O => [e] | S n => flat_map (fun oc => match oc with Some ch => leaves n ch | None => [] end) (e_children e) end.
Definition ids (n : nat) (e : elem T) : list nat := map e_id (nodes n e).

Definition entry_at (o : option (elem T)) : option T := match o with Some e => e_entry e | None => None end.

Lemma nth_split_put : forall {A} (l : list A) i y x, nth_error l i = Some y -> exists l1 l2, l = l1 ++ y :: l2 /\ put l i x = l1 ++ x :: l2 /\ length l1 = i.
Proof.
  induction l as [|z l IH]; intros [|i] y x H; try discriminate; cbn in H.
  - injection H as ->. exists [], l. auto.
  - destruct (IH i y x H) as (l1 & l2 & -> & E & Len). exists (z :: l1), l2. cbn. rewrite E, Len. auto.
Qed.

Lemma ids_new : forall n l pos id, c_levels c = l + n + 1 -> ids n (new_elem c id pos l : elem T) = [id].
Proof.
  intros n l pos id H. unfold ids, new_elem. destruct (Nat.leb_spec (c_levels c - 1) l).
  - assert (n = 0) by lia. subst n. reflexivity.
  - destruct n as [|n]; [lia|]. cbn [nodes e_children map e_id]. f_equal. induction (num_children c) as [|k IH]; [reflexivity|]. cbn. exact IH.
Qed.

Lemma set_ok : forall n l pos (e : elem T) p x next, good n l pos e -> semi n e -> c_levels c = l + n + 1 -> cov c pos l p ->
  exists e' next', set_entry (S n) c next e p x = Some (true, e', next') /\ good n l pos e' /\ filled n e' /\ e_id e' = e_id e /\ next <= next' /\
    Permutation (ids n e') (ids n e ++ seq (S next) (next' - next)) /\
    (forall q, cov c pos l q -> entry_at (look n l pos e' q) = if same_path c n l pos p q then Some x else entry_at (look n l pos e q)).
Proof.
  induction n as [|n IH]; intros l pos e p x next G Se Lv Hp.
  - destruct G as (E1 & E2 & Lf & Ch). cbn [set_entry]. rewrite E1, E2, Lf. apply covers_iff in Hp. rewrite Hp. cbn [negb orb].
    eexists _, next. split; [reflexivity|]. rewrite Ch. split; [cbn; auto|]. split; [cbn; discriminate|]. split; [reflexivity|]. split; [lia|].
    split; [rewrite Nat.sub_diag, app_nil_r; unfold ids; cbn; reflexivity|]. intros q Hq. reflexivity.
  - assert (G' := G). destruct G as (E1 & E2 & Lf & En & Len & Ch). remember (S n) as m eqn:Em. cbn [set_entry]. subst m. rewrite E1, E2, Lf. assert (Cp := Hp). apply covers_iff in Cp. rewrite Cp. cbn [negb orb].
    assert (B : (c_levels c - 1 <=? l) = false) by (apply Nat.leb_gt; lia). rewrite B. rewrite (child_indx_good n l pos e p G'), Cp.
    set (i := idx c pos l p). assert (Hi : i < length (e_children e)) by (rewrite Len; apply idx_lt).
    destruct (nth_error (e_children e) i) as [oc|] eqn:Eoc; [|apply nth_error_None in Eoc; lia].
    set (st := match oc with Some ch => (ch, next) | None => (new_elem c (S next) (child_pos c pos l p) (S l), S next) end).
    assert (HS : exists ch0 nx0, st = (ch0, nx0) /\ good n (S l) (cpos c pos l i) ch0 /\ semi n ch0 /\ next <= nx0 /\
      ids n ch0 = (match oc with Some ch => ids n ch | None => [] end) ++ seq (S next) (nx0 - next) /\
      (forall q, entry_at (look n (S l) (cpos c pos l i) ch0 q) = match oc with Some ch => entry_at (look n (S l) (cpos c pos l i) ch q) | None => None end)).
    { destruct oc as [ch|]; unfold st.
      - exists ch, next. split; [reflexivity|]. split; [now apply Ch|]. split; [apply filled_semi; exact (Se i ch Eoc)|]. split; [lia|]. split; [now rewrite Nat.sub_diag, app_nil_r|reflexivity].
      - rewrite child_pos_eq. fold i. eexists _, (S next). split; [reflexivity|]. destruct (new_good n (S l) (cpos c pos l i) (S next) ltac:(lia)) as (N1 & N2 & _). split; [exact N1|]. split; [exact N2|]. split; [lia|].
        split; [rewrite ids_new by lia; replace (S next - next) with 1 by lia; reflexivity|]. intros q. destruct n as [|n'].
        + unfold new_elem. destruct (Nat.leb_spec (c_levels c - 1) (S l)); [reflexivity|lia].
        + rewrite look_new by lia. reflexivity. }
    destruct HS as (ch0 & nx0 & Est & G0 & S0 & Hnx & Hids & Hlook). rewrite Est.
    destruct (IH (S l) (cpos c pos l i) ch0 p x nx0 G0 S0 ltac:(lia) (cov_child c Shape pos l p Hp)) as (ch' & nx' & EQ & G1 & F1 & Id1 & Hnx' & Hids' & Hlook').
    rewrite EQ. eexists _, nx'. split; [reflexivity|]. rewrite En.
    split; [|split; [|split; [reflexivity|split; [lia|split]]]].
    + cbn [good e_pos e_level e_leaf e_entry e_children]. rewrite put_length. split; [reflexivity|]. split; [reflexivity|]. split; [reflexivity|]. split; [reflexivity|]. split; [exact Len|].
      intros j ch Ej. destruct (Nat.eq_dec i j) as [<-|Nj]; [rewrite nth_put_same in Ej by assumption; injection Ej as <-; exact G1|rewrite nth_put_other in Ej by assumption; now apply Ch].
    + cbn [filled e_children]. split; [exists i, ch'; now apply nth_put_same|].
      intros j ch Ej. destruct (Nat.eq_dec i j) as [<-|Nj]; [rewrite nth_put_same in Ej by assumption; injection Ej as <-; exact F1|rewrite nth_put_other in Ej by assumption; exact (Se j ch Ej)].
    + unfold ids. cbn [nodes map e_id e_children]. rewrite <- app_comm_cons. apply perm_skip.
      destruct (nth_split_put (e_children e) i oc (Some ch') Eoc) as (l1 & l2 & EL & EP & _). rewrite EP, EL, !flat_map_app, !map_app. cbn [flat_map]. rewrite !map_app.
      change (map e_id (nodes n ch')) with (ids n ch'). rewrite Hids', Hids.
      set (A := map e_id (flat_map _ l1)). set (Z := map e_id (flat_map _ l2)).
      replace (map e_id match oc with Some ch => nodes n ch | None => [] end) with (match oc with Some ch => ids n ch | None => [] end) by (destruct oc; reflexivity).
      set (M := match oc with Some ch => ids n ch | None => [] end).
      replace (seq (S next) (nx' - next)) with (seq (S next) (nx0 - next) ++ seq (S nx0) (nx' - nx0)).
      2:{ replace (nx' - next) with ((nx0 - next) + (nx' - nx0)) by lia. rewrite seq_app. do 2 f_equal. lia. }
      set (s1 := seq (S next) (nx0 - next)). set (s2 := seq (S nx0) (nx' - nx0)). rewrite <- !app_assoc. apply Permutation_app_head. apply Permutation_app_head.
      rewrite !app_assoc.
      rewrite (Permutation_app_comm (s1 ++ s2) Z), app_assoc. reflexivity.
    + intros q Hq. assert (Cq := Hq). apply covers_iff in Cq. cbn [look same_path]. rewrite Cq. cbn [e_children]. fold i. destruct (Nat.eqb_spec i (idx c pos l q)) as [Ei|Ni]; cbn [andb].
      * rewrite <- Ei. rewrite nth_put_same by assumption. rewrite Hlook'. 2:{ rewrite Ei. now apply cov_child. }
        rewrite Hlook, Eoc. destruct (same_path c n (S l) (cpos c pos l i) p q); [reflexivity|]. destruct oc; reflexivity.
      * rewrite nth_put_other by assumption. reflexivity.
Qed.

Lemma set_outside : forall n l pos (e : elem T) p x next, good n l pos e -> ~ cov c pos l p -> set_entry (S n) c next e p x = Some (false, e, next).
Proof.
  intros n l pos e p x next G H. destruct n as [|n]; destruct G as (E1 & E2 & _).
  - cbn [set_entry]. rewrite E1, E2. destruct (covers c pos l p) eqn:E; [apply covers_iff in E; contradiction|reflexivity].
  - remember (S n) as m. cbn [set_entry]. rewrite E1, E2. destruct (covers c pos l p) eqn:E; [apply covers_iff in E; contradiction|reflexivity].
Qed.

Lemma look_outside : forall n l pos (e : elem T) q, ~ cov c pos l q -> look (S n) l pos e q = None.
Proof. intros n l pos e q H. cbn [look]. destruct (covers c pos l q) eqn:E; [apply covers_iff in E; contradiction|reflexivity]. Qed.
End Trees.

(** Loops over lists. *)
Lemma fold_concat : forall {A B} (g : A -> option (list B)) (f : A -> list B) (step : option (list B) -> A -> option (list B)) l,
  (forall a, In a l -> g a = Some (f a)) -> (forall r a, In a l -> step (Some r) a = match g a with Some k => Some (r ++ k) | None => None end) ->
  forall r, fold_left step l (Some r) = Some (r ++ flat_map f l).
Proof.
  intros A B g f step. induction l as [|a l IH]; intros Hg Hs r; cbn [fold_left flat_map]; [now rewrite app_nil_r|].
  rewrite Hs by now left. rewrite Hg by now left. rewrite IH.
  - now rewrite app_assoc.
  - intros b Hb. apply Hg. now right.
  - intros r' b Hb. apply Hs. now right.
Qed.
Lemma flat_map_none : forall {A B} (f : A -> list B) l, (forall a, In a l -> f a = []) -> flat_map f l = [].
Proof. intros A B f. induction l as [|a l IH]; intros H; [reflexivity|]. cbn. rewrite (H a) by now left. apply IH. intros b Hb. apply H. now right. Qed.

Lemma nodup_app : forall {A} (a b : list A), NoDup (a ++ b) <-> NoDup a /\ NoDup b /\ (forall x, In x a -> ~ In x b).
Proof.
  intros A. induction a as [|x a IH]; intros b; cbn.
  - split; [intros H; repeat split; [constructor|assumption|intros ? []]|tauto].
  - rewrite !NoDup_cons_iff, IH, in_app_iff. split.
    + intros (H1 & H2 & H3 & H4). repeat split; try tauto. intros y [->|Hy]; [tauto|now apply H4].
    + intros ((H1 & H2) & H3 & H4). repeat split; try assumption.
      * intros [H|H]; [tauto|]. exact (H4 x (or_introl eq_refl) H).
      * intros y Hy. apply H4. now right.
Qed.
Lemma nodup_flat_map : forall {A B} (f : A -> list B) l, NoDup l -> (forall a, In a l -> NoDup (f a)) ->
  (forall a b x, In a l -> In b l -> In x (f a) -> In x (f b) -> a = b) -> NoDup (flat_map f l).
Proof.
  intros A B f. induction l as [|a l IH]; intros H1 H2 H3; [constructor|]. cbn. apply NoDup_cons_iff in H1 as [N1 N2]. apply nodup_app. split; [apply H2; now left|]. split.
  - apply IH; [assumption|intros b Hb; apply H2; now right|]. intros b d x Hb Hd. apply H3; now right.
  - intros x Hx K. apply in_flat_map in K as (b & Hb & Hxb). assert (a = b) by (eapply H3; [now left|now right|eassumption|assumption]). now subst b.
Qed.
Lemma nodup_flat_map_inv : forall {A B} (f : A -> list B) l i j a b x, NoDup (flat_map f l) -> nth_error l i = Some a -> nth_error l j = Some b -> In x (f a) -> In x (f b) -> i = j.
Proof.
  intros A B f. induction l as [|y l IH]; intros i j a b x H Hi Hj Ha Hb; [destruct i; discriminate|]. cbn in H. apply nodup_app in H as (H1 & H2 & H3).
  destruct i as [|i], j as [|j]; cbn in Hi, Hj.
  - reflexivity.
  - injection Hi as ->. exfalso. apply (H3 x Ha). apply in_flat_map. exists b. split; [now apply nth_error_In in Hj|assumption].
  - injection Hj as ->. exfalso. apply (H3 x Hb). apply in_flat_map. exists a. split; [now apply nth_error_In in Hi|assumption].
  - f_equal. exact (IH i j a b x H2 Hi Hj Ha Hb).
Qed.
Lemma nodup_flat_map_one : forall {A B} (f : A -> list B) l a, NoDup (flat_map f l) -> In a l -> NoDup (f a).
Proof.
  intros A B f. induction l as [|y l IH]; intros a H Ha; [destruct Ha|]. cbn in H. apply nodup_app in H as (H1 & H2 & H3). destruct Ha as [->|Ha]; [assumption|now apply IH].
Qed.
Lemma skipn_twice : forall {A} (l : list A) a b, skipn a (skipn b l) = skipn (a + b) l.
Proof.
  intros A. induction l as [|x l IH]; intros a b; [now rewrite !skipn_nil|]. destruct b; [now rewrite Nat.add_0_r|].
  rewrite Nat.add_succ_r. cbn. apply IH.
Qed.
Lemma nodup_of_map : forall {A B} (f : A -> B) l, NoDup (map f l) -> NoDup l.
Proof. intros A B f l. apply NoDup_map_inv. Qed.
Lemma map_flat_map : forall {A B C} (g : B -> C) (f : A -> list B) l, map g (flat_map f l) = flat_map (fun a => map g (f a)) l.
Proof. intros. induction l as [|a l IH]; [reflexivity|]. cbn. now rewrite map_app, IH. Qed.

Section Walk.
Context {T : Type}.
Variable c : cfg.
Hypothesis Shape : length (c_size c) = c_dim c.
Notation elemT := (elem T).

Definition sub_nodes (n : nat) (oc : option elemT) : list elemT := match oc with Some ch => nodes n ch | None => [] end.
Definition sub_leaves (n : nat) (oc : option elemT) : list elemT := match oc with Some ch => leaves n ch | None => [] end.

Lemma in_children : forall (e : elemT) oc, In (Some oc) (e_children e) -> exists i, nth_error (e_children e) i = Some (Some oc).
Proof. intros e oc H. now apply In_nth_error. Qed.

Lemma collect_ok : forall n l pos (e : elemT), good c n l pos e -> collect (S n) e = Some (nodes n e).
Proof.
  induction n as [|n IH]; intros l pos e G.
  - destruct G as (_ & _ & Lf & Ch). cbn. now rewrite Lf.
  - destruct G as (E1 & E2 & Lf & En & Len & Ch). remember (S n) as m eqn:Em. cbn [collect]. subst m. rewrite Lf.
    rewrite (fold_concat (fun oc => match oc with Some ch => collect (S n) ch | None => Some [] end) (sub_nodes n)); [reflexivity| |].
    + intros [ch|] Hin; [|reflexivity]. destruct (in_children e ch Hin) as (i & Hi). exact (IH _ _ _ (Ch i ch Hi)).
    + intros r [ch|] _; [reflexivity|now rewrite app_nil_r].
Qed.

Lemma count_ok : forall n l pos (e : elemT), good c n l pos e -> count_nodes (S n) e = Some (length (nodes n e)).
Proof.
  induction n as [|n IH]; intros l pos e G.
  - destruct G as (_ & _ & Lf & Ch). cbn. now rewrite Lf.
  - destruct G as (E1 & E2 & Lf & En & Len & Ch). remember (S n) as m eqn:Em. cbn [count_nodes]. subst m. rewrite Lf. cbn [nodes length].
    assert (H : forall chs k, (forall ch, In (Some ch) chs -> count_nodes (S n) ch = Some (length (nodes n ch))) ->
      fold_left (fun (r : option nat) (oc : option elemT) => match r with None => None | Some k => match oc with None => Some k | Some ch => match count_nodes (S n) ch with None => None | Some n => Some (k + n) end end end) chs (Some k)
      = Some (k + length (flat_map (sub_nodes n) chs))).
    { induction chs as [|[ch|] chs IHc]; intros k H; cbn [fold_left flat_map sub_nodes].
      - cbn. f_equal. lia.
      - rewrite (H ch) by now left. rewrite IHc by (intros; apply H; now right). rewrite app_length. f_equal. lia.
      - rewrite IHc by (intros; apply H; now right). reflexivity. }
    rewrite H; [reflexivity|]. intros ch Hin. destruct (in_children e ch Hin) as (i & Hi). exact (IH _ _ _ (Ch i ch Hi)).
Qed.

Lemma leaves_nodes : forall n l pos (e : elemT), good c n l pos e -> leaves n e = filter e_leaf (nodes n e).
Proof.
  induction n as [|n IH]; intros l pos e G.
  - destruct G as (_ & _ & Lf & _). cbn. now rewrite Lf.
  - destruct G as (E1 & E2 & Lf & En & Len & Ch). cbn [leaves nodes filter]. rewrite Lf.
    assert (H : forall chs, (forall ch, In (Some ch) chs -> leaves n ch = filter e_leaf (nodes n ch)) -> flat_map (sub_leaves n) chs = filter e_leaf (flat_map (sub_nodes n) chs)).
    { induction chs as [|[ch|] chs IHc]; intros H; cbn [flat_map sub_nodes sub_leaves].
      - reflexivity.
      - rewrite filter_app, IHc by (intros; apply H; now right). now rewrite (H ch) by now left.
      - cbn. apply IHc. intros; apply H; now right. }
    apply H. intros ch Hin. destruct (in_children e ch Hin) as (i & Hi). exact (IH _ _ _ (Ch i ch Hi)).
Qed.

Lemma leaves_leaf : forall n l pos (e : elemT), good c n l pos e -> forall x, In x (leaves n e) -> e_leaf x = true.
Proof. intros n l pos e G x H. rewrite (leaves_nodes n l pos e G) in H. now apply filter_In in H. Qed.
Lemma nodup_leaves : forall n l pos (e : elemT), good c n l pos e -> NoDup (ids n e) -> NoDup (leaves n e).
Proof. intros n l pos e G H. rewrite (leaves_nodes n l pos e G). apply NoDup_filter. exact (nodup_of_map _ _ H). Qed.

(** The children selected by the first coordinates. *)
Lemma all_children_spec : forall pos l p, length p <= c_dim c ->
  NoDup (all_children_indx c pos l p) /\
  forall i, In i (all_children_indx c pos l p) <-> i < num_children c /\ forall j, j < length p -> Nat.testbit i j = right_half c pos l p j.
Proof.
  intros pos l p Hp. unfold all_children_indx, num_children. set (d := length p) in *.
  assert (H : forall k m L, NoDup L -> d <= k -> (forall i, In i L <-> i < 2 ^ k /\ forall j, j < d -> Nat.testbit i j = right_half c pos l p j) ->
    let L' := fold_left (fun l i => l ++ map (fun j => j + 2 ^ i) l) (seq k m) L in
    NoDup L' /\ (forall i, In i L' <-> i < 2 ^ (k + m) /\ forall j, j < d -> Nat.testbit i j = right_half c pos l p j)).
  { intros k m. revert k. induction m as [|m IH]; intros k L ND Hk HL; cbn [seq fold_left]; [now rewrite Nat.add_0_r|].
    rewrite <- Nat.add_succ_comm. apply IH; [|lia|].
    - apply nodup_app. split; [assumption|]. split; [apply FinFun.Injective_map_NoDup; [intros x y; lia|assumption]|].
      intros x Hx K. apply in_map_iff in K as (y & <- & Hy). apply HL in Hx. lia.
    - intros i. rewrite in_app_iff, in_map_iff, HL. cbn [Nat.pow]. split.
      + intros [[H1 H2]|(y & <- & Hy)]; [split; [lia|assumption]|]. apply HL in Hy as [H1 H2]. split; [lia|]. intros j Hj. rewrite testbit_add_pow by assumption.
        destruct (Nat.eqb_spec j k); [lia|now apply H2].
      + intros [H1 H2]. destruct (Nat.lt_ge_cases i (2 ^ k)) as [Hlt|Hge]; [now left|]. right. exists (i - 2 ^ k). split; [lia|]. apply HL. split; [lia|].
        intros j Hj. rewrite <- (H2 j Hj). replace i with (i - 2 ^ k + 2 ^ k) at 2 by lia. rewrite testbit_add_pow by lia. destruct (Nat.eqb_spec j k); [lia|reflexivity]. }
  replace (2 ^ c_dim c) with (2 ^ (d + (c_dim c - d))) by (f_equal; lia). apply H; [repeat constructor; easy|lia|].
  intros i. cbn [In]. split.
  - intros [<-|[]]. split; [apply bits_sum_lt|]. intros j Hj. now apply bits_sum_bit.
  - intros [H1 H2]. left. rewrite <- (bits_sum_testbit d i H1). apply bits_sum_ext. intros j Hj. symmetry. now apply H2.
Qed.

(** The leaves selected by the first coordinates. *)
Fixpoint pls (n l : nat) (pos : list Q) (e : elemT) (p : list Q) : list elemT :=
  match n with
  | O => [e]
  | S n => flat_map (fun i => match nth_error (e_children e) i with Some (Some ch) => pls n (S l) (cpos c pos l i) ch p | _ => [] end) (all_children_indx c pos l p)
  end.

Lemma all_leafs_ok : forall n l pos (e : elemT) p, length p <= c_dim c -> good c n l pos e -> all_leafs (S n) c e p = Some (pls n l pos e p).
Proof.
  induction n as [|n IH]; intros l pos e p Hp G.
  - destruct G as (_ & _ & Lf & _). cbn. now rewrite Lf.
  - destruct G as (E1 & E2 & Lf & En & Len & Ch). remember (S n) as m eqn:Em. cbn [all_leafs]. subst m. rewrite Lf, E1, E2. cbn [pls].
    rewrite (fold_concat (fun i => match nth_error (e_children e) i with Some (Some ch) => all_leafs (S n) c ch p | _ => Some [] end)
      (fun i => match nth_error (e_children e) i with Some (Some ch) => pls n (S l) (cpos c pos l i) ch p | _ => [] end)); [reflexivity| |].
    + intros i Hi. destruct (nth_error (e_children e) i) as [[ch|]|] eqn:E; try reflexivity. exact (IH _ _ _ _ Hp (Ch i ch E)).
    + intros r i Hi. apply all_children_spec in Hi as [Hi _]; [|assumption]. destruct (nth_error (e_children e) i) as [[ch|]|] eqn:E; [reflexivity|now rewrite app_nil_r|].
      apply nth_error_None in E. lia.
Qed.

Definition extendsp (p q : list Q) : Prop := length q = c_dim c /\ firstn (length p) q = p.
Lemma nthq_first : forall p q i, extendsp p q -> i < length p -> nthq q i = nthq p i.
Proof. intros p q i [_ H] Hi. unfold nthq. rewrite <- (firstn_skipn (length p) q). rewrite app_nth1; rewrite H; [reflexivity|exact Hi]. Qed.

Lemma in_pls : forall n l pos (e : elemT) p x, length p <= c_dim c -> good c n l pos e ->
  (forall i, i < c_dim c -> (0 < nthq (extends c l) i)%Q) ->
  (forall i, i < length p -> (nthq pos i <= nthq p i /\ nthq p i <= nthq pos i + nthq (extends c l) i)%Q) ->
  In x (pls n l pos e p) ->
  exists q, extendsp p q /\ (forall i, length p <= i < c_dim c -> (nthq pos i < nthq q i /\ nthq q i <= nthq pos i + nthq (extends c l) i)%Q) /\ look c n l pos e q = Some x.
Proof.
  induction n as [|n IH]; intros l pos e p x Hp G Hpos Hc Hin.
  - cbn in Hin. destruct Hin as [<-|[]]. set (q := map (fun i => if i <? length p then nthq p i else (nthq pos i + nthq (extends c l) i)%Q) (dims c)).
    assert (Lq : length q = c_dim c) by (unfold q, dims; now rewrite map_length, seq_length).
    exists q. split; [|split; [|reflexivity]].
    + split; [exact Lq|]. apply nth_ext with (d := 0%Q) (d' := 0%Q); [rewrite firstn_length; lia|]. intros i Hi. rewrite firstn_length in Hi. rewrite <- (firstn_skipn (length p) q) in Lq.
      assert (E : nth i (firstn (length p) q) 0%Q = nthq q i).
      { unfold nthq. rewrite <- (firstn_skipn (length p) q) at 2. rewrite app_nth1; [reflexivity|]. rewrite firstn_length. lia. }
      rewrite E. unfold q, dims. rewrite nthq_map by lia. destruct (Nat.ltb_spec i (length p)); [reflexivity|lia].
    + intros i Hi. unfold q, dims. rewrite nthq_map by lia. destruct (Nat.ltb_spec i (length p)); [lia|]. pose proof (Hpos i ltac:(lia)). split; lra.
  - destruct G as (E1 & E2 & Lf & En & Len & Ch). cbn [pls] in Hin. apply in_flat_map in Hin as (i & Hi & Hin). apply all_children_spec in Hi as [Hi Hbit]; [|assumption].
    destruct (nth_error (e_children e) i) as [[ch|]|] eqn:E; try destruct Hin.
    destruct (IH (S l) (cpos c pos l i) ch p x Hp (Ch i ch E)) as (q & Hq & Hin' & Hlook); [| |exact Hin|].
    + intros j Hj. rewrite extends_S by assumption. specialize (Hpos j Hj). lra.
    + intros j Hj. rewrite cpos_nth, extends_S by (assumption || lia). rewrite (Hbit j Hj). destruct (Hc j Hj). destruct (right_half c pos l p j) eqn:Er.
      * apply right_true in Er. split; lra.
      * apply right_false in Er. split; lra.
    + assert (R : forall j, j < c_dim c -> right_half c pos l q j = Nat.testbit i j).
      { intros j Hj. destruct (Nat.lt_ge_cases j (length p)) as [Lj|Lj].
        - rewrite (Hbit j Lj). unfold right_half. now rewrite (nthq_first p q j Hq Lj).
        - specialize (Hin' j ltac:(lia)). rewrite cpos_nth, extends_S in Hin' by assumption. destruct (Nat.testbit i j).
          + apply right_true. lra.
          + apply right_false. lra. }
      assert (Ei : idx c pos l q = i).
      { unfold idx, dims. rewrite <- (bits_sum_testbit (c_dim c) i Hi). now apply bits_sum_ext. }
      assert (W : forall j, length p <= j < c_dim c -> (nthq pos j < nthq q j /\ nthq q j <= nthq pos j + nthq (extends c l) j)%Q).
      { intros j Hj. specialize (Hin' j Hj). rewrite cpos_nth, extends_S in Hin' by lia. specialize (Hpos j ltac:(lia)). destruct (Nat.testbit i j); split; lra. }
      exists q. split; [exact Hq|]. split; [exact W|]. cbn [look]. assert (Cq : covers c pos l q = true).
      { apply covers_iff. intros j Hj. destruct (Nat.lt_ge_cases j (length p)) as [Lj|Lj].
        - rewrite (nthq_first p q j Hq Lj). now apply Hc.
        - destruct (W j ltac:(lia)). split; lra. }
      rewrite Cq, Ei, E. exact Hlook.
Qed.

Lemma pls_complete : forall n l pos (e : elemT) p q x, length p <= c_dim c -> good c n l pos e -> extendsp p q -> look c n l pos e q = Some x -> In x (pls n l pos e p).
Proof.
  induction n as [|n IH]; intros l pos e p q x Hp G Hq HL; cbn [look] in HL.
  - injection HL as <-. now left.
  - destruct G as (E1 & E2 & Lf & En & Len & Ch). destruct (covers c pos l q); [|discriminate]. destruct (nth_error (e_children e) (idx c pos l q)) as [[ch|]|] eqn:E; try discriminate.
    cbn [pls]. apply in_flat_map. exists (idx c pos l q). split.
    + apply all_children_spec; [assumption|]. split; [apply idx_lt|]. intros j Hj. rewrite idx_bit by lia. unfold right_half. now rewrite (nthq_first p q j Hq Hj).
    + rewrite E. exact (IH _ _ _ _ _ _ Hp (Ch _ _ E) Hq HL).
Qed.

Lemma pls_leaves : forall n l pos (e : elemT) p x, good c n l pos e -> In x (pls n l pos e p) -> In x (leaves n e).
Proof.
  induction n as [|n IH]; intros l pos e p x G H; [exact H|]. destruct G as (E1 & E2 & Lf & En & Len & Ch). cbn [pls leaves] in *. apply in_flat_map in H as (i & Hi & H).
  destruct (nth_error (e_children e) i) as [[ch|]|] eqn:E; try destruct H. apply in_flat_map. exists (Some ch). split; [now apply nth_error_In in E|]. exact (IH _ _ _ _ _ (Ch _ _ E) H).
Qed.
Lemma leaves_pls : forall n l pos (e : elemT) x, good c n l pos e -> In x (leaves n e) -> In x (pls n l pos e []).
Proof.
  induction n as [|n IH]; intros l pos e x G H; [exact H|]. destruct G as (E1 & E2 & Lf & En & Len & Ch). cbn [pls leaves] in *. apply in_flat_map in H as ([ch|] & Hi & H); [|destruct H].
  apply In_nth_error in Hi as (i & E). apply in_flat_map. exists i. split.
  - apply all_children_spec; [cbn; lia|]. split; [rewrite <- Len; apply nth_error_Some; congruence|]. cbn. lia.
  - rewrite E. exact (IH _ _ _ _ (Ch _ _ E) H).
Qed.
Lemma leaves_in_nodes : forall n l pos (e : elemT) x, good c n l pos e -> In x (leaves n e) -> In x (nodes n e).
Proof. intros n l pos e x G H. rewrite (leaves_nodes n l pos e G) in H. now apply filter_In in H. Qed.

Lemma ids_children : forall n (e : elemT), NoDup (ids (S n) e) -> NoDup (flat_map (fun oc => map e_id (sub_nodes n oc)) (e_children e)).
Proof. intros n e H. unfold ids in H. cbn [nodes map] in H. apply NoDup_cons_iff in H as [_ H]. rewrite map_flat_map in H. exact H. Qed.

Lemma nodup_pls : forall n l pos (e : elemT) p, length p <= c_dim c -> good c n l pos e -> NoDup (ids n e) -> NoDup (pls n l pos e p).
Proof.
  induction n as [|n IH]; intros l pos e p Hp G ND; [repeat constructor; easy|]. destruct G as (E1 & E2 & Lf & En & Len & Ch). apply ids_children in ND. cbn [pls]. apply nodup_flat_map.
  - now apply all_children_spec.
  - intros i Hi. destruct (nth_error (e_children e) i) as [[ch|]|] eqn:E; try constructor. apply IH; [assumption|now apply Ch|].
    apply (nodup_flat_map_one _ _ (Some ch) ND). now apply nth_error_In in E.
  - intros i j x Hi Hj Xi Xj. destruct (nth_error (e_children e) i) as [[ch|]|] eqn:E; try destruct Xi. destruct (nth_error (e_children e) j) as [[ch'|]|] eqn:E'; try destruct Xj.
    apply (nodup_flat_map_inv _ _ _ _ _ _ (e_id x) ND E E'); cbn [sub_nodes]; apply in_map.
    + eapply leaves_in_nodes; [exact (Ch _ _ E)|]. eapply pls_leaves; [exact (Ch _ _ E)|eassumption].
    + eapply leaves_in_nodes; [exact (Ch _ _ E')|]. eapply pls_leaves; [exact (Ch _ _ E')|eassumption].
Qed.

Lemma filled_leaves : forall n l pos (e : elemT) x, good c n l pos e -> filled n e -> In x (leaves n e) -> e_entry x <> None.
Proof.
  induction n as [|n IH]; intros l pos e x G F H.
  - destruct H as [<-|[]]. exact F.
  - destruct G as (E1 & E2 & Lf & En & Len & Ch). destruct F as [_ F]. cbn [leaves] in H. apply in_flat_map in H as ([ch|] & Hi & H); [|destruct H].
    apply In_nth_error in Hi as (i & E). exact (IH _ _ _ _ (Ch _ _ E) (F _ _ E) H).
Qed.
Lemma semi_leaves : forall n l pos (e : elemT) x, good c (S n) l pos e -> semi (S n) e -> In x (leaves (S n) e) -> e_entry x <> None.
Proof.
  intros n l pos e x G F H. destruct G as (E1 & E2 & Lf & En & Len & Ch). cbn [leaves] in H. apply in_flat_map in H as ([ch|] & Hi & H); [|destruct H].
  apply In_nth_error in Hi as (i & E). exact (filled_leaves _ _ _ _ _ (Ch _ _ E) (F _ _ E) H).
Qed.

(** The best leaf. *)
Definition not_above (gt : T -> T -> bool) (x b : elemT) : Prop := match e_entry x, e_entry b with Some u, Some v => gt u v = false | _, _ => False end.
Definition best_of (gt : T -> T -> bool) (ls : list elemT) (r : option elemT) : Prop :=
  match r with None => ls = [] | Some b => In b ls /\ forall x, In x ls -> not_above gt x b end.

Lemma max_fold : forall (gt : T -> T -> bool) (g : nat -> option (option (option elemT))) (f : nat -> list elemT) (step : option (option elemT) -> nat -> option (option elemT)) l, ordering gt ->
  (forall i, In i l -> (g i = Some None /\ f i = []) \/ (exists r, g i = Some (Some r) /\ best_of gt (f i) r /\ (forall x, In x (f i) -> e_leaf x = true /\ e_entry x <> None))) ->
  (forall best i, In i l -> step (Some best) i = match g i with None => None | Some None => Some best | Some (Some None) => Some best
     | Some (Some (Some l)) => if e_leaf l then match best with None => match e_entry l with Some _ => Some (Some l) | None => Some best end
         | Some b => match e_entry l, e_entry b with Some x, Some y => Some (if gt x y then Some l else best) | _, _ => None end end else Some best end) ->
  forall ls best, best_of gt ls best -> exists r, fold_left step l (Some best) = Some r /\ best_of gt (ls ++ flat_map f l) r.
Proof.
  intros gt g f step l (I1 & I2 & I3). induction l as [|i l IH]; intros Hg Hs ls best HB; cbn [fold_left flat_map].
  - exists best. split; [reflexivity|]. now rewrite app_nil_r.
  - rewrite Hs by now left. assert (IH' := IH (fun j Hj => Hg j (or_intror Hj)) (fun b j Hj => Hs b j (or_intror Hj))). clear IH. rewrite app_assoc.
    destruct (Hg i (or_introl eq_refl)) as [(-> & ->)|(r & -> & HR & HF)]; [rewrite app_nil_r; now apply IH'|]. destruct r as [m|].
    + destruct HR as [Hm HR]. destruct (HF m Hm) as [Lm Em]. rewrite Lm. destruct (e_entry m) as [u|] eqn:Eu; [|contradiction]. destruct best as [b|].
      * destruct HB as [Hb HB]. assert (Sb := HB b Hb). unfold not_above in Sb. destruct (e_entry b) as [v|] eqn:Ev; [|contradiction]. apply IH'. destruct (gt u v) eqn:Egt.
        -- split; [apply in_app_iff; now right|]. intros x Hx. apply in_app_iff in Hx as [Hx|Hx]; [|now apply HR].
           specialize (HB x Hx). unfold not_above in *. rewrite Ev in HB. rewrite Eu. destruct (e_entry x) as [w|]; [|contradiction]. apply (I3 w v u HB). now apply I2.
        -- split; [apply in_app_iff; now left|]. intros x Hx. apply in_app_iff in Hx as [Hx|Hx]; [now apply HB|].
           specialize (HR x Hx). unfold not_above in *. rewrite Ev. rewrite Eu in HR. destruct (e_entry x) as [w|]; [|contradiction]. exact (I3 w u v HR Egt).
      * cbn in HB. subst ls. apply IH'. cbn [app]. split; assumption.
    + cbn in HR. rewrite HR, app_nil_r. now apply IH'.
Qed.

Lemma max_leaf_ok : forall gt n l pos (e : elemT) p, ordering gt -> length p <= c_dim c -> good c n l pos e -> (n = 0 -> filled n e) -> semi n e ->
  exists r, max_leaf gt (S n) c e p = Some r /\ best_of gt (pls n l pos e p) r.
Proof.
  intros gt. induction n as [|n IH]; intros l pos e p O Hp G F Se.
  - destruct G as (_ & _ & Lf & _). cbn. rewrite Lf. exists (Some e). split; [reflexivity|]. split; [now left|]. intros x [<-|[]]. specialize (F eq_refl). cbn in F. unfold not_above. destruct (e_entry e); [exact (proj1 O t)|contradiction].
  - destruct G as (E1 & E2 & Lf & En & Len & Ch). remember (S n) as m eqn:Em. cbn [max_leaf]. subst m. rewrite Lf, E1, E2. cbn [pls].
    destruct (max_fold gt (fun i => match nth_error (e_children e) i with Some (Some ch) => match max_leaf gt (S n) c ch p with Some r => Some (Some r) | None => None end | Some None => Some None | None => None end)
      (fun i => match nth_error (e_children e) i with Some (Some ch) => pls n (S l) (cpos c pos l i) ch p | _ => [] end)
      (fun r i => match r with None => None | Some best => match nth_error (e_children e) i with None => None | Some None => Some best | Some (Some ch) =>
                     match max_leaf gt (S n) c ch p with
                     | None => None
                     | Some None => Some best
                     | Some (Some l) => if e_leaf l then match best with None => match e_entry l with Some _ => Some (Some l) | None => Some best end
                           | Some b => match e_entry l, e_entry b with Some x, Some y => Some (if gt x y then Some l else best) | _, _ => None end end else Some best
                     end end end) (all_children_indx c pos l p) O) with (ls := @nil elemT) (best := @None elemT) as (r & Hr & HB).
    + intros i Hi. apply all_children_spec in Hi as [Hi _]; [|assumption]. destruct (nth_error (e_children e) i) as [[ch|]|] eqn:E.
      * right. destruct (IH (S l) (cpos c pos l i) ch p O Hp (Ch _ _ E) (fun _ => Se _ _ E) (filled_semi _ _ (Se _ _ E))) as (r & Hr & HB). exists r. rewrite Hr. split; [reflexivity|]. split; [exact HB|].
        intros x Hx. split; [eapply leaves_leaf; [exact (Ch _ _ E)|]|eapply filled_leaves; [exact (Ch _ _ E)|exact (Se _ _ E)|]]; eapply pls_leaves; [exact (Ch _ _ E)|eassumption|exact (Ch _ _ E)|eassumption].
      * now left.
      * apply nth_error_None in E. lia.
    + intros best i Hi. destruct (nth_error (e_children e) i) as [[ch|]|]; [|reflexivity|reflexivity]. destruct (max_leaf gt (S n) c ch p) as [[m|]|]; reflexivity.
    + reflexivity.
    + exists r. split; [exact Hr|exact HB].
Qed.
End Walk.

(** The iterator. *)
Section Iterating.
Context {T : Type}.
Variable c : cfg.
Notation elemT := (elem T).

Definition ready (n : nat) (e : elemT) : Prop := exists l pos, good c n l pos e /\ filled n e.
Fixpoint wf (n : nat) (fs : list (elemT * nat)) : Prop :=
  match fs with
  | [] => True
  | (e, k) :: fs => length (e_children e) = num_children c /\ (forall i ch, nth_error (e_children e) i = Some (Some ch) -> ready n ch) /\ wf (S n) fs
  end.
Fixpoint rem (n : nat) (fs : list (elemT * nat)) : list elemT :=
  match fs with
  | [] => []
  | (e, k) :: fs => flat_map (sub_leaves n) (skipn (k + 1) (e_children e)) ++ rem (S n) fs
  end.

Lemma first_child_spec : forall n (l : list (option elemT)) i,
  match first_child l i with
  | None => flat_map (sub_leaves n) l = [] /\ (forall j ch, nth_error l j <> Some (Some ch))
  | Some (k, e) => exists j, k = i + j /\ nth_error l j = Some (Some e) /\ flat_map (sub_leaves n) l = leaves n e ++ flat_map (sub_leaves n) (skipn (j + 1) l)
  end.
Proof.
  intros n. induction l as [|[e|] l IH]; intros i; cbn [first_child].
  - split; [reflexivity|]. intros [|j] ch; discriminate.
  - exists 0. split; [lia|]. split; reflexivity.
  - specialize (IH (S i)). destruct (first_child l (S i)) as [[k e]|].
    + destruct IH as (j & -> & H1 & H2). exists (S j). split; [lia|]. split; [exact H1|exact H2].
    + destruct IH as [H1 H2]. split; [exact H1|]. intros [|j] ch; [discriminate|apply H2].
Qed.

Lemma next_child_spec : forall n (e : elemT) start, length (e_children e) = num_children c ->
  exists r, next_child c e start = Some r /\
  match r with
  | None => flat_map (sub_leaves n) (skipn start (e_children e)) = [] /\ (forall j ch, start <= j -> nth_error (e_children e) j <> Some (Some ch))
  | Some (k, ch) => nth_error (e_children e) k = Some (Some ch) /\
      flat_map (sub_leaves n) (skipn start (e_children e)) = leaves n ch ++ flat_map (sub_leaves n) (skipn (k + 1) (e_children e))
  end.
Proof.
  intros n e start H. unfold next_child. rewrite H, Nat.eqb_refl. eexists. split; [reflexivity|].
  pose proof (first_child_spec n (skipn start (e_children e)) start) as S0. destruct (first_child (skipn start (e_children e)) start) as [[k ch]|].
  - destruct S0 as (j & -> & H1 & H2). assert (NS : forall (l : list (option elemT)) s j, nth_error (skipn s l) j = nth_error l (s + j)).
    { induction l as [|x l IH]; intros [|s] j'; try reflexivity; [destruct j'; reflexivity|]. cbn. apply IH. }
    rewrite NS in H1. split; [exact H1|]. rewrite H2. do 2 f_equal. rewrite skipn_twice. f_equal. lia.
  - destruct S0 as [H1 H2]. split; [exact H1|]. intros j ch Hj. assert (NS : forall (l : list (option elemT)) s j, nth_error (skipn s l) j = nth_error l (s + j)).
    { induction l as [|x l IH]; intros [|s] j'; try reflexivity; [destruct j'; reflexivity|]. cbn. apply IH. }
    specialize (H2 (j - start) ch). rewrite NS in H2. now replace (start + (j - start)) with j in H2 by lia.
Qed.

Lemma go_down_ok : forall n (e par : elemT) k F fuel, ready n e -> n < fuel -> wf n ((par, k) :: F) ->
  exists lf e2 k2 F2, go_down fuel c (Iter (par :: map fst F) (map snd F) (Some e) k) = Some (Iter (e2 :: map fst F2) (map snd F2) (Some lf) k2) /\
    e_leaf lf = true /\ wf 0 ((e2, k2) :: F2) /\ leaves n e ++ rem n ((par, k) :: F) = lf :: rem 0 ((e2, k2) :: F2) /\ length F2 + 0 = length F + n.
Proof.
  induction n as [|n IH]; intros e par k F fuel (l & pos & G & Fl) Hf W; destruct fuel as [|fuel]; try lia.
  - destruct G as (_ & _ & Lf & _). cbn [go_down i_cur]. rewrite Lf. exists e, par, k, F. split; [reflexivity|]. split; [exact Lf|]. split; [exact W|]. split; [reflexivity|lia].
  - destruct G as (E1 & E2 & Lf & En & Len & Ch). destruct Fl as [(i0 & ch0 & E0) Fl]. cbn [go_down i_cur]. rewrite Lf.
    destruct (next_child_spec n e 0 Len) as (r & -> & Hr). destruct r as [[k1 ch]|]; [|destruct Hr as [_ Hr]; now elim (Hr i0 ch0 ltac:(lia))].
    destruct Hr as [Hk1 Hrem]. cbn [i_elems i_ids i_nr]. change (e :: par :: map fst F) with (e :: map fst ((par, k) :: F)). change (k :: map snd F) with (map snd ((par, k) :: F)).
    assert (W' : wf n ((e, k1) :: (par, k) :: F)).
    { split; [exact Len|]. split; [|exact W]. intros i ch' E. exists (S l), (cpos c pos l i). split; [exact (Ch _ _ E)|exact (Fl _ _ E)]. }
    destruct (IH ch e k1 ((par, k) :: F) fuel) as (lf & e2 & k2 & F2 & H1 & H2 & H3 & H4 & H5); [|lia|exact W'|].
    { exists (S l), (cpos c pos l k1). split; [exact (Ch _ _ Hk1)|exact (Fl _ _ Hk1)]. }
    exists lf, e2, k2, F2. split; [exact H1|]. split; [exact H2|]. split; [exact H3|]. cbn [length] in H5. split; [|lia]. rewrite <- H4. cbn [leaves].
    change (flat_map (fun oc => match oc with Some ch => leaves n ch | None => [] end) (e_children e)) with (flat_map (sub_leaves n) (skipn 0 (e_children e))).
    rewrite Hrem. cbn [rem]. now rewrite <- app_assoc.
Qed.

Lemma go_up_ok : forall F n nr, F <> [] -> wf n F -> exists it, go_up c (map fst F) (map snd F) nr = Some it /\
  ((i_cur it = None /\ rem n F = []) \/
   (exists m e k ch F2, it = Iter (e :: map fst F2) (map snd F2) (Some ch) k /\ wf m ((e, k) :: F2) /\ ready m ch /\
      rem n F = leaves m ch ++ rem m ((e, k) :: F2) /\ m + length F2 + 1 = n + length F)).
Proof.
  induction F as [|[e k] F IH]; intros n nr NE W; [contradiction|]. destruct W as (Len & Rd & W). cbn [map fst snd go_up].
  destruct (next_child_spec n e (k + 1) Len) as (r & -> & Hr). destruct r as [[k' ch]|].
  - destruct Hr as [Hk Hrem]. eexists. split; [reflexivity|]. right. exists n, e, k', ch, F. split; [reflexivity|]. split; [split; [exact Len|split; [exact Rd|exact W]]|]. split; [exact (Rd _ _ Hk)|].
    split; [|cbn [length]; lia]. cbn [rem]. rewrite Hrem. now rewrite <- app_assoc.
  - destruct Hr as [Hrem _]. cbn [rem]. rewrite Hrem. cbn [app]. destruct F as [|f F].
    + cbn [map]. eexists. split; [reflexivity|]. left. split; reflexivity.
    + cbn [map]. change (fst f :: map fst F) with (map fst (f :: F)). change (snd f :: map snd F) with (map snd (f :: F)).
      destruct (IH (S n) k ltac:(discriminate) W) as (it & H1 & H2). exists it. split; [exact H1|]. destruct H2 as [H2|(m & e2 & k2 & ch & F2 & H2 & H3 & H4 & H5 & H6)]; [now left|].
      right. exists m, e2, k2, ch, F2. split; [exact H2|]. split; [exact H3|]. split; [exact H4|]. split; [exact H5|]. cbn [length] in *. lia.
Qed.

Variable t : vtree T.
Hypothesis Hc : v_cfg t = c.

Lemma calls_done : forall m it, i_cur it = None -> iter_calls t m it = Some (repeat None m).
Proof. induction m as [|m IH]; intros it H; [reflexivity|]. cbn [iter_calls]. unfold iter_next. rewrite H. rewrite (IH it H). reflexivity. Qed.

Lemma calls_ok : forall ls e k F lf nr m, e_leaf lf = true -> wf 0 ((e, k) :: F) -> rem 0 ((e, k) :: F) = ls -> length F + 1 <= depth t ->
  iter_calls t (length ls + m) (Iter (lf :: e :: map fst F) (k :: map snd F) (Some lf) nr) = Some (map Some ls ++ repeat None m).
Proof.
  induction ls as [|x ls IH]; intros e k F lf nr m Lf W R D.
  - cbn [length map app]. cbn [Nat.add]. destruct m as [|m]; [reflexivity|]. cbn [iter_calls]. unfold iter_next. cbn [i_cur]. rewrite Lf. cbn [negb i_elems i_ids i_nr]. rewrite Hc.
    change (e :: map fst F) with (map fst ((e, k) :: F)). change (k :: map snd F) with (map snd ((e, k) :: F)).
    destruct (go_up_ok ((e, k) :: F) 0 nr ltac:(discriminate) W) as (it & -> & [(H1 & H2)|(m' & e2 & k2 & ch & F2 & _ & W2 & Rd & H5 & _)]).
    + rewrite H1. rewrite (calls_done m it H1). reflexivity.
    + rewrite R in H5. destruct Rd as (l & pos & G & Fl). exfalso.
      destruct (go_down_ok m' ch e2 k2 F2 (S m')) as (lf' & e3 & k3 & F3 & _ & _ & _ & K & _); [now exists l, pos|lia|exact W2|]. rewrite <- H5 in K. discriminate.
  - cbn [length map app Nat.add]. cbn [iter_calls]. unfold iter_next. cbn [i_cur]. rewrite Lf. cbn [negb i_elems i_ids i_nr]. rewrite Hc.
    change (e :: map fst F) with (map fst ((e, k) :: F)). change (k :: map snd F) with (map snd ((e, k) :: F)).
    destruct (go_up_ok ((e, k) :: F) 0 nr ltac:(discriminate) W) as (it & -> & [(H1 & H2)|(m' & e2 & k2 & ch & F2 & -> & W2 & Rd & H5 & H6)]); [congruence|].
    cbn [i_cur]. cbn [length] in H6.
    destruct (go_down_ok m' ch e2 k2 F2 (S (depth t)) Rd ltac:(lia) W2) as (lf' & e3 & k3 & F3 & -> & Lf' & W3 & K & L3). cbn [i_cur i_elems i_ids i_nr]. rewrite Lf'.
    rewrite R, K in H5. injection H5 as -> ->. rewrite (IH e3 k3 F3 lf' k3 m Lf' W3 eq_refl); [reflexivity|lia].
Qed.

Lemma iterate_ok : forall n nr0 m, good c (S n) 0 (v_min t) (v_root t) -> semi (S n) (v_root t) -> depth t = S (S n) ->
  iterate nr0 t (length (leaves (S n) (v_root t)) + m) = Some (map Some (leaves (S n) (v_root t)) ++ repeat None (S m)).
Proof.
  intros n nr0 m G Se D. assert (G' := G). destruct G as (E1 & E2 & Lf & En & Len & Ch). unfold iterate, iter_init. rewrite Hc.
  destruct (next_child_spec n (v_root t) 0 Len) as (r & -> & Hr). destruct r as [[k ch]|].
  - destruct Hr as [Hk Hrem].
    assert (W : wf n [(v_root t, k)]).
    { split; [exact Len|]. split; [|exact I]. intros i ch' E. exists 1, (cpos c (v_min t) 0 i). split; [exact (Ch _ _ E)|exact (Se _ _ E)]. }
    destruct (go_down_ok n ch (v_root t) k [] (S (depth t))) as (lf & e2 & k2 & F2 & H1 & H2 & H3 & H4 & H5); [|lia|exact W|].
    { exists 1, (cpos c (v_min t) 0 k). split; [exact (Ch _ _ Hk)|exact (Se _ _ Hk)]. }
    cbn [map] in H1. rewrite H1. cbn [i_cur i_elems i_ids i_nr]. rewrite H2. cbn [length Nat.add] in H5.
    assert (EL : leaves (S n) (v_root t) = lf :: rem 0 ((e2, k2) :: F2)).
    { rewrite <- H4. cbn [leaves]. change (flat_map (fun oc => match oc with Some ch => leaves n ch | None => [] end) (e_children (v_root t))) with (flat_map (sub_leaves n) (skipn 0 (e_children (v_root t)))).
      rewrite Hrem. cbn [rem]. now rewrite app_nil_r. }
    rewrite EL. cbn [length map app]. set (R := rem 0 ((e2, k2) :: F2)). replace (S (length R) + m) with (length R + S m) by lia.
    rewrite (calls_ok R e2 k2 F2 lf k2 (S m) H2 H3 eq_refl); [reflexivity|lia].
  - destruct Hr as [Hrem _]. cbn [go_down i_cur].
    assert (EL : leaves (S n) (v_root t) = []) by exact Hrem.
    rewrite EL. cbn [length map app Nat.add]. rewrite calls_done by reflexivity. reflexivity.
Qed.
End Iterating.

(** Files. *)
Section Files.
Context {T : Type}.
Variable c : cfg.
Notation elemT := (elem T).

Definition blk (e : elemT) : fblock T :=
  match e_entry e with
  | Some x => FLeaf (e_id e) x
  | None => FInner (e_id e) (map (fun oc => match oc with Some ch => e_id ch | None => 0 end) (e_children e))
  end.
Definition hn (e : elemT) : hnode T :=
  if e_leaf e then HNode (e_id e) true (e_entry e) [] else HNode (e_id e) false None (map (option_map e_id) (e_children e)).
(** An element as the writer needs it. *)
Definition writable (e : elemT) : Prop :=
  if e_leaf e then e_entry e <> None else e_entry e = None /\ length (e_children e) = num_children c.

Lemma nodes_writable : forall n l pos (e : elemT) x, good c n l pos e -> (n = 0 -> filled n e) -> semi n e -> In x (nodes n e) -> writable x.
Proof.
  induction n as [|n IH]; intros l pos e x G F Se H.
  - destruct H as [<-|[]]. destruct G as (_ & _ & Lf & _). unfold writable. rewrite Lf. exact (F eq_refl).
  - destruct G as (E1 & E2 & Lf & En & Len & Ch). cbn [nodes] in H. destruct H as [<-|H]; [unfold writable; rewrite Lf; now split|].
    apply in_flat_map in H as ([ch|] & Hi & H); [|destruct H]. apply In_nth_error in Hi as (i & E).
    exact (IH _ _ _ _ (Ch _ _ E) (fun _ => Se _ _ E) (filled_semi _ _ (Se _ _ E)) H).
Qed.

Lemma write_all_ok : forall es : list elemT, (forall e, In e es -> writable e) -> write_all c es = Some (map blk es).
Proof.
  induction es as [|e es IH]; intros H; [reflexivity|]. cbn [write_all map]. rewrite IH by (intros; apply H; now right).
  specialize (H e (or_introl eq_refl)). unfold writable in H. unfold write_elem, blk. destruct (e_leaf e); [destruct (e_entry e); [reflexivity|contradiction]|]. destruct H as [-> _]. reflexivity.
Qed.

Lemma nodes_children : forall n (e : elemT) x ch, In x (nodes n e) -> (forall y, In y (nodes n e) -> e_leaf y = true -> e_children y = []) ->
  (forall l pos, good c n l pos e -> In (Some ch) (e_children x) -> In ch (nodes n e)).
Proof.
  induction n as [|n IH]; intros e x ch Hx HL l pos G Hc.
  - destruct Hx as [<-|[]]. destruct G as (_ & _ & _ & E). rewrite E in Hc. destruct Hc.
  - destruct G as (E1 & E2 & Lf & En & Len & Ch). cbn [nodes] in *. destruct Hx as [<-|Hx].
    + right. apply in_flat_map. exists (Some ch). split; [assumption|]. destruct n; now left.
    + right. apply in_flat_map in Hx as ([ch'|] & Hi & Hx); [|destruct Hx]. apply in_flat_map. exists (Some ch'). split; [assumption|].
      assert (Hi' := Hi). apply In_nth_error in Hi' as (i & E). refine (IH ch' x ch Hx _ _ _ (Ch _ _ E) Hc).
      intros y Hy. apply HL. right. apply in_flat_map. exists (Some ch'). now split.
Qed.

Lemma link_ok : forall count (chs : list (option elemT)), (forall ch, In (Some ch) chs -> 1 <= e_id ch <= count) ->
  link count (map (fun oc => match oc with Some ch => e_id ch | None => 0 end) chs) = Some (map (option_map e_id) chs).
Proof.
  intros count. induction chs as [|[ch|] chs IH]; intros H; [reflexivity| |]; cbn [map link option_map]; rewrite IH by (intros; apply H; now right).
  - specialize (H ch (or_introl eq_refl)). destruct (Nat.eqb_spec (e_id ch) 0); [lia|]. destruct (Nat.leb_spec (e_id ch) count); [reflexivity|lia].
  - reflexivity.
Qed.

Lemma read_all_ok : forall count (es : list elemT) heap, NoDup (map e_id es) ->
  (forall e, In e es -> writable e /\ 1 <= e_id e <= count /\ forall ch, In (Some ch) (e_children e) -> 1 <= e_id ch <= count) ->
  exists heap', read_all c count (map blk es) heap = Some heap' /\ (forall e, In e es -> heap' (e_id e) = Some (hn e)) /\ (forall i, ~ In i (map e_id es) -> heap' i = heap i).
Proof.
  intros count. induction es as [|e es IH]; intros heap ND H; [exists heap; split; [reflexivity|]; split; [intros ? []|reflexivity]|].
  cbn [map read_all]. cbn [map] in ND. apply NoDup_cons_iff in ND as [Ni ND]. destruct (H e (or_introl eq_refl)) as (Wr & Rg & Cg).
  assert (RE : read_elem c count (blk e) = Some (e_id e, hn e)).
  { unfold read_elem, blk, hn, writable in *. destruct (e_leaf e).
    - destruct (e_entry e); [reflexivity|contradiction].
    - destruct Wr as [-> Len]. rewrite map_length, Len, Nat.eqb_refl, link_ok by assumption. reflexivity. }
  rewrite RE. assert (B : (1 <=? e_id e) && (e_id e <=? count) = true) by (apply andb_true_iff; split; apply Nat.leb_le; lia). rewrite B.
  destruct (IH (fun j => if Nat.eqb j (e_id e) then Some (hn e) else heap j) ND (fun e' He => H e' (or_intror He))) as (heap' & H1 & H2 & H3).
  exists heap'. split; [exact H1|]. split.
  - intros e' [<-|He]; [|now apply H2]. rewrite H3 by assumption. now rewrite Nat.eqb_refl.
  - intros i Hi. cbn [map In] in Hi. rewrite H3 by tauto. destruct (Nat.eqb_spec i (e_id e)); [exfalso; apply Hi; left; congruence|reflexivity].
Qed.

Lemma prop_pos_ok : forall p l n i acc, i < 2 ^ n -> prop_pos c p l (rev (seq 0 n)) i acc =
  map (fun j => if Nat.testbit i j then (nthq p j + nthq (extends c l) j * (1 # 2))%Q else nthq p j) (seq 0 n) ++ acc.
Proof.
  intros p l. induction n as [|n IH]; intros i acc H; [reflexivity|]. rewrite seq_S at 1. rewrite rev_app_distr. cbn [rev app Nat.add prop_pos]. cbn [Nat.pow] in H.
  rewrite seq_S, map_app, <- app_assoc. cbn [map app Nat.add]. destruct (Nat.leb_spec (2 ^ n) i) as [G|G].
  - rewrite IH by lia. f_equal.
    + apply map_ext_in. intros j Hj. apply in_seq in Hj. replace i with (i - 2 ^ n + 2 ^ n) at 2 by lia. rewrite testbit_add_pow by lia. destruct (Nat.eqb_spec j n); [lia|reflexivity].
    + f_equal. replace i with (i - 2 ^ n + 2 ^ n) by lia. rewrite testbit_add_pow, Nat.eqb_refl by lia.
      unfold Qplus, Qmult. cbn [Qnum Qden]. now rewrite (Z.mul_comm 1), (Pos.mul_comm 2).
  - rewrite IH by lia. do 2 f_equal. rewrite Nat.testbit_eqb, Nat.div_small by assumption. reflexivity.
Qed.

Lemma prop_children_ok : forall f (chs : list (option elemT)) k, (forall j ch, nth_error chs j = Some (Some ch) -> f (e_id ch) (k + j) = Some ch) ->
  prop_children f (map (option_map e_id) chs) k = Some chs.
Proof.
  intros f. induction chs as [|[ch|] chs IH]; intros k H; [reflexivity| |]; cbn [map option_map prop_children].
  - rewrite (IH (S k)). 2:{ intros j ch' E. replace (S k + j) with (k + S j) by lia. now apply H. }
    specialize (H 0 ch eq_refl). rewrite Nat.add_0_r in H. now rewrite H.
  - rewrite (IH (S k)); [reflexivity|]. intros j ch' E. replace (S k + j) with (k + S j) by lia. now apply H.
Qed.

Lemma propagate_ok : forall heap n l pos (e : elemT), good c n l pos e -> (forall x, In x (nodes n e) -> heap (e_id x) = Some (hn x)) -> propagate (S n) c heap (e_id e) pos l = Some e.
Proof.
  intros heap. induction n as [|n IH]; intros l pos e G H.
  - cbn [propagate]. rewrite (H e) by now left. destruct e as [i p lv lf en ch]. destruct G as (E1 & E2 & E3 & E4). cbn in *. subst. reflexivity.
  - remember (S n) as m eqn:Em. cbn [propagate]. subst m. rewrite (H e) by now left. destruct G as (E1 & E2 & Lf & En & Len & Ch). unfold hn. rewrite Lf. cbn [n_leaf n_id n_entry n_children].
    rewrite prop_children_ok.
    + destruct e as [i p lv lf en ch]. cbn in *. now subst.
    + intros j ch E. cbn [Nat.add]. assert (Hj : j < 2 ^ c_dim c). { rewrite <- (eq_refl : num_children c = 2 ^ c_dim c), <- Len. apply nth_error_Some. congruence. }
      unfold dims. rewrite prop_pos_ok by exact Hj. rewrite app_nil_r. apply IH; [exact (Ch _ _ E)|]. intros x Hx. apply H. cbn [nodes]. right. apply in_flat_map. exists (Some ch). split; [now apply nth_error_In in E|exact Hx].
Qed.
End Files.

(** Trees as built by the constructor and [setEntry]. *)
Section Built.
Context {T : Type}.
Variables mn mx disc : list Q.
Hypothesis Lmx : length mx = length mn.

Lemma nthq_sizes : forall i, i < length mn -> nthq (sizes mn mx) i = (nthq mx i - nthq mn i)%Q.
Proof.
  intros i H. unfold sizes, nthq. assert (E : nth_error (map (fun q : Q * Q => (snd q - fst q)%Q) (combine mn mx)) i = Some (nth i mx 0%Q - nth i mn 0%Q)%Q).
  { rewrite nth_error_map. rewrite (nth_error_nth' _ (0%Q, 0%Q)) by (rewrite combine_length; lia). rewrite combine_nth by lia. reflexivity. }
  now apply nth_error_nth with (d := 0%Q) in E.
Qed.
Lemma sizes_length : length (sizes mn mx) = length mn.
Proof. unfold sizes. rewrite map_length, combine_length. lia. Qed.

Variable c : cfg.
Hypothesis Dc : c_dim c = length mn.
Hypothesis Sc : c_size c = sizes mn mx.
Hypothesis Pos : forall i, i < length mn -> (nthq mn i < nthq mx i)%Q.

Lemma shape : length (c_size c) = c_dim c.
Proof. rewrite Sc, Dc. apply sizes_length. Qed.
Lemma cov_within : forall p, cov c mn 0 p <-> within (length mn) mn mx p.
Proof.
  intros p. unfold cov, within. rewrite Dc. change (extends c 0) with (c_size c). rewrite Sc. split; intros H i Hi; specialize (H i Hi); rewrite nthq_sizes in * by assumption; destruct H; split; lra.
Qed.

Lemma same_path_cell : forall n p q, within (length mn) mn mx p -> within (length mn) mn mx q ->
  (same_path c n 0 mn p q = true <-> same_cell (length mn) n mn mx p q).
Proof.
  intros n p q Hp Hq. rewrite same_path_dims by exact shape. rewrite forallb_forall. unfold same_cell. change (extends c 0) with (c_size c). rewrite Sc.
  assert (M : (0 < inject_Z (2 ^ Z.of_nat n))%Q) by (change 0%Q with (inject_Z 0); rewrite <- Zlt_Qlt; apply Z.pow_pos_nonneg; lia).
  assert (K : forall i, i < length mn -> (same1 n (nthq mn i) (nthq (sizes mn mx) i) (nthq p i) (nthq q i) = true <->
    exists k, (0 <= k < 2 ^ Z.of_nat n)%Z /\ in_interval (nthq mn i) (width n (nthq mn i) (nthq mx i)) k (nthq p i) /\ in_interval (nthq mn i) (width n (nthq mn i) (nthq mx i)) k (nthq q i))).
  { intros i Hi. specialize (Pos i Hi). specialize (Hp i Hi). specialize (Hq i Hi). apply same1_intervals; rewrite ?nthq_sizes by assumption.
    - unfold width. apply Qlt_shift_div_l; [exact M|]. lra.
    - unfold width. field. lra.
    - split; lra.
    - split; lra. }
  split; intros H i Hi.
  - apply K; [assumption|]. apply H. apply in_dims. now rewrite Dc.
  - apply in_dims in Hi. rewrite Dc in Hi. apply K; [assumption|]. now apply H.
Qed.

Lemma same_cell_within : forall n p q, same_cell (length mn) n mn mx p q -> within (length mn) mn mx p /\ within (length mn) mn mx q.
Proof.
  intros n p q H. split; intros i Hi; destruct (H i Hi) as (k & Hk & K1 & K2); eapply interval_within; eauto.
Qed.

Lemma same_cell_dec : forall n p q, same_cell (length mn) n mn mx p q \/ ~ same_cell (length mn) n mn mx p q.
Proof.
  intros n p q. destruct (covers_dec c mn 0 p) as [Hp|Hp]; rewrite cov_within in Hp; [|right; intros K; apply Hp; now apply (same_cell_within n p q)].
  destruct (covers_dec c mn 0 q) as [Hq|Hq]; rewrite cov_within in Hq; [|right; intros K; apply Hq; now apply (same_cell_within n p q)].
  pose proof (same_path_cell n p q Hp Hq) as E. destruct (same_path c n 0 mn p q); [left; now apply E|right; intros K; apply E in K; discriminate].
Qed.

Definition inv (n : nat) (t : vtree T) : Prop :=
  v_min t = mn /\ v_max t = mx /\ v_disc t = disc /\ v_cfg t = c /\ good c n 0 mn (v_root t) /\ semi n (v_root t) /\ e_id (v_root t) = 1 /\
  Permutation (ids n (v_root t)) (seq 1 (v_next t)).

Variable n : nat.
Hypothesis Lv : c_levels c = n + 1.

Lemma inv_start : inv n (VTree mn mx disc c 1 (new_elem c 1 mn 0)).
Proof.
  unfold inv. cbn [v_min v_max v_disc v_cfg v_root v_next]. destruct (@new_good T c shape n 0 mn 1 Lv) as (G & S0 & I0).
  split; [reflexivity|]. split; [reflexivity|]. split; [reflexivity|]. split; [reflexivity|]. split; [exact G|]. split; [exact S0|]. split; [exact I0|].
  rewrite ids_new by (exact shape || exact Lv). reflexivity.
Qed.

Lemma depth_n : forall t, inv n t -> depth t = S n.
Proof. intros t I. unfold depth. destruct I as (_ & _ & _ & -> & _). lia. Qed.

Lemma inv_set : forall (t : vtree T) p x, inv n t -> exists b t', tree_set t p x = Some (b, t') /\ inv n t' /\ (b = true <-> within (length mn) mn mx p) /\ (b = false -> t' = t) /\
  (b = true -> filled n (v_root t')) /\
  (forall q, within (length mn) mn mx q -> entry_at (look c n 0 mn (v_root t') q) = if b && same_path c n 0 mn p q then Some x else entry_at (look c n 0 mn (v_root t) q)).
Proof.
  intros t p x I. assert (D := depth_n t I). assert (I' := I). destruct I as (I1 & I2 & I3 & I4 & I5 & I6 & I7 & I8). unfold tree_set. rewrite D, I4.
  destruct (covers_dec c mn 0 p) as [Hp|Hp].
  - destruct (set_ok c shape n 0 mn (v_root t) p x (v_next t) I5 I6 Lv Hp) as (e' & nx' & -> & G & F & Id & Hnx & Pm & Lk). eexists true, _. split; [reflexivity|]. split; [|split; [|split; [discriminate|split]]].
    + unfold inv. cbn [v_min v_max v_disc v_cfg v_root v_next]. split; [exact I1|]. split; [exact I2|]. split; [exact I3|]. split; [reflexivity|]. split; [exact G|]. split; [now apply filled_semi|]. split; [congruence|].
      rewrite Pm, I8. replace nx' with (v_next t + (nx' - v_next t)) at 2 by lia. rewrite seq_app. reflexivity.
    + split; [intros _; now apply cov_within|reflexivity].
    + intros _. exact F.
    + intros q Hq. cbn [v_root andb]. apply Lk. now apply cov_within.
  - rewrite (set_outside c n 0 mn (v_root t) p x (v_next t) I5 Hp). eexists false, _. split; [reflexivity|].
    assert (E : VTree (v_min t) (v_max t) (v_disc t) c (v_next t) (v_root t) = t) by (destruct t; cbn in *; congruence). rewrite E. split; [exact I'|]. split; [|split; [reflexivity|split; [discriminate|]]].
    + split; [discriminate|]. intros K. elim Hp. now apply cov_within.
    + intros q Hq. reflexivity.
Qed.

Lemma inv_run : forall ws t, inv n t -> exists t', tree_run t ws = Some t' /\ inv n t'.
Proof.
  induction ws as [|[p x] ws IH]; intros t I; [exists t; now split|]. destruct (inv_set t p x I) as (b & t' & E & I' & _). cbn [tree_run]. rewrite E. now apply IH.
Qed.
Lemma run_app : forall ws (t : vtree T) ws', tree_run t (ws ++ ws') = match tree_run t ws with Some t' => tree_run t' ws' | None => None end.
Proof. induction ws as [|[p x] ws IH]; intros t ws'; [reflexivity|]. cbn. destruct (tree_set t p x) as [[b t']|]; [apply IH|reflexivity]. Qed.

Lemma run_value : forall (ws : list (list Q * T)) t q, tree_run (VTree mn mx disc c 1 (new_elem c 1 mn 0)) ws = Some t -> within (length mn) mn mx q ->
  value (length mn) n mn mx q ws (entry_at (look c n 0 mn (v_root t) q)).
Proof.
  intros ws t q H Hq. revert t H. induction ws as [|[p x] ws IH] using rev_ind; intros t H.
  - injection H as <-. cbn [v_root]. replace (entry_at _) with (@None T); [constructor|]. destruct n as [|n'] eqn:En.
    + cbn. unfold new_elem. destruct (Nat.leb_spec (c_levels c - 1) 0); [reflexivity|lia].
    + rewrite look_new by (exact shape || lia). reflexivity.
  - destruct (inv_run ws _ inv_start) as (t1 & E1 & I1). specialize (IH t1 E1). rewrite run_app, E1 in H. cbn [tree_run] in H.
    destruct (inv_set t1 p x I1) as (b & t2 & E2 & I2 & Hb & _ & _ & Lk). rewrite E2 in H. injection H as ->. rewrite Lk by assumption.
    destruct b; cbn [andb].
    + assert (Hp : within (length mn) mn mx p) by (now apply Hb). pose proof (same_path_cell n p q Hp Hq) as SP. destruct (same_path c n 0 mn p q).
      * apply value_hit. now apply SP.
      * apply value_miss; [|exact IH]. intros K. apply SP in K. discriminate.
    + apply value_miss; [|exact IH]. intros K. apply (same_cell_within n p q) in K as [K _]. apply Hb in K. discriminate.
Qed.
Lemma value_outside : forall (ws : list (list Q * T)) q, ~ within (length mn) mn mx q -> value (length mn) n mn mx q ws None.
Proof.
  intros ws q H. induction ws as [|[p x] ws IH] using rev_ind; [constructor|]. apply value_miss; [|exact IH]. intros K. apply H. now apply (same_cell_within n p q).
Qed.

Lemma has_root : forall (t : vtree T) q, inv n t -> within (length mn) mn mx q -> n <> 0 -> tree_has t q = Some (match look c n 0 mn (v_root t) q with Some _ => true | None => false end).
Proof.
  intros t q I Hq Hn. unfold tree_has. rewrite (depth_n t I). destruct I as (I1 & I2 & I3 & I4 & I5 & I6 & I7 & I8). rewrite I4. apply cov_within in Hq. destruct n as [|m]; [contradiction|].
  destruct I5 as (E1 & E2 & Lf & En & Len & Ch). assert (G : good c (S m) 0 mn (v_root t)) by (split; [exact E1|]; split; [exact E2|]; split; [exact Lf|]; split; [exact En|]; split; [exact Len|exact Ch]).
  remember (S m) as k eqn:Ek. cbn [has_entry]. subst k. rewrite Lf, (child_indx_good c m 0 mn _ q G). cbn [look]. assert (Cq := Hq). apply covers_iff in Cq. rewrite Cq.
  destruct (nth_error (e_children (v_root t)) (idx c mn 0 q)) as [[ch|]|] eqn:E; [|reflexivity|].
  - apply has_entry_look; [exact shape|exact (Ch _ _ E)| |now apply cov_child; [exact shape|]]. cbn [semi]. intros [|i] ch' E'; [injection E' as <-; exact (I6 _ _ E)|]. destruct i; discriminate.
  - apply nth_error_None in E. pose proof (idx_lt c mn 0 q). lia.
Qed.

Lemma leaf_entry : forall (t : vtree T) q e, inv n t -> n <> 0 -> look c n 0 mn (v_root t) q = Some e -> e_entry e <> None.
Proof.
  intros t q e (I1 & I2 & I3 & I4 & I5 & I6 & I7 & I8) Hn H. destruct n as [|m]; [contradiction|]. eapply semi_leaves; [exact I5|exact I6|].
  apply (pls_leaves c (S m) 0 mn (v_root t) []); [exact I5|]. 
  (* any leaf found is among all the leaves *)
  pose proof shape as Sh. clear - H I5 Sh. revert H. generalize (v_root t) as e0, 0 as l, mn as pos, (S m) as k, I5. intros e0 l pos k G H. revert e0 l pos G H. induction k as [|k IH]; intros e0 l pos G H; cbn [look] in H.
  - injection H as <-. now left.
  - destruct G as (E1 & E2 & Lf & En & Len & Ch). destruct (covers c pos l q); [|discriminate]. destruct (nth_error (e_children e0) (idx c pos l q)) as [[ch|]|] eqn:E; try discriminate.
    cbn [pls]. apply in_flat_map. exists (idx c pos l q). split; [apply all_children_spec; [exact Sh|cbn; lia|split; [apply idx_lt|cbn; lia]]|]. rewrite E. exact (IH _ _ _ (Ch _ _ E) H).
Qed.
End Built.

Lemma forallb_nth : forall (f : Q -> bool) l i, forallb f l = true -> i < length l -> f (nthq l i) = true.
Proof. intros f l i H Hi. rewrite forallb_forall in H. apply H. apply nth_In. exact Hi. Qed.

Lemma built_inv : forall {T} (mn mx disc : list Q) (ws : list (list Q * T)) t, length mx = length mn -> length disc = length mn -> built mn mx disc ws t ->
  exists n c, c = Cfg (length mn) (n + 1) (sizes mn mx) /\
    n = Nat.log2_up (Z.to_nat (max_steps (sizes mn mx) disc)) /\ max_steps (sizes mn mx) disc <> 0%Z /\
    (forall i, i < length mn -> (nthq mn i < nthq mx i)%Q) /\ (forall i, i < length mn -> (0 < nthq disc i)%Q) /\
    tree_run (VTree mn mx disc c 1 (new_elem c 1 mn 0)) ws = Some t /\ inv mn mx disc c n t.
Proof.
  intros T mn mx disc ws t L1 L2 (t0 & Hn & Hr). unfold new_tree in Hn.
  destruct (forallb (fun s => Qgt_bool s 0) (sizes mn mx)) eqn:F1; cbn [andb negb] in Hn; [|discriminate].
  destruct (forallb (fun d => Qgt_bool d 0) disc) eqn:F2; cbn [negb] in Hn; [|discriminate].
  destruct (Z.eqb_spec (max_steps (sizes mn mx) disc) 0) as [E|E]; [discriminate|].
  set (n := Nat.log2_up (Z.to_nat (max_steps (sizes mn mx) disc))) in *. injection Hn as <-. set (c := Cfg (length mn) (n + 1) (sizes mn mx)) in *. exists n, c. split; [reflexivity|]. split; [reflexivity|]. split; [exact E|].
  assert (P1 : forall i, i < length mn -> (nthq mn i < nthq mx i)%Q).
  { intros i Hi. pose proof (forallb_nth _ _ i F1 ltac:(rewrite sizes_length; lia)) as K. apply gt_true in K. rewrite nthq_sizes in K by assumption. lra. }
  split; [exact P1|]. split.
  { intros i Hi. pose proof (forallb_nth _ _ i F2 ltac:(lia)) as K. now apply gt_true in K. }
  split; [exact Hr|].
  assert (I0 : inv mn mx disc c n (VTree mn mx disc c 1 (new_elem c 1 mn 0) : vtree T)) by (apply inv_start; (assumption || reflexivity)).
  destruct (inv_run mn mx disc L1 c eq_refl eq_refl n eq_refl ws _ I0) as (t' & E' & I'). fold c in Hr. rewrite Hr in E'. now injection E' as ->.
Qed.

Lemma max_steps_ge : forall size disc i, length disc = length size -> i < length size -> (steps (nthq size i) (nthq disc i) <= max_steps size disc)%Z.
Proof.
  intros size disc i L Hi. unfold max_steps. assert (G : forall l a, (a <= fold_left Z.max l a)%Z /\ forall x, In x l -> (x <= fold_left Z.max l a)%Z).
  { induction l as [|y l IH]; intros a; cbn [fold_left]; [split; [lia|intros ? []]|]. destruct (IH (Z.max a y)) as [H1 H2]. split; [lia|]. intros x [<-|Hx]; [lia|now apply H2]. }
  apply G. apply in_map_iff. exists (nthq size i, nthq disc i). split; [reflexivity|]. unfold nthq. rewrite <- combine_nth by lia. apply nth_In. rewrite combine_length. lia.
Qed.
Lemma steps_bound : forall s d, (0 < d)%Q -> (s < (inject_Z (steps s d) + (1 # 2)) * d)%Q.
Proof.
  intros s d Hd. unfold steps. set (q := (s / d + (1 # 2))%Q). assert (H : (q < inject_Z (Qnum q / QDen q) + 1)%Q).
  { change 1%Q with (inject_Z 1). rewrite <- inject_Z_plus. exact (Qlt_floor q). }
  assert (E : (s == (q - (1 # 2)) * d)%Q) by (unfold q; field; lra). rewrite E. apply Qmult_lt_compat_r; [exact Hd|]. lra.
Qed.
