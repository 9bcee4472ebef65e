(** C93: the histogram. *)
From Coq Require Import List ZArith QArith Qround Bool Arith Lia Lqa.
From Verif Require Import HistModel HistSpec HistProofs.
Import ListNotations.
Open Scope nat_scope.

(** Each bin counts exactly the values that belong to it, and every value is counted once.  (The last condition keeps the index within 64 bits.) *)
Theorem C93_bins : forall vs mn mx n, (mn < mx)%Q -> 0 < n -> (forall v, In v vs -> (mn <= v)%Q /\ ((v - mn) / (mx - mn) * inject_Z (Z.of_nat n) < inject_Z (2 ^ 64))%Q) ->
  exists h, create_limits vs mn mx n = Some h /\ h_min h = mn /\ h_max h = mx /\ length (bins h) = n /\
    (forall i, i < n -> nth i (bins h) 0 = members mn mx n i vs) /\ list_sum (bins h) = length vs.
Proof.
  intros vs mn mx n D N V. destruct (insert_all_ok mn mx n D N vs (Hist mn mx (repeat 0 n)) eq_refl eq_refl (repeat_length 0 n) V) as (h & E & A & B & C & NN).
  assert (NB : forall i, i < n -> nth i (bins h) 0 = members mn mx n i vs). { intros i L. rewrite (NN i L). cbn [bins]. rewrite nth_repeat. reflexivity. }
  exists h. repeat (split; [assumption|]). rewrite <- (sum_members mn mx n vs D N V). f_equal. apply nth_ext with 0 0; [rewrite map_length, seq_length; exact C|].
  intros i L. rewrite C in L. rewrite NB by exact L. rewrite (nth_indep _ 0 (members mn mx n 0 vs)) by (rewrite map_length, seq_length; exact L).
  rewrite (map_nth (fun i => members mn mx n i vs)), seq_nth by exact L. reflexivity.
Qed.
(** The limits taken from the data are its smallest and greatest value; if they differ, all values are counted. *)
Theorem C93_limits : forall vs n a b, In a vs -> In b vs -> ~ (a == b)%Q -> 0 < n -> (Z.of_nat n < 2 ^ 64)%Z ->
  exists h, create vs n = Some h /\ In (h_min h) vs /\ In (h_max h) vs /\ (forall v, In v vs -> (h_min h <= v <= h_max h)%Q) /\ length (bins h) = n /\
    (forall i, i < n -> nth i (bins h) 0 = members (h_min h) (h_max h) n i vs) /\ list_sum (bins h) = length vs.
Proof.
  intros vs n a b IA IB NE N W. assert (exists v0, In v0 vs /\ data_range vs = Some (fold_left qmin vs v0, fold_left qmax vs v0)) as (v0 & I0 & ER).
  { destruct vs as [|v0 vs]; [destruct IA|]. exists v0. split; [left; reflexivity|reflexivity]. }
  unfold create. rewrite ER.
  destruct (range_ok vs v0) as (_ & _ & R & M & X). cbv zeta in R, M, X. set (mn := fold_left qmin vs v0) in *. set (mx := fold_left qmax vs v0) in *. clearbody mn mx. clear ER.
  assert (MI : In mn vs) by (destruct M as [<-|M]; [exact I0|exact M]). assert (XI : In mx vs) by (destruct X as [<-|X]; [exact I0|exact X]).
  assert (D : (mn < mx)%Q). { destruct (R a IA), (R b IB). destruct (Qlt_le_dec mn mx) as [L|L]; [exact L|]. exfalso. apply NE. lra. }
  destruct (C93_bins vs mn mx n D N) as (h & E & A & B & C & NB & SUM).
  { intros v I. destruct (R v I) as [L1 L2]. split; [exact L1|]. apply Qle_lt_trans with (1 * inject_Z (Z.of_nat n))%Q.
    - apply Qmult_le_compat_r; [|apply Qlt_le_weak, nq, N]. apply Qle_shift_div_r; lra.
    - rewrite Qmult_1_l. rewrite <- Zlt_Qlt. exact W. }
  exists h. rewrite E, A, B. repeat (split; [assumption || reflexivity|]). exact SUM.
Qed.
(** The fullest and the emptiest bin, the first one of several. *)
Theorem C93_extremes : forall h, bins h <> [] ->
  (max_bin_index h < length (bins h) /\ (forall m, m < length (bins h) -> nth m (bins h) 0 <= nth (max_bin_index h) (bins h) 0) /\ forall m, m < max_bin_index h -> nth m (bins h) 0 < nth (max_bin_index h) (bins h) 0) /\
  (min_bin_index h < length (bins h) /\ (forall m, m < length (bins h) -> nth (min_bin_index h) (bins h) 0 <= nth m (bins h) 0) /\ forall m, m < min_bin_index h -> nth (min_bin_index h) (bins h) 0 < nth m (bins h) 0).
Proof.
  intros h NE. split.
  - destruct (first_ok (fun x b => b <? x)) with (l := bins h) as (A & B & C); try exact NE; try (intros; rewrite ?Nat.ltb_lt, ?Nat.ltb_ge in *; lia).
    unfold max_bin_index. split; [exact A|]. split; intros m L; [specialize (B m L); apply Nat.ltb_ge in B; exact B|specialize (C m L); apply Nat.ltb_lt in C; exact C].
  - destruct (first_ok Nat.ltb) with (l := bins h) as (A & B & C); try exact NE; try (intros; rewrite ?Nat.ltb_lt, ?Nat.ltb_ge in *; lia).
    unfold min_bin_index. split; [exact A|]. split; intros m L; [specialize (B m L); apply Nat.ltb_ge in B; exact B|specialize (C m L); apply Nat.ltb_lt in C; exact C].
Qed.
(** The value of a bin is its lower edge; of the fullest bin as well. *)
Theorem C93_value : forall h i, bins h <> [] -> exists v, index_to_value h i = Some v /\ (v == edge (h_min h) (h_max h) (length (bins h)) i)%Q.
Proof.
  intros h i NE. unfold index_to_value, edge. destruct (length (bins h)) as [|n] eqn:E; [destruct (bins h); [congruence|discriminate E]|]. eexists. split; [reflexivity|].
  assert (NQ := nq (S n) ltac:(lia)). field. lra.
Qed.
(** The header promises the centre of the bin: the value is the lower edge. *)
Theorem C93_centre_refuted : exists vs h v, create_limits vs 0 1 2 = Some h /\ index_to_value h 0 = Some v /\ (v == 0)%Q.
Proof. exists [(1#4)%Q], (Hist 0 1 [1; 0]). eexists. split; [vm_compute; reflexivity|]. split; [reflexivity|]. reflexivity. Qed.
(** The value of the emptiest bin is in fact the value of the fullest one. *)
Theorem C93_min_value_refuted : (forall h, min_bin_value h = max_bin_value h) /\
  exists vs h v w, create_limits vs 0 1 2 = Some h /\ min_bin_value h = Some v /\ index_to_value h (min_bin_index h) = Some w /\ ~ (v == w)%Q.
Proof.
  split; [reflexivity|]. exists [(1#4)%Q], (Hist 0 1 [1; 0]). do 2 eexists. split; [vm_compute; reflexivity|]. split; [reflexivity|]. split; [reflexivity|]. vm_compute. discriminate.
Qed.
(** The median filter reads before the first bin, whatever the histogram, unless its size is zero. *)
Theorem C93_median_refuted : forall h size, bins h <> [] -> 0 < size -> (Z.of_nat size < 2 ^ 63)%Z -> (Z.of_nat (length (bins h)) < 2 ^ 63)%Z -> median_filter h size = None.
Proof.
  intros h size NE L W WB. unfold median_filter. destruct (bins h) as [|x l] eqn:E; [congruence|]. cbn [length seq map collect]. 
  assert (M : median_at (x :: l) size 0 = None).
  { unfold median_at. set (n := Z.of_nat (length (x :: l))) in *. assert (SB : sub64 (Z.of_nat 0) (Z.of_nat size) = (2 ^ 64 - Z.of_nat size)%Z).
    { unfold sub64, word. symmetry. apply Z.mod_unique with (-1)%Z; [left; lia|lia]. }
    rewrite SB. destruct (Z.leb_spec (Z.max (2 ^ 64 - Z.of_nat size) 0) (Z.min (Z.of_nat 0 + Z.of_nat size + 1) n)) as [K|K]; [|reflexivity]. exfalso. clear SB. lia. }
  rewrite M. reflexivity.
Qed.
Theorem C93_median_zero : forall h, (Z.of_nat (length (bins h)) < 2 ^ 63)%Z -> median_filter h 0 = Some h.
Proof.
  intros h W. unfold median_filter. assert (M : map (median_at (bins h) 0) (seq 0 (length (bins h))) = map Some (bins h)).
  { apply nth_ext with None None; [rewrite !map_length, seq_length; reflexivity|]. intros i L. rewrite map_length, seq_length in L.
    rewrite (nth_indep _ None (median_at (bins h) 0 0)) by (rewrite map_length, seq_length; exact L). rewrite map_nth, seq_nth by exact L. rewrite (nth_indep _ None (Some 0)) by (rewrite map_length; exact L). rewrite (map_nth Some).
    unfold median_at. assert (S0 : sub64 (Z.of_nat (0 + i)) (Z.of_nat 0) = Z.of_nat i) by (unfold sub64, word; rewrite Z.mod_small; lia). rewrite S0.
    replace (Z.max (Z.of_nat i) 0) with (Z.of_nat i) by lia. replace (Z.min (Z.of_nat (0 + i) + Z.of_nat 0 + 1) (Z.of_nat (length (bins h)))) with (Z.of_nat (S i)) by lia.
    assert (S1 : sub64 (Z.of_nat (S i)) (Z.of_nat i) = 1%Z) by (unfold sub64, word; rewrite Z.mod_small; lia). rewrite S1. destruct (Z.leb_spec (Z.of_nat i) (Z.of_nat (S i))) as [_|K]; [|lia].
    rewrite Nat2Z.id. change (Z.to_nat 1) with 1. change (Z.to_nat (1 / 2)) with 0. clear -L. revert i L. induction (bins h) as [|x l IH]; intros i L; [cbn in L; lia|]. destruct i as [|i]; [reflexivity|]. cbn [length] in L. apply IH. lia. }
  rewrite M. assert (K : forall l : list nat, collect (map Some l) = Some l) by (induction l as [|x l IH]; [reflexivity|cbn; rewrite IH; reflexivity]).
  rewrite K. destruct h as [a b c]. reflexivity.
Qed.
(** Data with one value only, and values more than a bin below the lower limit, are undefined behaviour. *)
Theorem C93_equal_refuted : forall v vs n, (forall w, In w vs -> w = v) -> create (v :: vs) n = None.
Proof.
  intros v vs n H. unfold create, data_range. assert (R := range_ok (v :: vs) v). cbv zeta in R. destruct R as (_ & _ & _ & M & X).
  assert (EM : fold_left qmin (v :: vs) v = v) by (destruct M as [M|[M|M]]; [congruence|congruence|apply H, M]). assert (EX : fold_left qmax (v :: vs) v = v) by (destruct X as [X|[X|X]]; [congruence|congruence|apply H, X]).
  rewrite EM, EX. unfold create_limits. cbn [insert_all]. unfold insert, value_to_index. cbn [h_min h_max]. assert (Q0 : Qeq_bool (v - v) 0 = true) by (apply Qeq_bool_iff; ring). rewrite Q0. reflexivity.
Qed.
Theorem C93_below_refuted : exists vs, create_limits vs 0 1 4 = None /\ forall v, In v vs -> (- (1) < v)%Q.
Proof. exists [(-1#2)%Q]. split; [vm_compute; reflexivity|]. intros v [<-|[]]. reflexivity. Qed.

Example C93_case : exists h, create [(1#2)%Q; 0%Q; 1%Q; (3#4)%Q; (7#8)%Q] 4 = Some h /\ bins h = [1; 0; 1; 3] /\ max_bin_index h = 3 /\ min_bin_index h = 1 /\ members 0 1 4 3 [(1#2)%Q; 0%Q; 1%Q; (3#4)%Q; (7#8)%Q] = 3.
Proof. eexists. split; [vm_compute; reflexivity|]. vm_compute. auto. Qed.
Example C93_case_hyps : forall v, In v [(1#2)%Q; 0%Q; 1%Q] -> (0 <= v)%Q /\ ((v - 0) / (1 - 0) * inject_Z (Z.of_nat 4) < inject_Z (2 ^ 64))%Q.
Proof. intros v [<-|[<-|[<-|[]]]]; vm_compute; split; congruence. Qed.

Print Assumptions C93_bins.
Print Assumptions C93_limits.
Print Assumptions C93_extremes.
