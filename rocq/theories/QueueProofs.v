From Coq Require Import List QArith Bool Permutation Lia PeanoNat.
From Verif Require Import QueueModel QueueSpec.
Import ListNotations.
Open Scope nat_scope.

Section Proofs.
Context {A : Type}.
Notation queue := (queue A).

Lemma upd_same : forall {B} (f : nat -> B) i v, upd f i v i = v.
Proof. intros. unfold upd. now rewrite Nat.eqb_refl. Qed.
Lemma upd_other : forall {B} (f : nat -> B) i j v, j <> i -> upd f i v j = f j.
Proof. intros. unfold upd. destruct (Nat.eqb_spec j i); [contradiction|reflexivity]. Qed.

(** The pointers below [n] are a permutation of the slots below [n]. *)
Definition ptr_ok (n : nat) (ptr : nat -> option nat) : Prop :=
  (forall i, i < n -> exists s, s < n /\ ptr i = Some s) /\
  (forall i j, i < n -> j < n -> ptr i = ptr j -> i = j).

Definition tests (q : queue) (s : nat) : test A := fst (q_bvt q s).

(** Back indices are right, except that the one of the root may point past the slot of the root. *)
Definition back_ok (n : nat) (q : queue) : Prop :=
  (forall i s, 0 < i -> i < n -> q_ptr q i = Some s -> snd (q_bvt q s) = i) /\
  (forall s, 0 < n -> q_ptr q 0 = Some s -> snd (q_bvt q s) = 0 \/ s < snd (q_bvt q s) < q_size q).

(** Distance of the test at position [i]. *)
Definition kf (q : queue) (i : nat) : Q := match q_ptr q i with Some s => t_d (tests q s) | None => 0 end.

Definition base (n : nat) (q : queue) : Prop := n <= q_size q /\ ptr_ok n (q_ptr q) /\ back_ok n q.

Definition heap (n : nat) (q : queue) : Prop := forall i, 0 < i -> i < n -> (kf q (parent i) <= kf q i)%Q.

Lemma key_kf : forall n q i, base n q -> i < n -> key q i = Some (kf q i).
Proof.
  intros n q i (Hs & (Hp & _) & _) Hi. unfold key, kf, tests. destruct (Hp i Hi) as (s & Hsn & ->).
  destruct (Nat.ltb_spec i (q_size q)), (Nat.ltb_spec s (q_size q)); try lia. reflexivity.
Qed.

Lemma swap_ok : forall n q p c, base n q -> p < n -> c < n -> p <> c ->
  exists q', swap q p c = Some q' /\ base n q' /\ q_size q' = q_size q /\ q_n q' = q_n q /\
    (forall s, tests q' s = tests q s) /\
    kf q' p = kf q c /\ kf q' c = kf q p /\ (forall i, i <> p -> i <> c -> kf q' i = kf q i).
Proof.
  intros n q p c (Hs & (Hp & Hinj) & (Hb & Hb0)) Hpn Hcn Hpc. unfold swap.
  destruct (Hp p Hpn) as (sp & Hsp & Ep), (Hp c Hcn) as (sc & Hsc & Ec). rewrite Ep, Ec.
  assert (Hne : sp <> sc). { intros ->. apply Hpc. apply Hinj; auto. congruence. }
  eexists. split; [reflexivity|]. set (q' := set_pindex _ _ _).
  assert (P1 : q_ptr q' p = Some sc) by (unfold q'; cbn; rewrite upd_other, upd_same; auto).
  assert (P2 : q_ptr q' c = Some sp) by (unfold q'; cbn; rewrite upd_same; auto).
  assert (P3 : forall i, i <> p -> i <> c -> q_ptr q' i = q_ptr q i) by (intros; unfold q'; cbn; rewrite !upd_other; auto).
  assert (B1 : q_bvt q' sp = (fst (q_bvt q sp), c)).
  { unfold q'. cbn. rewrite upd_same. rewrite upd_other by auto. reflexivity. }
  assert (B2 : q_bvt q' sc = (fst (q_bvt q sc), p)).
  { unfold q'. cbn. rewrite upd_other by auto. rewrite upd_same. reflexivity. }
  assert (B3 : forall s, s <> sp -> s <> sc -> q_bvt q' s = q_bvt q s).
  { intros. unfold q'. cbn. rewrite !upd_other by auto. reflexivity. }
  assert (T : forall s, tests q' s = tests q s).
  { intros s. unfold tests. destruct (Nat.eq_dec s sp) as [->|]; [now rewrite B1|].
    destruct (Nat.eq_dec s sc) as [->|]; [now rewrite B2|]. now rewrite B3. }
  assert (Z1 : q_size q' = q_size q) by reflexivity. assert (Z2 : q_n q' = q_n q) by reflexivity.
  clearbody q'.
  assert (slot_of : forall i s, i < n -> q_ptr q i = Some s -> i <> p -> i <> c -> s <> sp /\ s <> sc).
  { intros i s Hi E Np Nc. split; intros ->; [apply Np|apply Nc]; apply Hinj; auto; congruence. }
  split; [|split; [exact Z1|split; [exact Z2|split; [exact T|split; [|split]]]]].
  - split; [rewrite Z1; exact Hs|]. split; [split|split].
    + intros i Hi. destruct (Nat.eq_dec i p) as [->|]; [eauto|]. destruct (Nat.eq_dec i c) as [->|]; [eauto|]. rewrite P3 by auto. now apply Hp.
    + assert (D : forall i, i < n -> exists s, q_ptr q' i = Some s /\
                ((i = p /\ s = sc) \/ (i = c /\ s = sp) \/ (q_ptr q i = Some s /\ i <> p /\ i <> c /\ s <> sp /\ s <> sc))).
      { intros i Hi. destruct (Nat.eq_dec i p) as [->|Ni]; [exists sc; auto|]. destruct (Nat.eq_dec i c) as [->|Nc]; [exists sp; auto|].
        destruct (Hp i Hi) as (s & _ & Es). exists s. rewrite P3 by auto. split; [assumption|]. right; right.
        destruct (slot_of i s Hi Es Ni Nc). auto. }
      intros i j Hi Hj E. destruct (D i Hi) as (s & Ei & Di), (D j Hj) as (s' & Ej & Dj). rewrite Ei, Ej in E. injection E as <-.
      assert (sp <> sc) by (intros ->; apply Hpc, Hinj; auto; congruence).
      destruct Di as [(-> & ->)|[(-> & ->)|(Qi & ? & ? & ? & ?)]], Dj as [(-> & ?)|[(-> & ?)|(Qj & ? & ? & ? & ?)]]; try congruence.
      apply Hinj; auto. congruence.
    + intros i s H0 Hi E. destruct (Nat.eq_dec i p) as [->|Np]; [rewrite P1 in E; injection E as <-; now rewrite B2|].
      destruct (Nat.eq_dec i c) as [->|Nc]; [rewrite P2 in E; injection E as <-; now rewrite B1|].
      rewrite P3 in E by auto. destruct (slot_of i s Hi E Np Nc). rewrite B3 by auto. now apply Hb.
    + intros s H0 E. rewrite Z1. destruct (Nat.eq_dec 0 p) as [<-|Np]; [rewrite P1 in E; injection E as <-; rewrite B2; now left|].
      destruct (Nat.eq_dec 0 c) as [<-|Nc]; [rewrite P2 in E; injection E as <-; rewrite B1; now left|].
      rewrite P3 in E by auto. destruct (slot_of 0 s H0 E Np Nc). rewrite B3 by auto. now apply Hb0.
  - unfold kf. now rewrite P1, Ec, T.
  - unfold kf. now rewrite P2, Ep, T.
  - intros i Np Nc. unfold kf. rewrite P3 by auto. destruct (q_ptr q i); [now rewrite T|reflexivity].
Qed.

Lemma parent_lt : forall c, c <> 0 -> parent c < c.
Proof. intros c H. unfold parent. pose proof (Nat.div_mod (c - 1) 2 ltac:(lia)). lia. Qed.

Lemma parent_children : forall i p, 0 < i -> parent i = p <-> i = lchild p \/ i = lchild p + 1.
Proof.
  intros i p Hi. unfold parent, lchild. pose proof (Nat.div_mod (i - 1) 2 ltac:(lia)). pose proof (Nat.mod_upper_bound (i - 1) 2 ltac:(lia)). lia.
Qed.

(** Sifting up. *)
Definition heap_up (n : nat) (q : queue) (c : nat) : Prop :=
  (forall i, 0 < i -> i < n -> i <> c -> (kf q (parent i) <= kf q i)%Q) /\
  (forall i, 0 < i -> i < n -> parent i = c -> c <> 0 -> (kf q (parent c) <= kf q i)%Q).

Lemma sift_up_ok : forall fuel n q c, base n q -> c < n -> c < fuel -> heap_up n q c ->
  exists q', sift_up fuel q c = Some q' /\ base n q' /\ heap n q' /\ q_size q' = q_size q /\ q_n q' = q_n q /\
    (forall s, tests q' s = tests q s).
Proof.
  induction fuel as [|fuel IH]; intros n q c Hb Hc Hf [H1 H2]; [lia|]. cbn [sift_up].
  destruct (Nat.eqb_spec c 0) as [->|Nc].
  - exists q. split; [reflexivity|]. split; [assumption|]. split; [|auto]. intros i Hi Hin. apply H1; auto; lia.
  - pose proof (parent_lt c Nc) as Hp. rewrite (key_kf n), (key_kf n q c) by (auto; lia).
    destruct (Qle_bool (kf q c) (kf q (parent c))) eqn:E.
    + apply Qle_bool_iff in E.
      destruct (swap_ok n q (parent c) c) as (q' & -> & Hb' & Z1 & Z2 & T & K1 & K2 & K3); auto; try lia.
      destruct (IH n q' (parent c)) as (q2 & E2 & B2 & Hh & Z3 & Z4 & T2); auto; try lia.
      * split.
        -- intros i Hi Hin Hne. destruct (Nat.eq_dec i c) as [->|Nic].
           ++ now rewrite K1, K2.
           ++ rewrite (K3 i) by auto. destruct (Nat.eq_dec (parent i) c) as [Epc|Npc].
              ** rewrite Epc, K2. apply H2; auto.
              ** destruct (Nat.eq_dec (parent i) (parent c)) as [Epp|Npp].
                 --- rewrite Epp, K1. eapply Qle_trans; [exact E|]. rewrite <- Epp. apply H1; auto.
                 --- rewrite K3 by auto. apply H1; auto.
        -- intros i Hi Hin Ep Hp0. pose proof (parent_lt (parent c) Hp0). rewrite (K3 (parent (parent c))) by lia.
           assert (G : (kf q (parent (parent c)) <= kf q (parent c))%Q) by (apply H1; lia).
           destruct (Nat.eq_dec i c) as [->|Nic]; [now rewrite K2|].
           assert (i <> parent c). { intros ->. pose proof (parent_lt (parent c) Hp0). lia. }
           rewrite K3 by auto. eapply Qle_trans; [exact G|]. rewrite <- Ep. apply H1; auto.
      * exists q2. split; [exact E2|]. split; [exact B2|]. split; [exact Hh|]. split; [congruence|]. split; [congruence|].
        intros s. now rewrite T2.
    + exists q. split; [reflexivity|]. split; [assumption|]. split; [|auto]. intros i Hi Hin.
      destruct (Nat.eq_dec i c) as [->|Nic]; [|now apply H1].
      apply Qlt_le_weak. apply Qnot_le_lt. intros K. apply Qle_bool_iff in K. congruence.
Qed.

(** Sifting down. *)
Definition heap_down (n : nat) (q : queue) (p : nat) : Prop :=
  (forall i, 0 < i -> i < n -> parent i <> p -> (kf q (parent i) <= kf q i)%Q) /\
  (forall i, 0 < i -> i < n -> parent i = p -> p <> 0 -> (kf q (parent p) <= kf q i)%Q).

Lemma sift_down_step : forall n q p c, base n q -> c < n -> 0 < c -> parent c = p -> heap_down n q p ->
  (kf q c <= kf q p)%Q -> (forall i, 0 < i -> i < n -> parent i = p -> (kf q c <= kf q i)%Q) ->
  exists q', swap q p c = Some q' /\ base n q' /\ heap_down n q' c /\ q_size q' = q_size q /\ q_n q' = q_n q /\
    (forall s, tests q' s = tests q s).
Proof.
  intros n q p c Hb Hc H0 Ep [H1 H2] Hle Hmin. pose proof (parent_lt c ltac:(lia)) as Hpc.
  destruct (swap_ok n q p c) as (q' & -> & Hb' & Z1 & Z2 & T & K1 & K2 & K3); auto; try lia.
  exists q'. split; [reflexivity|]. split; [assumption|]. split; [|auto]. split.
  - intros i Hi Hin Np. destruct (Nat.eq_dec (parent i) p) as [E|N].
    + rewrite E, K1. destruct (Nat.eq_dec i c) as [->|Nc]; [rewrite K2; assumption|].
      assert (i <> p). { intros ->. pose proof (parent_lt p ltac:(lia)). lia. }
      rewrite K3 by auto. now apply Hmin.
    + rewrite (K3 (parent i)) by auto. destruct (Nat.eq_dec i p) as [->|Nip].
      * rewrite K1. apply H2; auto. lia.
      * assert (i <> c) by (intros ->; contradiction). rewrite K3 by auto. now apply H1.
  - intros i Hi Hin E _. rewrite Ep, K1. pose proof (parent_lt i ltac:(lia)). rewrite K3 by lia.
    rewrite <- E. apply H1; auto. lia.
Qed.

Lemma not_le_bool : forall a b, negb (Qle_bool a b) = true -> (b <= a)%Q.
Proof.
  intros a b H. apply Qlt_le_weak. apply Qnot_le_lt. intros K. apply Qle_bool_iff in K. rewrite K in H. discriminate.
Qed.
Lemma le_bool_false : forall a b, negb (Qle_bool a b) = false -> (a <= b)%Q.
Proof. intros a b H. apply Qle_bool_iff. now destruct (Qle_bool a b). Qed.

Lemma sift_down_ok : forall fuel q p, base (q_n q) q -> q_n q - p < fuel -> heap_down (q_n q) q p ->
  exists q', sift_down fuel q p = Some q' /\ base (q_n q) q' /\ heap (q_n q) q' /\ q_size q' = q_size q /\ q_n q' = q_n q /\
    (forall s, tests q' s = tests q s).
Proof.
  induction fuel as [|fuel IH]; intros q p Hb Hf HD; [lia|]. cbn [sift_down].
  assert (Hl : p < lchild p) by (unfold lchild; lia).
  assert (rec : forall c, c < q_n q -> 0 < c -> parent c = p -> (kf q c <= kf q p)%Q ->
            (forall i, 0 < i -> i < q_n q -> parent i = p -> (kf q c <= kf q i)%Q) ->
            exists q', match swap q p c with Some q => sift_down fuel q c | None => None end = Some q' /\
              base (q_n q) q' /\ heap (q_n q) q' /\ q_size q' = q_size q /\ q_n q' = q_n q /\ (forall s, tests q' s = tests q s)).
  { intros c Hc H0 Ep Hle Hmin. destruct (sift_down_step (q_n q) q p c) as (q1 & -> & B1 & D1 & Z1 & Z2 & T1); auto.
    pose proof (parent_lt c ltac:(lia)). rewrite <- Z2 in B1, D1.
    destruct (IH q1 c) as (q2 & E2 & B2 & H2 & Z3 & Z4 & T2); auto; try lia.
    rewrite Z2 in *. exists q2. split; [exact E2|]. split; [exact B2|]. split; [exact H2|]. split; [congruence|]. split; [congruence|].
    intros s. now rewrite T2. }
  assert (done : (forall i, 0 < i -> i < q_n q -> parent i = p -> (kf q p <= kf q i)%Q) ->
            exists q', Some q = Some q' /\ base (q_n q) q' /\ heap (q_n q) q' /\ q_size q' = q_size q /\ q_n q' = q_n q /\ (forall s, tests q' s = tests q s)).
  { intros K. exists q. split; [reflexivity|]. split; [assumption|]. split; [|auto]. intros i Hi Hin.
    destruct (Nat.eq_dec (parent i) p) as [E|N]; [rewrite E; now apply K|]. destruct HD as [H1 _]. now apply H1. }
  destruct (Nat.ltb_spec (lchild p) (q_n q)) as [L1|L1].
  - destruct (Nat.ltb_spec (lchild p + 1) (q_n q)) as [L2|L2].
    + rewrite (key_kf (q_n q) q (lchild p)), (key_kf (q_n q) q (lchild p + 1)) by (auto; lia).
      set (c := if negb (Qle_bool (kf q (lchild p + 1)) (kf q (lchild p))) then lchild p else lchild p + 1).
      assert (Hc : (c = lchild p \/ c = lchild p + 1) /\ (kf q c <= kf q (lchild p))%Q /\ (kf q c <= kf q (lchild p + 1))%Q).
      { unfold c. destruct (negb (Qle_bool (kf q (lchild p + 1)) (kf q (lchild p)))) eqn:E.
        - split; [now left|]. split; [apply Qle_refl|now apply not_le_bool].
        - split; [now right|]. split; [now apply le_bool_false|apply Qle_refl]. }
      destruct Hc as (Hc & C1 & C2). clearbody c.
      assert (c < q_n q /\ 0 < c /\ parent c = p) as (Hcn & Hc0 & Hcp) by (split; [lia|]; split; [lia|]; apply parent_children; lia).
      rewrite (key_kf (q_n q) q c), (key_kf (q_n q) q p) by (auto; lia).
      assert (M : forall i, 0 < i -> i < q_n q -> parent i = p -> (kf q c <= kf q i)%Q).
      { intros i Hi Hin Ei. apply parent_children in Ei as [->| ->]; auto. }
      destruct (negb (Qle_bool (kf q p) (kf q c))) eqn:E.
      * apply rec; auto. now apply not_le_bool.
      * apply done. intros i Hi Hin Ei. apply le_bool_false in E. eapply Qle_trans; [exact E|]. now apply M.
    + rewrite (key_kf (q_n q) q (lchild p)), (key_kf (q_n q) q p) by (auto; lia).
      assert (O : forall i, 0 < i -> i < q_n q -> parent i = p -> i = lchild p).
      { intros i Hi Hin Ei. apply parent_children in Ei as [->| ->]; [reflexivity|lia|lia]. }
      destruct (negb (Qle_bool (kf q p) (kf q (lchild p)))) eqn:E.
      * apply rec; auto; try lia.
        -- apply parent_children; [lia|now left].
        -- now apply not_le_bool.
        -- intros i Hi Hin Ei. rewrite (O i Hi Hin Ei). apply Qle_refl.
      * apply done. intros i Hi Hin Ei. rewrite (O i Hi Hin Ei). now apply le_bool_false.
  - apply done. intros i Hi Hin Ei. apply parent_children in Ei; lia.
Qed.

Definition good (q : queue) : Prop := base (q_n q) q /\ heap (q_n q) q.

Definition contents (q : queue) : list (test A) := map (tests q) (seq 0 (q_n q)).

Lemma contents_ext : forall q q', q_n q' = q_n q -> (forall s, s < q_n q -> tests q' s = tests q s) -> contents q' = contents q.
Proof. intros q q' En H. unfold contents. rewrite En. apply map_ext_in. intros s Hs. apply in_seq in Hs. apply H. lia. Qed.

Lemma add_ok : forall q t, good q -> q_n q < q_size q -> exists q', add_test q t = Some q' /\ good q' /\
  q_size q' = q_size q /\ q_n q' = S (q_n q) /\ Permutation (contents q') (t :: contents q).
Proof.
  intros q t [(Hs & (Hp & Hinj) & Hb & Hb0) Hh] Hlt. unfold add_test.
  destruct (Nat.ltb_spec (q_n q) (q_size q)); [|lia]. set (n := q_n q) in *.
  set (q1 := Queue (q_size q) n (upd (q_bvt q) n (t, n)) (upd (q_ptr q) n (Some n))).
  assert (P : forall i, i < n -> exists s, s < n /\ q_ptr q i = Some s /\ q_ptr q1 i = Some s).
  { intros i Hi. destruct (Hp i Hi) as (s & Hsn & E). exists s. unfold q1. cbn. rewrite upd_other by lia. auto. }
  assert (Pn : q_ptr q1 n = Some n) by (unfold q1; cbn; now rewrite upd_same).
  assert (Bv : forall s, s < n -> q_bvt q1 s = q_bvt q s) by (intros; unfold q1; cbn; rewrite upd_other by lia; reflexivity).
  assert (Bn : q_bvt q1 n = (t, n)) by (unfold q1; cbn; now rewrite upd_same).
  assert (K : forall i, i < n -> kf q1 i = kf q i).
  { intros i Hi. unfold kf, tests. destruct (P i Hi) as (s & Hsn & -> & ->). now rewrite Bv. }
  destruct (sift_up_ok (S n) (S n) q1 n) as (q2 & E & (S2 & P2 & B2) & H2 & Z2 & N2 & T2); try lia.
  - split; [exact Hlt|]. split; [split|split].
    + intros i Hi. destruct (Nat.eq_dec i n) as [->|]; [exists n; split; [lia|exact Pn]|].
      destruct (P i ltac:(lia)) as (s & ? & _ & ?). exists s. split; [lia|assumption].
    + intros i j Hi Hj Eij. destruct (Nat.eq_dec i n) as [->|Ni], (Nat.eq_dec j n) as [->|Nj]; auto.
      * destruct (P j ltac:(lia)) as (s & ? & _ & Es). rewrite Pn, Es in Eij. injection Eij as ->. lia.
      * destruct (P i ltac:(lia)) as (s & ? & _ & Es). rewrite Pn, Es in Eij. injection Eij as ->. lia.
      * destruct (P i ltac:(lia)) as (s & ? & Ei & Ei'), (P j ltac:(lia)) as (s' & ? & Ej & Ej'). apply Hinj; try lia. congruence.
    + intros i s H0 Hi Es. destruct (Nat.eq_dec i n) as [->|Ni].
      * rewrite Pn in Es. injection Es as <-. now rewrite Bn.
      * destruct (P i ltac:(lia)) as (s' & ? & Ei & Ei'). rewrite Ei' in Es. injection Es as <-. rewrite Bv by lia. apply Hb; auto. lia.
    + intros s H0 Es. destruct (Nat.eq_dec 0 n) as [E0|N0].
      * rewrite <- E0 in *. rewrite Pn in Es. injection Es as <-. rewrite Bn. now left.
      * destruct (P 0 ltac:(lia)) as (s' & ? & Ei & Ei'). rewrite Ei' in Es. injection Es as <-. rewrite Bv by lia.
        apply Hb0; auto. lia.
  - split.
    + intros i Hi Hin Ne. pose proof (parent_lt i ltac:(lia)). rewrite !K by lia. apply Hh; lia.
    + intros i Hi Hin Ep. pose proof (parent_lt i ltac:(lia)). lia.
  - rewrite E. eexists. split; [reflexivity|]. cbn [q_n q_size].
    assert (N2' : q_n q2 = n) by (rewrite N2; reflexivity). rewrite N2'.
    split; [|split; [rewrite Z2; reflexivity|split; [reflexivity|]]].
    + split; [|exact H2]. split; [exact S2|]. split; [exact P2|exact B2].
    + unfold contents at 1. cbn [q_n]. rewrite seq_S, map_app. cbn [map plus].
      eapply Permutation_trans; [apply Permutation_app_comm|]. cbn [app].
      assert (E1 : tests q1 n = t) by (unfold tests; now rewrite Bn).
      change (tests {| q_size := q_size q2; q_n := S n; q_bvt := q_bvt q2; q_ptr := q_ptr q2 |}) with (tests q2).
      rewrite T2, E1. apply perm_skip. apply Permutation_refl'. unfold contents. fold n. apply map_ext_in.
      intros s Hs'. apply in_seq in Hs'. rewrite T2. unfold tests. rewrite Bv by lia. reflexivity.
Qed.

Lemma heap_min : forall n q, heap n q -> forall i, i < n -> (kf q 0 <= kf q i)%Q.
Proof.
  intros n q H i. induction i as [i IH] using lt_wf_ind. intros Hi. destruct (Nat.eq_dec i 0) as [->|N]; [apply Qle_refl|].
  pose proof (parent_lt i N). eapply Qle_trans; [apply (IH (parent i)); lia|]. apply H; lia.
Qed.

(** The pointers below [n] reach every slot below [n]. *)
Lemma ptr_onto : forall n ptr, ptr_ok n ptr -> forall s, s < n -> exists i, i < n /\ ptr i = Some s.
Proof.
  intros n ptr [Hp Hinj] s Hs.
  set (f := fun i => match ptr i with Some s => s | None => 0 end).
  assert (ND : NoDup (map f (seq 0 n))).
  { assert (G : forall l, NoDup l -> (forall i, In i l -> i < n) -> NoDup (map f l)).
    { induction l as [|i l IH]; intros Hn Hl; [constructor|]. inversion Hn; subst. cbn. constructor.
      - intros Hin. apply in_map_iff in Hin as (j & Ej & Hj). unfold f in Ej.
        destruct (Hp i ltac:(apply Hl; now left)) as (a & _ & Ea), (Hp j ltac:(apply Hl; now right)) as (b & _ & Eb).
        rewrite Ea, Eb in Ej. subst b. assert (i = j) by (apply Hinj; [apply Hl; now left|apply Hl; now right|congruence]). subst. contradiction.
      - apply IH; auto. intros; apply Hl; now right. }
    apply G; [apply seq_NoDup|]. intros i Hi. apply in_seq in Hi. lia. }
  assert (INC : incl (map f (seq 0 n)) (seq 0 n)).
  { intros x Hx. apply in_map_iff in Hx as (i & <- & Hi). apply in_seq in Hi. unfold f. destruct (Hp i ltac:(lia)) as (a & Ha & ->). apply in_seq. lia. }
  assert (INC2 : incl (seq 0 n) (map f (seq 0 n))).
  { apply NoDup_length_incl; auto. now rewrite map_length. }
  assert (In s (map f (seq 0 n))) by (apply INC2, in_seq; lia).
  apply in_map_iff in H as (i & E & Hi). apply in_seq in Hi. exists i. split; [lia|]. unfold f in E.
  destruct (Hp i ltac:(lia)) as (a & _ & Ea). rewrite Ea in *. now subst.
Qed.

Lemma moved_perm : forall (f : nat -> test A) m a, a <= m ->
  Permutation (map f (seq 0 (S m))) (f a :: map (fun s => if s =? a then f m else f s) (seq 0 m)).
Proof.
  intros f m a Ha. rewrite seq_S, map_app. cbn [plus map]. eapply Permutation_trans; [apply Permutation_app_comm|]. cbn [app].
  destruct (Nat.eq_dec a m) as [->|N].
  - apply perm_skip. apply Permutation_refl'. apply map_ext_in. intros s Hs. apply in_seq in Hs. destruct (Nat.eqb_spec s m); [lia|reflexivity].
  - assert (I : In a (seq 0 m)) by (apply in_seq; lia). apply in_split in I as (l1 & l2 & E).
    assert (ND := seq_NoDup m 0). rewrite E in *. apply NoDup_remove_2 in ND.
    rewrite !map_app. cbn [map]. rewrite Nat.eqb_refl.
    assert (G : forall l, ~ In a l -> map (fun s => if s =? a then f m else f s) l = map f l).
    { intros l Hl. apply map_ext_in. intros s Hs. destruct (Nat.eqb_spec s a); [subst; contradiction|reflexivity]. }
    rewrite !G by (intros H; apply ND, in_or_app; auto).
    eapply Permutation_trans; [apply perm_skip; symmetry; apply Permutation_middle|]. 
    eapply Permutation_trans; [apply perm_swap|]. apply perm_skip. apply Permutation_middle.
Qed.

Lemma extract_ok : forall q, good q -> 0 < q_n q -> exists t q', extract_min q = Some (t, q') /\ good q' /\
  q_size q' = q_size q /\ q_n q' = q_n q - 1 /\ Permutation (contents q) (t :: contents q') /\
  (forall u, In u (contents q) -> (t_d t <= t_d u)%Q) /\ key q 0 = Some (t_d t).
Proof.
  intros q [HB Hh] Hn. assert (HB' := HB). destruct HB' as (Hs & (Hp & Hinj) & Hb & Hb0).
  unfold extract_min. destruct (q_n q) as [|m] eqn:En; [lia|]. destruct (Hp 0 ltac:(lia)) as (a & Ha & Ea). rewrite Ea.
  assert (Honto := ptr_onto (S m) (q_ptr q) (conj Hp Hinj)).
  set (k := snd (q_bvt q m)).
  (* the back index of the last slot *)
  assert (Hk : (a <> m /\ 0 < k /\ k <= m /\ q_ptr q k = Some m) \/ (a = m /\ (k = 0 \/ m < k < q_size q))).
  { destruct (Nat.eq_dec a m) as [->|Nam].
    - right. split; [reflexivity|]. destruct (Hb0 m ltac:(lia) Ea); [now left|right; assumption].
    - left. split; [assumption|]. destruct (Honto m ltac:(lia)) as (i & Hi & Ei).
      assert (i <> 0) by (intros ->; congruence). assert (k = i) by (apply Hb; auto; lia). subst i. split; [lia|]. split; [lia|assumption]. }
  assert (Hks : k < q_size q) by (destruct Hk as [(_ & _ & ? & _)|(_ & [?|?])]; lia).
  destruct (Nat.ltb_spec a (q_size q)); [|lia]. destruct (Nat.ltb_spec m (q_size q)); [|lia]. destruct (Nat.ltb_spec k (q_size q)); [|lia].
  cbn [andb].
  (* the pointer moved to the root *)
  assert (Hb' : exists b, upd (q_ptr q) k (Some a) m = Some b /\ (0 < m -> b < m /\ (k = m -> b = a) /\ (k <> m -> q_ptr q m = Some b))).
  { unfold upd. destruct (Nat.eqb_spec m k) as [E|N].
    - exists a. split; [reflexivity|]. intros Hm. split; [|split; [reflexivity|congruence]]. destruct Hk as [(?&_)|(_ & [?|?])]; lia.
    - destruct (Hp m ltac:(lia)) as (b & Hbn & Eb). exists b. split; [assumption|]. intros Hm. split; [|split; [congruence|auto]].
      assert (b <> m); [|lia]. intros ->. destruct Hk as [(_ & _ & ? & Ek)|(Eam & _)].
      + apply N. apply Hinj; try lia. congruence.
      + assert (m = 0) by (apply Hinj; try lia; congruence). lia. }
  destruct Hb' as (b & -> & Hbm).
  set (q1 := Queue (q_size q) m (upd (q_bvt q) a (q_bvt q m)) (upd (upd (q_ptr q) k (Some a)) 0 (Some b))).
  assert (P0 : q_ptr q1 0 = Some b) by (unfold q1; cbn [q_ptr q_bvt]; apply upd_same).
  assert (Pi : forall i, 0 < i -> i < m -> exists s, q_ptr q1 i = Some s /\ s < m /\ 
             ((i = k /\ s = a /\ q_ptr q k = Some m) \/ (i <> k /\ q_ptr q i = Some s /\ s <> a))).
  { intros i Hi Him. unfold q1. cbn [q_ptr]. rewrite (upd_other _ 0 i) by lia. destruct (Nat.eq_dec i k) as [->|Nik].
    - rewrite upd_same. destruct Hk as [(? & _ & _ & Ek)|(_ & [?|?])]; try lia. exists a. split; [reflexivity|]. split; [lia|left; auto].
    - rewrite upd_other by auto. destruct (Hp i ltac:(lia)) as (s & Hsm & Es). exists s. split; [assumption|].
      assert (s <> a) by (intros ->; assert (i = 0) by (apply Hinj; try lia; congruence); lia).
      assert (s <> m).
      { intros ->. destruct Hk as [(_ & _ & ? & Ek)|(Eam & _)]; [|congruence]. apply Nik, Hinj; try lia. congruence. }
      split; [lia|right; auto]. }
  assert (Bv : forall s, s <> a -> q_bvt q1 s = q_bvt q s) by (intros; unfold q1; cbn [q_ptr q_bvt]; now rewrite upd_other).
  assert (Ba : q_bvt q1 a = q_bvt q m) by (unfold q1; cbn [q_ptr q_bvt]; apply upd_same).
  assert (KF : forall i, 0 < i -> i < m -> kf q1 i = kf q i).
  { intros i Hi Him. unfold kf, tests. destruct (Pi i Hi Him) as (s & -> & _ & [(-> & -> & Ek)|(_ & -> & Na)]).
    - now rewrite Ba, Ek.
    - now rewrite Bv. }
  assert (NA : 0 < m -> forall i s, 0 < i -> i < m -> q_ptr q1 i = Some s -> s <> b).
  { intros Hm i s Hi Him Es ->. destruct (Hbm Hm) as (_ & B1 & B2). destruct (Pi i Hi Him) as (s & Es' & _ & D). rewrite Es in Es'. injection Es' as <-.
    destruct D as [(-> & -> & Ek)|(Nik & Ei & Na)].
    - destruct (Nat.eq_dec k m) as [E|N]; [lia|]. specialize (B2 N). assert (m = 0) by (apply Hinj; try lia; congruence). lia.
    - destruct (Nat.eq_dec k m) as [E|N]; [apply Na; auto|]. specialize (B2 N). assert (m = i) by (apply Hinj; try lia; congruence). lia. }
  assert (Base1 : base m q1).
  { split; [cbn; lia|]. split; [split|split].
    - intros i Hi. destruct (Nat.eq_dec i 0) as [->|N]; [exists b; split; [apply Hbm; lia|exact P0]|].
      destruct (Pi i ltac:(lia) Hi) as (s & Es & Hsm & _). eauto.
    - intros i j Hi Hj E. destruct (Nat.eq_dec i 0) as [->|Ni], (Nat.eq_dec j 0) as [->|Nj]; auto.
      + rewrite P0 in E. symmetry in E. exfalso. now apply (NA ltac:(lia) j b ltac:(lia) Hj E).
      + rewrite P0 in E. exfalso. now apply (NA ltac:(lia) i b ltac:(lia) Hi E).
      + destruct (Pi i ltac:(lia) Hi) as (s & Es & _ & D), (Pi j ltac:(lia) Hj) as (s' & Es' & _ & D').
        rewrite Es, Es' in E. injection E as ->.
        destruct D as [(-> & -> & Ek)|(Nik & Ei & Na)], D' as [(-> & E' & Ek')|(Njk & Ej & Na')]; auto; try contradiction.
        apply Hinj; try lia. congruence.
    - intros i s Hi Him Es. destruct (Pi i Hi Him) as (s' & Es' & _ & D). rewrite Es in Es'. injection Es' as <-.
      destruct D as [(-> & -> & Ek)|(Nik & Ei & Na)]; [rewrite Ba; reflexivity|]. rewrite Bv by assumption. apply Hb; auto.
    - intros s Hm Es. rewrite P0 in Es. injection Es as <-. destruct (Hbm Hm) as (Bm & B1 & B2). right.
      change (q_size q1) with (q_size q). destruct (Nat.eq_dec k m) as [E|N].
      + rewrite (B1 E), Ba. fold k. rewrite (B1 E) in Bm. lia.
      + specialize (B2 N). assert (b <> a). { intros Hba. assert (m = 0) by (apply Hinj; try lia; congruence). lia. }
        rewrite Bv by assumption. rewrite (Hb m b) by (auto; lia). lia. }
  destruct (sift_down_ok (S m) q1 0) as (q2 & -> & B2 & H2 & Z2 & N2 & T2).
  { exact Base1. }
  { cbn. lia. }
  { change (q_n q1) with m. split; [|intros; lia]. intros i Hi Him Np. pose proof (parent_lt i ltac:(lia)). rewrite !KF by lia. apply Hh; lia. }
  change (q_n q1) with m in *. exists (fst (q_bvt q a)), q2. split; [reflexivity|].
  assert (PC : Permutation (contents q) (fst (q_bvt q a) :: contents q2)).
  { unfold contents at 1. rewrite En. eapply Permutation_trans; [apply (moved_perm (tests q) m a); lia|]. apply perm_skip.
    apply Permutation_refl'. unfold contents. rewrite N2. apply map_ext. intros s. rewrite T2. unfold tests.
    destruct (Nat.eqb_spec s a) as [->|N]; [now rewrite Ba|now rewrite Bv]. }
  assert (K0 : kf q 0 = t_d (fst (q_bvt q a))) by (unfold kf; now rewrite Ea).
  split; [split; rewrite N2; assumption|]. split; [rewrite Z2; reflexivity|]. split; [rewrite N2; lia|]. split; [exact PC|]. split.
  - intros u Hu. unfold contents in Hu. rewrite En in Hu. apply in_map_iff in Hu as (s & <- & Hs'). apply in_seq in Hs'.
    destruct (Honto s ltac:(lia)) as (i & Hi & Ei). rewrite <- K0. replace (t_d (tests q s)) with (kf q i) by (unfold kf; now rewrite Ei).
    apply (heap_min (S m)); auto.
  - rewrite (key_kf (S m)) by (auto; lia). now rewrite K0.
Qed.

Lemma new_good : forall size junk, good (new_queue size junk).
Proof.
  intros size junk. split; [|intros i H1 H2; cbn in *; lia]. split; [cbn; lia|]. split; [split|split]; cbn; intros; lia.
Qed.

Lemma served_perm : forall size (l : list (test A)) cs ts l', served size l cs ts l' -> forall k, Permutation k l -> 
  exists k', served size k cs ts k' /\ Permutation k' l'.
Proof.
  intros size l cs ts l' H. induction H as [l|l t cs ts l' Hl H IH|l t r cs ts l' HP HM H IH]; intros k Hk.
  - exists k. split; [constructor|assumption].
  - destruct (IH (t :: k)) as (k' & S' & P'); [now apply perm_skip|]. exists k'. split; [|assumption]. constructor; [|assumption].
    now rewrite (Permutation_length Hk).
  - exists l'. split; [|reflexivity]. apply served_extract with r; auto.
    + eapply Permutation_trans; eassumption.
    + intros u Hu. apply HM. eapply Permutation_in; eassumption.
Qed.

Lemma run_ok : forall cs q, good q -> within (q_size q) (q_n q) cs ->
  exists ts q' l', run q cs = Some (ts, q') /\ good q' /\ served (q_size q) (contents q) cs ts l' /\ Permutation l' (contents q').
Proof.
  induction cs as [|[t|] cs IH]; intros q Hg Hw; cbn [run within] in *.
  - exists [], q, (contents q). split; [reflexivity|]. split; [assumption|]. split; [constructor|reflexivity].
  - destruct Hw as [Hlt Hw]. destruct (add_ok q t Hg Hlt) as (q1 & -> & G1 & Z1 & N1 & P1).
    rewrite <- Z1, <- N1 in Hw. destruct (IH q1 G1 Hw) as (ts & q2 & l' & -> & G2 & S2 & P2).
    rewrite Z1 in S2. destruct (served_perm _ _ _ _ _ S2 (t :: contents q)) as (k' & S3 & P3); [now symmetry|].
    exists ts, q2, k'. split; [reflexivity|]. split; [assumption|]. split; [|eapply Permutation_trans; eassumption].
    constructor; [|assumption]. unfold contents. now rewrite map_length, seq_length.
  - destruct Hw as [Hlt Hw]. destruct (extract_ok q Hg Hlt) as (t & q1 & -> & G1 & Z1 & N1 & P1 & M1 & _).
    rewrite <- Z1, <- N1 in Hw. destruct (IH q1 G1 Hw) as (ts & q2 & l' & -> & G2 & S2 & P2).
    exists (t :: ts), q2, l'. split; [reflexivity|]. split; [assumption|]. split; [|assumption].
    apply served_extract with (contents q1); auto. now rewrite Z1 in S2.
Qed.
End Proofs.
