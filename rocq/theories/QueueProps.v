(** C25: the priority queue of bounding volume tests used by the distance and tolerance queries. *)
From Coq Require Import List QArith Permutation Sorted Lia PeanoNat.
From Verif Require Import QueueModel QueueSpec QueueProofs.
Import ListNotations.
Open Scope nat_scope.

(** Every history of additions and extractions that holds at most [size] tests and extracts from a non-empty queue only
    is executed without undefined behaviour, whatever the uninitialised memory holds; each extraction
    returns a test of least distance among those held, and nothing is lost or duplicated. *)
Theorem C25_queue : forall (A : Type) size (junk : nat -> test A * nat) cs,
  within size 0 cs ->
  exists ts q l, run (new_queue size junk) cs = Some (ts, q) /\ served size [] cs ts l /\
    length l = q_n q /\ q_n q <= size.
Proof.
  intros A size junk cs H. destruct (run_ok cs (new_queue size junk) (new_good size junk) H) as (ts & q & l & E & G & S & P).
  exists ts, q, l. split; [exact E|]. split; [exact S|].
  assert (L : length l = q_n q) by (rewrite (Permutation_length P); unfold contents; now rewrite map_length, seq_length).
  split; [exact L|]. destruct G as [(B & _) _]. 
  assert (Sz : forall cs (q : queue A) ts q', run q cs = Some (ts, q') -> good q -> within (q_size q) (q_n q) cs -> q_size q' = q_size q).
  { clear. induction cs as [|[t|] cs IH]; intros q ts q' E G W; cbn [run within] in *.
    - now injection E as <- <-.
    - destruct W as [W1 W2]. destruct (add_ok q t G W1) as (q1 & E1 & G1 & Z1 & N1 & _). rewrite E1 in E.
      rewrite <- Z1. eapply IH; eauto. now rewrite Z1, N1.
    - destruct W as [W1 W2]. destruct (extract_ok q G W1) as (t & q1 & E1 & G1 & Z1 & N1 & _). rewrite E1 in E.
      destruct (run q1 cs) as [[ts' q2]|] eqn:E2; [|discriminate]. injection E as <- <-. rewrite <- Z1. eapply IH; eauto. now rewrite Z1, N1. }
  rewrite (Sz _ _ _ _ E (new_good size junk) H) in B. exact B.
Qed.
Print Assumptions C25_queue.

(** [MinTest] gives the distance of the test that [ExtractMinTest] would return next. *)
Theorem C25_min_test : forall (A : Type) size (junk : nat -> test A * nat) cs ts q,
  within size 0 cs -> run (new_queue size junk) cs = Some (ts, q) -> 0 < q_n q ->
  exists t q', extract_min q = Some (t, q') /\ min_test q = Some (t_d t).
Proof.
  intros A size junk cs ts q H E Hn. destruct (run_ok cs (new_queue size junk) (new_good size junk) H) as (ts' & q' & l & E' & G & _).
  rewrite E in E'. injection E' as <- <-. destruct (extract_ok q G Hn) as (t & q1 & E1 & _ & _ & _ & _ & _ & K). eauto.
Qed.
Print Assumptions C25_min_test.

(** Filling the queue and emptying it again sorts: the extracted distances never decrease and are the added tests. *)
Theorem C25_sorted : forall (A : Type) size (junk : nat -> test A * nat) l,
  length l <= size ->
  exists ts q, run (new_queue size junk) (map Add l ++ map (fun _ => Extract) l) = Some (ts, q) /\
    Permutation ts l /\ StronglySorted (fun t u => (t_d t <= t_d u)%Q) ts.
Proof.
  intros A size junk l Hl.
  assert (W : within size 0 (map (@Add A) l ++ map (fun _ => Extract) l)).
  { assert (G1 : forall k n (rest : list (call A)), n + length k <= size -> within size (n + length k) rest -> within size n (map (@Add A) k ++ rest)).
    { induction k as [|t k IH]; intros n rest Hn Hr; cbn in *; [now rewrite Nat.add_0_r in Hr|]. split; [lia|].
      apply IH; [lia|]. replace (S n + length k) with (n + S (length k)) by lia. exact Hr. }
    apply G1; [lia|]. cbn [plus]. clear. induction l as [|t l IH]; cbn; [exact I|]. split; [lia|].
    now rewrite Nat.sub_0_r. }
  destruct (run_ok _ (new_queue size junk) (new_good size junk) W) as (ts & q & l' & E & _ & S & _).
  exists ts, q. split; [exact E|]. cbn [q_size new_queue] in S. unfold contents in S. cbn in S.
  assert (G : forall k acc, served size acc (map (@Add A) k ++ map (fun _ => Extract) l) ts l' ->
     exists acc', Permutation acc' (k ++ acc) /\ served size acc' (map (fun _ : test A => Extract) l) ts l').
  { induction k as [|t k IH]; intros acc Hs; cbn in *; [eauto|]. inversion Hs as [|? ? ? ? ? ? Hs'|]; subst.
    destruct (IH _ Hs') as (acc' & P & S'). exists acc'. split; [|assumption]. rewrite P. now rewrite <- Permutation_middle. }
  destruct (G l [] S) as (acc & P & S'). rewrite app_nil_r in P. clear G S E W Hl.
  assert (L : length acc = length l) by now apply Permutation_length.
  assert (K : Permutation ts acc /\ StronglySorted (fun t u => (t_d t <= t_d u)%Q) ts).
  { clear P. revert acc ts S' L. induction l as [|t l IH]; intros acc ts S' L; cbn in *.
    - inversion S'; subst. apply length_zero_iff_nil in L. subst. split; constructor.
    - inversion S' as [| |? t0 r ? ts0 ? HP HM HS]; subst. assert (L' : length r = length l).
      { apply Permutation_length in HP. cbn in HP. lia. }
      destruct (IH r ts0 HS L') as [P1 S1]. split; [rewrite HP; now apply perm_skip|]. constructor; [assumption|].
      apply Forall_forall. intros u Hu. apply HM. rewrite HP. right. now rewrite <- P1. }
  destruct K as [K1 K2]. split; [now rewrite K1|assumption].
Qed.
Print Assumptions C25_sorted.

(** A case: interleaved additions and extractions with equal distances on a queue of capacity 3. *)
Definition history : list (call nat) :=
  [Add (Test (3#1) 0); Add (Test (1#2) 1); Extract; Add (Test (3#1) 2); Add (Test (2#1) 3); Extract; Add (Test (1#1) 4); Extract].
Example C25_history_within : within 3 0 history.
Proof. cbn. repeat (split; [lia|]). exact I. Qed.
Example C25_history_run : exists q, run (new_queue 3 (fun _ => (Test (7#1) 9, 17))) history =
  Some ([Test (1#2) 1; Test (2#1) 3; Test (1#1) 4], q) /\ q_n q = 2 /\ min_test q = Some (3#1)%Q.
Proof. eexists. split; [vm_compute; reflexivity|]. split; vm_compute; reflexivity. Qed.

(** Beyond the bounds the behaviour is undefined: a test added to a full queue is written past the array. *)
Theorem C25_overfull_undefined : forall (A : Type) (q : queue A) t, q_size q <= q_n q -> add_test q t = None.
Proof. intros A q t H. unfold add_test. destruct (Nat.ltb_spec (q_n q) (q_size q)); [lia|reflexivity]. Qed.
Print Assumptions C25_overfull_undefined.
