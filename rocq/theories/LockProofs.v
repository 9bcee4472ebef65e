(** Proofs for C41: calls that hold the lock throughout take effect one after the other. *)
From Coq Require Import Reals List Bool Arith Lia.
From Verif Require Import RpyModel JointModel KinModel KinSpec KinProofs LockModel LockSpec.
Import ListNotations.
Open Scope nat_scope.

Section Mutex.
Variables (T C : Type) (prog : C -> list (act T)) (s0 : T) (ls : list (list C)).

(** The rest of a call that holds the lock [d] times and gives it back with its last step. *)
Fixpoint inside (d : nat) (p : list (act T)) : Prop :=
  match p with
  | [] => False
  | Lock :: p => inside (S d) p
  | Unlock :: p => match d with 0 => False | 1 => p = [] | S d => inside d p end
  | _ :: p => inside d p
  end.
Definition closed (p : list (act T)) : Prop := exists q, p = Lock :: q /\ inside 1 q.
Definition write1 (s : T) (a : act T) : T := match a with Write f => f s | _ => s end.
Definition writes (p : list (act T)) (s : T) : T := fold_left write1 p s.
Definition writes_all (l : list (nat * C)) : T := fold_left (fun s ik => writes (prog (snd ik)) s) l s0.
Definition reader (p : list (act T)) : Prop := forall f, ~ In (Write f) p.

Hypothesis good : forall ks k, In ks ls -> In k ks -> closed (prog k).

Inductive status (i : nat) (t : thread T C) (ks : list C) (c : conf T C) (done : list (nat * C)) : Prop :=
| idle : cur t = [] -> ks = of_thread i done ++ todo t -> (forall d, owner c <> Some (i, d)) ->
    (forall n s, In (i, n, s) (seen c) -> length (todo t) <= n) -> status i t ks c done
| waiting : forall k, cur t = prog k -> ks = of_thread i done ++ k :: todo t -> (forall d, owner c <> Some (i, d)) ->
    (forall n s, In (i, n, s) (seen c) -> length (todo t) < n) -> status i t ks c done
| busy : forall k pre d, owner c = Some (i, d) -> prog k = pre ++ cur t -> inside d (cur t) -> ks = of_thread i done ++ k :: todo t ->
    shared c = writes pre (writes_all done) -> (forall n s, In (i, n, s) (seen c) -> length (todo t) <= n) ->
    (reader (prog k) -> forall s, In (i, length (todo t), s) (seen c) -> s = shared c) -> status i t ks c done.

(** A look inside a call: the whole calls before it and the steps of the call so far. *)
Definition looked (i n : nat) (s : T) : Prop :=
  exists done k rest pre post ks, taken ls done /\ nth_error ls i = Some ks /\ ks = of_thread i done ++ k :: rest /\ length rest = n /\
    prog k = pre ++ Look :: post /\ s = writes pre (writes_all done).
Record inv (c : conf T C) : Prop := {
  i_some : exists done, (forall i k, In (i, k) done -> i < length ls) /\ (owner c = None -> shared c = writes_all done) /\
     (forall i t ks, nth_error (threads c) i = Some t -> nth_error ls i = Some ks -> status i t ks c done);
  i_len : length (threads c) = length ls;
  i_owner : forall i d, owner c = Some (i, d) -> i < length ls;
  i_seen : forall i n s, In (i, n, s) (seen c) -> looked i n s;
  i_same : forall i n s s' ks k, In (i, n, s) (seen c) -> In (i, n, s') (seen c) -> nth_error ls i = Some ks -> nth_error ks (length ks - S n) = Some k -> reader (prog k) -> s = s' }.

Lemma of_thread_app : forall i (l l' : list (nat * C)), of_thread i (l ++ l') = of_thread i l ++ of_thread i l'.
Proof. intros i l l'. unfold of_thread. rewrite filter_app, map_app. reflexivity. Qed.
Lemma of_thread_snoc : forall i j k (l : list (nat * C)), of_thread i (l ++ [(j, k)]) = if j =? i then of_thread i l ++ [k] else of_thread i l.
Proof. intros i j k l. rewrite of_thread_app. unfold of_thread at 2. cbn [filter fst]. destruct (j =? i); [reflexivity|apply app_nil_r]. Qed.
Lemma writes_app : forall p q s, writes (p ++ q) s = writes q (writes p s).
Proof. intros p q s. apply fold_left_app. Qed.
Lemma writes_all_snoc : forall l i k, writes_all (l ++ [(i, k)]) = writes (prog k) (writes_all l).
Proof. intros l i k. unfold writes_all. rewrite fold_left_app. reflexivity. Qed.
Lemma reader_writes : forall p s, reader p -> writes p s = s.
Proof.
  induction p as [|a p IH]; intros s R; [reflexivity|]. unfold writes. cbn [fold_left]. change (fold_left write1 p (write1 s a)) with (writes p (write1 s a)). rewrite IH.
  - destruct a as [| |f|]; try reflexivity. exfalso. apply (R f). left. reflexivity.
  - intros f I. apply (R f). right. exact I.
Qed.
Lemma reader_app : forall p q, reader (p ++ q) -> reader p /\ reader q.
Proof. intros p q R. split; intros f I; apply (R f), in_or_app; auto. Qed.
Lemma inside_pos : forall p d, inside d p -> (forall q, p <> Lock :: q) -> inside d p. Proof. auto. Qed.

Lemma inv_start : inv (start s0 ls).
Proof.
  split; cbn [start threads owner seen shared].
  - exists []. split; [intros i k []|]. split; [reflexivity|]. intros i t ks E F. rewrite nth_error_map in E. rewrite F in E. injection E as <-. apply idle; [reflexivity|reflexivity|discriminate|intros n s []].
  - apply map_length.
  - discriminate.
  - intros i n s [].
  - intros i n s s' ks k [].
Qed.

(** The other threads: what they need. *)
Lemma other : forall i j t ks c c' done done', i <> j -> status j t ks c done -> of_thread j done' = of_thread j done ->
  ((forall d, owner c <> Some (j, d)) -> forall d, owner c' <> Some (j, d)) ->
  (forall n s, In (j, n, s) (seen c') -> In (j, n, s) (seen c)) ->
  ((exists d, owner c = Some (j, d)) -> owner c' = owner c /\ shared c' = shared c /\ done' = done) ->
  status j t ks c' done'.
Proof.
  intros i j t ks c c' done done' N S D O SE B. destruct S as [A1 A2 A3 A4|k A1 A2 A3 A4|k pre d A1 A2 A3 A4 A5 A6 A7].
  - apply idle; [exact A1|rewrite D; exact A2|apply O, A3|]. intros n s I. apply (A4 n s), SE, I.
  - apply waiting with k; [exact A1|rewrite D; exact A2|apply O, A3|]. intros n s I. apply (A4 n s), SE, I.
  - destruct B as (B1 & B2 & ->); [exists d; exact A1|]. apply busy with k pre d; [congruence|exact A2|exact A3|exact A4|congruence| |].
    + intros n s I. apply (A6 n s), SE, I.
    + intros R s I. rewrite B2. apply (A7 R s), SE, I.
Qed.
Lemma taken_of : forall (c : conf T C) done, length (threads c) = length ls -> (forall i k, In (i, k) done -> i < length ls) ->
  (forall i t ks, nth_error (threads c) i = Some t -> nth_error ls i = Some ks -> status i t ks c done) -> taken ls done.
Proof.
  intros c done L H ST. split; [exact H|]. intros i ks E. destruct (nth_error (threads c) i) as [t|] eqn:F.
  - specialize (ST i t ks F E). destruct ST as [_ A _ _|k _ A _ _|k pre d _ _ _ A _ _ _]; eexists; exact A.
  - apply nth_error_None in F. assert (i < length ls) by (apply nth_error_Some; congruence). lia.
Qed.
Lemma good_at : forall i ks k l1 l2, nth_error ls i = Some ks -> ks = l1 ++ k :: l2 -> closed (prog k).
Proof. intros i ks k l1 l2 E ->. apply (good (l1 ++ k :: l2)); [apply (nth_error_In _ i), E|]. apply in_or_app. right. left. reflexivity. Qed.

(** The step of a thread inside its call. *)
Lemma step_cur : forall i c t ks done s' o' rest see, length (threads c) = length ls ->
  nth_error (threads c) i = Some t -> nth_error ls i = Some ks ->
  (forall j tj kj, nth_error (threads c) j = Some tj -> nth_error ls j = Some kj -> status j tj kj c done) -> forall done',
  let c' := Conf s' o' (update (threads c) i (fun t => Th rest (todo t))) (seen c ++ see) in
  status i (Th rest (todo t)) ks c' done' ->
  (forall j, j <> i -> of_thread j done' = of_thread j done) ->
  (forall j, j <> i -> (forall d, owner c <> Some (j, d)) /\ forall d, o' <> Some (j, d)) ->
  (forall j n s, j <> i -> ~ In (j, n, s) see) ->
  forall j tj kj, nth_error (threads c') j = Some tj -> nth_error ls j = Some kj -> status j tj kj c' done'.
Proof.
  intros i c t ks done s' o' rest see L E F ST done' c' SI D O SE j tj kj Ej Fj. unfold c' in Ej. cbn [threads] in Ej. rewrite nth_update in Ej. destruct (Nat.eqb_spec i j) as [<-|N].
  - rewrite E in Ej. cbn [option_map] in Ej. injection Ej as <-. assert (kj = ks) by congruence. subst kj. exact SI.
  - assert (N' : j <> i) by congruence. apply (other i j tj kj c c' done done' N (ST j tj kj Ej Fj)).
    + apply D, N'.
    + intros _ d. unfold c'. cbn [owner]. apply (proj2 (O j N')).
    + intros n s I. unfold c' in I. cbn [seen] in I. apply in_app_or in I. destruct I as [I|I]; [exact I|]. exfalso. apply (SE j n s N' I).
    + intros (d & X). exfalso. apply (proj1 (O j N') d X).
Qed.

Lemma nth_rest : forall (l : list C) k rest, nth_error (l ++ k :: rest) (length (l ++ k :: rest) - S (length rest)) = Some k.
Proof. intros l k rest. rewrite app_length. cbn [length]. replace (length l + S (length rest) - S (length rest)) with (length l) by lia. rewrite nth_error_app2, Nat.sub_diag by lia. reflexivity. Qed.
Lemma inside_last : forall p, inside 1 (Unlock :: p) -> p = [].
Proof. intros p H. exact H. Qed.

Lemma inv_step : forall i c c', inv c -> step prog i c = Some c' -> inv c'.
Proof.
  intros i c c' [(done & H1 & H2 & H3) L OW SN SM] E. unfold step in E. destruct (nth_error (threads c) i) as [t|] eqn:Et; [|discriminate].
  assert (LI : i < length ls) by (rewrite <- L; apply nth_error_Some; congruence). destruct (nth_error ls i) as [ks|] eqn:Ek; [|apply nth_error_None in Ek; lia].
  pose proof (H3 i t ks Et Ek) as ST. pose proof (taken_of c done L H1 H3) as TK.
  destruct (cur t) as [|a p] eqn:Ec.
  - (* the next call begins *)
    destruct (todo t) as [|k l] eqn:Ed; [discriminate|]. injection E as <-. inversion ST as [A1 A2 A3 A4|k' A1 A2 A3 A4|k' pre d A1 A2 A3 A4 A5 A6 A7].
    + rewrite Ed in A2, A4. split; cbn [threads owner seen shared]; [|rewrite update_length; exact L|exact OW|exact SN|exact SM].
      exists done. split; [exact H1|]. split; [exact H2|]. intros j tj kj Ej Fj. rewrite nth_update in Ej. destruct (Nat.eqb_spec i j) as [<-|N].
      * rewrite Et in Ej. injection Ej as <-. assert (kj = ks) by congruence. subst kj. apply waiting with k; cbn [cur todo owner seen]; [reflexivity|exact A2|exact A3|]. intros n s I. specialize (A4 n s I). cbn [length] in A4. lia.
      * apply (other i j tj kj c _ done done N (H3 j tj kj Ej Fj)); cbn [owner seen shared]; auto.
    + exfalso. destruct (good_at i ks k' _ _ Ek A2) as (q & Q & _). congruence.
    + exfalso. rewrite Ec in A3. exact A3.
  - inversion ST as [A1 A2 A3 A4|k A1 A2 A3 A4|k pre d A1 A2 A3 A4 A5 A6 A7]; [congruence| |].
    + (* taking the lock *)
      destruct (good_at i ks k _ _ Ek A2) as (q & Q & IN). rewrite Ec, Q in A1. injection A1 as -> ->.
      destruct (owner c) as [[j d]|] eqn:Eo; [destruct (Nat.eqb_spec j i) as [->|]; [exfalso; apply (A3 d); reflexivity|discriminate]|]. injection E as <-.
      assert (STI : forall j tj kj, nth_error (threads (Conf (shared c) (Some (i, 1)) (update (threads c) i (fun t => Th q (todo t))) (seen c ++ []))) j = Some tj -> nth_error ls j = Some kj ->
        status j tj kj (Conf (shared c) (Some (i, 1)) (update (threads c) i (fun t => Th q (todo t))) (seen c ++ [])) done).
      { apply (step_cur i c t ks done (shared c) (Some (i, 1)) q [] L Et Ek H3 done).
        - apply busy with k [Lock] 1; cbn [owner cur todo shared seen]; [reflexivity|exact Q|exact IN|exact A2| | |].
          + rewrite H2 by reflexivity. reflexivity.
          + rewrite app_nil_r. intros n s I. specialize (A4 n s I). lia.
          + rewrite app_nil_r. intros _ s I. specialize (A4 _ s I). lia.
        - reflexivity.
        - intros j N. split; [rewrite Eo; discriminate|]. intros d [= J _]. congruence.
        - intros j n s _ []. }
      split; [exists done; split; [exact H1|split; [discriminate|exact STI]]|cbn [threads]; rewrite update_length; exact L| |cbn [seen]; rewrite app_nil_r; exact SN|cbn [seen]; rewrite app_nil_r; exact SM].
      cbn [owner]. intros j d [= <- _]. exact LI.
    + (* inside *)
      rewrite Ec in A2, A3. assert (NO : forall j, j <> i -> forall e, owner c <> Some (j, e)) by (intros j N e X; rewrite A1 in X; congruence).
      assert (KEEP : forall s' o' see d', inside d' p -> o' = Some (i, d') -> s' = writes (pre ++ [a]) (writes_all done) -> s' = shared c \/ ~ reader (prog k) ->
         see = [] \/ (see = [(i, length (todo t), shared c)] /\ a = Look) -> inv (Conf s' o' (update (threads c) i (fun t => Th p (todo t))) (seen c ++ see))).
      { intros s' o' see d' IN EO ES RD SEE.
        assert (SEE' : forall j n s, In (j, n, s) see -> j = i /\ n = length (todo t) /\ s = shared c /\ a = Look).
        { intros j n s I. destruct SEE as [->|[-> EA]]; [destruct I|]. destruct I as [[= <- <- <-]|[]]. auto. }
        split; cbn [threads owner seen shared].
        - exists done. split; [exact H1|]. split; [rewrite EO; discriminate|]. apply (step_cur i c t ks done s' o' p see L Et Ek H3 done).
          + apply busy with k (pre ++ [a]) d'; cbn [owner cur todo shared seen]; [exact EO|rewrite <- app_assoc; exact A2|exact IN|exact A4|exact ES| |].
            * intros n s I. apply in_app_or in I. destruct I as [I|I]; [apply (A6 n s I)|]. apply SEE' in I. lia.
            * intros R s I. destruct RD as [RD|RD]; [|contradiction]. rewrite RD. apply in_app_or in I. destruct I as [I|I]; [apply (A7 R s I)|]. apply SEE' in I. tauto.
          + reflexivity.
          + intros j N. split; [apply NO, N|]. rewrite EO. intros e [= J _]. congruence.
          + intros j n s N I. apply SEE' in I. tauto.
        - rewrite update_length. exact L.
        - rewrite EO. intros j e [= <- _]. exact LI.
        - intros j n s I. apply in_app_or in I. destruct I as [I|I]; [apply SN, I|]. apply SEE' in I. destruct I as (-> & -> & -> & ->).
          exists done, k, (todo t), pre, p, ks. split; [exact TK|]. split; [exact Ek|]. split; [exact A4|]. split; [reflexivity|]. split; [exact A2|exact A5].
        - intros j n s s1 kj k1 I I' Fj Ej R. apply in_app_or in I, I'. destruct I as [I|I], I' as [I'|I'].
          + apply (SM j n s s1 kj k1 I I' Fj Ej R).
          + apply SEE' in I'. destruct I' as (-> & -> & -> & _). assert (kj = ks) by congruence. subst kj. rewrite A4, nth_rest in Ej. injection Ej as ->. apply (A7 R s I).
          + apply SEE' in I. destruct I as (-> & -> & -> & _). assert (kj = ks) by congruence. subst kj. rewrite A4, nth_rest in Ej. injection Ej as ->. symmetry. apply (A7 R s1 I').
          + apply SEE' in I, I'. destruct I as (_ & _ & -> & _), I' as (_ & _ & -> & _). reflexivity. }
      assert (SH : forall b, (forall f, b <> Write f) -> b = a -> shared c = writes (pre ++ [a]) (writes_all done)).
      { intros b NB ->. rewrite writes_app, <- A5. unfold writes. cbn [fold_left write1]. destruct a; try reflexivity. exfalso. apply (NB f). reflexivity. }
      destruct a as [| |f|].
      * (* locking again *)
        rewrite A1, Nat.eqb_refl in E. injection E as <-. apply (KEEP _ _ _ (d + 1)); [rewrite Nat.add_1_r; exact A3|reflexivity|apply (SH Lock); [discriminate|reflexivity]|left; reflexivity|left; reflexivity].
      * (* unlocking *)
        rewrite A1 in E. destruct d as [|[|d]]; [destruct A3| |].
        -- (* the last time: the call is over *)
           rewrite Nat.eqb_refl in E. injection E as <-. cbn [inside] in A3. subst p.
           assert (W : writes_all (done ++ [(i, k)]) = shared c).
           { rewrite writes_all_snoc, A2, writes_app, <- A5. reflexivity. }
           split; cbn [threads owner seen shared]; [|rewrite update_length; exact L|discriminate|rewrite app_nil_r; exact SN|rewrite app_nil_r; exact SM].
           exists (done ++ [(i, k)]). split; [|split].
           ++ intros j k' I. apply in_app_or in I. destruct I as [I|[[= <- _]|[]]]; [apply (H1 j k' I)|exact LI].
           ++ intros _. symmetry. exact W.
           ++ apply (step_cur i c t ks done (shared c) None [] [] L Et Ek H3 (done ++ [(i, k)])).
              ** apply idle; cbn [cur todo owner seen]; [reflexivity| |discriminate|].
                 { rewrite of_thread_snoc, Nat.eqb_refl, <- app_assoc. exact A4. }
                 { rewrite app_nil_r. exact A6. }
              ** intros j N. rewrite of_thread_snoc. destruct (Nat.eqb_spec i j); [congruence|reflexivity].
              ** intros j N. split; [apply NO, N|discriminate].
              ** intros j n s _ [].
        -- rewrite Nat.eqb_refl in E. injection E as <-. apply (KEEP _ _ _ (S d)); [exact A3|reflexivity|apply (SH Unlock); [discriminate|reflexivity]|left; reflexivity|left; reflexivity].
      * injection E as <-. apply (KEEP _ _ _ d); [exact A3|exact A1| | |left; reflexivity].
        -- rewrite writes_app, <- A5. reflexivity.
        -- right. intros R. apply (R f). rewrite A2. apply in_or_app. right. left. reflexivity.
      * injection E as <-. apply (KEEP _ _ _ d); [exact A3|exact A1|apply (SH Look); [discriminate|reflexivity]|left; reflexivity|right; split; reflexivity].
Qed.
Lemma inv_run : forall sched c c', inv c -> run prog sched c = Some c' -> inv c'.
Proof.
  induction sched as [|i sched IH]; intros c c' I E; cbn [run] in E; [injection E as <-; exact I|].
  destruct (step prog i c) as [d|] eqn:F; [|discriminate]. apply (IH d c'); [apply (inv_step i c d I F)|exact E].
Qed.

(** Somebody can go on as long as there is something to do. *)
Lemma inv_live : forall c, inv c -> (forall i t, nth_error (threads c) i = Some t -> cur t = [] /\ todo t = []) \/ exists i c', step prog i c = Some c'.
Proof.
  intros c [(done & H1 & H2 & H3) L OW _ _]. destruct (owner c) as [[i d]|] eqn:Eo.
  - right. exists i. specialize (OW i d eq_refl). unfold step. destruct (nth_error (threads c) i) as [t|] eqn:Et; [|apply nth_error_None in Et; lia].
    destruct (nth_error ls i) as [ks|] eqn:Ek; [|apply nth_error_None in Ek; lia]. pose proof (H3 i t ks Et Ek) as ST.
    inversion ST as [A1 A2 A3 A4|k A1 A2 A3 A4|k pre e A1 A2 A3 A4 A5 A6 A7]; [exfalso; apply (A3 d), Eo|exfalso; apply (A3 d), Eo|].
    destruct (cur t) as [|a p]; [destruct A3|]. rewrite Eo. rewrite Eo in A1. injection A1 as ->. destruct a as [| |f|]; try (rewrite Nat.eqb_refl); eauto. destruct e as [|[|e]]; [destruct A3| |]; eauto.
  - assert (D : forall l n, (forall i t, nth_error l i = Some t -> nth_error (threads c) (n + i) = Some t) -> (forall i t, nth_error l i = Some t -> cur t = [] /\ todo t = []) \/ exists i c', step prog i c = Some c').
    { induction l as [|t l IH]; intros n N; [left; intros [|i] t; discriminate|].
      assert (Et : nth_error (threads c) n = Some t) by (rewrite <- (Nat.add_0_r n); apply N; reflexivity).
      assert (LN : n < length ls) by (rewrite <- L; apply nth_error_Some; congruence). destruct (nth_error ls n) as [ks|] eqn:Ek; [|apply nth_error_None in Ek; lia].
      pose proof (H3 n t ks Et Ek) as ST. inversion ST as [A1 A2 A3 A4|k A1 A2 A3 A4|k pre e A1 A2 A3 A4 A5 A6 A7].
      - destruct (todo t) as [|k r] eqn:Ed.
        + destruct (IH (S n)) as [A|A]; [intros i t' E; replace (S n + i) with (n + S i) by lia; apply N; exact E| |right; exact A].
          left. intros [|i] t' E; cbn [nth_error] in E; [injection E as <-; auto|apply (A i t' E)].
        + right. exists n. unfold step. rewrite Et, A1, Ed. eauto.
      - right. destruct (good_at n ks k _ _ Ek A2) as (q & Q & _). exists n. unfold step. rewrite Et, A1, Q, Eo. eauto.
      - congruence. }
    apply (D (threads c) 0). auto.
Qed.
End Mutex.
