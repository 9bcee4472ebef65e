(** Proofs for sets of scene objects. *)
From Coq Require Import List Bool Arith Lia.
From Verif Require Import ObjSetModel ObjSetSpec.
Import ListNotations.

Lemma has_spec : forall s o, has s o = true <-> In o (objs s).
Proof.
  intros s o. unfold has. rewrite existsb_exists. split.
  - intros (x & I & E). apply Nat.eqb_eq in E. subst. exact I.
  - intros I. exists o. split; [exact I|apply Nat.eqb_refl].
Qed.
Lemma add_ok : forall chk s o, fine chk s o -> add chk s (Some o) = (OSet (checker s) (objs s ++ [o]), true).
Proof.
  intros chk s o [C N]. unfold add. rewrite C, Nat.eqb_refl. cbn [negb]. destruct (has s o) eqn:H; [|reflexivity]. apply has_spec in H. contradiction.
Qed.
Lemma add_no : forall chk s o, ~ fine chk s o -> add chk s (Some o) = (s, false).
Proof.
  intros chk s o F. unfold add. destruct (checker s =? chk o) eqn:C; [|reflexivity]. cbn [negb]. destruct (has s o) eqn:H; [reflexivity|].
  exfalso. apply F. apply Nat.eqb_eq in C. split; [congruence|]. intros I. apply has_spec in I. congruence.
Qed.
Lemma fine_dec : forall chk s o, fine chk s o \/ ~ fine chk s o.
Proof.
  intros chk s o. unfold fine. destruct (Nat.eq_dec (chk o) (checker s)); [|right; tauto]. destruct (in_dec Nat.eq_dec o (objs s)); tauto.
Qed.
Lemma add_all_spec : forall chk os s, NoDup os -> exists pre rest, os = pre ++ rest /\ add_all chk s os = (OSet (checker s) (objs s ++ pre), match rest with [] => true | _ => false end) /\
  (forall o, In o pre -> fine chk s o) /\ (forall o r, rest = o :: r -> ~ fine chk s o).
Proof.
  induction os as [|o os IH]; intros s ND.
  - exists [], []. cbn [add_all]. split; [reflexivity|]. split; [rewrite app_nil_r; destruct s; reflexivity|]. split; [intros o []|intros o r; discriminate].
  - inversion ND as [|x y N1 N2]. subst. cbn [add_all]. destruct (fine_dec chk s o) as [F|F].
    + rewrite (add_ok chk s o F). destruct (IH (OSet (checker s) (objs s ++ [o])) N2) as (pre & rest & E & A & P1 & P2). exists (o :: pre), rest.
      split; [rewrite E; reflexivity|]. split; [rewrite A; cbn [checker objs]; rewrite <- app_assoc; reflexivity|]. split.
      * intros p [<-|I]; [exact F|]. destruct (P1 p I) as [C N]. cbn [checker objs] in *. split; [exact C|]. intros J. apply N, in_or_app. auto.
      * intros p r ER G. apply (P2 p r ER). destruct G as [C N]. split; [exact C|]. cbn [objs]. intros J. apply in_app_or in J. destruct J as [J|[<-|[]]]; [auto|].
        apply N1. rewrite E, ER. apply in_or_app. right. left. reflexivity.
    + rewrite (add_no chk s o F). exists [], (o :: os). split; [reflexivity|]. split; [rewrite app_nil_r; destruct s; reflexivity|]. split; [intros p []|].
      intros p r [= <- <-]. exact F.
Qed.
Definition good (chk : nat -> nat) (s : oset) : Prop := NoDup (objs s) /\ forall o, In o (objs s) -> chk o = checker s.
Lemma nodup_snoc : forall (l : list nat) o, NoDup l -> ~ In o l -> NoDup (l ++ [o]).
Proof. intros l o H N. apply NoDup_rev in H. rewrite <- rev_involutive, rev_app_distr. apply NoDup_rev. cbn. constructor; [rewrite <- in_rev; exact N|exact H]. Qed.
Lemma add_good : forall chk s o, good chk s -> good chk (fst (add chk s o)) /\ checker (fst (add chk s o)) = checker s.
Proof.
  intros chk s [o|] [G1 G2]; [|split; [split; assumption|reflexivity]]. destruct (fine_dec chk s o) as [F|F].
  - rewrite (add_ok chk s o F). destruct F as [C N]. cbn [fst checker]. split; [|reflexivity]. split; cbn [objs checker].
    + apply nodup_snoc; assumption.
    + intros p I. apply in_app_or in I. destruct I as [I|[<-|[]]]; auto.
  - rewrite (add_no chk s o F). split; [split; assumption|reflexivity].
Qed.
Lemma add_all_good : forall chk os s, good chk s -> good chk (fst (add_all chk s os)) /\ checker (fst (add_all chk s os)) = checker s.
Proof.
  induction os as [|o os IH]; intros s G; cbn [add_all]; [auto|]. destruct (add_good chk s (Some o) G) as [G' C']. destruct (add chk s (Some o)) as [s' ok]. cbn [fst] in *.
  destruct ok; [|auto]. destruct (IH s' G') as [G2 C2]. split; [exact G2|congruence].
Qed.
Lemma add_nodes_good : forall chk ns s, good chk s -> good chk (fst (add_nodes chk s ns)) /\ checker (fst (add_nodes chk s ns)) = checker s.
Proof.
  induction ns as [|[n|] ns IH]; intros s G; cbn [add_nodes]; [auto| |auto]. destruct (negb (checker s =? chk n)); [auto|].
  destruct (add_good chk s (Some n) G) as [G' C']. destruct (add chk s (Some n)) as [s' ok]. cbn [fst] in *. destruct ok; [|auto]. destruct (IH s' G') as [G2 C2]. split; [exact G2|congruence].
Qed.
Lemma erase_in : forall o l x, NoDup l -> (In x (erase o l) <-> In x l /\ x <> o).
Proof.
  induction l as [|y l IH]; intros x ND; cbn [erase In]; [tauto|]. inversion ND as [|a b N1 N2]. subst. destruct (y =? o) eqn:E.
  - apply Nat.eqb_eq in E. subst. split; [intros I; split; [auto|congruence]|intros [[->|I] N]; [congruence|exact I]].
  - apply Nat.eqb_neq in E. cbn [In]. rewrite (IH x N2). split; [intros [<-|[I N]]; auto|intros [[<-|I] N]; auto].
Qed.
Lemma erase_filter : forall o l, NoDup l -> erase o l = filter (fun x => negb (x =? o)) l.
Proof.
  induction l as [|y l IH]; intros ND; cbn [erase filter]; [reflexivity|]. inversion ND as [|a b N1 N2]. subst. destruct (y =? o) eqn:E; cbn [negb].
  - apply Nat.eqb_eq in E. subst. clear - N1. induction l as [|z l IH]; [reflexivity|]. cbn [filter]. destruct (z =? o) eqn:F.
    + apply Nat.eqb_eq in F. subst. exfalso. apply N1. left. reflexivity.
    + cbn [negb]. f_equal. apply IH. intros I. apply N1. right. exact I.
  - f_equal. apply IH, N2.
Qed.
Lemma remove_good : forall chk s o, good chk s -> good chk (fst (remove s o)) /\ checker (fst (remove s o)) = checker s.
Proof.
  intros chk s [o|] G; [|split; [exact G|reflexivity]]. unfold remove. destruct (has s o); [|auto]. cbn [fst checker]. split; [|reflexivity].
  destruct G as [G1 G2]. split; cbn [objs checker].
  - rewrite erase_filter by exact G1. apply NoDup_filter, G1.
  - intros p I. apply erase_in in I; [|exact G1]. apply G2. tauto.
Qed.
Lemma step_good : forall chk s p, good chk s -> good chk (step chk s p) /\ checker (step chk s p) = checker s.
Proof.
  intros chk s [o|o|[t|]|ns] G; cbn [step].
  - apply add_good, G.
  - apply remove_good, G.
  - unfold add_set. destruct (negb _); [auto|]. apply add_all_good, G.
  - auto.
  - apply add_nodes_good, G.
Qed.
Lemma run_good : forall chk h s, good chk s -> good chk (run chk s h) /\ checker (run chk s h) = checker s.
Proof.
  unfold run. induction h as [|p h IH]; intros s G; cbn [fold_left]; [auto|]. destruct (step_good chk s p G) as [G1 C1]. destruct (IH _ G1) as [G2 C2]. split; [exact G2|congruence].
Qed.
(** ** Histories of single operations *)
Lemma since_snoc : forall chk c o h p, since chk c o (h ++ [p]) = since_step chk c o (length h) (since chk c o h) p.
Proof.
  intros chk c o h p. unfold since. rewrite fold_left_app. cbn [fold_left snd].
  assert (L : forall h n x, fst (fold_left (fun s p => (S (fst s), since_step chk c o (fst s) (snd s) p)) h (n, x)) = n + length h).
  { induction h0 as [|q h0 IH]; intros n x; cbn [fold_left fst snd length]; [lia|]. rewrite IH. lia. }
  rewrite (L h 0 None). reflexivity.
Qed.
Lemma since_bound : forall chk c o h t, since chk c o h = Some t -> t < length h.
Proof.
  intros chk c o h. induction h as [|p h IH] using rev_ind; intros t; [discriminate|]. rewrite since_snoc, app_length. cbn [length]. unfold since_step.
  destruct p as [[o'|]|[o'|]|u|ns]; try (intros H; apply IH in H; lia).
  - destruct (o' =? o); [|intros H; apply IH in H; lia]. destruct (chk o =? c); [|intros H; apply IH in H; lia].
    destruct (since chk c o h) as [t'|] eqn:E; intros [= <-]; [specialize (IH t' eq_refl); lia|lia].
  - destruct (o' =? o); [discriminate|intros H; apply IH in H; lia].
Qed.
Lemma before_snoc : forall l x a b, before (l ++ [x]) a b <-> before l a b \/ In a l /\ b = x.
Proof.
  intros l x a b. split.
  - intros (i & j & L & A & B). assert (J : j < length (l ++ [x])) by (apply nth_error_Some; congruence). rewrite app_length in J. cbn [length] in J.
    assert (A' : nth_error l i = Some a) by (rewrite nth_error_app1 in A by lia; exact A). destruct (Nat.eq_dec j (length l)) as [->|N].
    + right. split; [apply nth_error_In in A'; exact A'|]. rewrite nth_error_app2, Nat.sub_diag in B by lia. cbn in B. congruence.
    + left. exists i, j. rewrite nth_error_app1 in B by lia. auto.
  - intros [(i & j & L & A & B)|[I ->]].
    + exists i, j. rewrite !nth_error_app1; [auto|apply nth_error_Some; congruence|apply nth_error_Some; congruence].
    + apply In_nth_error in I. destruct I as (i & A). assert (i < length l) by (apply nth_error_Some; congruence). exists i, (length l). split; [assumption|].
      rewrite nth_error_app1, nth_error_app2, Nat.sub_diag by lia. auto.
Qed.
Lemma before_cons : forall x l a b, before (x :: l) a b <-> before l a b \/ a = x /\ In b l.
Proof.
  intros x l a b. split.
  - intros ([|i] & [|j] & L & A & B); try lia; cbn [nth_error] in *.
    + right. split; [congruence|apply nth_error_In in B; exact B].
    + left. exists i, j. split; [lia|auto].
  - intros [(i & j & L & A & B)|[-> I]].
    + exists (S i), (S j). split; [lia|auto].
    + apply In_nth_error in I. destruct I as (j & B). exists 0, (S j). split; [lia|auto].
Qed.
Lemma before_in : forall l a b, before l a b -> In a l /\ In b l.
Proof. intros l a b (i & j & _ & A & B). apply nth_error_In in A, B. auto. Qed.
Lemma before_filter : forall f l a b, before (filter f l) a b -> before l a b.
Proof.
  induction l as [|x l IH]; intros a b H; cbn [filter] in H.
  - destruct H as (i & j & _ & A & _). destruct i; discriminate.
  - apply before_cons. destruct (f x); [|left; apply IH, H]. apply before_cons in H. destruct H as [H|[-> I]]; [left; apply IH, H|right; split; [reflexivity|]]. apply filter_In in I. tauto.
Qed.
Lemma history : forall chk c h, (forall p, In p h -> single p) -> let s := run chk (OSet c []) h in
  (forall o, In o (objs s) <-> since chk c o h <> None) /\ (forall a b, before (objs s) a b -> exists t u, since chk c a h = Some t /\ since chk c b h = Some u /\ t < u).
Proof.
  intros chk c h. induction h as [|p h IH] using rev_ind; intros S s.
  - split; [intros o; cbn; split; [intros []|intros H; apply H; reflexivity]|]. intros a b H. apply before_in in H. destruct H as [[] _].
  - unfold s, run. rewrite fold_left_app. cbn [fold_left]. set (s0 := fold_left (step chk) h (OSet c [])) in *.
    assert (S0 : forall p, In p h -> single p) by (intros q I; apply S, in_or_app; auto). destruct (IH S0) as [M B]. clear IH.
    change (run chk (OSet c []) h) with s0 in *.
    assert (G : good chk (OSet c [])) by (split; [constructor|intros o []]). destruct (run_good chk h _ G) as [[G1 G2] C]. change (run chk (OSet c []) h) with s0 in *. cbn [checker] in C. clearbody s0. clear s.
    assert (SP : single p) by (apply S, in_or_app; right; left; reflexivity).
    assert (KEEP : forall p', (forall o, since chk c o (h ++ [p']) = since chk c o h) -> forall s', s' = s0 ->
      (forall o, In o (objs s') <-> since chk c o (h ++ [p']) <> None) /\ (forall a b, before (objs s') a b -> exists t u, since chk c a (h ++ [p']) = Some t /\ since chk c b (h ++ [p']) = Some u /\ t < u)).
    { intros p' H s' ->. split; [intros o; rewrite H; apply M|]. intros a b H1. destruct (B a b H1) as (t & u & T1 & T2 & T3). exists t, u. rewrite !H. auto. }
    destruct p as [[x|]|[x|]|t|ns]; try destruct SP.
    + cbn [step]. destruct (fine_dec chk s0 x) as [F|F].
      * rewrite (add_ok chk s0 x F). cbn [fst objs]. destruct F as [F1 F2].
        assert (NX : since chk c x h = None) by (destruct (since chk c x h) eqn:E; [|reflexivity]; exfalso; apply F2, M; congruence).
        assert (E : forall o, since chk c o (h ++ [Add (Some x)]) = if x =? o then Some (length h) else since chk c o h).
        { intros o. rewrite since_snoc. cbn [since_step]. destruct (x =? o) eqn:XO; [|reflexivity]. apply Nat.eqb_eq in XO. subst o. rewrite F1, C, Nat.eqb_refl, NX. reflexivity. }
        split.
        -- intros o. rewrite E, in_app_iff, M. cbn [In]. destruct (x =? o) eqn:XO.
           ++ apply Nat.eqb_eq in XO. split; [discriminate|auto].
           ++ apply Nat.eqb_neq in XO. split; [intros [H|[H|[]]]; [exact H|contradiction]|auto].
        -- intros a b H. apply before_snoc in H. rewrite !E. destruct H as [H|[I ->]].
           ++ destruct (before_in _ _ _ H) as [I1 I2]. destruct (x =? a) eqn:XA; [apply Nat.eqb_eq in XA; subst; contradiction|]. destruct (x =? b) eqn:XB; [apply Nat.eqb_eq in XB; subst; contradiction|]. apply B, H.
           ++ destruct (x =? a) eqn:XA; [apply Nat.eqb_eq in XA; subst; contradiction|]. rewrite Nat.eqb_refl. apply M in I. destruct (since chk c a h) as [t|] eqn:T; [|congruence].
              exists t, (length h). split; [reflexivity|]. split; [reflexivity|]. eapply since_bound, T.
      * rewrite (add_no chk s0 x F). apply KEEP; [|reflexivity]. intros o. rewrite since_snoc. cbn [since_step]. destruct (x =? o) eqn:XO; [|reflexivity]. apply Nat.eqb_eq in XO. subst o.
        destruct (chk x =? c) eqn:CX; [|reflexivity]. apply Nat.eqb_eq in CX. destruct (since chk c x h) eqn:E; [reflexivity|]. exfalso. apply F. split; [congruence|]. intros I. apply M in I. congruence.
    + cbn [step]. apply KEEP; [|reflexivity]. intros o. rewrite since_snoc. reflexivity.
    + cbn [step]. unfold remove.
      assert (E : forall o, since chk c o (h ++ [Remove (Some x)]) = if x =? o then None else since chk c o h) by (intros o; rewrite since_snoc; reflexivity).
      destruct (has s0 x) eqn:H.
      * cbn [fst objs]. split.
        -- intros o. rewrite E, erase_in, M by exact G1. destruct (x =? o) eqn:XO; [apply Nat.eqb_eq in XO|apply Nat.eqb_neq in XO]; split; try tauto; intuition congruence.
        -- intros a b HB. rewrite erase_filter in HB by exact G1. assert (HB' := HB). apply before_filter in HB. apply before_in in HB'. destruct HB' as [I1 I2]. apply filter_In in I1, I2.
           destruct I1 as [_ I1], I2 as [_ I2]. apply negb_true_iff in I1, I2. rewrite !E, (Nat.eqb_sym x a), (Nat.eqb_sym x b), I1, I2. apply B, HB.
      * cbn [fst]. apply KEEP; [|reflexivity]. intros o. rewrite E. destruct (x =? o) eqn:XO; [|reflexivity]. apply Nat.eqb_eq in XO. subst o. destruct (since chk c x h) eqn:T; [|reflexivity].
        exfalso. assert (I : In x (objs s0)) by (apply M; congruence). apply has_spec in I. congruence.
    + cbn [step]. apply KEEP; [|reflexivity]. intros o. rewrite since_snoc. reflexivity.
Qed.
(** ** Robot nodes and clones *)
Lemma add_nodes_fine : forall chk ns s, NoDup (flat_map (fun n => match n with Some n => if chk n =? checker s then [n] else [] | None => [] end) ns) ->
  (forall n, In (Some n) ns -> chk n = checker s -> ~ In n (objs s)) ->
  add_nodes chk s ns = (OSet (checker s) (objs s ++ flat_map (fun n => match n with Some n => if chk n =? checker s then [n] else [] | None => [] end) ns), true).
Proof.
  induction ns as [|[n|] ns IH]; intros s ND N; cbn [add_nodes flat_map].
  - rewrite app_nil_r. destruct s; reflexivity.
  - rewrite (Nat.eqb_sym (checker s)). cbn [flat_map] in ND. destruct (chk n =? checker s) eqn:C; cbn [negb app] in *.
    + apply Nat.eqb_eq in C. inversion ND as [|a b N1 N2]. subst. rewrite add_ok by (split; [exact C|apply N; [left; reflexivity|exact C]]). rewrite IH; cbn [checker objs].
      * rewrite <- app_assoc. reflexivity.
      * exact N2.
      * intros m I Cm J. apply in_app_or in J. destruct J as [J|[<-|[]]]; [apply (N m); [right; exact I|exact Cm|exact J]|]. apply N1. apply in_flat_map. exists (Some n). split; [exact I|].
        rewrite Cm, Nat.eqb_refl. left. reflexivity.
    + apply IH; [exact ND|]. intros m I. apply N. right. exact I.
  - apply IH; [exact ND|]. intros m I. apply N. right. exact I.
Qed.
Lemma fold_add_fresh : forall chk os s, NoDup os -> (forall o, In o os -> fine chk s o) -> fold_left (fun r o => fst (add chk r (Some o))) os s = OSet (checker s) (objs s ++ os).
Proof.
  induction os as [|o os IH]; intros s ND F; cbn [fold_left].
  - rewrite app_nil_r. destruct s; reflexivity.
  - inversion ND as [|a b N1 N2]. subst. rewrite add_ok by (apply F; left; reflexivity). cbn [fst]. rewrite IH; [cbn [checker objs]; rewrite <- app_assoc; reflexivity|exact N2|].
    intros p I. destruct (F p (or_intror I)) as [C N]. split; [exact C|]. cbn [objs]. intros J. apply in_app_or in J. destruct J as [J|[<-|[]]]; contradiction.
Qed.
