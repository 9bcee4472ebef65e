(** Proofs for C80 and C81: the two sets of results. *)
From Coq Require Import List ZArith Bool Arith Lia Permutation Sorted.
From Verif Require Import KdModel KdSpec KdProofs.
Import ListNotations.
Open Scope Z_scope.

Lemma filter_perm {A} (f : A -> bool) l l' : Permutation l l' -> Permutation (filter f l) (filter f l').
Proof.
  induction 1; cbn [filter]; [constructor|destruct (f x); auto|destruct (f x), (f y); auto using Permutation_refl; constructor|eapply Permutation_trans; eassumption].
Qed.
(** ** Radius search *)
Section RADIUS.
Context (D : data) (acc : Z -> Z -> Z) (MT : metric acc) (q : nat -> Z) (en ed radius : Z) (EN : 0 <= en).
Let near i := dist D acc q i <? radius.
Definition within (P : list nat) (r : list (nat * Z)) : Prop :=
  exists hit missed, r = map (fun i => (i, dist D acc q i)) hit /\ Permutation (filter near P) (hit ++ missed) /\ forall i, In i missed -> radius * ed < dist D acc q i * en.
Lemma within_find fuel index : indexable D -> (d_count D <= fuel)%nat -> build fuel D = Some index -> within (seq 0 (d_count D)) (find D acc (radius_set radius) en ed q index []).
Proof.
  intros ID F E. apply (find_spec D acc MT q (radius_set radius) en ed EN within) with (fuel := fuel); auto.
  - intros P P' r PP (h & m & -> & PM & M). exists h, m. split; [reflexivity|]. split; [|exact M]. rewrite <- PM. apply Permutation_sym, filter_perm, PP.
  - intros P r w0 i (h & m & -> & PM & M) AM. cbv zeta. cbn [worst add radius_set] in *. split.
    + assert (W : below_worst (dist D acc q i) w0 = true \/ near i = false). { destruct w0 as [w|]; [|left; reflexivity]. destruct AM as (w1 & W & LE). injection W as <-. unfold near, below_worst. destruct (Z.ltb_spec (dist D acc q i) w); [auto|right; apply Z.ltb_ge; lia]. }
      destruct (near i) eqn:NI.
      * destruct W as [->|]; [|discriminate]. unfold near in NI. rewrite NI. exists (h ++ [i]), m. split; [rewrite map_app; reflexivity|]. split; [|exact M]. rewrite filter_app, PM. cbn [filter]. unfold near at 1. rewrite NI.
        rewrite <- !app_assoc. apply Permutation_app_head. cbn [app]. apply Permutation_sym, Permutation_cons_append.
      * assert (EQ : (if below_worst (dist D acc q i) w0 then if dist D acc q i <? radius then map (fun i => (i, dist D acc q i)) h ++ [(i, dist D acc q i)] else map (fun i => (i, dist D acc q i)) h else map (fun i => (i, dist D acc q i)) h) = map (fun i => (i, dist D acc q i)) h).
        { unfold near in NI. rewrite NI. destruct (below_worst _ _); reflexivity. }
        rewrite EQ. exists h, m. split; [reflexivity|]. split; [|exact M]. rewrite filter_app. cbn [filter]. rewrite NI, app_nil_r. exact PM.
    + destruct w0 as [w|]; exact AM.
  - intros P r w l (h & m & -> & PM & M) W SK. cbn in W. injection W as <-. exists h, (m ++ filter near l). split; [reflexivity|]. split; [rewrite filter_app, PM, app_assoc; reflexivity|]. intros i I. apply in_app_or in I. destruct I as [I|I]; [apply M, I|]. apply SK. apply filter_In in I. tauto.
  - exists [], []. split; [reflexivity|]. split; [constructor|intros i []].
Qed.
End RADIUS.

(** ** Nearest neighbours *)
Definition some (p : Z * nat) : option Z * nat := (Some (fst p), snd p).
Definition dfl : option Z * nat := (None, O).
Lemma shift_spec d : forall j a, let '(a', i) := shift j a d in (i <= j)%nat /\ length a' = length a /\ (forall k, (k < i \/ j < k)%nat -> nth k a' dfl = nth k a dfl) /\
  (forall k, (i <= k < j)%nat -> (S k < length a)%nat -> nth (S k) a' dfl = nth k a dfl) /\ (forall k, (i <= k < j)%nat -> farther (fst (nth k a dfl)) d = true) /\ ((0 < i)%nat -> farther (fst (nth (i - 1) a dfl)) d = false).
Proof.
  induction j as [|j IH]; intros a; cbn [shift].
  - split; [lia|]. split; [reflexivity|]. split; [reflexivity|]. split; [intros; lia|]. split; [intros; lia|lia].
  - fold dfl. destruct (farther (fst (nth j a dfl)) d) eqn:FA.
    + set (a1 := if (S j <? length a)%nat then upd a (S j) (nth j a dfl) else a). assert (L1 : length a1 = length a) by (unfold a1; destruct (_ <? _)%nat; [apply upd_length|reflexivity]).
      assert (N1 : forall k, nth k a1 dfl = if (k =? S j)%nat && (S j <? length a)%nat then nth j a dfl else nth k a dfl). { intros k. unfold a1. destruct (S j <? length a)%nat eqn:Q; [rewrite nth_upd, Q; reflexivity|rewrite andb_false_r; reflexivity]. }
      specialize (IH a1). destruct (shift j a1 d) as [a' i]. destruct IH as (I1 & I2 & I3 & I4 & I5 & I6). rewrite L1 in *.
      assert (OLD : forall k, k <> S j -> nth k a1 dfl = nth k a dfl) by (intros k K; rewrite N1; destruct (Nat.eqb_spec k (S j)); [lia|reflexivity]).
      split; [lia|]. split; [exact I2|]. split; [|split; [|split]].
      * intros k K. rewrite I3 by lia. apply OLD. lia.
      * intros k K LK. destruct (Nat.eq_dec k j) as [->|NE]; [|rewrite I4 by lia; apply OLD; lia]. rewrite I3 by lia. rewrite N1, Nat.eqb_refl. destruct (Nat.ltb_spec (S j) (length a)); [reflexivity|lia].
      * intros k K. destruct (Nat.eq_dec k j) as [->|NE]; [exact FA|]. rewrite <- (OLD k) by lia. apply I5. lia.
      * intros K. rewrite <- (OLD (i - 1)%nat) by lia. apply I6, K.
    + split; [lia|]. split; [reflexivity|]. split; [reflexivity|]. split; [intros; lia|]. split; [intros; lia|]. intros _. replace (S j - 1)%nat with j by lia. exact FA.
Qed.
Definition before (a b : Z * nat) : Prop := fst a <= fst b.
Lemma ss_app : forall l1 l2, StronglySorted before (l1 ++ l2) <-> StronglySorted before l1 /\ StronglySorted before l2 /\ forall x y, In x l1 -> In y l2 -> before x y.
Proof.
  induction l1 as [|a l1 IH]; intros l2; cbn [app].
  - split; [intros H; split; [constructor|]; split; [exact H|intros x y []]|tauto].
  - split.
    + intros H. inversion H as [|? ? H1 H2]; subst. apply IH in H1. destruct H1 as (A & B & C). rewrite Forall_app in H2. destruct H2 as (F1 & F2). split; [constructor; assumption|]. split; [exact B|]. intros x y [<-|X] Y; [rewrite Forall_forall in F2; apply F2, Y|apply C; assumption].
    + intros (A & B & C). inversion A as [|? ? A1 A2]; subst. constructor; [apply IH; split; [exact A1|]; split; [exact B|]; intros; apply C; [right|]; assumption|]. apply Forall_app. split; [exact A2|]. apply Forall_forall. intros y Y. apply C; [left; reflexivity|exact Y].
Qed.
Lemma ss_nth l i j : StronglySorted before l -> (i <= j < length l)%nat -> fst (nth i l (0, O)) <= fst (nth j l (0, O)).
Proof.
  intros H. revert i j. induction H as [|a l H IH F]; intros i j L; cbn [length] in L; [lia|]. destruct i as [|i], j as [|j]; cbn [nth]; [lia| |lia|apply IH; lia]. rewrite Forall_forall in F. apply F, nth_In. lia.
Qed.
Section KNN.
Context (D : data) (acc : Z -> Z -> Z) (MT : metric acc) (q : nat -> Z) (cap : nat) (CP : (1 <= cap)%nat).
Let pnt i : Z * nat := (dist D acc q i, i).
Definition best (P : list nat) (r : knn) : Prop :=
  length (fst r) = cap /\ exists R rest, snd r = length R /\ (length R <= cap)%nat /\ (forall k, (k < length R)%nat -> nth k (fst r) dfl = some (nth k R (0, O))) /\ StronglySorted before R /\
    Permutation (map pnt P) (R ++ rest) /\ (rest <> [] -> length R = cap) /\ (forall x y, In x R -> In y rest -> before x y) /\ ((length R < cap)%nat -> fst (nth (cap - 1) (fst r) dfl) = None).
Lemma worst_full P r w : best P r -> worst knn_set r = Some w -> exists R rest, snd r = cap /\ length R = cap /\ (forall k, (k < cap)%nat -> nth k (fst r) dfl = some (nth k R (0, O))) /\ StronglySorted before R /\
    Permutation (map pnt P) (R ++ rest) /\ (forall x y, In x R -> In y rest -> before x y) /\ fst (nth (cap - 1) R (0, O)) = w.
Proof.
  intros (L & R & rest & C & LC & N & SS & PM & FU & BE & LA) W. cbn [worst knn_set] in W. fold dfl in W. rewrite L in W. assert (E : length R = cap). { destruct (Nat.eq_dec (length R) cap) as [E|NE]; [exact E|]. rewrite LA in W by lia. discriminate. }
  exists R, rest. rewrite E in *. split; [exact C|]. split; [reflexivity|]. split; [exact N|]. split; [exact SS|]. split; [exact PM|]. split; [exact BE|]. rewrite N in W by lia. cbn in W. injection W as W. exact W.
Qed.
Lemma all_before R w : StronglySorted before R -> length R = cap -> fst (nth (cap - 1) R (0, O)) = w -> forall x, In x R -> fst x <= w.
Proof. intros SS L W x X. destruct (In_nth _ _ (0, O) X) as (k & K & <-). rewrite <- W. apply ss_nth; [exact SS|lia]. Qed.
Lemma nth_ins (R : list (Z * nat)) i x k : (i <= length R)%nat -> nth k (firstn i R ++ x :: skipn i R) (0, O) = if (k <? i)%nat then nth k R (0, O) else if (k =? i)%nat then x else nth (k - 1) R (0, O).
Proof.
  intros L. assert (LF : length (firstn i R) = i) by (rewrite firstn_length; lia). destruct (Nat.ltb_spec k i).
  - rewrite app_nth1 by lia. rewrite <- (firstn_skipn i R) at 2. rewrite app_nth1 by lia. reflexivity.
  - rewrite app_nth2 by lia. rewrite LF. destruct (Nat.eqb_spec k i) as [->|NE]; [rewrite Nat.sub_diag; reflexivity|]. replace (k - i)%nat with (S (k - 1 - i)) by lia. cbn [nth]. rewrite <- (firstn_skipn i R) at 2. rewrite app_nth2 by lia. rewrite LF. reflexivity.
Qed.
Lemma nth_first {A} (l : list A) n k d : (k < n)%nat -> nth k (firstn n l) d = nth k l d.
Proof. revert n k. induction l as [|x l IH]; intros [|n] [|k] K; cbn [firstn nth]; try reflexivity; try lia. apply IH. lia. Qed.
Lemma best_add P r i : best P r -> best (P ++ [i]) (knn_add r (dist D acc q i) i) /\ forall w0, at_most (worst knn_set r) w0 -> at_most (worst knn_set (knn_add r (dist D acc q i) i)) w0.
Proof.
  intros B. assert (B0 := B). destruct r as [a count]. destruct B as (L & R & rest & C & LC & N & SS & PM & FU & BE & LA). cbn [fst snd] in *. set (d := dist D acc q i). unfold knn_add. assert (SH := shift_spec d count a). destruct (shift count a d) as [a' j]. destruct SH as (J & L' & SAME & MOVE & FAR & STOP).
  rewrite L in *. subst count. set (a'' := if (j <? cap)%nat then upd a' j (Some d, i) else a'). set (x := (d, i)). set (new := firstn j R ++ x :: skipn j R).
  assert (LN : length new = S (length R)) by (unfold new; rewrite app_length, firstn_length; cbn [length]; rewrite skipn_length; lia).
  assert (LO : forall y, In y (firstn j R) -> before y x).
  { intros y Y. destruct (In_nth _ _ (0, O) Y) as (k & K & <-). rewrite firstn_length in K. rewrite nth_first by lia. assert (Q := STOP ltac:(lia)). rewrite N in Q by lia. cbn in Q. apply Z.ltb_ge in Q. unfold before. cbn [fst x]. assert (W := ss_nth R k (j - 1) SS ltac:(lia)). lia. }
  assert (HI : forall y, In y (skipn j R) -> d < fst y).
  { intros y Y. destruct (In_nth _ _ (0, O) Y) as (k & K & <-). rewrite skipn_length in K. assert (E : nth k (skipn j R) (0, O) = nth (j + k) R (0, O)). { rewrite <- (firstn_skipn j R) at 2. rewrite app_nth2 by (rewrite firstn_length; lia). rewrite firstn_length. f_equal. lia. }
    rewrite E. assert (Q := FAR (j + k)%nat ltac:(lia)). rewrite N in Q by lia. cbn in Q. apply Z.ltb_lt in Q. exact Q. }
  assert (SN : StronglySorted before new).
  { unfold new. rewrite <- (firstn_skipn j R) in SS. apply ss_app in SS. destruct SS as (S1 & S2 & S3). apply ss_app. split; [exact S1|]. split; [constructor; [exact S2|apply Forall_forall; intros y Y; unfold before; cbn [fst x]; specialize (HI y Y); lia]|]. intros y z Y [<-|Z0]; [apply LO, Y|apply S3; assumption]. }
  assert (PN : Permutation new (R ++ [x])). { unfold new. eapply Permutation_trans; [apply Permutation_sym, Permutation_middle|]. rewrite firstn_skipn. apply Permutation_cons_append. }
  assert (LA2 : length a'' = cap) by (unfold a''; destruct (_ <? _)%nat; [rewrite upd_length|]; exact L').
  assert (NA : forall k, (k < length new)%nat -> (k < cap)%nat -> nth k a'' dfl = some (nth k new (0, O))).
  { intros k K KC. unfold new. rewrite nth_ins by lia. assert (G : nth k a'' dfl = if (k =? j)%nat then (Some d, i) else nth k a' dfl). { unfold a''. destruct (Nat.ltb_spec j cap) as [Q|Q]; [rewrite nth_upd, L'; destruct (Nat.ltb_spec j cap); [rewrite andb_true_r; reflexivity|lia]|]. destruct (Nat.eqb_spec k j); [lia|reflexivity]. }
    rewrite G. destruct (Nat.eqb_spec k j) as [->|NE]; [destruct (Nat.ltb_spec j j); [lia|reflexivity]|]. destruct (Nat.ltb_spec k j); [rewrite SAME by lia; apply N; lia|]. replace k with (S (k - 1)) at 1 by lia. rewrite MOVE by lia. apply N. lia. }
  set (R' := firstn cap new). set (rest' := skipn cap new ++ rest). assert (LR : length R' = Nat.min cap (S (length R))) by (unfold R'; rewrite firstn_length, LN; reflexivity).
  split.
  - split; [exact LA2|]. exists R', rest'. cbn [fst snd]. split; [rewrite LR; destruct (Nat.ltb_spec (length R) cap); lia|]. split; [lia|]. split; [intros k K; unfold R'; rewrite nth_first by lia; apply NA; lia|].
    assert (SP := SN). rewrite <- (firstn_skipn cap new) in SP. apply ss_app in SP. destruct SP as (S1 & S2 & S3). split; [exact S1|]. split.
    { unfold R', rest'. rewrite app_assoc, firstn_skipn, map_app, PM, PN. cbn [map]. fold x. change (pnt i) with x. rewrite <- !app_assoc. apply Permutation_app_head. apply Permutation_app_comm. }
    split; [|split].
    + intros NE. rewrite LR. destruct rest as [|y rest]; [|specialize (FU ltac:(discriminate)); lia]. unfold rest' in NE. rewrite app_nil_r in NE. assert (Q : skipn cap new <> []) by exact NE. assert (W : (0 < length (skipn cap new))%nat) by (destruct (skipn cap new); [congruence|cbn; lia]). rewrite skipn_length, LN in W. lia.
    + intros u v U V. unfold rest' in V. apply in_app_or in V. destruct V as [V|V]; [apply S3; assumption|]. assert (FULL : length R = cap) by (apply FU; intros ->; destruct V).
      destruct (Nat.eq_dec j cap) as [JC|JC].
      * apply BE; [|exact V]. unfold R', new in U. rewrite firstn_app, firstn_length in U. replace (cap - Nat.min j (length R))%nat with O in U by lia. cbn [firstn] in U. rewrite app_nil_r, firstn_firstn in U. rewrite <- (firstn_skipn (Nat.min cap j) R). apply in_or_app. left. exact U.
      * assert (UN : In u new) by (rewrite <- (firstn_skipn cap new); apply in_or_app; left; exact U). apply (Permutation_in _ PN) in UN. apply in_app_or in UN. destruct UN as [UN|[<-|[]]]; [apply BE; assumption|].
        destruct (skipn j R) as [|z l] eqn:SK; [apply (f_equal (@length _)) in SK; rewrite skipn_length in SK; cbn in SK; lia|]. assert (ZR : In z R) by (rewrite <- (firstn_skipn j R), SK; apply in_or_app; right; left; reflexivity). specialize (HI z (or_introl eq_refl)). specialize (BE z v ZR V). unfold before in *. cbn [fst x]. lia.
    + rewrite LR. intros LT. assert (SM : nth (cap - 1) a'' dfl = nth (cap - 1) a dfl). { assert (LE : (S (length R) < cap)%nat) by lia. unfold a''. destruct (Nat.ltb_spec j cap); [|lia]. rewrite nth_upd. destruct (Nat.eqb_spec (cap - 1) j); [lia|]. cbn [andb]. apply SAME. lia. }
      rewrite SM. apply LA. lia.
  - intros [w0|] AM; [|exact I]. destruct AM as (w1 & W & LE). assert (FULL : length R = cap). { destruct (Nat.eq_dec (length R) cap) as [E|NE]; [exact E|]. cbn [worst knn_set fst] in W. fold dfl in W. rewrite L in W. rewrite LA in W by lia. discriminate. }
    cbn [worst knn_set fst] in *. fold dfl in W |- *. rewrite LA2. rewrite L in W. rewrite N in W by lia. cbn in W. injection W as W. rewrite NA by lia. cbn [some fst]. eexists. split; [reflexivity|]. unfold new. rewrite nth_ins by lia. destruct (Nat.ltb_spec (cap - 1) j); [lia|]. destruct (Nat.eqb_spec (cap - 1) j) as [EJ|NJ].
    + assert (Q := FAR (cap - 1)%nat ltac:(lia)). rewrite N in Q by lia. cbn in Q. apply Z.ltb_lt in Q. cbn [fst x]. lia.
    + assert (Q := ss_nth R (cap - 1 - 1) (cap - 1) SS ltac:(lia)). lia.
Qed.
Lemma best_find fuel index junk : indexable D -> (d_count D <= fuel)%nat -> build fuel D = Some index -> length junk = cap -> best (seq 0 (d_count D)) (knn_search D acc index q junk).
Proof.
  intros ID F E LJ. unfold knn_search. apply (find_spec D acc MT q knn_set 1 1 ltac:(lia) best) with (fuel := fuel); auto.
  - intros P P' r PP (L & R & rest & C & LC & N & SS & PM & X). split; [exact L|]. exists R, rest. split; [exact C|]. split; [exact LC|]. split; [exact N|]. split; [exact SS|]. split; [|exact X]. rewrite <- PM. apply Permutation_map, Permutation_sym, PP.
  - intros P r w0 i B AM. cbv zeta. cbn [add knn_set]. destruct (below_worst (dist D acc q i) w0) eqn:W; [destruct (best_add P r i B) as [X Y]; split; [exact X|apply Y, AM]|]. split; [|exact AM].
    destruct w0 as [w0|]; [|discriminate]. cbn in W. apply Z.ltb_ge in W. destruct AM as (w & WW & LE). destruct (worst_full P r w B WW) as (R & rest & C & LR & N & SS & PM & BE & WR). split; [apply B|]. exists R, (rest ++ [pnt i]).
    split; [congruence|]. split; [lia|]. split; [rewrite LR; exact N|]. split; [exact SS|]. split; [rewrite map_app, PM, app_assoc; reflexivity|]. split; [auto|]. split; [|lia]. intros x y X Y. apply in_app_or in Y. destruct Y as [Y|[<-|[]]]; [apply BE; assumption|]. unfold before. cbn [fst pnt]. assert (Q := all_before R w SS LR WR x X). lia.
  - intros P r w l B W SK. destruct (worst_full P r w B W) as (R & rest & C & LR & N & SS & PM & BE & WR). split; [apply B|]. exists R, (rest ++ map pnt l).
    split; [congruence|]. split; [lia|]. split; [rewrite LR; exact N|]. split; [exact SS|]. split; [rewrite map_app, PM, app_assoc; reflexivity|]. split; [auto|]. split; [|lia]. intros x y X Y. apply in_app_or in Y. destruct Y as [Y|Y]; [apply BE; assumption|]. apply in_map_iff in Y. destruct Y as (i & <- & I). unfold before. cbn [fst pnt]. assert (Q := all_before R w SS LR WR x X). specialize (SK i I). lia.
  - split; [cbn [fst knn_init]; rewrite upd_length; exact LJ|]. exists [], []. cbn [fst snd knn_init length]. split; [reflexivity|]. split; [lia|]. split; [intros; lia|]. split; [constructor|]. split; [constructor|]. split; [congruence|]. split; [intros x y []|]. intros _. rewrite nth_upd, LJ, Nat.eqb_refl. destruct (Nat.ltb_spec (cap - 1) cap); [reflexivity|lia].
Qed.
Lemma knn_nearest fuel index junk : indexable D -> (d_count D <= fuel)%nat -> build fuel D = Some index -> length junk = cap ->
  exists res, snd (knn_search D acc index q junk) = length res /\ firstn (length res) (fst (knn_search D acc index q junk)) = map some res /\ nearest cap (all_points D acc q) res.
Proof.
  intros ID F E LJ. destruct (best_find fuel index junk ID F E LJ) as (L & R & rest & C & LC & N & SS & PM & FU & BE & LA). exists R. split; [exact C|]. split.
  - apply nth_ext with (d := dfl) (d' := some (0, O)); [rewrite firstn_length, map_length; lia|]. intros k K. rewrite firstn_length in K. rewrite nth_first by lia. rewrite map_nth. apply N. lia.
  - split; [|split; [apply StronglySorted_Sorted, SS|exists rest; split; [exact PM|exact BE]]]. assert (Q := Permutation_length PM). rewrite app_length, map_length, seq_length in Q. unfold all_points. rewrite map_length, seq_length. destruct rest; [cbn in Q; lia|]. specialize (FU ltac:(discriminate)). lia.
Qed.
End KNN.
