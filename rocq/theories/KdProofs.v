(** Proofs for C80 and C81. *)
From Coq Require Import List ZArith Bool Arith Lia Permutation Sorted.
From Verif Require Import KdModel KdSpec.
Import ListNotations.
Open Scope nat_scope.

(** ** Arrays *)
Lemma upd_length {A} : forall (l : list A) i x, length (upd l i x) = length l.
Proof. induction l as [|y l IH]; intros [|i] x; cbn [upd length]; auto. Qed.
Lemma nth_upd {A} : forall (l : list A) i k x d, nth k (upd l i x) d = if (k =? i) && (i <? length l) then x else nth k l d.
Proof.
  induction l as [|y l IH]; intros [|i] [|k] x d; cbn [upd nth length Nat.eqb andb]; try reflexivity; [destruct (k =? i); reflexivity|]. rewrite IH. reflexivity.
Qed.
Lemma upd_same {A} : forall (l : list A) i d, i < length l -> upd l i (nth i l d) = l.
Proof. induction l as [|y l IH]; intros [|i] d L; cbn [upd nth length] in *; [reflexivity|reflexivity|reflexivity|]. f_equal. apply IH. lia. Qed.
Lemma upd_upd {A} : forall (l : list A) i x y, upd (upd l i x) i y = upd l i y.
Proof. induction l as [|z l IH]; intros [|i] x y; cbn [upd]; auto. rewrite IH. reflexivity. Qed.
Lemma upd_app {A} : forall (a : list A) x b y, upd (a ++ x :: b) (length a) y = a ++ y :: b.
Proof. induction a as [|z a IH]; intros x b y; cbn [app length upd]; [reflexivity|]. rewrite IH. reflexivity. Qed.
Lemma nth_eq {A} : forall (l l' : list A) d, length l = length l' -> (forall i, i < length l -> nth i l d = nth i l' d) -> l = l'.
Proof.
  induction l as [|x l IH]; intros [|y l'] d L H; cbn [length] in *; [reflexivity|lia|lia|]. f_equal; [apply (H 0); lia|]. apply (IH l' d); [lia|]. intros i I. apply (H (S i)). lia.
Qed.
Lemma split_at {A} (l : list A) i d : i < length l -> exists a b, l = a ++ nth i l d :: b /\ length a = i.
Proof. intros L. destruct (nth_split l d L) as (a & b & E & LA). exists a, b. auto. Qed.
Lemma swap_length a i j : length (swap a i j) = length a.
Proof. unfold swap. rewrite !upd_length. reflexivity. Qed.
Lemma nth_swap a i j k : i < length a -> j < length a -> nth k (swap a i j) 0 = if k =? j then nth i a 0 else if k =? i then nth j a 0 else nth k a 0.
Proof.
  intros I J. unfold swap. rewrite !nth_upd, upd_length. destruct (Nat.ltb_spec i (length a)); [|lia]. destruct (Nat.ltb_spec j (length a)); [|lia]. rewrite !andb_true_r. reflexivity.
Qed.
Lemma swap_perm a i j : i < j -> j < length a -> Permutation (swap a i j) a.
Proof.
  intros I J. destruct (split_at a i 0 ltac:(lia)) as (x & r & E & LX). assert (LR : j - i - 1 < length r) by (rewrite E, app_length in J; cbn [length] in J; lia).
  destruct (split_at r (j - i - 1) 0 LR) as (y & z & E' & LY). assert (NJ : nth j a 0 = nth (j - i - 1) r 0).
  { rewrite E at 1. rewrite app_nth2 by lia. replace (j - length x) with (S (j - i - 1)) by lia. reflexivity. }
  set (u := nth i a 0) in *. set (v := nth (j - i - 1) r 0) in *. unfold swap. fold u. rewrite NJ. rewrite E, E'. replace i with (length x) by lia. rewrite upd_app.
  replace (x ++ v :: y ++ v :: z) with ((x ++ v :: y) ++ v :: z) by (rewrite <- app_assoc; reflexivity). replace j with (length (x ++ v :: y)) by (rewrite app_length; cbn [length]; lia). rewrite upd_app.
  rewrite <- app_assoc. cbn [app]. apply Permutation_app_head. clear. eapply Permutation_trans; [apply perm_skip; symmetry; apply Permutation_middle|]. eapply Permutation_trans; [apply perm_swap|]. apply perm_skip. apply Permutation_middle.
Qed.

(** ** Splitting *)
Section PART.
Context (f g : nat -> bool) (FG : forall x, g x = negb (f x)).
Lemma up_spec a right : forall fuel left, right < length a -> left <= S right -> S right - left < fuel ->
  let l := up fuel f a left right in left <= l <= S right /\ (forall i, left <= i < l -> f (nth i a 0) = true) /\ (l <= right -> f (nth l a 0) = false).
Proof.
  induction fuel as [|fuel IH]; intros left R L F; [lia|]. cbn [up]. cbv zeta. destruct (Nat.leb_spec left right) as [LE|LT]; cbn [andb].
  - destruct (f (nth left a 0)) eqn:E.
    + destruct (IH (S left) R ltac:(lia) ltac:(lia)) as (A & B & C). split; [lia|]. split; [|exact C]. intros i I. destruct (Nat.eq_dec i left) as [->|N]; [exact E|]. apply B. lia.
    + split; [lia|]. split; [intros; lia|]. intros _. exact E.
  - split; [lia|]. split; [intros; lia|lia].
Qed.
Lemma down_spec a left : forall fuel right, right < fuel ->
  let r := down fuel g a left right in r <= right /\ (forall i, r < i <= right -> g (nth i a 0) = true) /\ (r <> 0 -> left <= r -> g (nth r a 0) = false) /\ (left <= S right -> left <= S r).
Proof.
  induction fuel as [|fuel IH]; intros right F; [lia|]. cbn [down]. cbv zeta. destruct (Nat.eqb_spec right 0) as [->|NZ]; cbn [negb andb]; [split; [lia|]; split; [intros; lia|]; split; [congruence|auto]|].
  destruct (Nat.leb_spec left right) as [LE|LT]; cbn [andb]; [|split; [lia|]; split; [intros; lia|]; split; [lia|auto]].
  destruct (g (nth right a 0)) eqn:E; [|split; [lia|]; split; [intros; lia|]; split; [auto|auto]].
  destruct (IH (right - 1) ltac:(lia)) as (A & B & C & D). split; [lia|]. split; [|split; [exact C|intros _; apply D; lia]]. intros i I. destruct (Nat.eq_dec i right) as [->|N]; [exact E|]. apply B. lia.
Qed.
Lemma part_spec : forall fuel a left right, right < length a -> left <= S right -> S right - left < fuel ->
  (forall i, i < left -> f (nth i a 0) = true) -> (forall i, right < i < length a -> f (nth i a 0) = false) ->
  exists a' l, part fuel f g a left right = Some (a', l) /\ Permutation a' a /\ left <= l <= length a /\ (forall i, i < left -> nth i a' 0 = nth i a 0) /\
    (forall i, i < l -> f (nth i a' 0) = true) /\ (forall i, l <= i < length a -> f (nth i a' 0) = false).
Proof.
  induction fuel as [|fuel IH]; intros a left right R L F LO HI; [lia|]. cbn [part]. destruct (up_spec a right (S (length a)) left R L ltac:(lia)) as (A1 & A2 & A3).
  set (l := up (S (length a)) f a left right) in *. destruct (down_spec a l (S (length a)) right ltac:(lia)) as (B1 & B2 & B3 & B4). set (r := down (S (length a)) g a l right) in *.
  assert (LO' : forall i, i < l -> f (nth i a 0) = true) by (intros i I; destruct (Nat.lt_ge_cases i left); [apply LO; lia|apply A2; lia]).
  assert (HI' : forall i, r < i < length a -> f (nth i a 0) = false).
  { intros i I. destruct (Nat.le_gt_cases i right); [|apply HI; lia]. assert (Q := B2 i ltac:(lia)). rewrite FG in Q. destruct (f (nth i a 0)); [discriminate|reflexivity]. }
  specialize (B4 ltac:(lia)). destruct (Nat.ltb_spec r l) as [RL|RL]; cbn [orb].
  - exists a, l. split; [reflexivity|]. split; [apply Permutation_refl|]. split; [lia|]. split; [reflexivity|]. split; [exact LO'|]. intros i I. apply HI'. lia.
  - destruct (Nat.eqb_spec r 0) as [R0|R0].
    + exists a, l. split; [reflexivity|]. split; [apply Permutation_refl|]. split; [lia|]. split; [reflexivity|]. split; [exact LO'|]. intros i I. destruct (Nat.eq_dec i 0) as [->|N]; [|apply HI'; lia]. replace 0 with l at 1 by lia. apply A3. lia.
    + assert (FR : f (nth r a 0) = true) by (specialize (B3 R0 RL); rewrite FG in B3; destruct (f (nth r a 0)); [reflexivity|discriminate]). assert (FL : f (nth l a 0) = false) by (apply A3; lia).
      assert (NE : l <> r) by (intros NEQ; rewrite NEQ in FL; congruence). clearbody l r. destruct (IH (swap a l r) (S l) (r - 1)) as (a' & l' & E & P & LL & K & X & Y).
      * rewrite swap_length. lia.
      * lia.
      * lia.
      * intros i I. rewrite nth_swap by lia. destruct (Nat.eqb_spec i r); [lia|]. destruct (Nat.eqb_spec i l) as [->|]; [exact FR|apply LO'; lia].
      * rewrite swap_length. intros i I. rewrite nth_swap by lia. destruct (Nat.eqb_spec i r) as [->|]; [exact FL|]. destruct (Nat.eqb_spec i l) as [->|]; [lia|apply HI'; lia].
      * rewrite swap_length in *. exists a', l'. split; [exact E|]. split; [eapply Permutation_trans; [exact P|apply swap_perm; lia]|]. split; [lia|]. split; [|split; [exact X|exact Y]].
        intros i I. rewrite K by lia. rewrite nth_swap by lia. destruct (Nat.eqb_spec i r); [lia|]. destruct (Nat.eqb_spec i l); [lia|reflexivity].
Qed.
End PART.
Lemma nth_perm_tail a a' k : Permutation a' a -> (forall i, i < k -> nth i a' 0 = nth i a 0) -> k <= length a -> Permutation (skipn k a') (skipn k a).
Proof.
  intros P E K. assert (L := Permutation_length P). apply (Permutation_app_inv_l (firstn k a)). rewrite firstn_skipn. replace (firstn k a) with (firstn k a'); [rewrite firstn_skipn; exact P|].
  apply (nth_eq _ _ 0); [rewrite !firstn_length; lia|]. intros i I. rewrite firstn_length in I. assert (X : forall b : list nat, i < k -> k <= length b -> nth i (firstn k b) 0 = nth i b 0).
  { intros b IK KB. rewrite <- (firstn_skipn k b) at 2. rewrite app_nth1; [reflexivity|]. rewrite firstn_length. lia. }
  rewrite !X by lia. apply E. lia.
Qed.
Lemma in_firstn (a : list nat) k x : In x (firstn k a) <-> exists i, i < k /\ i < length a /\ nth i a 0 = x.
Proof.
  revert k. induction a as [|y a IH]; intros [|k]; cbn [firstn In length]; [split; [tauto|intros (i & _ & I & _); lia]..|split; [tauto|intros (i & I & _); lia]|].
  rewrite IH. split.
  - intros [<-|(i & I & L & E)]; [exists 0; split; [lia|]; split; [lia|reflexivity]|exists (S i); split; [lia|]; split; [lia|exact E]].
  - intros ([|i] & I & L & E); [left; exact E|right; exists i; split; [lia|]; split; [lia|exact E]].
Qed.
Lemma in_skipn (a : list nat) k x : In x (skipn k a) <-> exists i, k <= i /\ i < length a /\ nth i a 0 = x.
Proof.
  revert k. induction a as [|y a IH]; intros k; [rewrite skipn_nil; cbn; split; [tauto|intros (i & _ & I & _); lia]|]. destruct k as [|k]; cbn [skipn].
  - split; [intros H; destruct (In_nth _ _ 0 H) as (i & I & E); exists i; auto with arith|intros (i & _ & L & E); subst x; apply nth_In, L].
  - rewrite IH. cbn [length]. split; [intros (i & I & L & E); exists (S i); split; [lia|]; split; [lia|exact E]|intros ([|i] & I & L & E); [lia|]; exists i; split; [lia|]; split; [lia|exact E]].
Qed.
Lemma plane_split_spec D ind c cutval : ind <> [] -> exists a lim1 lim2, plane_split D ind c cutval = Some (a, lim1, lim2) /\ Permutation a ind /\ lim1 <= lim2 <= length ind /\
  (forall i, i < lim1 -> (pt D (nth i a O) c < cutval)%Z) /\ (forall i, lim1 <= i < length ind -> (cutval <= pt D (nth i a O) c)%Z) /\
  (forall i, i < lim2 -> (pt D (nth i a O) c <= cutval)%Z) /\ (forall i, lim2 <= i < length ind -> (cutval < pt D (nth i a O) c)%Z).
Proof.
  intros NE. assert (LN : 0 < length ind) by (destruct ind; [congruence|cbn; lia]). unfold plane_split.
  assert (FG1 : forall x, (cutval <=? pt D x c)%Z = negb (pt D x c <? cutval)%Z) by (intros x; destruct (Z.leb_spec cutval (pt D x c)), (Z.ltb_spec (pt D x c) cutval); try reflexivity; lia).
  assert (FG2 : forall x, (cutval <? pt D x c)%Z = negb (pt D x c <=? cutval)%Z) by (intros x; destruct (Z.ltb_spec cutval (pt D x c)), (Z.leb_spec (pt D x c) cutval); try reflexivity; lia).
  destruct (part_spec _ _ FG1 (S (length ind)) ind 0 (length ind - 1) ltac:(lia) ltac:(lia) ltac:(lia) ltac:(intros; lia) ltac:(intros; lia)) as (a & l1 & E1 & P1 & L1 & _ & X1 & Y1).
  rewrite E1. assert (LA := Permutation_length P1). rewrite LA.
  destruct (part_spec _ _ FG2 (S (length ind)) a l1 (length ind - 1) ltac:(lia) ltac:(lia) ltac:(lia)) as (b & l2 & E2 & P2 & L2 & K2 & X2 & Y2); [intros i I; apply X1 in I; apply Z.ltb_lt in I; apply Z.leb_le; lia|intros; lia|].
  rewrite E2. exists b, l1, l2. split; [reflexivity|]. split; [eapply Permutation_trans; eassumption|]. split; [lia|]. split; [intros i I; rewrite K2 by exact I; apply X1 in I; apply Z.ltb_lt in I; exact I|].
  split; [|split; [intros i I; apply X2 in I; apply Z.leb_le in I; exact I|intros i I; rewrite <- LA in I; apply Y2 in I; apply Z.leb_gt in I; exact I]].
  intros i I. assert (Q : In (nth i b 0) (skipn l1 b)) by (apply in_skipn; exists i; split; [lia|]; split; [rewrite (Permutation_length P2); lia|reflexivity]).
  apply (Permutation_in _ (nth_perm_tail a b l1 P2 K2 ltac:(lia))) in Q. apply in_skipn in Q. destruct Q as (k & K & LK & EK). rewrite <- EK. assert (Z0 := Y1 k ltac:(lia)). apply Z.ltb_ge in Z0. exact Z0.
Qed.
(** The smallest and the greatest. *)
Definition bounds (D : data) (c : nat) (ind : list nat) (m : Z * Z) : Prop :=
  (forall i, In i ind -> (fst m <= pt D i c <= snd m)%Z) /\ (exists i, In i ind /\ pt D i c = fst m) /\ (exists i, In i ind /\ pt D i c = snd m).
Lemma min_max_spec D c ind : ind <> [] -> bounds D c ind (min_max D c ind).
Proof.
  destruct ind as [|i ind]; [congruence|]. intros _. cbn [min_max]. set (g := fun (m : Z * Z) k => _).
  assert (G : forall l pre m, bounds D c pre m -> bounds D c (pre ++ l) (fold_left g l m)).
  { induction l as [|k l IH]; intros pre m B; [rewrite app_nil_r; exact B|]. cbn [fold_left]. replace (pre ++ k :: l) with ((pre ++ [k]) ++ l) by (rewrite <- app_assoc; reflexivity). apply IH. destruct B as (B & (x & X & EX) & (y & Y & EY)). unfold g. cbv zeta.
    destruct (Z.ltb_spec (pt D k c) (fst m)), (Z.ltb_spec (snd m) (pt D k c)); split; cbn [fst snd];
      try (intros j J; apply in_app_or in J; destruct J as [J|[<-|[]]]; [apply B in J; lia|lia]); split;
      first [exists x; split; [apply in_or_app; left; exact X|exact EX]|exists y; split; [apply in_or_app; left; exact Y|exact EY]|exists k; split; [apply in_or_app; right; left; reflexivity|reflexivity]]. }
  apply (G ind [i]). split; [intros k [<-|[]]; cbn [fst snd]; lia|]. split; exists i; cbn; auto.
Qed.
Lemma bounds_perm D c ind ind' m : Permutation ind ind' -> bounds D c ind m -> bounds D c ind' m.
Proof.
  intros P (A & (x & X & EX) & (y & Y & EY)). split; [intros i I; apply A, (Permutation_in _ (Permutation_sym P) I)|]. split; [exists x|exists y]; (split; [apply (Permutation_in _ P); assumption|assumption]).
Qed.
Lemma feature_range D ind b : 1 <= d_dim D -> cut_feature D ind b < d_dim D.
Proof.
  intros L. unfold cut_feature. set (g := fun (s : nat * Z) c => _). assert (G : forall l s, fst s < d_dim D -> Forall (fun c => c < d_dim D) l -> fst (fold_left g l s) < d_dim D).
  { induction l as [|c l IH]; intros s S F; [exact S|]. inversion F; subst. cbn [fold_left]. apply IH; [|assumption]. unfold g. destruct (d_wide D (span b c) (max_span D b)); [|exact S]. cbv zeta. destruct (_ <? _)%Z; [assumption|exact S]. }
  apply G; [cbn; lia|]. apply Forall_forall. intros c C. apply in_seq in C. lia.
Qed.
Lemma middle_spec D ind b : indexable D -> d_leaf D < length ind -> exists a idx c cutval, middle_split D ind b = Some (a, idx, c, cutval) /\ Permutation a ind /\ c < d_dim D /\ 0 < idx < length ind /\
  (forall i, In i (firstn idx a) -> (pt D i c <= cutval)%Z) /\ (forall i, In i (skipn idx a) -> (cutval <= pt D i c)%Z).
Proof.
  intros [DD DL] LL. unfold middle_split. set (c := cut_feature D ind b). assert (NE : ind <> []) by (intros ->; cbn in LL; lia). destruct (min_max_spec D c ind NE) as (MM & (x & X & EX) & (y & Y & EY)). set (m := min_max D c ind) in *.
  set (v := d_mid D (fst (interval b c)) (snd (interval b c))). set (cutval := if (v <? fst m)%Z then fst m else if (snd m <? v)%Z then snd m else v).
  assert (CV : (fst m <= cutval <= snd m)%Z). { assert (Q := MM x X). unfold cutval. destruct (Z.ltb_spec v (fst m)); [lia|]. destruct (Z.ltb_spec (snd m) v); lia. }
  destruct (plane_split_spec D ind c cutval NE) as (a & l1 & l2 & -> & P & LM & A1 & A2 & A3 & A4). assert (LA := Permutation_length P). rewrite LA.
  assert (H1 : l1 < length ind). { apply Permutation_sym in P. apply (Permutation_in _ P) in Y. destruct (In_nth _ _ 0 Y) as (k & K & EK). destruct (Nat.lt_ge_cases k l1) as [Q|Q]; [apply A1 in Q; rewrite EK in Q; lia|lia]. }
  assert (H2 : 0 < l2). { apply Permutation_sym in P. apply (Permutation_in _ P) in X. destruct (In_nth _ _ 0 X) as (k & K & EK). destruct (Nat.lt_ge_cases k l2) as [Q|Q]; [lia|]. assert (W := A4 k ltac:(lia)). rewrite EK in W. lia. }
  assert (H3 : 0 < length ind / 2 < length ind) by (split; [apply Nat.div_str_pos; lia|apply Nat.div_lt; lia]).
  eexists. eexists. eexists. eexists. split; [reflexivity|]. split; [exact P|]. split; [apply feature_range, DD|]. set (idx := if length ind / 2 <? l1 then l1 else if l2 <? length ind / 2 then l2 else length ind / 2).
  assert (IX : l1 <= idx <= l2 /\ 0 < idx < length ind) by (unfold idx; destruct (Nat.ltb_spec (length ind / 2) l1); [lia|destruct (Nat.ltb_spec l2 (length ind / 2)); lia]).
  split; [lia|]. split; intros i I.
  - apply in_firstn in I. destruct I as (k & K & _ & <-). apply A3. lia.
  - apply in_skipn in I. destruct I as (k & K & L & <-). apply A2. lia.
Qed.
(** A tree whose inner nodes separate their children. *)
Fixpoint ok (D : data) (t : tree) : Prop :=
  match t with
  | Leaf _ => True
  | Node c low high t1 t2 => c < d_dim D /\ (low <= high)%Z /\ (forall i, In i (leaves t1) -> (pt D i c <= low)%Z) /\ (forall i, In i (leaves t2) -> (high <= pt D i c)%Z) /\ ok D t1 /\ ok D t2
  end.
Definition boxes (D : data) (ind : list nat) (b : box) : Prop := forall c, c < d_dim D -> bounds D c ind (interval b c).
Lemma interval_map D (h : nat -> Z * Z) c : c < d_dim D -> interval (map h (seq 0 (d_dim D))) c = h c.
Proof. intros C. unfold interval. rewrite (nth_indep _ (0, 0)%Z (h 0)) by (rewrite map_length, seq_length; exact C). rewrite map_nth, seq_nth by exact C. reflexivity. Qed.
Lemma divide_spec D : indexable D -> forall fuel ind b, ind <> [] -> length ind <= fuel -> exists t b', divide fuel D ind b = Some (t, b') /\ Permutation (leaves t) ind /\ ok D t /\ boxes D ind b'.
Proof.
  intros ID. induction fuel as [|fuel IH]; intros ind b NE F; [destruct ind; [congruence|cbn in F; lia]|]. cbn [divide]. destruct (Nat.leb_spec (length ind) (d_leaf D)) as [LE|LT].
  - eexists. eexists. split; [reflexivity|]. split; [apply Permutation_refl|]. split; [exact I|]. intros c C. rewrite interval_map by exact C. apply min_max_spec, NE.
  - destruct (middle_spec D ind b ID LT) as (a & idx & c & cutval & -> & P & C & IX & LO & HI). assert (LA := Permutation_length P).
    assert (N1 : firstn idx a <> []) by (intros E; apply (f_equal (@length nat)) in E; rewrite firstn_length in E; cbn in E; lia).
    assert (N2 : skipn idx a <> []) by (intros E; apply (f_equal (@length nat)) in E; rewrite skipn_length in E; cbn in E; lia).
    destruct (IH (firstn idx a) (upd b c (fst (interval b c), cutval)) N1) as (t1 & b1 & -> & P1 & O1 & B1); [rewrite firstn_length; lia|].
    destruct (IH (skipn idx a) (upd b c (cutval, snd (interval b c))) N2) as (t2 & b2 & -> & P2 & O2 & B2); [rewrite skipn_length; lia|].
    eexists. eexists. split; [reflexivity|]. split; [cbn [leaves]; rewrite P1, P2, firstn_skipn; exact P|]. split.
    + cbn [ok]. split; [exact C|]. destruct (B1 c C) as (X1 & _ & (i & I & EI)). destruct (B2 c C) as (X2 & (k & K & EK) & _). split; [rewrite <- EI, <- EK; specialize (LO i I); specialize (HI k K); lia|].
      split; [intros j J; apply X1, (Permutation_in _ P1 J)|]. split; [intros j J; apply X2, (Permutation_in _ P2 J)|]. auto.
    + intros k K. rewrite interval_map by exact K. apply (bounds_perm D k a); [exact P|]. rewrite <- (firstn_skipn idx a). destruct (B1 k K) as (X1 & (i & I & EI) & (j & J & EJ)). destruct (B2 k K) as (X2 & (i' & I' & EI') & (j' & J' & EJ')). unfold join. split; cbn [fst snd]; [|split].
      * intros x X. apply in_app_or in X. destruct X as [X|X]; [apply X1 in X; lia|apply X2 in X; lia].
      * destruct (Z.min_spec (fst (interval b1 k)) (fst (interval b2 k))) as [[_ ->]|[_ ->]]; [exists i|exists i']; (split; [apply in_or_app; auto|assumption]).
      * destruct (Z.max_spec (snd (interval b1 k)) (snd (interval b2 k))) as [[_ ->]|[_ ->]]; [exists j'|exists j]; (split; [apply in_or_app; auto|assumption]).
Qed.
Lemma build_spec D fuel : indexable D -> d_count D <= fuel -> exists index, build fuel D = Some index /\
  match index with None => d_count D = 0 | Some (t, b) => Permutation (leaves t) (seq 0 (d_count D)) /\ ok D t /\ boxes D (seq 0 (d_count D)) b /\ d_count D <> 0 end.
Proof.
  intros ID F. unfold build. destruct (d_count D) as [|n] eqn:E; [exists None; auto|]. destruct (divide_spec D ID fuel (seq 0 (S n)) (map (fun c => min_max D c (seq 0 (S n))) (seq 0 (d_dim D)))) as (t & b & -> & P & O & B); [discriminate|rewrite seq_length; exact F|].
  exists (Some (t, b)). split; [reflexivity|]. auto.
Qed.

(** ** Distances *)
Open Scope Z_scope.
Definition tot (f : nat -> Z) (n : nat) : Z := fold_left (fun s c => s + f c) (seq 0 n) 0.
Lemma tot_S f n : tot f (S n) = tot f n + f n.
Proof. unfold tot. rewrite seq_S, fold_left_app. reflexivity. Qed.
Lemma tot_le f g : forall n, (forall c, (c < n)%nat -> f c <= g c) -> tot f n <= tot g n.
Proof. induction n as [|n IH]; intros H; [reflexivity|]. rewrite !tot_S. assert (A := IH (fun c C => H c (Nat.lt_lt_succ_r _ _ C))). assert (B := H n (Nat.lt_succ_diag_r n)). lia. Qed.
Lemma tot_ext f g n : (forall c, (c < n)%nat -> f c = g c) -> tot f n = tot g n.
Proof. intros H. apply Z.le_antisymm; apply tot_le; intros c C; rewrite (H c C); reflexivity. Qed.
Lemma tot_upd l k x : forall n, (k < n)%nat -> (k < length l)%nat -> tot (fun c => nth c (upd l k x) 0) n = tot (fun c => nth c l 0) n + x - nth k l 0.
Proof.
  induction n as [|n IH]; intros K L; [lia|]. rewrite !tot_S. rewrite nth_upd. destruct (Nat.ltb_spec k (length l)); [|lia]. rewrite andb_true_r. destruct (Nat.eqb_spec n k) as [->|NE].
  - rewrite (tot_ext _ (fun c => nth c l 0)); [lia|]. intros c C. rewrite nth_upd. destruct (Nat.eqb_spec c k); [lia|reflexivity].
  - rewrite IH by lia. lia.
Qed.
Lemma tot_zero n m : tot (fun c => nth c (repeat 0 m) 0) n = 0.
Proof. induction n as [|n IH]; [reflexivity|]. rewrite tot_S, IH, nth_repeat. reflexivity. Qed.
Section SEARCH.
Context (D : data) (acc : Z -> Z -> Z) (MT : metric acc) (q : nat -> Z).
Definition lower (dists : list Z) (l : list nat) : Prop := forall i c, In i l -> (c < d_dim D)%nat -> nth c dists 0 <= acc (q c) (pt D i c).
Lemma lower_dist dists l i : lower dists l -> In i l -> tot (fun c => nth c dists 0) (d_dim D) <= dist D acc q i.
Proof. intros L I. apply tot_le. intros c C. apply L; assumption. Qed.
Lemma initial_spec b ind : ind <> [] -> boxes D ind b -> let '(dists, d) := initial D acc q b in length dists = d_dim D /\ d = tot (fun c => nth c dists 0) (d_dim D) /\ lower dists ind.
Proof.
  intros NE BX. destruct MT as (M0 & M1 & M2). unfold initial. set (g := fun (s : list Z * Z) c => _).
  assert (G : forall k, (k <= d_dim D)%nat -> let s := fold_left g (seq 0 k) (repeat 0 (d_dim D), 0) in length (fst s) = d_dim D /\ snd s = tot (fun c => nth c (fst s) 0) (d_dim D) /\ (forall c, (k <= c)%nat -> nth c (fst s) 0 = 0) /\
    forall i c, In i ind -> (c < k)%nat -> nth c (fst s) 0 <= acc (q c) (pt D i c)).
  { induction k as [|k IH]; intros K; cbv zeta.
    - cbn [seq fold_left fst snd]. split; [apply repeat_length|]. split; [symmetry; apply tot_zero|]. split; [intros c _; apply nth_repeat|lia].
    - rewrite seq_S, fold_left_app. cbn [plus fold_left]. destruct (IH ltac:(lia)) as (L & SS & Z0 & LO). set (s := fold_left g (seq 0 k) (repeat 0 (d_dim D), 0)) in *. destruct (BX k ltac:(lia)) as (BB & (x & X & EX) & _).
      assert (LH := BB x X). unfold g. cbv zeta. set (lo := fst (interval b k)) in *. set (hi := snd (interval b k)) in *.
      assert (ONE : forall v, (forall i, In i ind -> v <= acc (q k) (pt D i k)) -> let s' := (upd (fst s) k v, snd s + v) in length (fst s') = d_dim D /\ snd s' = tot (fun c => nth c (fst s') 0) (d_dim D) /\ (forall c, (S k <= c)%nat -> nth c (fst s') 0 = 0) /\
        forall i c, In i ind -> (c < S k)%nat -> nth c (fst s') 0 <= acc (q c) (pt D i c)).
      { intros v V. cbv zeta. cbn [fst snd]. split; [rewrite upd_length; exact L|]. split; [rewrite tot_upd by lia; rewrite (Z0 k (le_n k)); lia|]. split; [intros c C; rewrite nth_upd; destruct (Nat.eqb_spec c k); [lia|]; apply Z0; lia|].
        intros i c I C. rewrite nth_upd. destruct (Nat.ltb_spec k (length (fst s))); [|lia]. rewrite andb_true_r. destruct (Nat.eqb_spec c k) as [->|]; [apply V, I|apply LO; [exact I|lia]]. }
      destruct (Z.ltb_spec (q k) lo) as [QL|QL].
      + destruct (Z.ltb_spec hi (q k)); [lia|]. apply ONE. intros i I. apply M1. specialize (BB i I). lia.
      + destruct (Z.ltb_spec hi (q k)) as [QH|QH].
        * apply ONE. intros i I. apply M2. specialize (BB i I). lia.
        * split; [exact L|]. split; [exact SS|]. split; [intros c C; apply Z0; lia|]. intros i c I C. destruct (Nat.eq_dec c k) as [->|]; [rewrite (Z0 k (le_n k)); apply M0|apply LO; [exact I|lia]]. }
  specialize (G (d_dim D) (le_n _)). cbv zeta in G. destruct (fold_left g (seq 0 (d_dim D)) (repeat 0 (d_dim D), 0)) as [dists d]. cbn [fst snd] in G. destruct G as (A & B & _ & C). split; [exact A|]. split; [exact B|]. intros i c I K. apply C; assumption.
Qed.
Context {R : Type} (rs : results R) (en ed : Z) (EN : 0 <= en) (Inv : list nat -> R -> Prop).
Definition at_most (w w0 : option Z) : Prop := match w0 with None => True | Some w0 => exists w1, w = Some w1 /\ w1 <= w0 end.
Context (I_perm : forall P P' r, Permutation P P' -> Inv P r -> Inv P' r)
  (I_add : forall P r w0 i, Inv P r -> at_most (worst rs r) w0 -> let r' := if below_worst (dist D acc q i) w0 then add rs r (dist D acc q i) i else r in Inv (P ++ [i]) r' /\ at_most (worst rs r') w0)
  (I_skip : forall P r w l, Inv P r -> worst rs r = Some w -> (forall i, In i l -> w * ed < dist D acc q i * en) -> Inv (P ++ l) r).
Lemma at_most_refl w : at_most w w.
Proof. destruct w as [w|]; cbn; [exists w; split; [reflexivity|lia]|exact I]. Qed.
Lemma search_spec : forall t dists P r, ok D t -> length dists = d_dim D -> lower dists (leaves t) -> Inv P r ->
  let '(r', dists') := search D acc rs en ed q t (tot (fun c => nth c dists 0) (d_dim D)) dists r in Inv (P ++ leaves t) r' /\ dists' = dists.
Proof.
  destruct MT as (M0 & M1 & M2). induction t as [ind|c low high t1 IH1 t2 IH2]; intros dists P r OK LD LO IN; cbn [search leaves].
  - split; [|reflexivity]. assert (G : forall l P r, Inv P r -> at_most (worst rs r) (worst rs r) -> forall w0, at_most (worst rs r) w0 -> Inv (P ++ l) (fold_left (fun r i => if below_worst (dist D acc q i) w0 then add rs r (dist D acc q i) i else r) l r)).
    { induction l as [|i l IHl]; intros P' r' IN' _ w0 AM; [rewrite app_nil_r; exact IN'|]. cbn [fold_left]. destruct (I_add P' r' w0 i IN' AM) as [X Y]. replace (P' ++ i :: l) with ((P' ++ [i]) ++ l) by (rewrite <- app_assoc; reflexivity).
      apply IHl; [exact X|apply at_most_refl|exact Y]. }
    apply G; [exact IN|apply at_most_refl|apply at_most_refl].
  - cbn [ok leaves] in *. destruct OK as (C & LH & A1 & A2 & O1 & O2).
    assert (L1 : lower dists (leaves t1)) by (intros i k I K; apply LO; [apply in_or_app; auto|exact K]). assert (L2 : lower dists (leaves t2)) by (intros i k I K; apply LO; [apply in_or_app; auto|exact K]).
    assert (OTHER : forall (t : tree) cut P' r', (forall dists P r, ok D t -> length dists = d_dim D -> lower dists (leaves t) -> Inv P r -> let '(r', dists') := search D acc rs en ed q t (tot (fun c => nth c dists 0) (d_dim D)) dists r in Inv (P ++ leaves t) r' /\ dists' = dists) ->
       ok D t -> lower dists (leaves t) -> (forall i, In i (leaves t) -> cut <= acc (q c) (pt D i c)) -> Inv P' r' ->
       let '(r'', d'') := if match worst rs r' with None => true | Some w => (tot (fun c => nth c dists 0) (d_dim D) + cut - nth c dists 0) * en <=? w * ed end then search D acc rs en ed q t (tot (fun c => nth c dists 0) (d_dim D) + cut - nth c dists 0) (upd dists c cut) r' else (r', upd dists c cut) in
       Inv (P' ++ leaves t) r'' /\ upd d'' c (nth c dists 0) = dists).
    { intros t cut P' r' IH OT LT CT IN'. assert (LU : lower (upd dists c cut) (leaves t)).
      { intros i k I K. rewrite nth_upd. destruct (Nat.eqb_spec k c) as [->|]; cbn [andb]; [|apply LT; assumption]. destruct (Nat.ltb_spec c (length dists)); [apply CT, I|lia]. }
      assert (BACK : upd (upd dists c cut) c (nth c dists 0) = dists) by (rewrite upd_upd; apply upd_same; lia).
      rewrite <- (tot_upd dists c cut) by lia. assert (SEA := IH (upd dists c cut) P' r' OT ltac:(rewrite upd_length; exact LD) LU IN').
      destruct (worst rs r') as [w|] eqn:W.
      - destruct (Z.leb_spec (tot (fun k => nth k (upd dists c cut) 0) (d_dim D) * en) (w * ed)) as [LE|GT].
        + destruct (search D acc rs en ed q t _ _ r') as [r'' d'']. destruct SEA as [X ->]. auto.
        + split; [|exact BACK]. apply (I_skip P' r' w); [exact IN'|exact W|]. intros i I. assert (Q := lower_dist _ _ i LU I). nia.
      - destruct (search D acc rs en ed q t _ _ r') as [r'' d'']. destruct SEA as [X ->]. auto. }
    destruct (Z.ltb_spec (q c - low + (q c - high)) 0) as [FI|FI].
    + assert (S1 := IH1 dists P r O1 LD L1 IN). destruct (search D acc rs en ed q t1 _ dists r) as [r1 d1]. destruct S1 as [IN1 ->].
      assert (S2 := OTHER t2 (acc (q c) high) (P ++ leaves t1) r1 IH2 O2 L2 ltac:(intros i I; apply M1; specialize (A2 i I); lia) IN1).
      destruct (if match worst rs r1 with None => true | Some w => _ end then _ else _) as [r2 d2]. destruct S2 as [IN2 E2]. rewrite E2. split; [rewrite app_assoc; exact IN2|reflexivity].
    + assert (S1 := IH2 dists P r O2 LD L2 IN). destruct (search D acc rs en ed q t2 _ dists r) as [r1 d1]. destruct S1 as [IN1 ->].
      assert (S2 := OTHER t1 (acc (q c) low) (P ++ leaves t2) r1 IH1 O1 L1 ltac:(intros i I; apply M2; specialize (A1 i I); lia) IN1).
      destruct (if match worst rs r1 with None => true | Some w => _ end then _ else _) as [r2 d2]. destruct S2 as [IN2 E2]. rewrite E2. split; [|reflexivity]. apply (I_perm ((P ++ leaves t2) ++ leaves t1)); [|exact IN2]. rewrite <- app_assoc. apply Permutation_app_head, Permutation_app_comm.
Qed.
Lemma find_spec fuel index r : indexable D -> (d_count D <= fuel)%nat -> build fuel D = Some index -> Inv [] r -> Inv (seq 0 (d_count D)) (find D acc rs en ed q index r).
Proof.
  intros ID F E IN. destruct (build_spec D fuel ID F) as (index' & E' & H). rewrite E in E'. injection E' as <-. destruct index as [[t b]|]; cbn [find]; [|rewrite H; exact IN].
  destruct H as (P & OK & BX & NZ). assert (Q := initial_spec b (seq 0 (d_count D)) ltac:(destruct (d_count D); [congruence|discriminate]) BX). destruct (initial D acc q b) as [dists d]. destruct Q as (L & -> & LO).
  assert (S := search_spec t dists [] r OK L ltac:(intros i c I C; apply LO; [apply (Permutation_in _ P I)|exact C]) IN). destruct (search D acc rs en ed q t _ dists r) as [r' d']. destruct S as [X _]. cbn [fst app] in *. apply (I_perm (leaves t)); assumption.
Qed.
End SEARCH.
