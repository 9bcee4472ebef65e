From Coq Require Import Reals List Bool ZArith Lia Lra.
From Verif Require Import AngleSpec AngleModel AngleProofs SampledModel SampledSpec SampledProofs SampledPlanModel SampledPlanProofs
  MetricSpec MetricProofs TrajModel TrajSpec TrajProofs ShortcutModel ShortcutSpec.
Import ListNotations.
Open Scope nat_scope.

Lemma skipn_skipn : forall {T} a b (l : list T), skipn a (skipn b l) = skipn (a + b) l.
Proof.
  intros T a b. induction b as [|b IH]; intros l; [now rewrite Nat.add_0_r|].
  destruct l as [|x l]; [now rewrite !skipn_nil|]. rewrite Nat.add_succ_r. apply IH.
Qed.

Lemma split_two : forall (l : list config) s e, s < e -> e < length l ->
  exists A x M y B, l = A ++ x :: M ++ y :: B /\ length A = s /\ length M = e - 1 - s.
Proof.
  intros l s e Hse He.
  destruct (nth_error l s) as [x|] eqn:Ex; [|apply nth_error_None in Ex; lia].
  destruct (nth_error l e) as [y|] eqn:Ey; [|apply nth_error_None in Ey; lia].
  exists (firstn s l), x, (firstn (e - 1 - s) (skipn (S s) l)), y, (skipn (S e) l).
  split; [|split].
  - rewrite <- (firstn_skipn s l) at 1. f_equal. rewrite (skipn_nth _ _ _ Ex). f_equal.
    rewrite <- (firstn_skipn (e - 1 - s) (skipn (S s) l)) at 1. f_equal.
    rewrite skipn_skipn. replace (e - 1 - s + S s) with e by lia. now apply skipn_nth.
  - rewrite firstn_length. lia.
  - rewrite firstn_length, skipn_length. lia.
Qed.

Lemma erase_between_eq : forall M A x y B s, length A = s ->
  erase_between (length M) (A ++ x :: M ++ y :: B) s = A ++ x :: y :: B.
Proof.
  intros M. induction M as [|m M IH] using rev_ind; intros A x y B s Hs; [reflexivity|].
  rewrite app_length. cbn [length]. rewrite Nat.add_1_r. cbn [erase_between].
  rewrite <- (IH A x y B s Hs). f_equal. rewrite erase_eq.
  replace (A ++ x :: (M ++ [m]) ++ y :: B) with ((A ++ x :: M) ++ m :: y :: B) by (rewrite <- !app_assoc; reflexivity).
  rewrite firstn_exact by (rewrite app_length; cbn [length]; lia).
  replace ((A ++ x :: M) ++ m :: y :: B) with ((A ++ x :: M ++ [m]) ++ y :: B) by (rewrite <- !app_assoc; cbn [app]; rewrite <- !app_assoc; reflexivity).
  rewrite skipn_exact by (rewrite app_length; cbn [length]; rewrite app_length; cbn [length]; lia).
  rewrite <- app_assoc. reflexivity.
Qed.

Lemma nth_error_mid : forall {T} (A : list T) x B n, length A = n -> nth_error (A ++ x :: B) n = Some x.
Proof. intros T A x B n <-. rewrite nth_error_app2 by lia. now rewrite Nat.sub_diag. Qed.

Lemma insert_trajectory_eq : forall z (A N B : list config) n, length A = n -> insert_trajectory z (A ++ B) n N = A ++ N ++ B.
Proof.
  intros z A N B n Hn. change (run_edit z (A ++ B) (InsertTrajectory n N) = A ++ N ++ B). rewrite run_edit_eq. cbn [spec_edit].
  rewrite app_length. destruct (Nat.leb_spec n (length A + length B)); [|lia]. unfold spliced.
  now rewrite firstn_exact, skipn_exact by assumption.
Qed.

Lemma drop_ends : forall (a w : config) m, length (a :: m ++ [w]) = S (S (length m)) /\
  erase_position (erase_position (a :: m ++ [w]) (length (a :: m ++ [w]) - 1)) 0 = m.
Proof.
  intros a w m. assert (E : length (a :: m ++ [w]) = S (S (length m))) by (cbn [length]; rewrite app_length; cbn; lia).
  split; [assumption|]. rewrite E. replace (S (S (length m)) - 1) with (length (a :: m)) by (cbn; lia).
  rewrite (erase_eq (a :: m ++ [w])). change (a :: m ++ [w]) with ((a :: m) ++ [w]). rewrite firstn_exact by reflexivity.
  rewrite skipn_all2 by (rewrite app_length; cbn; lia). rewrite app_nil_r, erase_eq. reflexivity.
Qed.

Lemma fos_prefix : forall ds q1 q2 f l m g, forward_on_segment ds q1 q2 f (l ++ m) g -> (g <= 1)%R -> forward_on_segment ds q1 q2 f l 1.
Proof.
  intros ds q1 q2 f l m g H Hg. revert f H. induction l as [|a l IH]; intros f H.
  - apply fos_nil. apply fos_le in H. lra.
  - cbn [app] in H. inversion H; subst. econstructor; eauto.
Qed.

Lemma do_shortcut_ok : forall ds sp A x M y B, regular ds -> sized ds x -> sized ds y -> (0 < sp)%R ->
  exists N, forward_on_segment ds x y 0 N 1 /\
    do_shortcut ds sp (A ++ x :: M ++ y :: B) (length A) (length A + 1 + length M) =
    Some ((Z.of_nat (length M) + Z.of_nat (length N))%Z, A ++ x :: N ++ y :: B).
Proof.
  intros ds sp A x M y B Hr Hx Hy Hsp. unfold do_shortcut.
  destruct (Nat.leb_spec (length (A ++ x :: M ++ y :: B)) (length A)) as [H|_].
  { rewrite app_length in H. cbn in H. lia. }
  destruct (Nat.leb_spec (length (A ++ x :: M ++ y :: B)) (length A + 1 + length M)) as [H|_].
  { rewrite app_length in H. cbn in H. rewrite app_length in H. cbn in H. lia. }
  cbn [orb]. replace (length A + 1 + length M - 1 - length A) with (length M) by lia.
  rewrite erase_between_eq by reflexivity.
  rewrite (get_point_nth _ _ (length A) x) by now apply nth_error_mid.
  rewrite (get_point_nth _ _ (S (length A)) y).
  2:{ change (x :: y :: B) with ([x] ++ y :: B). rewrite app_assoc. apply nth_error_mid. rewrite app_length. cbn. lia. }
  destruct (steps_enough (calc_dist ds x y) sp (dist_nonneg ds x y) Hsp) as [S1 S2].
  destruct (create_path_ok ds sp x y _ Hr Hx Hy Hsp S1 S2) as (l & E & F & _). rewrite E.
  destruct (Nat.ltb_spec 2 (length (x :: l))) as [H2|H2].
  - destruct l as [|w l] using rev_ind; [cbn in H2; lia|]. clear IHl. destruct (drop_ends x w l) as [D1 D2].
    exists l. split.
    + inversion F as [|? h ? ? ? F1 F2 F3]; subst. apply fos_prefix in F3; [|lra].
      inversion F3 as [|? k ? ? ? G1 G2 G3]; subst; [apply fos_nil; lra|]. apply fos_cons with k; [lra|assumption|assumption].
    + rewrite D2, D1. change (x :: y :: B) with ([x] ++ y :: B). rewrite app_assoc.
      rewrite insert_trajectory_eq by (rewrite app_length; cbn; lia). rewrite <- app_assoc. cbn [app]. do 2 f_equal. lia.
  - exists []. split; [apply fos_nil; lra|]. cbn [app]. do 2 f_equal. cbn. lia.
Qed.

Lemma length_loop_eq : forall ds M A x y B i, length A = i ->
  length_loop ds (A ++ x :: M ++ y :: B) i (S (length M)) = total_length ds (x :: M ++ [y]).
Proof.
  intros ds M. induction M as [|m M IH]; intros A x y B i Hi.
  - cbn [length_loop app length total_length]. erewrite (nth_error_nth _ i), (nth_error_nth _ (S i)); [reflexivity| |].
    + change (A ++ x :: y :: B) with (A ++ [x] ++ y :: B). rewrite app_assoc. apply nth_error_mid. rewrite app_length. cbn. lia.
    + now apply nth_error_mid.
  - remember (S (length M)) as k. cbn [length]. rewrite <- Heqk. cbn [length_loop].
    change ((m :: M) ++ y :: B) with (m :: M ++ y :: B).
    erewrite (nth_error_nth _ i), (nth_error_nth _ (S i)).
    2:{ change (A ++ x :: m :: M ++ y :: B) with (A ++ [x] ++ m :: M ++ y :: B). rewrite app_assoc. apply nth_error_mid. rewrite app_length. cbn. lia. }
    2:{ now apply nth_error_mid. }
    change (total_length ds (x :: (m :: M) ++ [y])) with (calc_dist ds x m + total_length ds (m :: M ++ [y]))%R. f_equal.
    change (A ++ x :: m :: M ++ y :: B) with (A ++ [x] ++ m :: M ++ y :: B). rewrite app_assoc. subst k. apply IH. rewrite app_length. cbn. lia.
Qed.

Lemma consecutive_split : forall A x B u v, consecutive (A ++ x :: B) u v -> consecutive (A ++ [x]) u v \/ consecutive (x :: B) u v.
Proof.
  intros A x B u v (a & b & E). revert A E. induction a as [|c a IH]; intros A E.
  - destruct A as [|p [|q A]]; cbn in E; injection E; intros; subst.
    + right. exists [], b. reflexivity.
    + left. exists [], []. reflexivity.
    + left. exists [], (A ++ [x]). reflexivity.
  - destruct A as [|p A]; cbn in E; injection E; intros; subst.
    + right. exists (c :: a), b. reflexivity.
    + destruct (IH A H) as [(a' & b' & K)|K]; [left|now right]. exists (c :: a'), b'. cbn. now rewrite K.
Qed.

Lemma consecutive_app : forall A B u v, consecutive A u v -> consecutive (A ++ B) u v.
Proof. intros A B u v (a & b & ->). exists a, (b ++ B). rewrite <- !app_assoc. reflexivity. Qed.

Lemma consecutive_app_r : forall A B u v, consecutive B u v -> consecutive (A ++ B) u v.
Proof. intros A B u v (a & b & ->). exists (A ++ a), b. now rewrite <- app_assoc. Qed.

Lemma consecutive_splice : forall A x N y B M u v, consecutive (A ++ x :: N ++ y :: B) u v ->
  consecutive (A ++ x :: M ++ y :: B) u v \/ consecutive (x :: N ++ [y]) u v.
Proof.
  intros A x N y B M u v H. apply consecutive_split in H as [H|H].
  - left. change (A ++ x :: M ++ y :: B) with (A ++ [x] ++ M ++ y :: B). rewrite app_assoc. now apply consecutive_app.
  - change (x :: N ++ y :: B) with ((x :: N) ++ y :: B) in H. apply consecutive_split in H as [H|H]; [now right|left].
    change (A ++ x :: M ++ y :: B) with (A ++ (x :: M) ++ y :: B). rewrite app_assoc. now apply consecutive_app_r.
Qed.

Lemma same_ends_splice : forall A x N y B M, same_ends (A ++ x :: N ++ y :: B) (A ++ x :: M ++ y :: B).
Proof.
  intros A x N y B M. split.
  - now destruct A.
  - rewrite !rev_app_distr. cbn [rev]. rewrite !rev_app_distr. cbn [rev]. now destruct (rev B).
Qed.

Lemma fos_checked : forall ds free dcd x y N u v, sized ds x -> sized ds y ->
  sampled_path_valid ds free dcd max_depth x y = true -> forward_on_segment ds x y 0 N 1 ->
  consecutive (x :: N ++ [y]) u v -> checked_step ds free dcd u v.
Proof.
  intros ds free dcd x y N u v Hx Hy Hv HF (a & b & E).
  assert (G : forward_on_segment ds x y 0 (x :: N ++ [y]) 1).
  { apply fos_cons with 0%R; [lra|now apply at_fraction_0|]. apply fos_app with 1%R; [assumption|].
    apply fos_cons with 1%R; [lra|now apply at_fraction_1|apply fos_nil; lra]. }
  rewrite E in G. destruct (fos_consecutive _ _ _ _ _ _ _ _ _ G) as (p & q & ? & ? & ? & ? & ?).
  exists x, y, p, q. repeat split; auto; lra.
Qed.

Open Scope R_scope.

Lemma regular_unweighted : forall ds, regular ds -> regular (unweighted ds).
Proof. intros ds H d Hd. apply in_map_iff in Hd as (d' & <- & Hd). cbn. now apply H. Qed.

Lemma sized_unweighted : forall ds q, sized ds q -> sized (unweighted ds) q.
Proof. intros ds q H. unfold sized, unweighted. now rewrite map_length. Qed.

Lemma at_fraction_unweighted : forall f ds p q x, at_fraction f ds p q x -> at_fraction f (unweighted ds) p q x.
Proof. intros f ds p q x H. induction H; constructor; assumption. Qed.

Lemma fos_unweighted : forall ds x y f l g, forward_on_segment ds x y f l g -> forward_on_segment (unweighted ds) x y f l g.
Proof. intros ds x y f l g H. induction H; [now apply fos_nil|]. econstructor; eauto using at_fraction_unweighted. Qed.

Lemma fos_total : forall ds x y N f a g, regular ds -> 0 <= f -> g <= 1 -> at_fraction f ds x y a ->
  forward_on_segment ds x y f N g -> sized ds x -> sized ds y ->
  total_length ds (a :: N ++ [y]) = (1 - f) * calc_dist ds x y.
Proof.
  intros ds x y N f a g Hr Hf Hg Ha HN Hx Hy. revert a Ha. induction HN as [f g H|f h g q l H Hq Hl IH]; intros a Ha.
  - cbn. rewrite (dist_between ds f 1 x y a y); auto; try lra. now apply at_fraction_1.
  - pose proof (fos_le _ _ _ _ _ _ Hl). change (total_length ds (a :: (q :: l) ++ [y])) with (calc_dist ds a q + total_length ds (q :: l ++ [y])).
    rewrite (IH ltac:(lra) Hg q Hq). rewrite (dist_between ds f h x y a q); auto; lra.
Qed.

Lemma dist_le_norm : forall ds a b, calc_dist (unweighted ds) a b <= norm_diff a b.
Proof.
  intros ds a b. unfold calc_dist, norm_diff. apply sqrt_le_1_alt. revert a b.
  induction ds as [|d ds IH]; intros a b.
  - cbn. unfold norm2. induction (combine a b) as [|p l IHl]; cbn; [lra|].
    pose proof (Rle_0_sqr (snd p - fst p)). unfold Rsqr in *. lra.
  - destruct a as [|x a], b as [|y b]; try (cbn; lra). cbn [unweighted map calc_dist2 d_weight]. fold (unweighted ds).
    change (norm2 (x :: a) (y :: b)) with ((y - x) * (y - x) + norm2 a b).
    apply Rplus_le_compat; [|apply IH]. cbn [d_weight]. rewrite !Rmult_1_l.
    assert (K : Rabs (dim_delta (Dim (d_kind d) 1) x y) <= Rabs (y - x)).
    { unfold dim_delta. cbn [d_kind]. destruct (d_kind d); [rewrite Rabs_minus_sym; lra| |];
        rewrite Rabs_Rabsolu; apply angle_delta_shortest; exists 0%Z; ring. }
    apply Rsqr_le_abs_1 in K. exact K.
Qed.

(** The invariant of the shortcut loop with respect to the input path. *)
Definition improved (ds : list dim) (free : config -> bool) (dcd : R) (path l : list config) : Prop :=
  same_ends l path /\ Forall (sized ds) l /\
  total_length (unweighted ds) l <= total_length (unweighted ds) path /\
  (forall u v, consecutive l u v -> consecutive path u v \/ checked_step ds free dcd u v).

Lemma improved_refl : forall ds free dcd path, Forall (sized ds) path -> improved ds free dcd path path.
Proof. intros. split; [split; reflexivity|]. split; [assumption|]. split; [lra|]. now left. Qed.

Lemma improved_splice : forall ds free dcd path A x M y B N, regular ds ->
  improved ds free dcd path (A ++ x :: M ++ y :: B) -> Forall (sized ds) N ->
  total_length (unweighted ds) (x :: N ++ [y]) <= total_length (unweighted ds) (x :: M ++ [y]) ->
  (forall u v, consecutive (x :: N ++ [y]) u v -> checked_step ds free dcd u v) ->
  improved ds free dcd path (A ++ x :: N ++ y :: B).
Proof.
  intros ds free dcd path A x M y B N Hr (HE & HS & HL & HC) HN HT Hc. split; [|split; [|split]].
  - destruct (same_ends_splice A x N y B M) as [E1 E2], HE as [E3 E4]. split; congruence.
  - rewrite !Forall_app in *. destruct HS as [S1 S2]. inversion S2; subst. rewrite Forall_app in H2. destruct H2.
    split; [assumption|]. constructor; [assumption|]. rewrite Forall_app. now split.
  - rewrite total_app in HL |- *.
    change (x :: N ++ y :: B) with ((x :: N) ++ y :: B). change (x :: M ++ y :: B) with ((x :: M) ++ y :: B) in HL.
    rewrite (total_app _ (x :: N)). rewrite (total_app _ (x :: M)) in HL. cbn [app] in *. lra.
  - intros u v H. apply (consecutive_splice A x N y B M) in H as [H|H]; [now apply HC|right; now apply Hc].
Qed.

Lemma select_ok : forall n md r1 r2 s e, select_candidates n md r1 r2 = Some (s, e) -> (s + 1 < e < n)%nat.
Proof.
  intros n md r1 r2 s e H. unfold select_candidates in H. destruct (Nat.leb_spec n 2); [discriminate|].
  destruct (_ =? 0)%nat; [discriminate|].
  destruct ((_ || _ || _)%bool) eqn:E; [discriminate|]. injection H; intros; subst s e.
  apply orb_false_iff in E as [E E3]. apply orb_false_iff in E as [E1 E2].
  apply Nat.ltb_ge in E1, E2. apply Nat.leb_gt in E3. lia.
Qed.

Lemma try_ok : forall ds free dcd sp md r1 r2 path l, regular ds -> 0 < sp -> improved ds free dcd path l ->
  exists k l', try_shortcut ds free dcd sp md r1 r2 l = Some (k, l') /\ improved ds free dcd path l'.
Proof.
  intros ds free dcd sp md r1 r2 path l Hr Hsp Hi. unfold try_shortcut.
  destruct (select_candidates (length l) md r1 r2) as [[s e]|] eqn:E; [|eexists _, _; split; [reflexivity|assumption]].
  apply select_ok in E. destruct (split_two l s e ltac:(lia) ltac:(lia)) as (A & x & M & y & B & -> & HA & HM).
  destruct (valid_shortcut _ _ _ _ _ _) eqn:V; [|eexists _, _; split; [reflexivity|assumption]].
  unfold valid_shortcut in V. unfold path_length in V.
  destruct (Nat.ltb_spec e s); [lia|]. destruct (Nat.leb_spec (length (A ++ x :: M ++ y :: B)) e); [lia|]. cbn [orb] in V.
  replace (e - s)%nat with (S (length M)) in V by lia. rewrite length_loop_eq in V by assumption.
  rewrite (get_point_nth _ _ s x) in V by now apply nth_error_mid.
  rewrite (get_point_nth _ _ e y) in V.
  2:{ change (A ++ x :: M ++ y :: B) with (A ++ (x :: M) ++ y :: B). rewrite app_assoc. apply nth_error_mid. rewrite app_length. cbn. lia. }
  destruct (Rle_dec _ _) as [|Hd]; [discriminate|].
  assert (Hi' := Hi). destruct Hi' as (_ & HS & _).
  rewrite Forall_app in HS. destruct HS as [_ HS]. inversion HS as [|? ? Hx HS']; subst. rewrite Forall_app in HS'. destruct HS' as [_ HS'].
  inversion HS' as [|? ? Hy _]; subst.
  destruct (do_shortcut_ok ds sp A x M y B Hr Hx Hy Hsp) as (N & HN & D).
  replace (length A + 1 + length M)%nat with e in D by lia. rewrite D. eexists _, _. split; [reflexivity|].
  apply improved_splice with M; auto.
  - eapply fos_sized; eassumption.
  - rewrite (fos_total (unweighted ds) x y N 0 x 1); auto using regular_unweighted, sized_unweighted, fos_unweighted; try lra.
    2:{ apply at_fraction_0; now apply sized_unweighted. }
    pose proof (dist_le_norm ds x y). pose proof (total_nonneg (unweighted ds) (x :: M ++ [y])). lra.
  - intros u v. apply (fos_checked ds free dcd x y N); assumption.
Qed.

Lemma shorten_loop_ok : forall ds free dcd sp md rand stop count i path l, regular ds -> 0 < sp -> improved ds free dcd path l ->
  exists l', shorten_loop ds free dcd sp md rand stop count i l = Some l' /\ improved ds free dcd path l'.
Proof.
  intros ds free dcd sp md rand stop count. induction count as [|count IH]; intros i path l Hr Hsp Hi; cbn [shorten_loop].
  - eauto.
  - destruct (stop i); [eauto|]. destruct (try_ok ds free dcd sp md (fst (rand i)) (snd (rand i)) path l Hr Hsp Hi) as (k & l' & -> & Hi').
    now apply IH.
Qed.

Lemma shorten_ok : forall ds free dcd sp loops md rand stop path, regular ds -> 0 < sp -> Forall (sized ds) path ->
  exists l, shorten ds free dcd sp loops md rand stop path = Some l /\ improved ds free dcd path l.
Proof.
  intros ds free dcd sp loops md rand stop path Hr Hsp Hs. unfold shorten. rewrite clone_eq.
  pose proof (improved_refl ds free dcd path Hs). destruct (length path <=? 2)%nat; [eauto|]. now apply shorten_loop_ok.
Qed.

(** * Pruning *)

Lemma erase_mid : forall (A : list config) x m B i, length A = i -> erase_position (A ++ x :: m :: B) (S i) = A ++ x :: B.
Proof.
  intros A x m B i Hi. rewrite erase_eq. change (A ++ x :: m :: B) with (A ++ [x] ++ m :: B). rewrite app_assoc.
  rewrite firstn_exact by (rewrite app_length; cbn; lia). change ((A ++ [x]) ++ m :: B) with ((A ++ [x]) ++ [m] ++ B).
  rewrite app_assoc. rewrite skipn_exact by (rewrite !app_length; cbn; lia). now rewrite <- app_assoc.
Qed.

Definition no_shortcut (ds : list dim) (free : config -> bool) (dcd : R) (k : nat) (l : list config) : Prop :=
  forall A x m y B, l = A ++ x :: m :: y :: B -> (length A < k)%nat -> sampled_path_valid ds free dcd max_depth x y = false.

Lemma before_last_two_ok : forall i n, (2 <= n)%nat -> (Z.of_nat n < 2 ^ 32)%Z -> before_last_two i n = (i <? n - 2)%nat.
Proof.
  intros i n H1 H2. unfold before_last_two. rewrite Z.mod_small by lia.
  destruct (Nat.ltb_spec i (n - 2)), (Z.ltb_spec (Z.of_nat i) (Z.of_nat n - 2)); lia || reflexivity.
Qed.

Lemma prune_loop_ok : forall fuel ds free dcd i l path, regular ds -> improved ds free dcd path l ->
  (2 <= length l)%nat -> (Z.of_nat (length l) < 2 ^ 32)%Z -> (i <= length l - 2)%nat -> (2 * length l - i < fuel)%nat ->
  no_shortcut ds free dcd i l ->
  exists l', prune_loop fuel ds free dcd i l = Some l' /\ improved ds free dcd path l' /\ (2 <= length l' <= length l)%nat /\
    no_shortcut ds free dcd (length l') l'.
Proof.
  induction fuel as [|fuel IH]; intros ds free dcd i l path Hr Hi Hn Hmax Hil Hfu Hno; [lia|]. cbn [prune_loop].
  rewrite before_last_two_ok by assumption. destruct (Nat.ltb_spec i (length l - 2)) as [H|H].
  2:{ exists l. split; [reflexivity|]. split; [assumption|]. split; [lia|]. intros A x m y B E _. apply (Hno A x m y B E).
      assert (L := f_equal (@length _) E). rewrite app_length in L. cbn in L. lia. }
  destruct (split_two l i (i + 2) ltac:(lia) ltac:(lia)) as (A & x & M & y & B & -> & HA & HM).
  destruct M as [|m [|? M]]; cbn [length] in HM; try lia. cbn [app] in *.
  rewrite (get_point_nth _ _ i x) by now apply nth_error_mid.
  rewrite (get_point_nth _ _ (i + 2) y).
  2:{ change (A ++ x :: m :: y :: B) with (A ++ [x; m] ++ y :: B). rewrite app_assoc. apply nth_error_mid. rewrite app_length. cbn. lia. }
  rewrite app_length in *. cbn [length] in *.
  destruct (sampled_path_valid ds free dcd max_depth x y) eqn:V.
  - rewrite erase_mid by assumption.
    assert (Hi' := Hi). destruct Hi' as (_ & HS & _). rewrite Forall_app in HS. destruct HS as [_ HS].
    inversion HS as [|? ? Hx HS']; subst. inversion HS' as [|? ? Hm HS'']; subst. inversion HS'' as [|? ? Hy _]; subst.
    assert (IMP : improved ds free dcd path (A ++ x :: [] ++ y :: B)).
    { apply improved_splice with [m]; auto.
      - cbn [app total_length]. pose proof (dist_triangle (unweighted ds) x m y). 
        assert (calc_dist (unweighted ds) x y <= calc_dist (unweighted ds) x m + calc_dist (unweighted ds) m y) by (apply H0; now apply sized_unweighted).
        lra.
      - intros u v (a & b & E). assert (u = x /\ v = y) as [-> ->].
        { destruct a as [|? [|? [|? a]]]; cbn in E; inversion E; subst; auto. }
        exists x, y, 0, 1. split; [assumption|]. split; [lra|]. split; [lra|]. split; [now apply at_fraction_0|now apply at_fraction_1]. }
    cbn [app] in IMP.
    destruct (IH ds free dcd (if 0 <? length A then length A - 1 else length A)%nat (A ++ x :: y :: B) path) as (l' & E & I & L & NS); auto.
    + rewrite app_length. cbn. lia.
    + rewrite app_length. cbn [length]. lia.
    + rewrite app_length. cbn [length]. destruct (Nat.ltb_spec 0 (length A)); lia.
    + rewrite app_length. cbn [length]. destruct (Nat.ltb_spec 0 (length A)); lia.
    + intros A' x' m' y' B' E HL. destruct (Nat.ltb_spec 0 (length A)); [|lia].
      apply (Hno A' x' m' y' (firstn (length A + 1 - (length A' + 3)) B' ++ m :: y :: B)); [|lia].
      assert (P : A' ++ x' :: m' :: y' :: B' = (A' ++ [x'; m'; y']) ++ B') by (rewrite <- app_assoc; reflexivity).
      rewrite P in E. assert (Q : A ++ x :: y :: B = (A ++ [x]) ++ y :: B) by (rewrite <- app_assoc; reflexivity). rewrite Q in E.
      assert (T : A ++ [x] = (A' ++ [x'; m'; y']) ++ firstn (length A + 1 - (length A' + 3)) B').
      { transitivity (firstn (length A + 1) ((A ++ [x]) ++ y :: B)); [now rewrite firstn_exact by (rewrite app_length; cbn; lia)|].
        rewrite E, firstn_app, firstn_all2 by (rewrite app_length; cbn; lia). rewrite app_length. reflexivity. }
      transitivity ((A ++ [x]) ++ m :: y :: B); [now rewrite <- app_assoc|]. rewrite T, <- !app_assoc. reflexivity.
    + exists l'. split; [exact E|]. split; [exact I|]. split; [|exact NS]. rewrite app_length in L. cbn [length] in L. lia.
  - destruct (IH ds free dcd (S i) (A ++ x :: m :: y :: B) path) as (l' & E & I & L & NS); auto; try (rewrite app_length; cbn [length]; lia).
    + intros A' x' m' y' B' E HL. assert (length A' < i \/ length A' = i)%nat as [K|K] by lia.
      * apply (Hno A' x' m' y' B' E K).
      * assert (A = A' /\ x = x' /\ m = m' /\ y = y') as (-> & -> & -> & ->); [|assumption].
        clear -E K HA. revert A' A i HA K E. induction A' as [|a A' IHA]; intros [|b A] i HA K E; cbn in *; try (subst; discriminate).
        -- inversion E; auto.
        -- injection E as -> E. destruct i; [discriminate|]. destruct (IHA A i ltac:(lia) ltac:(lia) E) as (-> & ? & ? & ?). auto.
    + exists l'. split; [exact E|]. split; [exact I|]. split; [|exact NS]. rewrite app_length in L. cbn [length] in L. lia.
Qed.

Lemma prune_ok : forall ds free dcd path, regular ds -> Forall (sized ds) path -> (2 <= length path)%nat ->
  (Z.of_nat (length path) < 2 ^ 32)%Z -> forall fuel, (2 * length path < fuel)%nat ->
  exists l, prune fuel ds free dcd path = Some l /\ improved ds free dcd path l /\ (2 <= length l <= length path)%nat /\
    no_shortcut ds free dcd (length l) l.
Proof.
  intros ds free dcd path Hr Hs Hn Hm fuel Hf. unfold prune. rewrite clone_eq.
  apply prune_loop_ok; auto using improved_refl; try lia. intros A x m y B _ H. lia.
Qed.

Lemma path_valid_self : forall ds free dcd depth p, 0 < dcd -> sampled_path_valid ds free dcd depth p p = free p.
Proof.
  intros ds free dcd depth p H. destruct depth; cbn [sampled_path_valid]; rewrite dist_self;
    (destruct (Rle_dec 0 (dcd * 1.001)); [reflexivity|exfalso; lra]).
Qed.

Lemma prune_endless : forall ds free dcd p fuel, 0 < dcd -> free p = true -> prune fuel ds free dcd [p] = None.
Proof.
  intros ds free dcd p fuel Hd Hp. unfold prune. rewrite clone_eq.
  induction fuel as [|fuel IH]; [reflexivity|]. cbn [prune_loop].
  replace (before_last_two 0 (length [p])) with true by (vm_compute; reflexivity).
  change (get_point (zero_config ds) [p] 0) with p. change (get_point (zero_config ds) [p] (0 + 2)) with p.
  rewrite path_valid_self by assumption. rewrite Hp. exact IH.
Qed.

Lemma checked_covered : forall ds free dcd x y, regular ds -> 0 < dcd -> checked_step ds free dcd x y ->
  covered ds free (1.001 * dcd) x y.
Proof.
  intros ds free dcd x y Hr Hd (p & q & u & v & V & Hu & Hv & Hx & Hy) z (h & Hh & Hz).
  destruct (at_fraction_sized _ _ _ _ _ Hx) as (Hp & Hq & _).
  destruct (path_valid_sound ds free dcd max_depth p q Hr Hd Hp Hq V) as (Hfq & m & C & F).
  assert (Hz' : at_fraction (u + h * (v - u)) ds p q z) by (eapply at_fraction_between; eauto; lra).
  assert (0 <= h * (v - u)) by (apply Rmult_le_pos; lra).
  assert (0 <= (1 - h) * (v - u)) by (apply Rmult_le_pos; lra).
  destruct m as [|a m].
  - inversion C; subst. exists q. split; [assumption|].
    assert (D : calc_dist ds z q = (1 - (u + h * (v - u))) * calc_dist ds q q) by (apply dist_between; auto; try lra; now apply at_fraction_1).
    rewrite D, dist_self. lra.
  - destruct (chain_covers ds (fun q => free q = true) (1.001 * dcd) p q p (a :: m) q 0 1 (u + h * (v - u)) z) as (w & Hw & D); auto; try lra.
    + now apply at_fraction_0.
    + now apply at_fraction_1.
    + discriminate.
    + exists w. split; [|assumption]. apply chain_Forall in C. rewrite Forall_forall in C. now apply C.
Qed.

(** * Elastic band *)

Lemma ends_middle : forall A B M N, A <> [] -> B <> [] -> same_ends (A ++ M ++ B) (A ++ N ++ B).
Proof.
  intros A B M N HA HB. split.
  - destruct A; [contradiction|reflexivity].
  - rewrite !rev_app_distr, <- !app_assoc. destruct B as [|b B] using rev_ind; [contradiction|]. rewrite rev_app_distr. reflexivity.
Qed.

Lemma same_ends_trans : forall a b c, same_ends a b -> same_ends b c -> same_ends a c.
Proof. intros a b c [H1 H2] [H3 H4]. split; congruence. Qed.

Lemma split_inner : forall (l : list config) i, (1 <= i < length l - 1)%nat ->
  exists A c B, l = A ++ c :: B /\ length A = i /\ A <> [] /\ B <> [].
Proof.
  intros l i H. destruct (nth_error l i) as [c|] eqn:E; [|apply nth_error_None in E; lia].
  exists (firstn i l), c, (skipn (S i) l). split; [|split; [|split]].
  - rewrite <- (skipn_nth _ _ _ E). symmetry. apply firstn_skipn.
  - rewrite firstn_length. lia.
  - intros K. apply (f_equal (@length _)) in K. rewrite firstn_length in K. cbn in K. lia.
  - intros K. apply (f_equal (@length _)) in K. rewrite skipn_length in K. cbn in K. lia.
Qed.

Lemma band_loop_ok : forall obstacle w count i l, (1 <= i)%nat -> (i + count <= length l - 1)%nat ->
  same_ends (band_loop obstacle w count i l) l /\ length (band_loop obstacle w count i l) = length l.
Proof.
  intros obstacle w count. induction count as [|count IH]; intros i l H1 H2; cbn [band_loop]; [repeat split|].
  destruct (obstacle (nth i l [])) as [fo|].
  - set (c' := vec_add _ _). destruct (split_inner l i ltac:(lia)) as (A & c & B & E & HA & NA & NB).
    assert (E' : firstn i l ++ c' :: skipn (S i) l = A ++ [c'] ++ B).
    { rewrite E. rewrite firstn_exact by assumption. change (A ++ c :: B) with (A ++ [c] ++ B). rewrite app_assoc.
      rewrite skipn_exact by (rewrite app_length; cbn; lia). reflexivity. }
    rewrite E'. assert (L : length (A ++ [c'] ++ B) = length l) by (rewrite E, !app_length; reflexivity).
    destruct (IH (S i) (A ++ [c'] ++ B)) as [I1 I2]; [lia|lia|]. split; [|congruence].
    eapply same_ends_trans; [exact I1|]. rewrite E. apply (ends_middle A B [c'] [c]); assumption.
  - apply IH; lia.
Qed.

Lemma remove_nodes_ok : forall fuel ds s i l, (1 <= i)%nat -> (2 <= length l)%nat ->
  same_ends (remove_nodes fuel ds s i l) l /\ (2 <= length (remove_nodes fuel ds s i l) <= length l)%nat.
Proof.
  induction fuel as [|fuel IH]; intros ds s i l H1 H2; cbn [remove_nodes]; [split; [split; reflexivity|lia]|].
  destruct (Nat.ltb_spec i (length l - 2)) as [H|H]; [|split; [split; reflexivity|lia]].
  destruct (Rlt_dec _ _); [|apply IH; lia].
  destruct (split_inner l i ltac:(lia)) as (A & c & B & -> & HA & NA & NB).
  assert (E : erase_position (A ++ c :: B) i = A ++ [] ++ B).
  { rewrite erase_eq, firstn_exact by assumption. change (A ++ c :: B) with (A ++ [c] ++ B). rewrite app_assoc.
    now rewrite skipn_exact by (rewrite app_length; cbn; lia). }
  rewrite E. rewrite app_length in H, H2. cbn [length] in H, H2.
  destruct (IH ds s (S i) (A ++ [] ++ B)) as [I1 I2]; [lia|cbn [app]; rewrite app_length; lia|]. cbn [app] in I2. rewrite !app_length in I2.
  split; [|rewrite app_length; cbn [length app] in *; lia].
  eapply same_ends_trans; [exact I1|]. apply (ends_middle A B [] [c]); assumption.
Qed.

Lemma band_steps_ok : forall obstacle w ds s count k l, (2 <= length l)%nat ->
  exists l', band_steps obstacle w ds s count k l = Band l' /\ same_ends l' l /\ (2 <= length l' <= length l)%nat.
Proof.
  intros obstacle w ds s count. induction count as [|count IH]; intros k l H; cbn [band_steps].
  - exists l. split; [reflexivity|]. split; [split; reflexivity|lia].
  - destruct (Nat.ltb_spec (length l) 2); [lia|].
    destruct (band_loop_ok (obstacle k) w (length l - 2) 1 l) as [B1 B2]; [lia|lia|].
    set (m := band_loop _ _ _ _ _) in *.
    destruct (remove_nodes_ok (length m) ds s 1 m) as [R1 R2]; [lia|lia|].
    destruct (IH (S k) (remove_nodes (length m) ds s 1 m)) as (l' & E & S' & L); [lia|].
    exists l'. split; [exact E|]. split; [|lia]. eapply same_ends_trans; [exact S'|]. eapply same_ends_trans; eassumption.
Qed.

Lemma norm_scale : forall f c, norm (scale f c) = Rabs f * norm c.
Proof.
  intros f c. unfold norm. rewrite <- sqrt_Rsqr_abs, <- sqrt_mult_alt by apply Rle_0_sqr. f_equal.
  unfold scale. induction c as [|x c IH]; cbn; [ring|]. rewrite IH. unfold Rsqr. ring.
Qed.

Lemma neighbor_bounded : forall b a n, norm (neighbor_force b a n) <= 20.
Proof.
  intros b a n. unfold neighbor_force. set (fc := scale _ _). destruct (Rlt_dec 20 (norm fc)) as [H|H]; [|lra].
  rewrite norm_scale. rewrite Rabs_right.
  - unfold Rdiv. rewrite Rmult_assoc, Rinv_l by lra. lra.
  - apply Rle_ge. apply Rlt_le, Rdiv_lt_0_compat; lra.
Qed.

(** * Examples *)

Definition rail : list dim := [Dim Linear 1].

Lemma rail_regular : regular rail.
Proof. intros d [<-|[]]; discriminate. Qed.

Lemma rail_valid : forall dcd a b, 1 <= dcd -> Rabs (a - b) <= 1 -> sampled_path_valid rail (fun _ => true) dcd max_depth [a] [b] = true.
Proof.
  intros dcd a b Hd H. apply path_valid_complete; auto using rail_regular; try lra; try reflexivity.
  unfold rail. rewrite dist1_linear. generalize max_depth. intros n. assert (1 <= 2 ^ n) by (apply pow_R1_Rle; lra).
  apply Rle_trans with (1 * 1); [lra|]. apply Rmult_le_compat; lra.
Qed.

Lemma rail_shortened : shorten rail (fun _ => true) 1 2 1 30 (fun _ => (0, 0)%nat) (fun _ => false) [[0]; [5]; [1]] = Some [[0]; [1]].
Proof.
  unfold shorten. rewrite clone_eq. change (Z.to_nat 1) with 1%nat. cbn [length Nat.leb shorten_loop fst snd]. unfold try_shortcut.
  change (select_candidates _ _ _ _) with (Some (0, 2)%nat). cbn iota beta.
  assert (V : valid_shortcut rail (fun _ => true) 1 [[0]; [5]; [1]] 0 2 = true).
  { unfold valid_shortcut. change (get_point (zero_config rail) [[0]; [5]; [1]] 0) with [0].
    change (get_point (zero_config rail) [[0]; [5]; [1]] 2) with [1].
    change (path_length (unweighted rail) [[0]; [5]; [1]] 0 2) with (calc_dist [Dim Linear 1] [0] [5] + (calc_dist [Dim Linear 1] [5] [1] + 0)).
    rewrite !dist1_linear. replace (norm_diff [0] [1]) with 1.
    2:{ unfold norm_diff, norm2. cbn. replace ((1 - 0) * (1 - 0) + 0) with (1 * 1) by ring. now rewrite sqrt_square by lra. }
    rewrite (Rabs_left (0 - 5)), (Rabs_right (5 - 1)) by lra.
    destruct (Rle_dec _ _); [lra|]. apply rail_valid; [lra|]. rewrite Rabs_left; lra. }
  rewrite V. unfold do_shortcut. cbn [length Nat.leb orb Nat.sub erase_between erase_position vec_erase Nat.add].
  change (get_point (zero_config rail) [[0]; [1]] 0) with [0]. change (get_point (zero_config rail) [[0]; [1]] 1) with [1].
  unfold sampled_create_path, steps.
  assert (D : calc_dist rail [0] [1] = 1) by (unfold rail; rewrite dist1_linear, Rabs_left; lra). rewrite D.
  destruct (Req_EM_T 1 0) as [E|_]; [lra|]. destruct (Rlt_dec 1 2) as [_|E]; [|lra].
  cbn [create_path_loop]. rewrite dist_self. destruct (Rle_dec 0 (2 * 1.05)); [|lra]. reflexivity.
Qed.

Lemma rail_not_saved : do_shortcut rail 5 [[0]; [7]; [10]] 0 2 = Some (2%Z, [[0]; [0 + 5 / 10 * (10 - 0)]; [10]]).
Proof.
  unfold do_shortcut. cbn [length Nat.leb orb Nat.sub erase_between erase_position vec_erase Nat.add].
  change (get_point (zero_config rail) [[0]; [10]] 0) with [0]. change (get_point (zero_config rail) [[0]; [10]] 1) with [10].
  unfold sampled_create_path, steps.
  assert (D : calc_dist rail [0] [10] = 10) by (unfold rail; rewrite dist1_linear, Rabs_left; lra). rewrite D.
  destruct (Req_EM_T 10 0); [lra|]. destruct (Rlt_dec 10 5); [lra|]. cbn [create_path_loop].
  change (interpolate rail [0] [10] (5 / 10)) with [0 + 5 / 10 * (10 - 0)].
  assert (D2 : calc_dist rail [0 + 5 / 10 * (10 - 0)] [10] = 5) by (unfold rail; rewrite dist1_linear, Rabs_left; lra). rewrite D2.
  destruct (Rle_dec 5 (5 * 1.05)); [|lra]. destruct (Rlt_dec 5 1e-6); [lra|]. cbn [orb].
  rewrite dist_self. destruct (Rle_dec 0 (5 * 1.05)); [|lra]. cbn. reflexivity.
Qed.

(** Two translational joints; the region x > 1/2, y < 7/2 is forbidden. *)
Definition plane : list dim := [Dim Linear 1; Dim Linear 1].
Definition corner_free (q : config) : bool :=
  match q with
  | [x; y] => if Rlt_dec (1/2) x then if Rlt_dec y (7/2) then false else true else true
  | _ => false
  end.
Definition around_corner : list config := [[0; 0]; [0; 4]; [4; 4]].

Lemma around_corner_free : forall x y z, consecutive around_corner x y -> on_segment plane x y z -> corner_free z = true.
Proof.
  intros x y z (a & b & E) (f & Hf & Hz).
  assert (x = [0; 0] /\ y = [0; 4] \/ x = [0; 4] /\ y = [4; 4]) as [[-> ->]|[-> ->]].
  { unfold around_corner in E. destruct a as [|? [|? [|? [|? a]]]]; cbn in E; inversion E; subst; auto. }
  - inversion Hz as [|? ? ? ? ? ? ? ? V1 Hz']; subst. inversion Hz' as [|? ? ? ? ? ? ? ? V2 Hz'']; subst. inversion Hz''; subst.
    unfold value_at in *. cbn [d_kind] in *. subst. cbn [corner_free]. destruct (Rlt_dec _ _); [lra|reflexivity].
  - inversion Hz as [|? ? ? ? ? ? ? ? V1 Hz']; subst. inversion Hz' as [|? ? ? ? ? ? ? ? V2 Hz'']; subst. inversion Hz''; subst.
    unfold value_at in *. cbn [d_kind] in *. subst. cbn [corner_free]. destruct (Rlt_dec _ _); [|reflexivity].
    destruct (Rlt_dec _ _); [lra|reflexivity].
Qed.

Lemma corner_cut : exists l, band_optimize (fun _ _ => Some [0; 0]) [1; 1] plane 0.1 1 around_corner = Band l /\
  nth_error l 1 = Some [0 + (0 + 0.5 * (0.5 * (0 - 0 + (4 - 0)))) * 1; 4 + (0 + 0.5 * (0.5 * (0 - 4 + (4 - 4)))) * 1].
Proof.
  unfold band_optimize. rewrite clone_eq. change (Z.to_nat 1) with 1%nat. unfold around_corner.
  cbn [band_steps length Nat.ltb Nat.leb Nat.sub band_loop nth remove_nodes].
  unfold neighbor_force. destruct (Rlt_dec 20 _) as [H|_].
  - exfalso. revert H. apply Rle_not_lt. unfold norm. cbn. rewrite <- (sqrt_square 20) by lra. apply sqrt_le_1_alt. lra.
  - cbn. eexists. split; reflexivity.
Qed.

Lemma prune_loop_more : forall fuel fuel' ds free dcd i l r, (fuel <= fuel')%nat ->
  prune_loop fuel ds free dcd i l = Some r -> prune_loop fuel' ds free dcd i l = Some r.
Proof.
  induction fuel as [|fuel IH]; intros [|fuel'] ds free dcd i l r H E; try discriminate; try lia. cbn [prune_loop] in *.
  destruct (before_last_two i (length l)); [|assumption].
  destruct (sampled_path_valid _ _ _ _ _ _); (eapply IH; [|eassumption]); lia.
Qed.

Lemma prune_more : forall fuel fuel' ds free dcd path r, (fuel <= fuel')%nat ->
  prune fuel ds free dcd path = Some r -> prune fuel' ds free dcd path = Some r.
Proof. intros fuel fuel' ds free dcd path r H. now apply prune_loop_more. Qed.
