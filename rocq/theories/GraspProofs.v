(** Proofs for grasp sets. *)
From Coq Require Import List Bool Arith Lia.
From Verif Require Import GraspModel GraspSpec.
Import ListNotations.

Lemma has_spec : forall s g, has_grasp s g = true <-> In g (grasps s).
Proof.
  intros s g. unfold has_grasp. rewrite existsb_exists. split.
  - intros (x & I & E). apply Nat.eqb_eq in E. subst. exact I.
  - intros I. exists g. split; [exact I|apply Nat.eqb_refl].
Qed.
Lemma compatible_spec : forall h s g, compatible h s g = true <-> gtype (h g) = stype s /\ geef (h g) = seef s.
Proof. intros h s g. unfold compatible. rewrite andb_true_iff, !Nat.eqb_eq. reflexivity. Qed.
Lemma add_debug : forall h s g s', add true h s (Some g) = Some s' <-> ~ In g (grasps s) /\ (gtype (h g) = stype s /\ geef (h g) = seef s) /\ s' = with_grasps s (grasps s ++ [g]).
Proof.
  intros h s g s'. unfold add. cbn [andb]. rewrite <- has_spec, <- compatible_spec. destruct (has_grasp s g); cbn [orb]; [intuition congruence|]. destruct (compatible h s g); cbn [negb]; intuition congruence.
Qed.
Lemma nodup_snoc : forall (l : list nat) o, NoDup l -> ~ In o l -> NoDup (l ++ [o]).
Proof. intros l o H N. apply NoDup_rev in H. rewrite <- rev_involutive, rev_app_distr. apply NoDup_rev. cbn. constructor; [rewrite <- in_rev; exact N|exact H]. Qed.
Lemma add_proper : forall h s g s', proper h s -> add true h s (Some g) = Some s' -> proper h s' /\ stype s' = stype s /\ seef s' = seef s.
Proof.
  intros h s g s' [P1 P2] A. apply add_debug in A. destruct A as (N & C & ->). cbn [with_grasps stype seef]. split; [|auto]. split; cbn [grasps stype seef with_grasps].
  - apply nodup_snoc; assumption.
  - intros x I. apply in_app_or in I. destruct I as [I|[<-|[]]]; auto.
Qed.
Lemma erase_filter : forall o l, NoDup l -> erase o l = filter (fun x => negb (x =? o)) l.
Proof.
  induction l as [|y l IH]; intros ND; cbn [erase filter]; [reflexivity|]. inversion ND as [|a b N1 N2]. subst. destruct (y =? o) eqn:E; cbn [negb].
  - apply Nat.eqb_eq in E. subst. clear - N1. induction l as [|z l IH]; [reflexivity|]. cbn [filter]. destruct (z =? o) eqn:F.
    + apply Nat.eqb_eq in F. subst. exfalso. apply N1. left. reflexivity.
    + cbn [negb]. f_equal. apply IH. intros I. apply N1. right. exact I.
  - f_equal. apply IH, N2.
Qed.
Lemma remove_proper : forall h s g, proper h s -> proper h (fst (remove s g)) /\ stype (fst (remove s g)) = stype s /\ seef (fst (remove s g)) = seef s.
Proof.
  intros h s g [P1 P2]. unfold remove. destruct (has_grasp s g); [|split; [split; assumption|auto]]. cbn [fst with_grasps stype seef]. split; [|auto]. split; cbn [grasps stype seef with_grasps].
  - rewrite erase_filter by exact P1. apply NoDup_filter, P1.
  - intros x I. rewrite erase_filter in I by exact P1. apply filter_In in I. apply P2. tauto.
Qed.
Lemma include_proper_fold : forall h l s s', proper h s -> fold_left (fun o g => match o with None => None | Some s => if has_grasp s g then Some s else add true h s (Some g) end) l (Some s) = Some s' -> proper h s' /\ stype s' = stype s /\ seef s' = seef s.
Proof.
  intros h. induction l as [|g l IH]; intros s s' P H; cbn [fold_left] in H.
  - injection H as <-. auto.
  - destruct (has_grasp s g); [apply IH; assumption|]. destruct (add true h s (Some g)) as [t|] eqn:A.
    + destruct (add_proper h s g t P A) as (P' & E1 & E2). destruct (IH t s' P' H) as (Q & E3 & E4). split; [exact Q|]. split; congruence.
    + exfalso. clear - H. induction l; cbn [fold_left] in H; [discriminate|auto].
Qed.
Lemma step_proper : forall h s p s', proper h s -> step true h s p = Some s' -> proper h s' /\ stype s' = stype s /\ seef s' = seef s.
Proof.
  intros h s [[g|]|t|g|i|] s' P H; cbn [step] in H.
  - apply (add_proper h s g s' P H).
  - discriminate.
  - apply (include_proper_fold h (grasps t) s s' P H).
  - injection H as <-. apply remove_proper, P.
  - injection H as <-. unfold remove_at. destruct (get_at s i); [apply remove_proper, P|auto].
  - injection H as <-. cbn. split; [split; [constructor|intros x []]|auto].
Qed.
Lemma run_proper : forall h l s s', proper h s -> run true h s l = Some s' -> proper h s' /\ stype s' = stype s /\ seef s' = seef s.
Proof.
  intros h. induction l as [|p l IH]; intros s s' P H; cbn [run] in H.
  - injection H as <-. auto.
  - destruct (step true h s p) as [t|] eqn:E; [|discriminate]. destruct (step_proper h s p t P E) as (P' & E1 & E2). destruct (IH t s' P' H) as (Q & E3 & E4). split; [exact Q|]. split; congruence.
Qed.
Lemma include_fold : forall debug h l s, NoDup l -> (forall g, In g l -> ~ In g (grasps s) -> gtype (h g) = stype s /\ geef (h g) = seef s) ->
  fold_left (fun o g => match o with None => None | Some s => if has_grasp s g then Some s else add debug h s (Some g) end) l (Some s) = Some (with_grasps s (grasps s ++ filter (fun g => negb (has_grasp s g)) l)).
Proof.
  intros debug h. induction l as [|g l IH]; intros s ND C; cbn [fold_left filter].
  - rewrite app_nil_r. destruct s. reflexivity.
  - inversion ND as [|a b N1 N2]. subst. destruct (has_grasp s g) eqn:H; cbn [negb].
    + apply IH; [exact N2|]. intros x I. apply C. right. exact I.
    + assert (N : ~ In g (grasps s)) by (intros I; apply has_spec in I; congruence).
      assert (A : add debug h s (Some g) = Some (with_grasps s (grasps s ++ [g]))).
      { unfold add. rewrite H. cbn [orb]. rewrite (proj2 (compatible_spec h s g) (C g (or_introl eq_refl) N)). cbn [negb]. rewrite andb_false_r. reflexivity. }
      rewrite A, IH; [|exact N2|].
      * cbn [with_grasps grasps stype seef]. f_equal. unfold with_grasps. cbn [stype seef]. f_equal. rewrite <- app_assoc. cbn [app]. f_equal. f_equal.
        clear - N1. induction l as [|x l IH]; [reflexivity|]. cbn [filter]. rewrite IH by (intros I; apply N1; right; exact I). unfold has_grasp. cbn [grasps]. rewrite existsb_app. cbn [existsb]. rewrite orb_false_r.
        destruct (x =? g) eqn:E; [apply Nat.eqb_eq in E; subst; exfalso; apply N1; left; reflexivity|]. rewrite orb_false_r. reflexivity.
      * cbn [with_grasps grasps stype seef]. intros x I Nx. apply C; [right; exact I|]. intros J. apply Nx, in_or_app. auto.
Qed.
Lemma find_first : forall (f : nat -> bool) l, match find f l with
  | Some g => exists i, nth_error l i = Some g /\ f g = true /\ forall j x, j < i -> nth_error l j = Some x -> f x = false
  | None => forall x, In x l -> f x = false end.
Proof.
  intros f. induction l as [|y l IH]; cbn [find]; [intros x []|]. destruct (f y) eqn:F.
  - exists 0. split; [reflexivity|]. split; [exact F|]. intros j x L. lia.
  - destruct (find f l) as [g|].
    + destruct IH as (i & A & B & C). exists (S i). split; [exact A|]. split; [exact B|]. intros [|j] x L E; cbn [nth_error] in E; [injection E as <-; exact F|]. apply (C j x); [lia|exact E].
    + intros x [<-|I]; auto.
Qed.
Lemma erase_nth : forall l i g, NoDup l -> nth_error l i = Some g -> erase g l = firstn i l ++ skipn (S i) l.
Proof.
  induction l as [|y l IH]; intros [|i] g ND E; try discriminate; cbn [nth_error] in E; inversion ND as [|a b N1 N2]; subst.
  - injection E as ->. cbn [erase firstn skipn app]. rewrite Nat.eqb_refl. reflexivity.
  - cbn [erase]. destruct (y =? g) eqn:F; [apply Nat.eqb_eq in F; subst; apply nth_error_In in E; contradiction|]. cbn [firstn skipn app]. f_equal. rewrite (IH i g N2 E). reflexivity.
Qed.
Lemma set_preshape_fold : forall p l h x, fold_left (fun h g => set_one p g h) l h x = if existsb (Nat.eqb x) l then Grasp (gname (h x)) (gtype (h x)) (geef (h x)) p (rest (h x)) else h x.
Proof.
  intros p. induction l as [|g l IH]; intros h x; cbn [fold_left existsb]; [reflexivity|]. rewrite IH. unfold set_one. destruct (x =? g); cbn [orb]; [|reflexivity]. cbn [gname gtype geef rest]. destruct (existsb _ l); reflexivity.
Qed.
Lemma clone_fold : forall debug l h s' a, (forall x, In x (grasps s') -> x < a) -> (forall g, In g l -> g < a) -> (forall g, In g l -> gtype (h g) = stype s' /\ geef (h g) = seef s') ->
  exists h', fold_left (clone_step debug) l (Some (h, s', a)) = Some (h', with_grasps s' (grasps s' ++ seq a (length l)), a + length l) /\
  (forall x, x < a -> h' x = h x) /\ (forall i g, nth_error l i = Some g -> h' (a + i) = h g) /\ (forall x, a + length l <= x -> h' x = h x).
Proof.
  intros debug. induction l as [|g l IH]; intros h s' a S' L C; cbn [fold_left].
  - exists h. cbn [length seq]. rewrite app_nil_r, Nat.add_0_r. split; [destruct s'; reflexivity|]. split; [reflexivity|]. split; [intros [|i] g E; discriminate|reflexivity].
  - set (h1 := clone_grasp h g a).
    assert (HA : h1 a = h g) by (unfold h1, clone_grasp; rewrite Nat.eqb_refl; reflexivity). assert (HO : forall x, x <> a -> h1 x = h x) by (intros x N; unfold h1, clone_grasp; apply Nat.eqb_neq in N; rewrite N; reflexivity).
    assert (A : add debug h1 s' (Some a) = Some (with_grasps s' (grasps s' ++ [a]))).
    { unfold add. assert (N : has_grasp s' a = false) by (destruct (has_grasp s' a) eqn:E; [|reflexivity]; apply has_spec in E; apply S' in E; lia). rewrite N. cbn [orb].
      assert (K : compatible h1 s' a = true) by (apply compatible_spec; rewrite HA; apply C; left; reflexivity). rewrite K. cbn [negb]. rewrite andb_false_r. reflexivity. }
    unfold clone_step at 2. fold h1. rewrite A. destruct (IH h1 (with_grasps s' (grasps s' ++ [a])) (S a)) as (h' & E & B1 & B2 & B3).
    + cbn [with_grasps grasps]. intros x I. apply in_app_or in I. destruct I as [I|[<-|[]]]; [apply S' in I; lia|lia].
    + intros x I. specialize (L x (or_intror I)). lia.
    + intros x I. cbn [with_grasps stype seef]. rewrite HO by (specialize (L x (or_intror I)); lia). apply C. right. exact I.
    + exists h'. rewrite E. cbn [with_grasps grasps stype seef length seq]. rewrite <- app_assoc. cbn [app]. replace (S a + length l) with (a + S (length l)) by lia. split; [reflexivity|]. split; [|split].
      * intros x X. rewrite B1, HO by lia. reflexivity.
      * intros [|i] x Ex; cbn [nth_error] in Ex.
        -- injection Ex as <-. rewrite Nat.add_0_r, B1 by lia. exact HA.
        -- replace (a + S i) with (S a + i) by lia. rewrite (B2 i x Ex). apply HO. apply nth_error_In in Ex. specialize (L x (or_intror Ex)). lia.
      * intros x X. rewrite B3, HO by lia. reflexivity.
Qed.
