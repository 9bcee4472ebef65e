(** C44: sets of grasps. *)
From Coq Require Import List Bool Arith Lia.
From Verif Require Import GraspModel GraspSpec GraspProofs.
Import ListNotations.

(** C44.  In a build with asserts, after any history of additions, inclusions of other sets, removals and clearings, the set holds every grasp
    once, and only grasps for its robot type and end effector. *)
Theorem C44_invariant : forall h l s s', proper h s -> run true h s l = Some s' -> proper h s'.
Proof. intros h l s s' P R. apply (run_proper h l s s' P R). Qed.

(** C44.  In such a build adding goes through exactly for a grasp that is not there and is compatible, and puts it at the end. *)
Theorem C44_add : forall h s g s', add true h s (Some g) = Some s' <->
  ~ In g (grasps s) /\ (gtype (h g) = stype s /\ geef (h g) = seef s) /\ s' = GSet (grasps s ++ [g]) (stype s) (seef s).
Proof. intros h s g s'. apply add_debug. Qed.

(** C44.  Without asserts a grasp can be added twice, and grasps for other end effectors can be added.  Removing one by its position then
    takes away an earlier entry, so that the order of the rest is not the order before. *)
Theorem C44_release_refuted : exists h s s', run false h (GSet [] 1 1) [Add (Some 5); Add (Some 6); Add (Some 5)] = Some s /\ ~ NoDup (grasps s) /\ geef (h 6) <> seef s /\
  s' = fst (remove_at s 2) /\ grasps s' <> firstn 2 (grasps s) ++ skipn 3 (grasps s).
Proof.
  exists (fun g => if g =? 6 then Grasp 1 1 2 0 0 else Grasp 0 1 1 0 0), (GSet [5; 6; 5] 1 1), (GSet [6; 5] 1 1). split; [reflexivity|]. split; [|split; [|split]].
  - cbn [grasps]. intros ND. inversion ND as [|a b N _]. apply N. right. left. reflexivity.
  - discriminate.
  - reflexivity.
  - discriminate.
Qed.

(** C44.  Including another set appends, in their order, its grasps that are not there yet; with or without asserts. *)
Theorem C44_include : forall debug h s t, NoDup (grasps t) -> (forall g, In g (grasps t) -> ~ In g (grasps s) -> gtype (h g) = stype s /\ geef (h g) = seef s) ->
  include debug h s t = Some (GSet (grasps s ++ filter (fun g => negb (existsb (Nat.eqb g) (grasps s))) (grasps t)) (stype s) (seef s)).
Proof. intros debug h s t ND C. apply (include_fold debug h (grasps t) s ND C). Qed.

(** C44.  hasGrasp answers whether the grasp, or one of the name, is in the list. *)
Theorem C44_has : forall h s, (forall g, has_grasp s g = true <-> In g (grasps s)) /\ (forall n, has_name h s n = true <-> exists g, In g (grasps s) /\ gname (h g) = n).
Proof.
  intros h s. split; [apply has_spec|]. intros n. unfold has_name. rewrite existsb_exists. split; intros (g & I & E); exists g; (split; [exact I|]); apply Nat.eqb_eq; exact E.
Qed.

(** C44.  getGrasp with a number gives the entry at that place, null outside; with a name the first entry of that name, null exactly if
    hasGrasp denies the name. *)
Theorem C44_get : forall h s, (forall i, get_at s i = nth_error (grasps s) i) /\
  (forall n g, get_name h s n = Some g -> exists i, nth_error (grasps s) i = Some g /\ gname (h g) = n /\ forall j x, j < i -> nth_error (grasps s) j = Some x -> gname (h x) <> n) /\
  (forall n, get_name h s n = None <-> has_name h s n = false).
Proof.
  intros h s. split; [|split].
  - intros i. unfold get_at. destruct (length (grasps s) <=? i) eqn:E; [|reflexivity]. symmetry. apply nth_error_None, Nat.leb_le, E.
  - intros n g H. pose proof (find_first (fun g => gname (h g) =? n) (grasps s)) as F. unfold get_name in H. rewrite H in F. destruct F as (i & A & B & C). exists i. split; [exact A|]. split; [apply Nat.eqb_eq, B|].
    intros j x L E. apply Nat.eqb_neq. apply (C j x L E).
  - intros n. unfold get_name, has_name. pose proof (find_first (fun g => gname (h g) =? n) (grasps s)) as F. destruct (find _ _) as [g|].
    + destruct F as (i & A & B & _). split; [discriminate|]. intros H. exfalso. assert (T : existsb (fun g => gname (h g) =? n) (grasps s) = true) by (apply existsb_exists; exists g; split; [apply (nth_error_In _ i), A|exact B]). congruence.
    + split; [intros _|reflexivity]. destruct (existsb _ _) eqn:X; [|reflexivity]. apply existsb_exists in X. destruct X as (x & I & Y). specialize (F x I). cbn beta in F. congruence.
Qed.

(** C44.  removeGrasp tells whether the grasp was there; afterwards it is not, and the others keep their order.  With a number the entry of
    that place goes. *)
Theorem C44_remove : forall h s, proper h s -> (forall g, snd (remove s g) = true <-> In g (grasps s)) /\
  (forall g, fst (remove s g) = GSet (filter (fun x => negb (x =? g)) (grasps s)) (stype s) (seef s)) /\
  (forall i, i < length (grasps s) -> remove_at s i = (GSet (firstn i (grasps s) ++ skipn (S i) (grasps s)) (stype s) (seef s), true)) /\
  (forall i, length (grasps s) <= i -> remove_at s i = (s, false)).
Proof.
  intros h s [ND _]. split; [|split; [|split]].
  - intros g. unfold remove. rewrite <- has_spec. destruct (has_grasp s g); cbn [snd]; reflexivity.
  - intros g. unfold remove. destruct (has_grasp s g) eqn:E; cbn [fst].
    + unfold with_grasps. rewrite erase_filter by exact ND. reflexivity.
    + assert (N : ~ In g (grasps s)) by (intros I; apply has_spec in I; congruence). rewrite <- erase_filter by exact ND.
      assert (X : erase g (grasps s) = grasps s). { clear - N. induction (grasps s) as [|y l IH]; [reflexivity|]. cbn [erase]. destruct (y =? g) eqn:E; [apply Nat.eqb_eq in E; subst; exfalso; apply N; left; reflexivity|]. f_equal. apply IH. intros I. apply N. right. exact I. }
      rewrite X. destruct s. reflexivity.
  - intros i L. unfold remove_at, get_at. apply Nat.leb_gt in L as L'. rewrite L'. destruct (nth_error (grasps s) i) as [g|] eqn:E; [|apply nth_error_None in E; lia].
    unfold remove. apply nth_error_In in E as I. apply has_spec in I. rewrite I. unfold with_grasps. rewrite (erase_nth _ i g ND E). reflexivity.
  - intros i L. unfold remove_at, get_at. apply Nat.leb_le in L. rewrite L. reflexivity.
Qed.

(** C44.  A clone of a set has new grasps, place by place with the data of the old ones, and the old ones keep theirs; it works with asserts
    whenever the grasps are compatible with their set. *)
Theorem C44_clone : forall debug h fresh s, proper h s -> (forall g, In g (grasps s) -> g < fresh) ->
  exists h' s', clone debug h fresh s = Some (h', s', fresh + length (grasps s)) /\ proper h' s' /\ stype s' = stype s /\ seef s' = seef s /\
  (forall g, g < fresh -> h' g = h g /\ ~ In g (grasps s')) /\ length (grasps s') = length (grasps s) /\
  (forall i g g', nth_error (grasps s) i = Some g -> nth_error (grasps s') i = Some g' -> h' g' = h g).
Proof.
  intros debug h fresh s [ND C] L. destruct (clone_fold debug (grasps s) h (clear s) fresh) as (h' & E & A & B & _).
  - intros x [].
  - exact L.
  - exact C.
  - exists h', (GSet (seq fresh (length (grasps s))) (stype s) (seef s)). split; [exact E|]. split; [split; cbn [grasps stype seef]|split; [reflexivity|split; [reflexivity|split; [|split]]]].
    + apply seq_NoDup.
    + intros g I. apply in_seq in I. destruct (nth_error (grasps s) (g - fresh)) as [x|] eqn:X; [|apply nth_error_None in X; lia].
      replace g with (fresh + (g - fresh)) by lia. rewrite (B _ x X). apply C. apply nth_error_In in X. exact X.
    + intros g G. split; [apply A, G|]. cbn [grasps]. rewrite in_seq. lia.
    + cbn [grasps]. apply seq_length.
    + cbn [grasps]. intros i g g' I I'. assert (J : i < length (grasps s)) by (apply nth_error_Some; congruence). assert (G : g' = fresh + i). { apply (nth_error_nth _ _ 0) in I'. rewrite seq_nth in I' by exact J. congruence. }
      subst. apply B, I.
Qed.

(** C44.  setPreshape gives the preshape to exactly the grasps of the set and leaves the rest of their data. *)
Theorem C44_preshape : forall h s p x, set_preshape h s p x = if existsb (Nat.eqb x) (grasps s) then Grasp (gname (h x)) (gtype (h x)) (geef (h x)) p (rest (h x)) else h x.
Proof. intros h s p x. apply set_preshape_fold. Qed.

Definition h0 : heap := fun g => Grasp g 1 1 0 g.
Example C44_witness : proper h0 (GSet [] 1 1) /\ run true h0 (GSet [] 1 1) [Add (Some 3); Add (Some 4); Include (GSet [4; 7] 1 1); Remove 3; RemoveAt 1; Add (Some 3)] = Some (GSet [4; 3] 1 1) /\
  get_name h0 (GSet [4; 3] 1 1) 3 = Some 3.
Proof. split; [split; [constructor|intros g []]|]. split; reflexivity. Qed.
Example C44_clone_witness : proper h0 (GSet [4; 3] 1 1) /\ exists h', clone true h0 10 (GSet [4; 3] 1 1) = Some (h', GSet [10; 11] 1 1, 12) /\ h' 11 = h0 3.
Proof. split; [split; [repeat constructor; cbn; intuition discriminate|cbn; intros g _; split; reflexivity]|]. eexists. split; [reflexivity|]. reflexivity. Qed.

Print Assumptions C44_invariant.
Print Assumptions C44_add.
Print Assumptions C44_release_refuted.
Print Assumptions C44_include.
Print Assumptions C44_has.
Print Assumptions C44_get.
Print Assumptions C44_remove.
Print Assumptions C44_clone.
Print Assumptions C44_preshape.
