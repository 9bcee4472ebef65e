(** Proofs for stored configurations. *)
From Coq Require Import Reals List Bool Arith Lia.
From Verif Require Import JointModel KinModel KinSpec KinProofs KinProps ConfigModel ConfigSpec.
Import ListNotations.

Lemma lookup_put : forall A k (v : A) l x, lookup x (put k v l) = if k =? x then Some v else lookup x l.
Proof.
  intros A k v l x. induction l as [|[y w] l IH]; cbn [put lookup].
  - destruct (k =? x); reflexivity.
  - destruct (y =? k) eqn:E; cbn [lookup].
    + apply Nat.eqb_eq in E. subst. destruct (k =? x); reflexivity.
    + rewrite IH. destruct (y =? x) eqn:F; [|reflexivity]. apply Nat.eqb_eq in F. subst. rewrite Nat.eqb_sym in E. rewrite E. reflexivity.
Qed.
Lemma put_keys : forall A k (v : A) l x, In x (map fst (put k v l)) <-> x = k \/ In x (map fst l).
Proof.
  intros A k v l x. induction l as [|[y w] l IH]; cbn [put map fst In].
  - intuition congruence.
  - destruct (y =? k) eqn:E; cbn [map fst In]; [apply Nat.eqb_eq in E; subst; intuition congruence|rewrite IH; intuition congruence].
Qed.
Lemma put_nodup : forall A k (v : A) l, NoDup (map fst l) -> NoDup (map fst (put k v l)).
Proof.
  intros A k v l. induction l as [|[y w] l IH]; intros ND; cbn [put map fst].
  - constructor; [intros []|constructor].
  - inversion ND as [|a b N1 N2]. subst. destruct (y =? k) eqn:E; cbn [map fst]; [exact ND|]. constructor; [|apply IH, N2]. intros I. apply put_keys in I. apply Nat.eqb_neq in E. destruct I as [->|I]; [congruence|contradiction].
Qed.
Lemma lookup_in : forall A k (v : A) l, lookup k l = Some v -> In (k, v) l.
Proof.
  intros A k v l. induction l as [|[y w] l IH]; cbn [lookup]; [discriminate|]. destruct (y =? k) eqn:E; [|right; apply IH; assumption]. intros [= ->]. apply Nat.eqb_eq in E. subst. left. reflexivity.
Qed.
Lemma in_lookup : forall A k (v : A) l, NoDup (map fst l) -> In (k, v) l -> lookup k l = Some v.
Proof.
  intros A k v l. induction l as [|[y w] l IH]; intros ND I; [destruct I|]; cbn [lookup]; inversion ND as [|a b N1 N2]; subst; destruct I as [E|I].
  - injection E as -> ->. rewrite Nat.eqb_refl. reflexivity.
  - destruct (y =? k) eqn:F; [|apply IH; assumption]. apply Nat.eqb_eq in F. subst. exfalso. apply N1. apply (in_map fst) in I. exact I.
Qed.
Lemma lookup_none : forall A k (l : list (nat * A)), lookup k l = None <-> ~ In k (map fst l).
Proof.
  intros A k l. induction l as [|[y w] l IH]; cbn [lookup map fst In]; [tauto|]. destruct (y =? k) eqn:E; [apply Nat.eqb_eq in E|apply Nat.eqb_neq in E].
  - split; [discriminate|intros H; exfalso; apply H; auto].
  - rewrite IH. tauto.
Qed.
Lemma has_node_spec : forall nm r x, has_node nm r x = true <-> lookup (nm x) (reg r) = Some x.
Proof.
  intros nm r x. unfold has_node. destruct (lookup (nm x) (reg r)) as [y|]; [|split; discriminate]. rewrite Nat.eqb_eq. split; [intros ->; reflexivity|intros [= ->]; reflexivity].
Qed.
Lemma named_lookup : forall nm r n x, named nm r -> lookup n (reg r) = Some x -> nm x = n.
Proof. intros nm r n x [_ N] H. apply N, lookup_in, H. Qed.
Lemma wanted_snoc : forall nm r h q n, wanted nm r (h ++ [q]) n = match q with
    | ByName m v => if m =? n then match lookup n (reg r) with Some _ => Some v | None => wanted nm r h n end else wanted nm r h n
    | ByNode x v => if nm x =? n then match lookup n (reg r) with Some y => if y =? x then Some v else wanted nm r h n | None => wanted nm r h n end else wanted nm r h n
    end.
Proof. intros nm r h q n. unfold wanted. rewrite fold_left_app. reflexivity. Qed.
(** The stored values are the wanted ones, and only nodes of the robot are stored. *)
Lemma store_inv : forall nm r h, named nm r -> let c := fold_left (store nm r) h [] in
  NoDup (map fst c) /\ (forall x, In x (map fst c) -> lookup (nm x) (reg r) = Some x) /\ (forall n x, lookup n (reg r) = Some x -> lookup x c = wanted nm r h n) /\
  (forall n, lookup n (reg r) = None -> wanted nm r h n = None).
Proof.
  intros nm r h NM. induction h as [|q h IH] using rev_ind; intros c.
  - split; [constructor|]. split; [intros x []|]. split; reflexivity.
  - unfold c. rewrite fold_left_app. cbn [fold_left]. set (c0 := fold_left (store nm r) h []) in *. destruct IH as (I0 & I1 & I2 & I3).
    assert (PUT : forall k y v, lookup k (reg r) = Some y -> (forall n, wanted nm r (h ++ [q]) n = if k =? n then Some v else wanted nm r h n) -> let c' := put y v c0 in
      NoDup (map fst c') /\ (forall x, In x (map fst c') -> lookup (nm x) (reg r) = Some x) /\ (forall n x, lookup n (reg r) = Some x -> lookup x c' = wanted nm r (h ++ [q]) n) /\ (forall n, lookup n (reg r) = None -> wanted nm r (h ++ [q]) n = None)).
    { intros k y v L W c'. unfold c'. split; [apply put_nodup, I0|]. split; [|split].
      - intros x I. apply put_keys in I. destruct I as [->|I]; [|apply I1, I]. rewrite (named_lookup nm r k y NM L). exact L.
      - intros n x H. rewrite lookup_put, W. destruct (k =? n) eqn:E.
        + apply Nat.eqb_eq in E. subst n. assert (x = y) by congruence. subst x. rewrite Nat.eqb_refl. reflexivity.
        + apply Nat.eqb_neq in E. destruct (y =? x) eqn:F; [|apply I2, H]. apply Nat.eqb_eq in F. subst x. apply (named_lookup nm r k y NM) in L. apply (named_lookup nm r n y NM) in H. congruence.
      - intros n H. rewrite W. destruct (k =? n) eqn:E; [apply Nat.eqb_eq in E; congruence|apply I3, H]. }
    assert (SAME : (forall n, wanted nm r (h ++ [q]) n = wanted nm r h n) ->
      NoDup (map fst c0) /\ (forall x, In x (map fst c0) -> lookup (nm x) (reg r) = Some x) /\ (forall n x, lookup n (reg r) = Some x -> lookup x c0 = wanted nm r (h ++ [q]) n) /\ (forall n, lookup n (reg r) = None -> wanted nm r (h ++ [q]) n = None)).
    { intros W. split; [exact I0|]. split; [exact I1|]. split; intros; rewrite W; auto. }
    destruct q as [m v|y v]; cbn [store set_name set_node].
    + destruct (lookup m (reg r)) as [y|] eqn:L; cbn [fst].
      * apply (PUT m y v L). intros n. rewrite wanted_snoc. destruct (m =? n) eqn:E; [|reflexivity]. apply Nat.eqb_eq in E. subst. rewrite L. reflexivity.
      * apply SAME. intros n. rewrite wanted_snoc. destruct (m =? n) eqn:E; [|reflexivity]. apply Nat.eqb_eq in E. subst. rewrite L. reflexivity.
    + destruct (has_node nm r y) eqn:H.
      * apply has_node_spec in H. apply (PUT (nm y) y v H). intros n. rewrite wanted_snoc. destruct (nm y =? n) eqn:E; [|reflexivity]. apply Nat.eqb_eq in E. subst n. rewrite H, Nat.eqb_refl. reflexivity.
      * apply SAME. intros n. rewrite wanted_snoc. destruct (nm y =? n) eqn:E; [|reflexivity]. apply Nat.eqb_eq in E. subst n. destruct (lookup (nm y) (reg r)) as [z|] eqn:L; [|reflexivity].
        destruct (z =? y) eqn:F; [|reflexivity]. apply Nat.eqb_eq in F. subst z. apply has_node_spec in L. congruence.
Qed.
Lemma has_config_spec : forall nm c n, has_config nm c n = true <-> exists x, In x (map fst c) /\ nm x = n.
Proof.
  intros nm c n. unfold has_config. rewrite existsb_exists. split.
  - intros ([x v] & I & E). apply Nat.eqb_eq in E. exists x. split; [apply (in_map fst) in I; exact I|exact E].
  - intros (x & I & E). apply in_map_iff in I. destruct I as ([y v] & <- & I). exists (y, v). split; [exact I|]. apply Nat.eqb_eq, E.
Qed.
(** ** The map of names *)
Lemma name_map_from : forall (nm : nat -> nat) c m, (forall x y, In x (map fst c) -> In y (map fst c) -> nm x = nm y -> x = y) -> NoDup (map fst c) -> NoDup (map fst m) ->
  let m' := fold_left (fun m (xv : nat * R) => put (nm (fst xv)) (snd xv) m) c m in
  NoDup (map fst m') /\ (forall x v, In (x, v) c -> lookup (nm x) m' = Some v) /\ (forall n, (forall x, In x (map fst c) -> nm x <> n) -> lookup n m' = lookup n m).
Proof.
  intros nm. induction c as [|[x v] c IH]; intros m INJ ND NM m'; unfold m'; cbn [fold_left fst snd].
  - split; [exact NM|]. split; [intros x v []|reflexivity].
  - cbn [map fst] in *. inversion ND as [|a b N1 N2]. subst. destruct (IH (put (nm x) v m)) as (A & B & C).
    + intros y z I J. apply INJ; right; assumption.
    + exact N2.
    + apply put_nodup, NM.
    + split; [exact A|]. split.
      * intros y w [E|I]; [|apply B, I]. injection E as <- <-. rewrite C, lookup_put, Nat.eqb_refl; [reflexivity|]. intros y I E. assert (x = y) by (apply INJ; [left; reflexivity|right; exact I|congruence]). subst. contradiction.
      * intros n H. rewrite C by (intros y I; apply H; right; exact I). rewrite lookup_put. destruct (nm x =? n) eqn:E; [|reflexivity]. apply Nat.eqb_eq in E. exfalso. apply (H x); [left; reflexivity|exact E].
Qed.
Lemma name_map_spec : forall nm c, (forall x y, In x (map fst c) -> In y (map fst c) -> nm x = nm y -> x = y) -> NoDup (map fst c) ->
  NoDup (map fst (name_map nm c)) /\ forall n v, In (n, v) (name_map nm c) <-> exists x, nm x = n /\ In (x, v) c.
Proof.
  intros nm c INJ ND. destruct (name_map_from nm c [] INJ ND) as (A & B & C); [constructor|]. fold (name_map nm c) in A, B, C. split; [exact A|]. intros n v. split.
  - intros I. apply (in_lookup _ _ _ _ A) in I. destruct (in_dec Nat.eq_dec n (map nm (map fst c))) as [J|J].
    + apply in_map_iff in J. destruct J as (x & E & J). apply in_map_iff in J. destruct J as ([y w] & <- & J). cbn [fst] in E. exists y. split; [exact E|]. assert (L := B _ _ J). subst n.
      assert (w = v) by congruence. subst w. exact J.
    + rewrite C in I; [discriminate|]. intros x IX E. apply J. apply in_map_iff. exists x. auto.
  - intros (x & <- & I). apply lookup_in, B, I.
Qed.
(** ** Joint values after a list of requests for different nodes *)
Lemma set_value_fields : forall j j' q, limit_lo j = limit_lo j' -> limit_hi j = limit_hi j' -> limitless j = limitless j' -> enforce j = enforce j' -> set_value j q = set_value j' q.
Proof. intros j j' q E1 E2 E3 E4. unfold set_value, with_value. rewrite E1, E2, E3, E4. reflexivity. Qed.
Lemma joint_after_distinct : forall r qs x j n, NoDup (map fst qs) -> joint_after r qs x j -> node_at r x = Some n ->
  (forall q, In (x, q) qs -> set_value (n_joint n) q = Some j) /\ (~ In x (map fst qs) -> j = n_joint n).
Proof.
  intros r qs x j n ND (m & Em & H) En. assert (m = n) by congruence. subst m. destruct H as [[N ->]|(l1 & l2 & q & j0 & -> & N & SV & F1 & F2 & F3 & F4)].
  - split; [|reflexivity]. intros q I. exfalso. apply N. apply (in_map fst) in I. exact I.
  - split.
    + intros q' I. assert (q' = q). { assert (L1 : lookup x (l1 ++ (x, q) :: l2) = Some q') by (apply in_lookup; assumption). assert (L2 : lookup x (l1 ++ (x, q) :: l2) = Some q) by (apply in_lookup; [exact ND|apply in_or_app; right; left; reflexivity]). congruence. }
      subst q'. rewrite <- SV. symmetry. apply set_value_fields; assumption.
    + intros H. exfalso. apply H. rewrite map_app. apply in_or_app. right. left. reflexivity.
Qed.
(** ** Cloning *)
Lemma put_new : forall A k (v : A) l, ~ In k (map fst l) -> put k v l = l ++ [(k, v)].
Proof.
  intros A k v l. induction l as [|[y w] l IH]; intros N; cbn [put app]; [reflexivity|]. cbn [map fst In] in N. destruct (y =? k) eqn:E; [apply Nat.eqb_eq in E; tauto|]. rewrite IH by tauto. reflexivity.
Qed.
Definition moved_to (nm : nat -> nat) (r : rob) (c : config) : list (nat * R) := flat_map (fun xv => match lookup (nm (fst xv)) (reg r) with Some y => [(y, snd xv)] | None => [] end) c.
Lemma fold_put_new : forall (nm : nat -> nat) r c m, NoDup (map fst (m ++ moved_to nm r c)) ->
  fold_left (fun m xv => match lookup (nm (fst xv)) (reg r) with Some y => put y (snd xv) m | None => m end) c m = m ++ moved_to nm r c.
Proof.
  intros nm r. unfold moved_to. induction c as [|[x v] c IH]; intros m ND; cbn [fold_left flat_map fst snd] in *; [symmetry; apply app_nil_r|].
  destruct (lookup (nm x) (reg r)) as [y|]; cbn [app] in *; [|apply IH, ND].
  rewrite map_app in ND. cbn [map fst] in ND. assert (N := NoDup_remove_2 _ _ _ ND). rewrite put_new by (intros I; apply N, in_or_app; auto).
  rewrite IH; rewrite <- app_assoc; [reflexivity|]. cbn [app]. rewrite map_app. cbn [map fst]. exact ND.
Qed.
Lemma of_nodes_new : forall nm r l m, NoDup (map fst (m ++ l)) -> (forall x, In x (map fst l) -> has_node nm r x = true) ->
  fold_left (fun o xv => match o with None => None | Some c => option_map fst (set_node nm (Some r) c (Some (fst xv)) (snd xv)) end) l (Some m) = Some (m ++ l).
Proof.
  intros nm r. induction l as [|[x v] l IH]; intros m ND H; cbn [fold_left fst snd]; [rewrite app_nil_r; reflexivity|].
  cbn [set_node]. rewrite H by (left; reflexivity). cbn [option_map fst]. rewrite map_app in ND. cbn [map fst] in ND. assert (N := NoDup_remove_2 _ _ _ ND). rewrite put_new by (intros I; apply N, in_or_app; auto).
  rewrite IH; rewrite <- ?app_assoc; [reflexivity| |intros y I; apply H; right; exact I]. cbn [app]. rewrite map_app. exact ND.
Qed.
Lemma moved_to_in : forall nm r c y v, In (y, v) (moved_to nm r c) <-> exists x, In (x, v) c /\ lookup (nm x) (reg r) = Some y.
Proof.
  intros nm r c y v. unfold moved_to. rewrite in_flat_map. split.
  - intros ([x w] & I & J). cbn [fst snd] in J. destruct (lookup (nm x) (reg r)) as [z|] eqn:L; [|destruct J]. destruct J as [E|[]]. injection E as -> ->. exists x. auto.
  - intros (x & I & L). exists (x, v). split; [exact I|]. cbn [fst snd]. rewrite L. left. reflexivity.
Qed.
Lemma moved_to_nodup : forall nm nm' r c, named nm' r -> NoDup (map fst c) -> (forall x y, In x (map fst c) -> In y (map fst c) -> nm x = nm y -> x = y) -> NoDup (map fst (moved_to nm r c)).
Proof.
  intros nm nm' r c NM. induction c as [|[x v] c IH]; intros ND INJ; [constructor|]. cbn [map fst] in *. inversion ND as [|a b N1 N2]. subst.
  assert (ND' := IH N2 (fun y z I J => INJ y z (or_intror I) (or_intror J))).
  unfold moved_to. cbn [flat_map fst snd]. fold (moved_to nm r c). destruct (lookup (nm x) (reg r)) as [y|] eqn:L; cbn [app map fst]; [|exact ND']. constructor; [|exact ND'].
  intros I. apply in_map_iff in I. destruct I as ([y' w] & E & I). cbn [fst] in E. subst y'. apply moved_to_in in I. destruct I as (z & I & L').
  assert (nm x = nm z) by (rewrite <- (named_lookup nm' r _ _ NM L), <- (named_lookup nm' r _ _ NM L'); reflexivity). apply (in_map fst) in I. cbn [fst] in I.
  assert (x = z) by (apply INJ; [left; reflexivity|right; exact I|assumption]). subst. contradiction.
Qed.
