From Coq Require Import List ZArith Bool PeanoNat Lia Relations.
From Verif Require Import TreeModel TreeSpec.
Import ListNotations.

Lemma mem_In : forall id l, mem id l = true <-> In id l.
Proof.
  intros id l. unfold mem. rewrite existsb_exists. split.
  - intros (x & H & E). apply Nat.eqb_eq in E. now subst.
  - intros H. exists id. split; [assumption|apply Nat.eqb_refl].
Qed.

Lemma mem_not_In : forall id l, mem id l = false <-> ~ In id l.
Proof. intros id l. rewrite <- mem_In. destruct (mem id l); intuition congruence. Qed.

(** * Pool *)
Section Pool.
Context {C : Type}.
Implicit Type p : pool C.

Definition pool_inv (max : nat) p (live : list nat) : Prop :=
  p_max p = max /\ 0 < max /\ NoDup (live ++ p_free p) /\
  (forall x, In x (live ++ p_free p) <-> x < max).

Lemma pool_run_inv : forall max p live, pool_run max p live -> pool_inv max p live.
Proof.
  intros max p live H. induction H.
  - unfold pool_new in H. destruct (Nat.eqb max 0) eqn:E; [discriminate|]. injection H as <-.
    apply Nat.eqb_neq in E. repeat split; cbn [p_max p_free app]; try lia.
    + apply NoDup_rev, seq_NoDup.
    + intros K. apply in_rev, in_seq in K. lia.
    + intros K. rewrite <- in_rev. apply in_seq. lia.
  - unfold pool_create in H0. destruct (p_free p) as [|y free] eqn:E; [discriminate|].
    injection H0 as -> <-. destruct IHpool_run as (A & B & D & F).
    unfold pool_inv. cbn [p_max p_free]. rewrite E in *.
    repeat split; [assumption|assumption| | |].
    + cbn. apply NoDup_cons.
      * apply NoDup_remove_2 in D. exact D.
      * apply NoDup_remove_1 in D. exact D.
    + intros K. apply F. cbn in K. apply in_app_iff. cbn. rewrite in_app_iff in K. tauto.
    + intros K. apply F in K. cbn. rewrite in_app_iff in *. cbn in K. tauto.
  - destruct IHpool_run as (A & B & D & F). unfold pool_remove.
    assert (Hid : id < max). { apply F. apply in_app_iff. left. apply in_app_iff. right. now left. }
    rewrite A. destruct (Nat.leb_spec max id); [lia|]. unfold pool_inv. cbn [p_max p_free].
    rewrite <- app_assoc in D. cbn in D.
    split; [reflexivity|]. split; [assumption|]. split; [|split].
    + rewrite <- app_assoc. apply NoDup_remove in D as [D1 D2].
      rewrite app_assoc. rewrite app_assoc in D1, D2.
      apply NoDup_Add with (a := id) (l := (live1 ++ live2) ++ p_free p).
      * apply Add_app.
      * split; [assumption|]. exact D2.
    + intros K. apply F. rewrite !in_app_iff in *. cbn in *. tauto.
    + intros K. apply F in K. rewrite !in_app_iff in *. cbn in *. tauto.
  - destruct IHpool_run as (A & B & D & F). unfold pool_reset, pool_inv. cbn [p_max p_free app].
    rewrite A. repeat split; try assumption.
    + apply NoDup_rev, seq_NoDup.
    + intros K. apply in_rev, in_seq in K. lia.
    + intros K. rewrite <- in_rev. apply in_seq. lia.
Qed.

Lemma NoDup_all_below : forall (l : list nat) max,
  NoDup l -> (forall x, In x l <-> x < max) -> length l = max.
Proof.
  intros l max D F.
  assert (length l <= max).
  { rewrite <- (seq_length max 0). apply NoDup_incl_length; [assumption|].
    intros x Hx. apply in_seq. apply F in Hx. lia. }
  assert (max <= length l).
  { rewrite <- (seq_length max 0) at 1. apply NoDup_incl_length; [apply seq_NoDup|].
    intros x Hx. apply in_seq in Hx. apply F. lia. }
  lia.
Qed.

Lemma pool_live_ok : forall max p live, pool_run max p live ->
  NoDup live /\ (forall id, In id live -> id < max) /\
  (pool_create p = None <-> length live = max) /\
  (forall id p', pool_create p = Some (id, p') -> ~ In id live /\ id < max).
Proof.
  intros max p live H. apply pool_run_inv in H as (A & B & D & F).
  pose proof (NoDup_all_below _ _ D F) as L. rewrite app_length in L.
  repeat split.
  - clear -D. induction live; cbn in D; [constructor|]. inversion D; subst. constructor.
    + intros K. apply H1. apply in_app_iff. now left.
    + auto.
  - intros id K. apply F. apply in_app_iff. now left.
  - unfold pool_create. destruct (p_free p); [cbn in L; intros; lia|discriminate].
  - unfold pool_create. intros K. destruct (p_free p); [reflexivity|cbn in L; lia].
  - unfold pool_create in H. destruct (p_free p) as [|y free]; [discriminate|]. injection H as -> <-.
    intros K. apply NoDup_remove_2 in D. apply D. apply in_app_iff. now left.
  - unfold pool_create in H. destruct (p_free p) as [|y free]; [discriminate|]. injection H as -> <-.
    apply F. apply in_app_iff. right. now left.
Qed.

Lemma pool_alloc_flag : forall max p live, pool_run max p live ->
  forall id, id < max -> (p_alloc p id = true <-> In id live).
Proof.
  intros max p live H. induction H; intros k Hk.
  - unfold pool_new in H. destruct (Nat.eqb max 0); [discriminate|]. injection H as <-. cbn. intuition congruence.
  - unfold pool_create in H0. destruct (p_free p); [discriminate|]. injection H0 as -> <-.
    cbn. unfold upd. destruct (Nat.eqb_spec k id).
    + subst. tauto.
    + rewrite IHpool_run by assumption. split; [tauto|intros [->|]; [congruence|assumption]].
  - pose proof (pool_run_inv _ _ _ H) as (A & B & D & F).
    assert (Hid : id < max). { apply F. apply in_app_iff. left. apply in_app_iff. right. now left. }
    unfold pool_remove. rewrite A. destruct (Nat.leb_spec max id); [lia|]. cbn. unfold upd.
    destruct (Nat.eqb_spec k id).
    + subst k. split; [discriminate|]. intros K.
      assert (D' : NoDup (live1 ++ id :: live2)).
      { clear -D. induction (live1 ++ id :: live2); cbn in D; [constructor|]. inversion D; subst. constructor.
        - intros K. apply H1. apply in_app_iff. now left.
        - auto. }
      apply NoDup_remove_2 in D'. contradiction.
    + rewrite IHpool_run by assumption. rewrite !in_app_iff. cbn.
      split; [intros [?|[?|?]]; subst; tauto|tauto].
  - cbn. intuition congruence.
Qed.

End Pool.

(** * Tree *)
Section TreeInv.
Context {C : Type}.
Implicit Type p : pool C.

(** position-based invariant *)
Definition before (x y : nat) (l : list nat) : Prop :=
  exists l1 l2 l3, l = l1 ++ x :: l2 ++ y :: l3.

Definition store_ok (st : nat -> option (cs_node C)) (l : list nat) : Prop :=
  forall id, In id l -> exists n, st id = Some n /\
    ((n_parent n < 0)%Z \/ exists par, n_parent n = Z.of_nat par /\ before par id l).

Definition tree_inv (max : nat) p (t : tree) : Prop :=
  p_max p = max /\ NoDup (t_nodes t ++ p_free p) /\ (forall x, In x (p_free p) -> x < max) /\
  NoDup (t_keys t) /\ (forall x, In x (t_keys t) <-> In x (t_nodes t)) /\
  store_ok (p_store p) (t_nodes t).

Lemma before_app : forall x y l r, before x y l -> before x y (l ++ r).
Proof.
  intros x y l r (a & b & c & ->). exists a, b, (c ++ r).
  rewrite <- !app_assoc. cbn. now rewrite <- !app_assoc.
Qed.

Lemma before_snoc : forall x y l, In x l -> before x y (l ++ [y]).
Proof.
  intros x y l H. apply in_split in H as (a & b & ->). exists a, b, [].
  rewrite <- !app_assoc. reflexivity.
Qed.

Lemma before_In : forall x y l, before x y l -> In x l /\ In y l.
Proof.
  intros x y l (a & b & c & ->). split; rewrite in_app_iff; right; [now left|].
  right. rewrite in_app_iff. right. now left.
Qed.

Lemma NoDup_app_l : forall (a b : list nat), NoDup (a ++ b) -> NoDup a.
Proof.
  induction a; intros b D; [constructor|]. cbn in D. inversion D; subst. constructor.
  - intros K. apply H1. apply in_app_iff. now left.
  - eapply IHa; eassumption.
Qed.

Lemma append_node_inv : forall max p t c par id p' t',
  tree_inv max p t ->
  ((par < 0)%Z \/ exists k, par = Z.of_nat k /\ In k (t_nodes t)) ->
  tree_append_node p t c par = Some (id, p', t') ->
  tree_inv max p' t' /\ t_nodes t' = t_nodes t ++ [id] /\ ~ In id (t_nodes t) /\
  p_store p' = upd (p_store p) id (Some (CsNode c par)).
Proof.
  intros max p t c par id p' t' (A & B & B2 & D & E & F) Hp H.
  unfold tree_append_node, pool_create in H. destruct (p_free p) as [|y free] eqn:Ef; [discriminate|].
  injection H as -> <- <-. cbn [p_max p_free p_alloc p_store pool_write t_nodes t_keys].
  assert (Nid : ~ In id (t_nodes t)).
  { intros K. apply NoDup_remove_2 in B. apply B. apply in_app_iff. now left. }
  assert (Nk : ~ In id (t_keys t)) by (intros K; apply E in K; contradiction).
  apply mem_not_In in Nk as Nk'. rewrite Nk'.
  split; [|repeat split; auto].
  unfold tree_inv. cbn [p_max p_free p_alloc p_store pool_write t_nodes t_keys].
  split; [assumption|]. split; [rewrite <- app_assoc; exact B|].
  split; [intros x Hx; apply B2; now right|].
  split; [constructor; assumption|].
  split.
  { intros x. cbn. rewrite in_app_iff. cbn. rewrite E. tauto. }
  intros k Hk. apply in_app_iff in Hk. unfold upd. destruct (Nat.eqb_spec k id) as [->|Nq].
  - eexists. split; [reflexivity|]. cbn. destruct Hp as [Hp|(q & -> & Hq)]; [now left|right].
    exists q. split; [reflexivity|]. now apply before_snoc.
  - destruct Hk as [Hk|[Hk|[]]]; [|congruence]. destruct (F k Hk) as (n & Hn & [Hneg|(q & Eq & Hb)]).
    + exists n. auto.
    + exists n. split; [assumption|right]. exists q. split; [assumption|]. now apply before_app.
Qed.

Lemma append_path_inv : forall path max p t start id p' t',
  tree_inv max p t -> In start (t_nodes t) ->
  tree_append_path p t start path = Some (id, p', t') -> tree_inv max p' t'.
Proof.
  induction path as [|c path IH]; intros max p t start id p' t' HI Hs H; cbn [tree_append_path] in H.
  - injection H as <- <- <-. assumption.
  - destruct (tree_append_node p t c (Z.of_nat start)) as [[[k q] u]|] eqn:E; [|discriminate].
    eapply append_node_inv in E; [|eassumption|right; eauto].
    destruct E as (HI' & En & _). eapply IH; [exact HI'| |eassumption].
    rewrite En. apply in_app_iff. right. now left.
Qed.

Lemma erase_first_In : forall id l x, NoDup l ->
  (In x (erase_first id l) <-> In x l /\ x <> id).
Proof.
  intros id l x D. induction D as [|y l Hy D IH]; cbn; [tauto|].
  destruct (Nat.eqb_spec y id) as [->|Ny].
  - split; [|intros [[?|?] ?]; congruence]. intros K. split; [now right|]. intros ->. contradiction.
  - cbn. rewrite IH. split; [intros [->|]; tauto|tauto].
Qed.

Lemma erase_first_NoDup : forall id l, NoDup l -> NoDup (erase_first id l).
Proof.
  intros id l D. induction D as [|y l Hy D IH]; cbn; [constructor|].
  destruct (Nat.eqb_spec y id); [assumption|]. constructor; [|assumption].
  rewrite erase_first_In by assumption. tauto.
Qed.

Lemma erase_first_split : forall id l, In id l ->
  exists a b, l = a ++ id :: b /\ erase_first id l = a ++ b /\ ~ In id a.
Proof.
  intros id l. induction l as [|y l IH]; [contradiction|]. intros H. cbn.
  destruct (Nat.eqb_spec y id) as [->|Ny].
  - exists [], l. repeat split; auto.
  - destruct H as [?|H]; [congruence|]. destruct (IH H) as (a & b & -> & E & K).
    exists (y :: a), b. repeat split; [cbn; congruence|]. intros [?|?]; [congruence|contradiction].
Qed.

Lemma before_remove : forall x y z a b, x <> z -> y <> z ->
  before x y (a ++ z :: b) -> before x y (a ++ b).
Proof.
  intros x y z a. revert x y. induction a as [|w a IH]; intros x y b Nx Ny (l1 & l2 & l3 & E).
  - cbn in *. destruct l1 as [|v l1]; cbn in E; [injection E as -> _; congruence|].
    injection E as _ ->. exists l1, l2, l3. reflexivity.
  - destruct l1 as [|v l1]; cbn in E.
    + injection E as -> E. cbn.
      assert (K : In y (a ++ z :: b)) by (rewrite E; apply in_app_iff; right; now left).
      assert (K' : In y (a ++ b)).
      { rewrite in_app_iff in *. cbn in K. destruct K as [?|[?|?]]; [auto|congruence|auto]. }
      apply in_split in K' as (m & n & ->). exists [], m, n. reflexivity.
    + injection E as -> E. destruct (IH x y b Nx Ny) as (m & n & o & E2).
      { exists l1, l2, l3. assumption. }
      exists (v :: m), n, o. cbn. now rewrite E2.
Qed.

Lemma remove_inv : forall max p t id p' t',
  tree_inv max p t -> (forall child, ~ parent_of p t child id) ->
  (forall x, In x (t_nodes t) -> x < max) ->
  tree_remove p t id = (p', t') -> tree_inv max p' t' /\ (forall x, In x (t_nodes t') -> x < max).
Proof.
  intros max p t id p' t' (A & B & B2 & D & E & F) Hleaf Hlt H. unfold tree_remove in H.
  destruct (mem id (t_nodes t)) eqn:Em.
  2:{ injection H as <- <-. split; [|assumption]. repeat split; try assumption; apply E. }
  apply mem_In in Em. injection H as <- <-.
  pose proof (NoDup_app_l _ _ B) as Dn.
  unfold pool_remove. specialize (Hlt id Em) as Hid. rewrite A.
  destruct (Nat.leb_spec max id); [lia|].
  destruct (erase_first_split id (t_nodes t) Em) as (a & b & En & Ee & Na).
  split.
  2:{ cbn. intros x Hx. apply Hlt. apply erase_first_In in Hx; tauto. }
  unfold tree_inv. cbn [p_max p_free p_alloc p_store t_nodes t_keys].
  split; [reflexivity|]. split.
  { rewrite Ee. rewrite En, <- app_assoc in B. cbn in B.
    apply NoDup_Add with (a := id) (l := (a ++ b) ++ p_free p); [apply Add_app|].
    apply NoDup_remove in B. rewrite <- app_assoc. exact B. }
  split. { intros x [->|Hx]; [assumption|auto]. }
  split; [now apply erase_first_NoDup|]. split.
  { intros x. rewrite !erase_first_In by assumption. rewrite E. tauto. }
  intros k Hk. apply erase_first_In in Hk as [Hk Nk]; [|assumption].
  destruct (F k Hk) as (n & Hn & [Hneg|(q & Eq & Hb)]).
  - exists n. auto.
  - exists n. split; [assumption|right]. exists q. split; [assumption|].
    rewrite Ee. rewrite En in Hb. apply before_remove with (z := id); [|assumption|assumption].
    intros ->. apply (Hleaf k). split; [assumption|]. exists n. auto.
Qed.

Lemma tree_run_inv : forall max p t, tree_run max p t ->
  tree_inv max p t /\ (forall x, In x (t_nodes t) -> x < max).
Proof.
  intros max p t H. induction H.
  - unfold pool_new in H. destruct (Nat.eqb max 0) eqn:E; [discriminate|]. injection H as <-.
    apply Nat.eqb_neq in E. split; [|intros x []]. repeat split; cbn; try (constructor; fail); try tauto.
    + apply NoDup_rev, seq_NoDup.
    + intros x K. apply in_rev, in_seq in K. lia.
    + intros k [].
  - destruct IHtree_run as [HI Hlt]. pose proof HI as HI0.
    assert (id < max).
    { unfold tree_append_node, pool_create in H1. destruct (p_free p) eqn:Ef; [discriminate|].
      injection H1 as -> _ _. destruct HI as (_ & _ & B2 & _). apply B2. rewrite Ef. now left. }
    eapply append_node_inv in H1 as (HI' & En & _); [|eassumption|eassumption].
    split; [assumption|]. rewrite En. intros x Hx. apply in_app_iff in Hx as [Hx|[<-|[]]]; auto.
  - destruct IHtree_run as [HI Hlt].
    split; [eapply append_path_inv; eassumption|].
    clear H. revert p t start id p' t' HI Hlt H0 H1.
    induction path as [|c path IH]; intros p t start id p' t' HI Hlt H0 H1; cbn [tree_append_path] in H1.
    + injection H1 as <- <- <-. assumption.
    + destruct (tree_append_node p t c (Z.of_nat start)) as [[[k q] u]|] eqn:E; [|discriminate].
      assert (k < max).
      { unfold tree_append_node, pool_create in E. destruct (p_free p) eqn:Ef; [discriminate|].
        injection E as -> _ _. destruct HI as (_ & _ & B2 & _). apply B2. rewrite Ef. now left. }
      eapply append_node_inv in E as (HI' & En & _); [|eassumption|right; eauto].
      eapply IH; [exact HI'| | |eassumption].
      * rewrite En. intros x Hx. apply in_app_iff in Hx as [Hx|[<-|[]]]; auto.
      * rewrite En. apply in_app_iff. right. now left.
  - destruct IHtree_run as [HI Hlt]. eapply remove_inv; eassumption.
  - destruct IHtree_run as [(A & B & B2 & D & E & F) Hlt]. split; [|intros x []].
    repeat split; cbn; try (constructor; fail); try tauto.
    + rewrite <- (app_nil_l (p_free p)). clear -B. induction (t_nodes t); [assumption|].
      cbn in B. inversion B; auto.
    + intros k [].
  - destruct IHtree_run as [(A & B & B2 & D & E & F) Hlt]. split; [|intros x []].
    repeat split; cbn; try (constructor; fail); try tauto.
    + apply NoDup_rev, seq_NoDup.
    + intros x K. rewrite A in K. apply in_rev, in_seq in K. lia.
    + intros k [].
Qed.

Lemma before_trans : forall x y z l, NoDup l -> before x y l -> before y z l -> before x z l.
Proof.
  intros x y z l D (a & b & c & E) (a' & b' & c' & E'). 
  assert (Hy : a ++ x :: b = a').
  { clear -D E E'. subst l.
    assert (E2 : (a ++ x :: b) ++ y :: c = a' ++ y :: b' ++ z :: c') by (rewrite <- app_assoc; exact E').
    assert (D2 : NoDup ((a ++ x :: b) ++ y :: c)) by (rewrite <- app_assoc; exact D).
    clear D E'. generalize dependent a'. revert D2. generalize (a ++ x :: b). clear.
    intros l. induction l as [|w l IH]; intros D a' E; destruct a' as [|w' a']; cbn in *.
    - reflexivity.
    - injection E as -> E. inversion D; subst. exfalso. apply H1. apply in_app_iff. right. now left.
    - injection E as -> E. inversion D; subst. exfalso. apply H1. rewrite in_app_iff. right. now left.
    - injection E as -> E. inversion D; subst. f_equal. now apply IH. }
  subst a'. rewrite <- app_assoc in E'. cbn in E'. exists a, (b ++ y :: b'), c'.
  rewrite E'. rewrite <- app_assoc. reflexivity.
Qed.

Lemma before_irrefl : forall x l, NoDup l -> ~ before x x l.
Proof.
  intros x l D (a & b & c & E). subst. apply NoDup_remove_2 in D. apply D.
  apply in_app_iff. right. apply in_app_iff. right. now left.
Qed.

Lemma tree_inv_well_formed : forall max p t, tree_inv max p t -> well_formed p t.
Proof.
  intros max p t (A & B & B2 & D & E & F). pose proof (NoDup_app_l _ _ B) as Dn.
  unfold well_formed. split; [assumption|]. split; [|split].
  - intros id. unfold tree_get. rewrite Nat2Z.id.
    assert (0 <=? Z.of_nat id = true)%Z as -> by (apply Z.leb_le; lia). cbn.
    destruct (in_dec Nat.eq_dec id (t_nodes t)) as [H|H].
    + apply E, mem_In in H. now rewrite H.
    + assert (~ In id (t_keys t)) as K by (rewrite E; assumption). apply mem_not_In in K. now rewrite K.
  - intros id H. destruct (F id H) as (n & Hn & [Hneg|(q & Eq & Hb)]).
    + exists n. auto.
    + exists n. split; [assumption|right]. exists q. split; [assumption|]. now apply before_In in Hb.
  - assert (K : forall x y, clos_trans nat (parent_of p t) x y -> before y x (t_nodes t)).
    { intros x y H. induction H as [x y (Hx & n & Hn & Hp)|x y z _ IH1 _ IH2].
      - destruct (F x Hx) as (n' & Hn' & [Hneg|(q & Eq & Hb)]).
        + rewrite Hn in Hn'. injection Hn' as <-. lia.
        + rewrite Hn in Hn'. injection Hn' as <-. rewrite Hp in Eq. apply Nat2Z.inj in Eq. now subst.
      - eapply before_trans; eassumption. }
    intros id H. apply K in H. revert H. now apply before_irrefl.
Qed.

Lemma tree_run_well_formed : forall max p t, tree_run max p t -> well_formed p t.
Proof. intros max p t H. apply tree_run_inv in H as [H _]. eapply tree_inv_well_formed; eassumption. Qed.

End TreeInv.

(** * Nearest neighbour *)
Section NN.
Context {D : Type} (ltb : D -> D -> bool) (dist2 : nat -> D).
Hypothesis irr : forall x, ltb x x = false.
Hypothesis asym : forall x y, ltb x y = true -> ltb y x = false.
Hypothesis ntrans : forall x y z, ltb y x = false -> ltb z y = false -> ltb z x = false.

Lemma nn_scan_ok : forall l best d, d = dist2 best ->
  let '(r, dr) := nn_scan ltb dist2 best d l in
  dr = dist2 r /\ In r (best :: l) /\ forall x, In x (best :: l) -> ltb (dist2 x) (dist2 r) = false.
Proof.
  induction l as [|y l IH]; intros best d ->; cbn [nn_scan].
  - split; [reflexivity|]. split; [now left|]. intros x [<-|[]]. apply irr.
  - destruct (ltb (dist2 y) (dist2 best)) eqn:E.
    + specialize (IH y _ eq_refl). destruct (nn_scan ltb dist2 y (dist2 y) l) as [r dr].
      destruct IH as (A & B & F). split; [assumption|]. split; [now right|].
      intros x [<-|Hx]; [|auto].
      apply (ntrans _ (dist2 y)); [apply F; now left|]. now apply asym.
    + specialize (IH best _ eq_refl). destruct (nn_scan ltb dist2 best (dist2 best) l) as [r dr].
      destruct IH as (A & B & F). split; [assumption|]. split; [destruct B; [now left|right; now right]|].
      intros x [<-|[<-|Hx]].
      * apply F. now left.
      * apply (ntrans _ (dist2 best)); [apply F; now left|assumption].
      * apply F. now right.
Qed.
End NN.

Lemma nearest_ok : forall {C D : Type} (ltb : D -> D -> bool) (dist2 : nat -> D) max (p : pool C) t,
  (forall x, ltb x x = false) -> (forall x y, ltb x y = true -> ltb y x = false) ->
  (forall x y z, ltb y x = false -> ltb z y = false -> ltb z x = false) ->
  tree_run max p t -> t_nodes t <> [] ->
  exists id, nearest ltb dist2 t = Some id /\ In id (t_nodes t) /\
    forall x, In x (t_nodes t) -> ltb (dist2 x) (dist2 id) = false.
Proof.
  intros C D ltb dist2 max p t H1 H2 H3 R Hne. apply tree_run_well_formed in R as (_ & L & _).
  unfold nearest, nearest_id. destruct (t_nodes t) as [|y l] eqn:E; [congruence|].
  pose proof (nn_scan_ok ltb dist2 H1 H2 H3 l y _ eq_refl) as K.
  destruct (nn_scan ltb dist2 y (dist2 y) l) as [r dr]. destruct K as (A & B & F). cbn [fst].
  exists r. rewrite L. destruct (in_dec Nat.eq_dec r (y :: l)); [|contradiction].
  split; [reflexivity|]. split; assumption.
Qed.

(** The path through the tree. *)
Section Walk.
Context {C : Type}.

Lemma before_length : forall x y l, before x y l -> forall a b, l = a ++ y :: b -> NoDup l ->
  exists a1 a2, a = a1 ++ x :: a2.
Proof.
  intros x y l (l1 & l2 & l3 & E) a b E' D.
  assert (a = l1 ++ x :: l2).
  { assert (E2 : (l1 ++ x :: l2) ++ y :: l3 = a ++ y :: b) by (rewrite <- app_assoc; cbn; congruence).
    assert (D2 : NoDup ((l1 ++ x :: l2) ++ y :: l3)) by (rewrite E2, <- E'; exact D).
    clear E E' D. generalize dependent a. revert D2. generalize (l1 ++ x :: l2). clear.
    intros l. induction l as [|w l IH]; intros D a E; destruct a as [|w' a]; cbn in *.
    - reflexivity.
    - injection E as -> E. inversion D; subst. exfalso. apply H1. apply in_app_iff. right. now left.
    - injection E as -> E. inversion D; subst. exfalso. apply H1. rewrite in_app_iff. right. now left.
    - injection E as -> E. inversion D; subst. f_equal. now apply IH. }
  eauto.
Qed.

(** the walk terminates within the number of tree nodes *)
Lemma walk_to_terminates : forall max (p : pool C) t start,
  tree_inv max p t -> forall fuel a b id, t_nodes t = a ++ id :: b -> S (length a) < fuel ->
  walk_to fuel p t start (Z.of_nat id) <> None.
Proof.
  intros max p t start HI. pose proof (tree_inv_well_formed _ _ _ HI) as (Dn & L & _).
  destruct HI as (A & B & B2 & D & E & F).
  induction fuel as [|fuel IH]; intros a b id Ea Hl; [lia|]. cbn [walk_to].
  destruct (Z.ltb_spec (Z.of_nat id) 0); [lia|]. rewrite L.
  destruct (in_dec Nat.eq_dec id (t_nodes t)) as [Hin|Hn]; [|discriminate].
  destruct (Nat.eqb id start); [discriminate|].
  unfold node_parent. destruct (F id Hin) as (n & -> & K). cbn.
  destruct K as [Hneg|(q & -> & Hb)].
  - destruct fuel; [lia|].
    cbn [walk_to]. destruct (Z.ltb_spec (n_parent n) 0); [discriminate|lia].
  - destruct (before_length _ _ _ Hb _ _ Ea Dn) as (a1 & a2 & ->).
    specialize (IH a1 (a2 ++ id :: b) q). rewrite Ea in IH. rewrite <- app_assoc in IH.
    specialize (IH eq_refl). rewrite app_length in Hl. cbn in Hl.
    assert (K : S (length a1) < fuel) by lia. specialize (IH K).
    destruct (walk_to fuel p t start (Z.of_nat q)) as [[l|]|]; congruence.
Qed.

Lemma walk_to_sound : forall max (p : pool C) t start, tree_inv max p t ->
  forall fuel act l, walk_to fuel p t start act = Some (Some l) ->
  exists id, act = Z.of_nat id /\ In id (t_nodes t) /\ hd_error l = Some id /\ last l 0 = start /\
    adjacent (parent_of p t) l.
Proof.
  intros max p t start HI. pose proof (tree_inv_well_formed _ _ _ HI) as (Dn & L & _).
  destruct HI as (A & B & B2 & D & E & F).
  induction fuel as [|fuel IH]; intros act l H; [discriminate|]. cbn [walk_to] in H.
  destruct (Z.ltb_spec act 0); [discriminate|].
  assert (exists id, act = Z.of_nat id) as (id & ->) by (exists (Z.to_nat act); lia).
  rewrite L in H. destruct (in_dec Nat.eq_dec id (t_nodes t)) as [Hin|Hn]; [|discriminate].
  destruct (Nat.eqb_spec id start) as [->|Ns].
  - injection H as <-. exists start. repeat split; auto. constructor.
  - unfold node_parent in H. destruct (F id Hin) as (n & Hn & K). rewrite Hn in H. cbn in H.
    destruct (walk_to fuel p t start (n_parent n)) as [[l'|]|] eqn:Ew; try discriminate.
    injection H as <-. destruct (IH _ _ Ew) as (q & Eq & Hq & Hhd & Hlast & Hadj).
    exists id. repeat split; auto.
    + destruct l'; [discriminate|]. exact Hlast.
    + destruct l' as [|y l']; [discriminate|]. injection Hhd as ->. constructor; [|assumption].
      split; [assumption|]. exists n. auto.
Qed.

Lemma walk_to_complete : forall max (p : pool C) t start, tree_inv max p t ->
  forall fuel id, In id (t_nodes t) -> clos_refl_trans_1n nat (parent_of p t) id start ->
  walk_to fuel p t start (Z.of_nat id) <> Some None.
Proof.
  intros max p t start HI. pose proof (tree_inv_well_formed _ _ _ HI) as (Dn & L & _).
  destruct HI as (A & B & B2 & D & E & F).
  induction fuel as [|fuel IH]; intros id Hin R; [discriminate|]. cbn [walk_to].
  destruct (Z.ltb_spec (Z.of_nat id) 0); [lia|]. rewrite L.
  destruct (in_dec Nat.eq_dec id (t_nodes t)) as [_|Hn]; [|contradiction].
  destruct (Nat.eqb_spec id start) as [->|Ns]; [discriminate|].
  inversion R as [|y z (Hx & n & Hn & Hp) R']; subst; [congruence|].
  unfold node_parent. rewrite Hn. cbn. rewrite Hp.
  assert (Hy : In y (t_nodes t)).
  { destruct (F id Hin) as (n' & Hn' & [Hneg|(q & Eq & Hb)]); rewrite Hn in Hn'; injection Hn' as <-.
    - lia.
    - rewrite Hp in Eq. apply Nat2Z.inj in Eq. subst. now apply before_In in Hb. }
  specialize (IH y Hy R'). destruct (walk_to fuel p t start (Z.of_nat y)) as [[l|]|]; congruence.
Qed.

Lemma adjacent_clos : forall (R : nat -> nat -> Prop) l x y, adjacent R l -> hd_error l = Some x ->
  last l 0 = y -> clos_refl_trans nat R x y.
Proof.
  intros R l x y H. revert x y. induction H as [|a|a b l Hab Hl IH]; intros x y Hh Hy; cbn in *.
  - discriminate.
  - injection Hh as <-. subst. apply rt_refl.
  - injection Hh as <-. eapply rt_trans; [apply rt_step, Hab|]. apply IH; [reflexivity|exact Hy].
Qed.

Lemma adjacent_rev : forall (R : nat -> nat -> Prop) l, adjacent R l -> adjacent (fun x y => R y x) (rev l).
Proof.
  intros R l H. induction H as [|a|a b l Hab Hl IH]; [constructor|constructor|].
  cbn [rev] in *. rewrite <- app_assoc. cbn.
  assert (G : forall m, adjacent (fun x y => R y x) (m ++ [b]) -> adjacent (fun x y => R y x) (m ++ [b; a])).
  { clear -Hab. induction m as [|c m IH]; cbn; intros H.
    - constructor; [assumption|constructor].
    - destruct m as [|d m]; cbn in *.
      + inversion H; subst. constructor; [assumption|auto].
      + inversion H; subst. constructor; auto. }
  now apply G.
Qed.

Lemma last_rev : forall (l : list nat) x, hd_error l = Some x -> last (rev l) 0 = x.
Proof. intros [|y l] x H; [discriminate|]. injection H as ->. cbn. apply last_last. Qed.

Lemma hd_rev : forall (l : list nat) x, l <> [] -> last l 0 = x -> hd_error (rev l) = Some x.
Proof.
  intros l x Hn H. destruct (exists_last Hn) as (m & y & ->). rewrite last_last in H. subst.
  now rewrite rev_app_distr.
Qed.

Lemma tree_path_ok : forall max (p : pool C) t start goal,
  tree_run max p t -> In start (t_nodes t) -> In goal (t_nodes t) ->
  exists r, tree_create_path (S (S (length (t_nodes t)))) p t start goal = Some r /\
  (r <> None <-> clos_refl_trans nat (parent_of p t) goal start) /\
  (forall cfgs, r = Some cfgs -> exists ids,
     cfgs = map (node_cfg p) ids /\ hd_error ids = Some start /\ last ids 0 = goal /\
     adjacent (fun par child => parent_of p t child par) ids).
Proof.
  intros max p t start goal R Hs Hg. apply tree_run_inv in R as [HI _].
  pose proof (tree_inv_well_formed _ _ _ HI) as (Dn & L & _).
  apply in_split in Hg as Hg'. destruct Hg' as (a & b & E).
  assert (T : walk_to (S (S (length (t_nodes t)))) p t start (Z.of_nat goal) <> None).
  { eapply walk_to_terminates; [exact HI|exact E|]. rewrite E, app_length. cbn. lia. }
  unfold tree_create_path.
  destruct (walk_to (S (S (length (t_nodes t)))) p t start (Z.of_nat goal)) as [[l|]|] eqn:Ew; [| |congruence].
  - eexists. split; [reflexivity|]. destruct (walk_to_sound _ _ _ _ HI _ _ _ Ew) as (q & Eq & _ & Hh & Hl & Ha).
    apply Nat2Z.inj in Eq. subst q. split.
    + split; [intros _|discriminate]. eapply adjacent_clos; eassumption.
    + intros cfgs Ec. injection Ec as <-. exists (rev l). repeat split.
      * apply hd_rev; [destruct l; discriminate|assumption].
      * now apply last_rev.
      * apply adjacent_rev in Ha. exact Ha.
  - exists None. split; [reflexivity|]. split; [|discriminate]. split; [congruence|].
    intros R. exfalso. apply clos_rt_rt1n in R. eapply walk_to_complete in R; [|exact HI|assumption].
    apply R. exact Ew.
Qed.
End Walk.

(** * Removing inner nodes *)
Lemma remove_inner_cycle : exists (p : pool nat) t id,
  tree_run_any 2 p t /\ In id (t_nodes t) /\ clos_trans nat (parent_of p t) id id /\
  (forall fuel, tree_create_path fuel p t 7 id = None).
Proof.
  set (p0 := Pool 2 [1; 0] (fun _ => false) (fun _ => @None (cs_node nat))).
  destruct (tree_append_node p0 tree_empty 5 (-1)) as [[[i1 p1] t1]|] eqn:E1; [|discriminate].
  destruct (tree_append_node p1 t1 6 1) as [[[i2 p2] t2]|] eqn:E2;
    [|unfold tree_append_node in E1; cbn in E1; injection E1 as <- <- <-; discriminate].
  destruct (tree_remove p2 t2 1) as [p3 t3] eqn:E3.
  destruct (tree_append_node p3 t3 8 0) as [[[i4 p4] t4]|] eqn:E4.
  2:{ unfold tree_append_node in E1; cbn in E1; injection E1 as <- <- <-.
      unfold tree_append_node in E2; cbn in E2; injection E2 as <- <- <-.
      unfold tree_remove in E3; cbn in E3; injection E3 as <- <-. discriminate. }
  exists p4, t4, 1.
  assert (R : tree_run_any 2 p4 t4).
  { eapply (arun_append 2 p3 t3 8 0); [|right; exists 0; split; [reflexivity|]|exact E4].
    - eapply arun_remove; [|exact E3]. eapply (arun_append 2 p1 t1 6 1); [|right; exists 1; split; [reflexivity|]|exact E2].
      + eapply (arun_append 2 p0 tree_empty 5 (-1)); [|now left|exact E1]. now apply arun_new.
      + unfold tree_append_node in E1; cbn in E1; injection E1 as <- <- <-. now left.
    - unfold tree_append_node in E1; cbn in E1; injection E1 as <- <- <-.
      unfold tree_append_node in E2; cbn in E2; injection E2 as <- <- <-.
      unfold tree_remove in E3; cbn in E3; injection E3 as <- <-. now left. }
  split; [exact R|]. clear R.
  unfold tree_append_node in E1; cbn in E1; injection E1 as <- <- <-.
  unfold tree_append_node in E2; cbn in E2; injection E2 as <- <- <-.
  unfold tree_remove in E3; cbn in E3; injection E3 as <- <-.
  unfold tree_append_node in E4; cbn in E4; injection E4 as <- <- <-.
  split; [cbn; auto|]. split.
  - eapply t_trans with (y := 0); apply t_step; (split; [cbn; auto|]); eexists; split; reflexivity.
  - intros fuel. unfold tree_create_path.
    assert (G : forall (p : pool nat) t, tree_get t 1 = Some 1 -> tree_get t 0 = Some 0 ->
      node_parent p 1 = Some 0%Z -> node_parent p 0 = Some 1%Z ->
      walk_to fuel p t 7 1 = None /\ walk_to fuel p t 7 0 = None).
    { intros p t T1 T0 P1 P0. induction fuel as [|fuel [IH1 IH2]]; [now split|].
      split; cbn [walk_to]; [rewrite T1|rewrite T0]; cbn [Nat.eqb Z.ltb Z.compare];
        [rewrite P1, IH2|rewrite P0, IH1]; reflexivity. }
    match goal with |- context [walk_to _ ?p ?t _ _] =>
      pose proof (G p t eq_refl eq_refl eq_refl eq_refl) as K end.
    destruct K as [K _]. change (Z.of_nat 1) with 1%Z. now rewrite K.
Qed.
