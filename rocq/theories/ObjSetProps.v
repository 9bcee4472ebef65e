(** C38: sets of scene objects. *)
From Coq Require Import List Bool Arith Lia.
From Verif Require Import ObjSetModel ObjSetSpec ObjSetProofs.
Import ListNotations.

(** A new set is empty and works for the given collision checker, or for the global one if none is given. *)
Theorem C38_new : forall global c, new_set global (Some c) = OSet c [] /\ new_set global None = OSet global [].
Proof. intros global c. split; reflexivity. Qed.

(** After any history of operations on a new set no object is in it twice and all belong to its collision checker. *)
Theorem C38_invariant : forall chk c h, let s := run chk (OSet c []) h in
  NoDup (objs s) /\ (forall o, In o (objs s) -> chk o = c) /\ checker s = c.
Proof.
  intros chk c h s. destruct (run_good chk h (OSet c [])) as [[G1 G2] C]; [split; [constructor|intros o []]|]. cbn [checker] in C. split; [exact G1|]. split; [|exact C]. intros o I. rewrite <- C. apply G2, I.
Qed.
(** Adding one object: true exactly for an object of the same checker that is not in the set; it is appended, otherwise nothing changes. *)
Theorem C38_add : forall chk s o,
  (snd (add chk s o) = true <-> exists p, o = Some p /\ chk p = checker s /\ ~ In p (objs s)) /\
  (forall p, o = Some p -> snd (add chk s o) = true -> fst (add chk s o) = OSet (checker s) (objs s ++ [p])) /\
  (snd (add chk s o) = false -> fst (add chk s o) = s).
Proof.
  intros chk s [o|].
  - destruct (fine_dec chk s o) as [F|F].
    + rewrite (add_ok chk s o F). cbn [fst snd]. split; [split; [intros _; exists o; split; [reflexivity|exact F]|reflexivity]|]. split; [intros p [= <-] _; reflexivity|discriminate].
    + rewrite (add_no chk s o F). cbn [fst snd]. split; [split; [discriminate|intros (p & [= <-] & G); contradiction]|]. split; [discriminate|reflexivity].
  - cbn. split; [split; [discriminate|intros (p & E & _); discriminate]|]. split; [discriminate|reflexivity].
Qed.
(** Removing an object: true exactly for an object of the set; the others stay, in their order. *)
Theorem C38_remove : forall s o, NoDup (objs s) ->
  (snd (remove s o) = true <-> exists p, o = Some p /\ In p (objs s)) /\
  (forall p, o = Some p -> fst (remove s o) = OSet (checker s) (filter (fun x => negb (x =? p)) (objs s))) /\
  (snd (remove s o) = false -> fst (remove s o) = s).
Proof.
  intros s [o|] ND.
  - unfold remove. destruct (has s o) eqn:H; cbn [fst snd].
    + split; [split; [intros _; exists o; split; [reflexivity|apply has_spec, H]|reflexivity]|]. split; [intros p [= <-]; f_equal; apply erase_filter, ND|discriminate].
    + assert (N : ~ In o (objs s)) by (intros I; apply has_spec in I; congruence). split; [split; [discriminate|intros (p & [= <-] & I); contradiction]|]. split; [|reflexivity].
      intros p [= <-]. destruct s as [c l]. cbn [objs checker] in *. f_equal. clear - N. induction l as [|x l IH]; [reflexivity|]. cbn [filter]. destruct (x =? o) eqn:E.
      * apply Nat.eqb_eq in E. subst. exfalso. apply N. left. reflexivity.
      * cbn [negb]. f_equal. apply IH. intros I. apply N. right. exact I.
  - cbn. split; [split; [discriminate|intros (p & E & _); discriminate]|]. split; [discriminate|reflexivity].
Qed.
(** Histories of single adds and removes: the set holds exactly the objects added since they were last out, in the order in which they
    came in; hasSceneObject says so. *)
Theorem C38_history : forall chk c h, (forall p, In p h -> single p) -> let s := run chk (OSet c []) h in
  (forall o, In o (objs s) <-> since chk c o h <> None) /\ (forall o, has s o = true <-> since chk c o h <> None) /\
  (forall a b, before (objs s) a b -> exists t u, since chk c a h = Some t /\ since chk c b h = Some u /\ t < u).
Proof.
  intros chk c h S s. destruct (history chk c h S) as [A B]. split; [exact A|]. split; [intros o; rewrite has_spec; apply A|exact B].
Qed.
(** Adding a set: its objects are appended in their order up to the first that cannot be added; the call succeeds if there is none. *)
Theorem C38_add_set : forall chk s t, NoDup (objs t) -> checker t = checker s -> exists pre rest, objs t = pre ++ rest /\
  fst (add_set chk s (Some t)) = OSet (checker s) (objs s ++ pre) /\ (snd (add_set chk s (Some t)) = true <-> rest = []) /\
  (forall o, In o pre -> fine chk s o) /\ (forall o r, rest = o :: r -> ~ fine chk s o).
Proof.
  intros chk s t ND C. unfold add_set. rewrite C, Nat.eqb_refl. cbn [negb]. destruct (add_all_spec chk (objs t) s ND) as (pre & rest & E & A & P1 & P2). exists pre, rest.
  rewrite A. cbn [fst snd]. split; [exact E|]. split; [reflexivity|]. split; [destruct rest; split; congruence|]. auto.
Qed.
(** So all objects are added if none is there already, and a set of another checker changes nothing. *)
Theorem C38_add_set_new : forall chk s t, NoDup (objs t) ->
  (checker t = checker s -> (forall o, In o (objs t) -> fine chk s o) -> add_set chk s (Some t) = (OSet (checker s) (objs s ++ objs t), true)) /\
  (checker t <> checker s -> add_set chk s (Some t) = (s, false)).
Proof.
  intros chk s t ND. split.
  - intros C F. unfold add_set. rewrite C, Nat.eqb_refl. cbn [negb]. destruct (add_all_spec chk (objs t) s ND) as (pre & rest & E & A & P1 & P2). rewrite A. destruct rest as [|o r].
    + rewrite app_nil_r in E. rewrite E. reflexivity.
    + exfalso. apply (P2 o r eq_refl), F. rewrite E. apply in_or_app. right. left. reflexivity.
  - intros C. unfold add_set. destruct (Nat.eqb_spec (checker s) (checker t)); [congruence|reflexivity].
Qed.
(** But a new object that comes after one already there is not added. *)
Theorem C38_add_set_refuted : exists chk s t o, NoDup (objs s) /\ NoDup (objs t) /\ checker t = checker s /\ In o (objs t) /\ fine chk s o /\ ~ In o (objs (fst (add_set chk s (Some t)))).
Proof.
  exists (fun _ => 0), (OSet 0 [1]), (OSet 0 [1; 2]), 2. repeat split; try (repeat constructor; cbn; intuition congruence); cbn; intuition congruence.
Qed.
(** Adding robot nodes: all of the same checker, if they are new and different. *)
Theorem C38_add_nodes : forall chk s ns, let mine := flat_map (fun n => match n with Some n => if chk n =? checker s then [n] else [] | None => [] end) ns in
  NoDup mine -> (forall n, In n mine -> ~ In n (objs s)) -> add_nodes chk s ns = (OSet (checker s) (objs s ++ mine), true).
Proof.
  intros chk s ns mine ND N. apply add_nodes_fine; [exact ND|]. intros n I C. apply N, in_flat_map. exists (Some n). split; [exact I|]. rewrite C, Nat.eqb_refl. left. reflexivity.
Qed.
(** The copy of a set holds the same objects in the same order; the deep copy as many new ones. *)
Theorem C38_clone : forall chk global c h, let s := run chk (OSet c []) h in
  clone chk global s = s /\
  forall nc fresh, objs (clone_deep chk global nc fresh s) = seq fresh (length (objs s)) /\ checker (clone_deep chk global nc fresh s) = match nc with Some k => k | None => global end.
Proof.
  intros chk global c h s. destruct (C38_invariant chk c h) as (ND & CH & C). fold s in ND, CH, C. split.
  - unfold clone. rewrite fold_add_fresh; [destruct s; reflexivity|exact ND|]. intros o I. split; [rewrite (CH o I); cbn [new_set checker]; congruence|intros []].
  - intros nc fresh. unfold clone_deep. rewrite fold_add_fresh; [split; reflexivity|apply seq_NoDup|]. intros o I. apply in_seq in I. split; [|intros []].
    unfold clone_chk. destruct (Nat.leb_spec fresh o); [|lia]. destruct (Nat.ltb_spec o (fresh + length (objs s))); [reflexivity|lia].
Qed.
(** The collision models are those of the objects, in their order; getSceneObject reads the list. *)
Theorem C38_models : forall model s m, In m (models model s) <-> exists o n, get_object s n = Some o /\ model o = Some m.
Proof.
  intros model s m. unfold models, get_object. rewrite in_flat_map. split.
  - intros (o & I & M). apply In_nth_error in I. destruct I as (n & I). exists o, n. split; [exact I|]. destruct (model o); [destruct M as [<-|[]]; reflexivity|destruct M].
  - intros (o & n & I & M). apply nth_error_In in I. exists o. split; [exact I|]. rewrite M. left. reflexivity.
Qed.

Print Assumptions C38_new.
Print Assumptions C38_invariant.
Print Assumptions C38_add.
Print Assumptions C38_remove.
Print Assumptions C38_history.
Print Assumptions C38_add_set.
Print Assumptions C38_add_set_new.
Print Assumptions C38_add_set_refuted.
Print Assumptions C38_add_nodes.
Print Assumptions C38_clone.
Print Assumptions C38_models.

(** A history: 5, 6 and 7 come in (8 has another checker), 6 goes and comes again behind 7. *)
Definition chk0 (o : nat) : nat := if o =? 8 then 1 else 0.
Definition story : list op := [Add (Some 5); Add (Some 6); Add (Some 8); Add (Some 5); Add (Some 7); Remove (Some 6); Add None; Add (Some 6)].
Example story_single : forall p, In p story -> single p.
Proof. intros p I. repeat (destruct I as [<-|I]; [exact Logic.I|]). destruct I. Qed.
Example story_ends : objs (run chk0 (OSet 0 []) story) = [5; 7; 6] /\ since chk0 0 6 story = Some 7 /\ since chk0 0 8 story = None.
Proof. repeat split. Qed.
Example sets_joined : add_set chk0 (OSet 0 [5]) (Some (OSet 0 [6; 7])) = (OSet 0 [5; 6; 7], true).
Proof. reflexivity. Qed.
