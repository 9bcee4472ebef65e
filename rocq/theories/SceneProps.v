(** C34: the scene graph. *)
From Coq Require Import List Arith Bool String Lia.
From Verif Require Import SceneModel SceneSpec SceneProofs.
Import ListNotations.
Open Scope string_scope.

(** C34.  After any sequence of creating, attaching, detaching and destroying objects, every object is listed as a child exactly by
    its parent (so by at most one object), once, and siblings have different names. *)
Theorem C34_consistent : forall h, reachable h -> consistent h.
Proof. intros h R. apply reachable_ok, R. Qed.
(** attachChild succeeds exactly if the object is a child already, or is another object without a parent whose name no child has.
    It appends the new child and changes nothing else. *)
Theorem C34_attach : forall h p c, reachable h -> alive h p -> alive h c ->
  (fst (attach_child h p c) = true <->
     In c (children h p) \/ (p <> c /\ parent h c = None /\ forall d, In d (children h p) -> name h d <> name h c)) /\
  (In c (children h p) \/ fst (attach_child h p c) = false -> snd (attach_child h p c) = h) /\
  (~ In c (children h p) -> fst (attach_child h p c) = true -> let h' := snd (attach_child h p c) in
     parent h' c = Some p /\ children h' p = (children h p ++ [c])%list /\
     (forall x, x <> p -> children h' x = children h x) /\ (forall x, x <> c -> parent h' x = parent h x) /\ (forall x, name h' x = name h x)).
Proof.
  intros h p c R A B. destruct (reachable_ok h R) as (C & S & L).
  destruct (attach_cases h p c A B) as [(I & N & ->)|[(N & NI & NP & NM & ->)|(W & ->)]]; cbn [fst snd].
  - split; [tauto|]. split; [reflexivity|]. intros NI. contradiction.
  - split.
    + split; [intros _; right|reflexivity]. split; [exact N|]. split; [exact NP|]. intros d D E. apply alive_some in B. destruct B as (o & B).
      assert (name h c = Some (o_name o)) by (unfold name; rewrite B; reflexivity). apply (NM d (o_name o) D H). congruence.
    + split; [intros [?|?]; [contradiction|discriminate]|]. intros _ _. cbv zeta. rewrite linked_parent, linked_children, !Nat.eqb_refl by auto.
      split; [reflexivity|]. split; [reflexivity|]. split; [|split].
      * intros x X. rewrite linked_children by assumption. destruct (Nat.eqb_spec p x); [congruence|reflexivity].
      * intros x X. rewrite linked_parent by auto. destruct (Nat.eqb_spec c x); [congruence|reflexivity].
      * intros x. apply linked_name, N.
  - split; [|split; [reflexivity|discriminate]]. split; [discriminate|]. intros [I|(N & NP & NM)]; exfalso.
    + destruct W as [->|[NI _]]; [apply (L c I)|contradiction].
    + destruct W as [->|[NI [W|(d & n & D & E1 & E2)]]]; [congruence|congruence|]. apply (NM d D). congruence.
Qed.
(** detachChild takes exactly this child out of the list; without such a child nothing happens. *)
Theorem C34_detach : forall h p c, reachable h ->
  (~ In c (children h p) -> detach_child h p c = h) /\
  (In c (children h p) -> let h' := detach_child h p c in
     parent h' c = None /\ (exists l1 l2, children h p = (l1 ++ c :: l2)%list /\ children h' p = (l1 ++ l2)%list) /\
     (forall x, x <> p -> children h' x = children h x) /\ (forall x, x <> c -> parent h' x = parent h x) /\ (forall x, name h' x = name h x)).
Proof.
  intros h p c R. destruct (reachable_ok h R) as (C & S & L). split; [apply detach_none|]. intros I. cbv zeta.
  assert (N : p <> c) by (intros ->; apply (L c I)). destruct (child_alive h p c C I) as [A B]. rewrite detach_cases by exact I.
  rewrite linked_parent, linked_children, !Nat.eqb_refl by auto. split; [reflexivity|]. split; [|split; [|split]].
  - clear - I. induction (children h p) as [|a l IH]; [destruct I|]. cbn [erase_first]. destruct (Nat.eqb_spec a c) as [->|N].
    + exists [], l. split; reflexivity.
    + destruct I as [I|I]; [congruence|]. destruct (IH I) as (l1 & l2 & E1 & E2). exists (a :: l1)%list, l2. rewrite E1 at 1. rewrite E2. split; reflexivity.
  - intros x X. rewrite linked_children by assumption. destruct (Nat.eqb_spec p x); [congruence|reflexivity].
  - intros x X. rewrite linked_parent by auto. destruct (Nat.eqb_spec c x); [congruence|reflexivity].
  - intros x. apply linked_name, N.
Qed.
(** Detaching undoes attaching. *)
Theorem C34_attach_detach : forall h p c, reachable h -> alive h p -> alive h c -> ~ In c (children h p) -> fst (attach_child h p c) = true ->
  alike h (detach_child (snd (attach_child h p c)) p c).
Proof.
  intros h p c R A B NI T. assert (R' : reachable (step h (Attach p c))) by (constructor; [exact R|split; assumption]). cbn [step] in R'.
  destruct (C34_attach h p c R A B) as (Q & _ & W). specialize (W NI T). cbv zeta in W. destruct W as (W1 & W2 & W3 & W4 & W5).
  assert (NP : parent h c = None). { apply Q in T. destruct T as [T|T]; [contradiction|tauto]. }
  set (h1 := snd (attach_child h p c)) in *. assert (I : In c (children h1 p)) by (rewrite W2; apply in_or_app; right; left; reflexivity).
  destruct (C34_detach h1 p c R') as (_ & V). specialize (V I). cbv zeta in V. destruct V as (V1 & (l1 & l2 & V2 & V2') & V3 & V4 & V5).
  intros x. split; [rewrite V5; apply W5|]. split.
  - destruct (Nat.eq_dec x p) as [->|N]; [|rewrite V3, W3 by exact N; reflexivity]. rewrite V2'. rewrite W2 in V2.
    assert (ND : NoDup (children h1 p)) by apply (once h1 (C34_consistent h1 R')). rewrite W2 in ND.
    destruct l2 as [|b l2] using rev_ind; [|clear IHl2].
    + apply app_inj_tail in V2. destruct V2 as [V2 _]. rewrite app_nil_r. auto.
    + rewrite app_comm_cons, app_assoc in V2. apply app_inj_tail in V2. destruct V2 as [V2 _]. exfalso. apply NI. rewrite V2. apply in_or_app. right. left. reflexivity.
  - destruct (Nat.eq_dec x c) as [->|N]; [|rewrite V4, W4 by exact N; reflexivity]. congruence.
Qed.
(** The graph need not be a forest: an object can be attached below itself, and then the recursive search never ends. *)
Definition circle : store := [Some (Obj "a" (Some 1) [1]); Some (Obj "b" (Some 0) [0]); Some (Obj "c" None [])].
Theorem C34_forest_refuted : reachable circle /\ ~ forest circle /\ forall fuel, has_child_rec fuel circle 0 2 = None.
Proof.
  split; [|split].
  - change circle with (step (step (step (step (step [] (Create "a")) (Create "b")) (Create "c")) (Attach 0 1)) (Attach 1 0)).
    repeat (constructor; [|cbn; unfold alive; cbn; try (split; discriminate); exact I]). constructor.
  - intros F. apply (F 0). apply b_deep with 1; [left; reflexivity|]. apply b_child. left. reflexivity.
  - intros fuel. assert (has_child_rec fuel circle 0 2 = None /\ has_child_rec fuel circle 1 2 = None); [|tauto].
    induction fuel as [|fuel [IH1 IH2]]; [split; reflexivity|]. rewrite !has_child_rec_S. cbn [children get circle nth o_children search Nat.eqb].
    rewrite IH1, IH2. split; reflexivity.
Qed.
(** It is one as long as nothing is attached below itself; otherwise it no longer is. *)
Theorem C34_forest : forall h, careful h -> reachable h /\ forest h.
Proof. exact careful_ok. Qed.
Theorem C34_forest_exact : forall h p c, reachable h -> forest h -> alive h p -> alive h c ->
  (forest (snd (attach_child h p c)) <-> ~ (~ In c (children h p) /\ fst (attach_child h p c) = true /\ below h c p)).
Proof.
  intros h p c R F A B. destruct (attach_cases h p c A B) as [(I & N & ->)|[(N & NI & NP & NM & ->)|(W & ->)]]; cbn [fst snd]; [tauto| |].
  - rewrite attach_forest by assumption. tauto.
  - split; [|intros _; exact F]. intros _ (_ & E & _). discriminate.
Qed.
(** In a forest hasChild(child, true) ends and tells whether the child is below. *)
Theorem C34_has_child_recursive : forall h p c, reachable h -> forest h ->
  exists b, has_child_rec (S (List.length h)) h p c = Some b /\ (b = true <-> below h p c).
Proof.
  intros h p c R F. destruct (reachable_ok h R) as (C & S & L).
  assert (E := has_child_rec_ends h C F (List.length h) c [] p (NoDup_nil _) ltac:(intros q []) ltac:(cbn; lia)).
  destruct (has_child_rec (Datatypes.S (List.length h)) h p c) as [b|] eqn:B; [|congruence]. exists b. split; [reflexivity|]. apply (has_child_rec_sound _ _ _ _ _ B).
Qed.
(** initialize attaches the object and the given children and otherwise leaves the graph alone, if the parent accepts it
    (or none is given and there is none) and the result is a forest. *)
Theorem C34_initialize : forall h x p cs, reachable h -> alive h x -> (forall c, In c cs -> alive h c) ->
  match p with Some q => alive h q /\ fst (attach_child h q x) = true | None => parent h x = None end ->
  let h' := fold_left step (map (Attach x) cs) (match p with Some q => step h (Attach q x) | None => h end) in
  reachable h' /\ (forest h' -> initialize (2 + List.length h') h x p cs = Some h').
Proof.
  intros h x p cs R A AC P h'.
  set (h1 := match p with Some q => step h (Attach q x) | None => h end) in *.
  assert (R1 : reachable h1) by (destruct p as [q|]; subst h1; [constructor; [exact R|split; tauto]|exact R]).
  assert (AL : forall y, alive h y -> alive h1 y).
  { intros y Y. subst h1. destruct p as [q|]; [|exact Y]. destruct P as [Q T]. cbn [step]. destruct (attach_cases h q x Q A) as [(_ & _ & ->)|[(N & NI & NP & NM & ->)|(_ & ->)]]; cbn [snd]; try exact Y.
    unfold alive in *. rewrite linked_alive by exact N. exact Y. }
  assert (G : forall l g, reachable g -> alive g x -> (forall c, In c l -> alive g c) -> reachable (fold_left step (map (Attach x) l) g) /\
    fold_left (fun h c => if has_child h x c then h else snd (attach_child h x c)) l g = fold_left step (map (Attach x) l) g).
  { induction l as [|c l IH]; intros g Rg Ag AC'; [split; [exact Rg|reflexivity]|]. cbn [map fold_left].
    assert (Ac : alive g c) by (apply AC'; left; reflexivity).
    assert (E : (if has_child g x c then g else snd (attach_child g x c)) = step g (Attach x c)).
    { cbn [step]. destruct (has_child g x c) eqn:H; [|reflexivity]. apply has_child_in in H. destruct (reachable_ok g Rg) as (C & S & L). destruct (C34_attach g x c Rg Ag Ac) as (_ & Q & _). symmetry. apply Q. left. exact H. }
    rewrite E. apply IH.
    - constructor; [exact Rg|split; assumption].
    - cbn [step]. destruct (attach_cases g x c Ag Ac) as [(_ & _ & ->)|[(N & NI & NP & NM & ->)|(_ & ->)]]; cbn [snd]; try exact Ag. unfold alive in *. rewrite linked_alive by exact N. exact Ag.
    - intros d D. assert (Ad : alive g d) by (apply AC'; right; exact D). cbn [step]. destruct (attach_cases g x c Ag Ac) as [(_ & _ & ->)|[(N & NI & NP & NM & ->)|(_ & ->)]]; cbn [snd]; try exact Ad. unfold alive in *. rewrite linked_alive by exact N. exact Ad. }
  destruct (G cs h1 R1 (AL x A) (fun c I => AL c (AC c I))) as [R3 E3]. fold h' in R3, E3. split; [exact R3|]. intros F3.
  destruct (reachable_ok h1 R1) as (C1 & S1 & _). destruct (reachable_ok h' R3) as (C3 & S3 & _).
  apply (initialize_ok h x p cs h1 h'); try assumption.
  - subst h1. destruct p as [q|]; [|reflexivity]. destruct P as [Q T]. cbn [step]. destruct (has_child h q x) eqn:H; [|reflexivity]. apply has_child_in in H. symmetry. apply (C34_attach h q x R Q A). left. exact H.
  - subst h1. destruct p as [q|]; [|exact P]. destruct P as [Q T]. cbn [step]. destruct (has_child h q x) eqn:H.
    + apply has_child_in in H. destruct (C34_attach h q x R Q A) as (_ & W & _). rewrite W by (left; exact H). apply (listed h (C34_consistent h R)), H.
    + destruct (C34_attach h q x R Q A) as (_ & _ & W). apply W; [|exact T]. intros I. apply has_child_in in I. congruence.
Qed.
(** If the parent refuses the object, initialize makes it the parent nevertheless, and the graph is inconsistent. *)
Definition two_homes : store := [Some (Obj "a" None [2]); Some (Obj "b" None []); Some (Obj "c" (Some 0) [])].
Theorem C34_initialize_refuted : reachable two_homes /\ exists h', initialize 3 two_homes 2 (Some 1) [] = Some h' /\
  parent h' 2 = Some 1 /\ children h' 1 = [] /\ children h' 0 = [2].
Proof.
  split.
  - change two_homes with (step (step (step (step [] (Create "a")) (Create "b")) (Create "c")) (Attach 0 2)).
    repeat (constructor; [|cbn; unfold alive; cbn; try (split; discriminate); exact I]). constructor.
  - eexists. split; [reflexivity|]. repeat split; reflexivity.
Qed.
(** setName is not checked: siblings can get the same name. *)
Theorem C34_set_name_refuted : exists h x n, reachable h /\ ~ consistent (set_name h x n).
Proof.
  exists [Some (Obj "a" None [1; 2]); Some (Obj "b" (Some 0) []); Some (Obj "c" (Some 0) [])], 2, "b". split.
  - change (reachable (step (step (step (step (step [] (Create "a")) (Create "b")) (Create "c")) (Attach 0 1)) (Attach 0 2))).
    repeat (constructor; [|cbn; unfold alive; cbn; try (split; discriminate); exact I]). constructor.
  - intros C. assert (1 = 2); [|discriminate]. apply (siblings _ C 0 1 2 "b"); cbn; auto.
Qed.

(** A non-trivial case: a root with two children, one of them with a child of its own. *)
Definition family : list op := [Create "root"; Create "left"; Create "right"; Create "leaf"; Attach 0 1; Attach 1 3; Attach 0 2].
Example C34_witness : careful (fold_left step family []) /\ children (fold_left step family []) 0 = [1; 2] /\ below (fold_left step family []) 0 3.
Proof.
  split; [|split; [reflexivity|apply b_deep with 1; [left; reflexivity|apply b_child; left; reflexivity]]].
  unfold family. cbn [fold_left].
  assert (NB : forall h c p, children h c = [] -> ~ below h c p) by (intros h c p E B; inversion B as [a x I|a d x I _]; subst; rewrite E in I; destruct I).
  apply c_step; [|split; discriminate|].
  apply c_step; [|split; discriminate|].
  apply c_step; [|split; discriminate|].
  apply c_step; [|exact I|discriminate]. apply c_step; [|exact I|discriminate]. apply c_step; [|exact I|discriminate]. apply c_step; [constructor|exact I|discriminate].
  - intros p c [= <- <-]. apply NB. reflexivity.
  - intros p c [= <- <-]. apply NB. reflexivity.
  - intros p c [= <- <-]. apply NB. reflexivity.
Qed.
Example C34_destroy_witness : let h := fold_left step family [] in allowed h (Destroy 0) /\ parent (destroy h 0) 1 = None /\ parent (destroy h 0) 3 = Some 1.
Proof.
  cbv zeta. split; [|split; reflexivity]. split; [discriminate|]. intros p I. do 4 (destruct p as [|p]; [cbn in I; intuition discriminate|]). destruct p; destruct I.
Qed.

Print Assumptions C34_consistent.
Print Assumptions C34_attach.
Print Assumptions C34_detach.
Print Assumptions C34_attach_detach.
Print Assumptions C34_forest.
Print Assumptions C34_forest_exact.
Print Assumptions C34_forest_refuted.
Print Assumptions C34_has_child_recursive.
Print Assumptions C34_initialize.
Print Assumptions C34_initialize_refuted.
Print Assumptions C34_set_name_refuted.
