(** Proofs for the scene graph. *)
From Coq Require Import List Arith Bool String Lia.
From Verif Require Import SceneModel SceneSpec.
Import ListNotations.

Lemma get_put : forall h x o y, get (put h x o) y = if Nat.eqb x y && Nat.ltb x (List.length h) then o else get h y.
Proof.
  unfold get. induction h as [|a h IH]; intros x o y; cbn [put].
  - rewrite andb_comm. reflexivity.
  - destruct x as [|x], y as [|y]; cbn [nth]; try reflexivity. rewrite IH. reflexivity.
Qed.
Lemma get_in : forall h x o, get h x = Some o -> x < List.length h.
Proof. intros h x o E. destruct (le_lt_dec (List.length h) x) as [L|L]; [|exact L]. unfold get in E. rewrite nth_overflow in E by exact L. discriminate. Qed.
Lemma get_modify : forall h x f y, get (modify h x f) y = if Nat.eqb x y then option_map f (get h y) else get h y.
Proof.
  intros h x f y. unfold modify. destruct (get h x) as [o|] eqn:E.
  - rewrite get_put. destruct (Nat.eqb_spec x y) as [->|N]; cbn [andb]; [|reflexivity]. assert (L := get_in _ _ _ E). apply Nat.ltb_lt in L. rewrite L, E. reflexivity.
  - destruct (Nat.eqb_spec x y) as [->|N]; [rewrite E|]; reflexivity.
Qed.
Lemma get_create : forall h n y, get (create h n) y = if Nat.eqb y (List.length h) then Some (Obj n None []) else get h y.
Proof.
  intros h n y. unfold get, create. destruct (Nat.eqb_spec y (List.length h)) as [->|N].
  - rewrite app_nth2, Nat.sub_diag by lia. reflexivity.
  - destruct (lt_dec y (List.length h)) as [L|L]; [apply app_nth1, L|]. rewrite !nth_overflow; [reflexivity|lia|rewrite app_length; cbn; lia].
Qed.
Lemma has_child_in : forall h p c, has_child h p c = true <-> In c (children h p).
Proof.
  intros h p c. unfold has_child. rewrite existsb_exists. split.
  - intros (x & I & E). apply Nat.eqb_eq in E. subst. exact I.
  - intros I. exists c. split; [exact I|apply Nat.eqb_refl].
Qed.
Lemma has_child_named_in : forall h p n, has_child_named h p n = true <-> exists c, In c (children h p) /\ name h c = Some n.
Proof.
  intros h p n. unfold has_child_named. rewrite existsb_exists. split; intros (c & I & E); exists c; (split; [exact I|]).
  - destruct (name h c) as [m|]; [|discriminate]. apply String.eqb_eq in E. subst. reflexivity.
  - rewrite E. apply String.eqb_refl.
Qed.
Lemma has_parent_false : forall h c, has_parent h c = false <-> parent h c = None.
Proof. intros h c. unfold has_parent. destruct (parent h c); split; congruence. Qed.

(** What a store looks like after an object got other children, another parent. *)
Definition linked (h : store) (p c : nat) (l : list nat) (q : option nat) : store :=
  modify (modify h p (fun o => with_children o l)) c (fun o => with_parent o q).
Lemma get_linked : forall h p c l q y, p <> c -> get (linked h p c l q) y =
  if Nat.eqb c y then option_map (fun o => with_parent o q) (get h y) else if Nat.eqb p y then option_map (fun o => with_children o l) (get h y) else get h y.
Proof.
  intros h p c l q y N. unfold linked. rewrite !get_modify. destruct (Nat.eqb_spec c y) as [->|]; [|reflexivity].
  destruct (Nat.eqb_spec p y) as [->|]; [congruence|reflexivity].
Qed.
Lemma alive_some : forall h x, alive h x <-> exists o, get h x = Some o.
Proof. intros h x. unfold alive. destruct (get h x) as [o|]; split; try congruence; [exists o; reflexivity|intros (o & E); discriminate]. Qed.
Lemma linked_children : forall h p c l q y, p <> c -> alive h p -> children (linked h p c l q) y = if Nat.eqb p y then l else children h y.
Proof.
  intros h p c l q y N A. unfold children. rewrite get_linked by exact N. apply alive_some in A. destruct A as (o & E).
  destruct (Nat.eqb_spec c y) as [->|].
  - destruct (Nat.eqb_spec p y); [congruence|]. destruct (get h y); reflexivity.
  - destruct (Nat.eqb_spec p y) as [->|]; [rewrite E|]; reflexivity.
Qed.
Lemma linked_alive : forall h p c l q y, p <> c -> (get (linked h p c l q) y = None <-> get h y = None).
Proof.
  intros h p c l q y N. rewrite get_linked by exact N.
  destruct (Nat.eqb c y), (Nat.eqb p y), (get h y); cbn [option_map]; split; congruence.
Qed.
Lemma linked_parent : forall h p c l y, p <> c -> alive h p -> alive h c -> forall q, q = None \/ q = Some p -> parent (linked h p c l q) y = if Nat.eqb c y then q else parent h y.
Proof.
  intros h p c l y N A B q Q.
  assert (F : forall z, match get (linked h p c l q) z with Some _ => Some z | None => None end = match get h z with Some _ => Some z | None => None end).
  { intros z. assert (G := linked_alive h p c l q z N). destruct (get (linked h p c l q) z), (get h z); try reflexivity; exfalso; destruct G as [G1 G2]; [specialize (G2 eq_refl)|specialize (G1 eq_refl)]; discriminate. }
  assert (D : parent (linked h p c l q) y = match get (linked h p c l q) y with Some o => match o_parent o with Some z => match get h z with Some _ => Some z | None => None end | None => None end | None => None end).
  { unfold parent. destruct (get (linked h p c l q) y) as [o|]; [|reflexivity]. destruct (o_parent o) as [z|]; [|reflexivity]. apply F. }
  rewrite D, get_linked by exact N. clear D F. unfold parent. apply alive_some in A, B. destruct A as (o & E), B as (o' & E').
  destruct (Nat.eqb_spec c y) as [->|].
  - rewrite E'. cbn [option_map o_parent with_parent]. destruct Q as [-> | ->]; [reflexivity|]. rewrite E. reflexivity.
  - destruct (Nat.eqb_spec p y) as [->|]; [|reflexivity]. rewrite E. cbn [option_map o_parent with_children]. reflexivity.
Qed.
Lemma linked_name : forall h p c l q y, p <> c -> name (linked h p c l q) y = name h y.
Proof. intros h p c l q y N. unfold name. rewrite get_linked by exact N. destruct (Nat.eqb c y), (Nat.eqb p y), (get h y); reflexivity. Qed.

(** ** attachChild *)
Lemma modify_children_ext : forall h p f g, (forall o, get h p = Some o -> f o = g o) -> modify h p f = modify h p g.
Proof. intros h p f g H. unfold modify. destruct (get h p) as [o|]; [|reflexivity]. rewrite (H o eq_refl). reflexivity. Qed.
Lemma attach_cases : forall h p c, alive h p -> alive h c ->
  (In c (children h p) /\ p <> c /\ attach_child h p c = (true, h)) \/
  (p <> c /\ ~ In c (children h p) /\ parent h c = None /\ (forall d n, In d (children h p) -> name h c = Some n -> name h d <> Some n) /\
    attach_child h p c = (true, linked h p c (children h p ++ [c]) (Some p))) \/
  ((p = c \/ ~ In c (children h p) /\ (parent h c <> None \/ exists d n, In d (children h p) /\ name h c = Some n /\ name h d = Some n)) /\ attach_child h p c = (false, h)).
Proof.
  intros h p c A B. unfold attach_child. destruct (Nat.eqb_spec p c) as [->|N]; [right; right; auto|].
  destruct (has_child h p c) eqn:HC; [apply has_child_in in HC; auto|].
  assert (NI : ~ In c (children h p)) by (intros I; apply has_child_in in I; congruence).
  destruct (has_parent h c) eqn:HP.
  { right. right. split; [|reflexivity]. right. split; [exact NI|]. left. intros E. apply has_parent_false in E. congruence. }
  apply has_parent_false in HP. apply alive_some in B. destruct B as (o & E). assert (NM : name h c = Some (o_name o)) by (unfold name; rewrite E; reflexivity). rewrite NM.
  destruct (has_child_named h p (o_name o)) eqn:HN.
  - right. right. split; [|reflexivity]. right. split; [exact NI|]. right. apply has_child_named_in in HN. destruct HN as (d & I & D). exists d, (o_name o). auto.
  - right. left. split; [exact N|]. split; [exact NI|]. split; [exact HP|]. split.
    + intros d n I En D. injection En as <-. assert (has_child_named h p (o_name o) = true) by (apply has_child_named_in; exists d; auto). congruence.
    + f_equal. unfold linked. f_equal. apply modify_children_ext. intros o' E'. unfold children. rewrite E'. reflexivity.
Qed.
Lemma attach_consistent : forall h p c, consistent h -> alive h p -> p <> c -> alive h c -> ~ In c (children h p) -> parent h c = None ->
  (forall d n, In d (children h p) -> name h c = Some n -> name h d <> Some n) ->
  consistent (linked h p c (children h p ++ [c]) (Some p)).
Proof.
  intros h p c C A N B NI NP NM. split.
  - intros q x. rewrite linked_children, linked_parent by auto. destruct (Nat.eqb_spec c x) as [->|Nx].
    + destruct (Nat.eqb_spec p q) as [->|Nq].
      * split; [reflexivity|]. intros _. apply in_or_app. right. left. reflexivity.
      * rewrite (listed h C). split; congruence.
    + rewrite <- (listed h C). destruct (Nat.eqb_spec p q) as [->|Nq]; [|reflexivity]. rewrite in_app_iff. cbn [In]. intuition congruence.
  - intros q. rewrite linked_children by auto. destruct (Nat.eqb p q); [|apply (once h C)].
    apply NoDup_rev in NI || idtac. rewrite <- (rev_involutive (children h p ++ [c])). apply NoDup_rev. rewrite rev_app_distr. cbn [rev app].
    constructor; [rewrite <- in_rev; exact NI|]. apply NoDup_rev, (once h C).
  - intros q x y n. rewrite !linked_children, !linked_name by auto. destruct (Nat.eqb p q); [|apply (siblings h C)].
    intros I J E F. apply in_app_or in I, J. cbn [In] in I, J. destruct I as [I|[<-|[]]], J as [J|[<-|[]]]; try reflexivity.
    + apply (siblings h C p x y n); assumption.
    + exfalso. apply (NM x n); assumption.
    + exfalso. apply (NM y n); assumption.
Qed.

(** ** detachChild *)
Lemma erase_first_in : forall c l x, NoDup l -> (In x (erase_first c l) <-> In x l /\ x <> c).
Proof.
  induction l as [|a l IH]; intros x ND; cbn [erase_first In]; [tauto|]. inversion ND as [|? ? NI ND']; subst.
  destruct (Nat.eqb_spec a c) as [->|N].
  - split; [intros I; split; [auto|intros ->; contradiction]|intros [[<-|I] ?]; [congruence|exact I]].
  - cbn [In]. rewrite IH by exact ND'. split; [intros [<-|[I M]]; auto|intros [[<-|I] M]; auto].
Qed.
Lemma erase_first_filter : forall c l, NoDup l -> erase_first c l = filter (fun x => negb (Nat.eqb x c)) l.
Proof.
  induction l as [|a l IH]; intros ND; cbn [erase_first filter]; [reflexivity|]. inversion ND as [|? ? NI ND']; subst.
  destruct (Nat.eqb_spec a c) as [->|N]; cbn [negb].
  - clear - NI. induction l as [|b l IH]; [reflexivity|]. cbn [filter]. destruct (Nat.eqb_spec b c) as [->|]; [exfalso; apply NI; left; reflexivity|].
    cbn [negb]. rewrite <- IH; [reflexivity|]. intros I. apply NI. right. exact I.
  - rewrite IH by exact ND'. reflexivity.
Qed.
Lemma erase_first_nodup : forall c l, NoDup l -> NoDup (erase_first c l).
Proof. intros c l ND. rewrite erase_first_filter by exact ND. apply NoDup_filter, ND. Qed.
Lemma child_alive : forall h p c, consistent h -> In c (children h p) -> alive h p /\ alive h c.
Proof.
  intros h p c C I. apply (listed h C) in I. unfold parent in I. unfold alive. destruct (get h c) as [o|]; [|discriminate].
  split; [|congruence]. destruct (o_parent o) as [q|]; [|discriminate]. destruct (get h q) eqn:E; [|discriminate]. injection I as ->. congruence.
Qed.
Lemma detach_cases : forall h p c, In c (children h p) -> detach_child h p c = linked h p c (erase_first c (children h p)) None.
Proof.
  intros h p c I. unfold detach_child. assert (E := I). apply has_child_in in E. rewrite E. unfold linked. f_equal.
  apply modify_children_ext. intros o G. unfold children. rewrite G. reflexivity.
Qed.
Lemma detach_none : forall h p c, ~ In c (children h p) -> detach_child h p c = h.
Proof. intros h p c I. unfold detach_child. destruct (has_child h p c) eqn:E; [apply has_child_in in E; contradiction|reflexivity]. Qed.
Lemma detach_consistent : forall h p c, consistent h -> p <> c -> In c (children h p) -> consistent (linked h p c (erase_first c (children h p)) None).
Proof.
  intros h p c C N I. destruct (child_alive h p c C I) as [A B]. assert (ND := once h C p). split.
  - intros q x. rewrite linked_children, linked_parent by auto. destruct (Nat.eqb_spec c x) as [->|Nx].
    + split; [|discriminate]. intros J. exfalso. destruct (Nat.eqb_spec p q) as [->|Nq].
      * apply erase_first_in in J; [|exact ND]. destruct J as [_ J]. congruence.
      * apply (listed h C) in I, J. congruence.
    + rewrite <- (listed h C). destruct (Nat.eqb_spec p q) as [->|Nq]; [|reflexivity]. rewrite erase_first_in by exact ND. intuition congruence.
  - intros q. rewrite linked_children by auto. destruct (Nat.eqb p q); [apply erase_first_nodup, ND|apply (once h C)].
  - intros q x y n. rewrite !linked_children, !linked_name by auto. destruct (Nat.eqb_spec p q) as [->|Nq]; [|apply (siblings h C)].
    rewrite !erase_first_in by exact ND. intros [J _] [K _]. apply (siblings h C q x y n); assumption.
Qed.

(** ** destruction *)
Lemma get_orphans : forall l h y, get (fold_left (fun h c => modify h c (fun o => with_parent o None)) l h) y =
  if existsb (Nat.eqb y) l then option_map (fun o => with_parent o None) (get h y) else get h y.
Proof.
  induction l as [|c l IH]; intros h y; cbn [fold_left existsb]; [reflexivity|]. rewrite IH, get_modify. rewrite (Nat.eqb_sym y c).
  destruct (Nat.eqb c y), (existsb (Nat.eqb y) l), (get h y); reflexivity.
Qed.
Lemma get_destroy : forall h x y, alive h x -> get (destroy h x) y =
  if Nat.eqb x y then None else if existsb (Nat.eqb y) (children h x) then option_map (fun o => with_parent o None) (get h y) else get h y.
Proof.
  intros h x y A. unfold destroy. rewrite get_put, get_orphans. apply alive_some in A. destruct A as (o & E).
  destruct (Nat.eqb_spec x y) as [->|N]; cbn [andb]; [|reflexivity].
  assert (L : Nat.ltb y (List.length (fold_left (fun h c => modify h c (fun o => with_parent o None)) (children h y) h)) = true); [|rewrite L; reflexivity].
  apply Nat.ltb_lt.
  assert (G := get_orphans (children h y) h y). rewrite E in G. destruct (existsb (Nat.eqb y) (children h y)); eapply get_in; rewrite G; reflexivity.
Qed.
Lemma destroy_children : forall h x y, alive h x -> children (destroy h x) y = if Nat.eqb x y then [] else children h y.
Proof.
  intros h x y A. unfold children. rewrite get_destroy by exact A. destruct (Nat.eqb x y); [reflexivity|]. fold (children h x).
  destruct (existsb (Nat.eqb y) (children h x)), (get h y); reflexivity.
Qed.
Lemma destroy_name : forall h x y, alive h x -> name (destroy h x) y = if Nat.eqb x y then None else name h y.
Proof.
  intros h x y A. unfold name. rewrite get_destroy by exact A. destruct (Nat.eqb x y); [reflexivity|].
  destruct (existsb (Nat.eqb y) (children h x)), (get h y); reflexivity.
Qed.
Lemma destroy_parent : forall h x y, consistent h -> alive h x -> parent (destroy h x) y = if Nat.eqb x y then None else if existsb (Nat.eqb y) (children h x) then None else parent h y.
Proof.
  intros h x y C A. unfold parent at 1. rewrite get_destroy by exact A. destruct (Nat.eqb_spec x y) as [->|N]; [reflexivity|].
  destruct (existsb (Nat.eqb y) (children h x)) eqn:EX; [destruct (get h y); reflexivity|].
  unfold parent. destruct (get h y) as [o|] eqn:E; [|reflexivity]. destruct (o_parent o) as [p|] eqn:P; [|reflexivity].
  rewrite get_destroy by exact A. destruct (Nat.eqb_spec x p) as [->|Np].
  - apply alive_some in A. destruct A as (o' & A). exfalso.
    assert (In y (children h p)) by (apply (listed h C); unfold parent; rewrite E, P, A; reflexivity). apply has_child_in in H. unfold has_child in H. congruence.
  - destruct (existsb (Nat.eqb p) (children h x)), (get h p); reflexivity.
Qed.
Lemma destroy_consistent : forall h x, consistent h -> alive h x -> (forall p, ~ In x (children h p)) -> consistent (destroy h x).
Proof.
  intros h x C A NL. split.
  - intros p c. rewrite destroy_children, destroy_parent by assumption. destruct (Nat.eqb_spec x p) as [->|Np].
    + cbn [In]. split; [tauto|]. destruct (Nat.eqb p c); [discriminate|]. destruct (existsb (Nat.eqb c) (children h p)) eqn:EX; [discriminate|].
      intros E. apply (listed h C), has_child_in in E. unfold has_child in E. congruence.
    + destruct (Nat.eqb_spec x c) as [->|Nc]; [split; [intros I; exfalso; apply (NL p I)|discriminate]|].
      destruct (existsb (Nat.eqb c) (children h x)) eqn:EX; [|apply (listed h C)].
      split; [|discriminate]. intros I. exfalso. change (has_child h x c = true) in EX. apply has_child_in, (listed h C) in EX. apply (listed h C) in I. congruence.
  - intros p. rewrite destroy_children by exact A. destruct (Nat.eqb x p); [constructor|apply (once h C)].
  - intros p c d n. rewrite !destroy_children, !destroy_name by exact A. destruct (Nat.eqb x p); [intros []|].
    destruct (Nat.eqb x c); [discriminate|]. destruct (Nat.eqb x d); [discriminate|]. apply (siblings h C).
Qed.
(** ** creation *)
Lemma create_children : forall h n y, children (create h n) y = children h y.
Proof.
  intros h n y. unfold children. rewrite get_create. destruct (Nat.eqb_spec y (List.length h)) as [->|N]; [|reflexivity].
  destruct (get h (List.length h)) as [o|] eqn:E; [apply get_in in E; lia|reflexivity].
Qed.

(** No object remembers a parent that was destroyed. *)
Definition sound (h : store) : Prop := forall x o p, get h x = Some o -> o_parent o = Some p -> alive h p.
Lemma create_parent : forall h n y, sound h -> parent (create h n) y = parent h y.
Proof.
  intros h n y C. assert (EN : get h (List.length h) = None) by (destruct (get h (List.length h)) as [o|] eqn:E; [apply get_in in E; lia|reflexivity]).
  unfold parent. rewrite get_create. destruct (Nat.eqb_spec y (List.length h)) as [->|N]; [rewrite EN; reflexivity|].
  destruct (get h y) as [o|] eqn:E; [|reflexivity]. destruct (o_parent o) as [p|] eqn:P; [|reflexivity]. rewrite get_create.
  destruct (Nat.eqb_spec p (List.length h)) as [->|Np]; [|reflexivity]. exfalso. apply (C y o _ E P), EN.
Qed.
Lemma create_name : forall h n y, name (create h n) y = if Nat.eqb y (List.length h) then Some n else name h y.
Proof. intros h n y. unfold name. rewrite get_create. destruct (Nat.eqb y (List.length h)); reflexivity. Qed.
Lemma create_consistent : forall h n, sound h -> consistent h -> consistent (create h n).
Proof.
  intros h n S C. split.
  - intros p c. rewrite create_children, create_parent by exact S. apply (listed h C).
  - intros p. rewrite create_children. apply (once h C).
  - intros p c d m. rewrite !create_children, !create_name. intros I J.
    assert (F : forall z, In z (children h p) -> Nat.eqb z (List.length h) = false).
    { intros z Z. apply (child_alive h p z C) in Z. destruct Z as [_ Z]. apply alive_some in Z. destruct Z as (o & Z). apply get_in in Z. apply Nat.eqb_neq. lia. }
    rewrite (F c I), (F d J). apply (siblings h C p); assumption.
Qed.
Lemma create_sound : forall h n, sound h -> sound (create h n).
Proof.
  intros h n S x o p. rewrite get_create. destruct (Nat.eqb x (List.length h)); [intros [= <-]; discriminate|]. intros E P.
  specialize (S x o p E P). unfold alive in *. rewrite get_create. destruct (Nat.eqb p (List.length h)); congruence.
Qed.
Lemma linked_sound : forall h p c l q, sound h -> p <> c -> alive h p -> q = None \/ q = Some p -> sound (linked h p c l q).
Proof.
  intros h p c l q S N A Q x o r. rewrite get_linked by exact N. intros E P. unfold alive. rewrite linked_alive by exact N. change (alive h r).
  destruct (Nat.eqb c x); [|destruct (Nat.eqb p x)].
  - destruct (get h x) as [o'|]; [|discriminate]. injection E as <-. cbn [with_parent o_parent] in P. destruct Q as [-> | ->]; [discriminate|]. injection P as <-. exact A.
  - destruct (get h x) as [o'|] eqn:G; [|discriminate]. injection E as <-. apply (S x o' r G P).
  - apply (S x o r E P).
Qed.
Lemma destroy_sound : forall h x, consistent h -> sound h -> alive h x -> sound (destroy h x).
Proof.
  intros h x C S A y o p. rewrite get_destroy by exact A. destruct (Nat.eqb x y); [discriminate|].
  destruct (existsb (Nat.eqb y) (children h x)) eqn:EX.
  - destruct (get h y); [|discriminate]. intros [= <-]. discriminate.
  - intros E P. assert (B := S y o p E P). unfold alive in *. rewrite get_destroy by exact A. destruct (Nat.eqb_spec x p) as [->|N].
    + exfalso. assert (has_child h p y = true); [|unfold has_child in *; congruence]. apply has_child_in, (listed h C). unfold parent. rewrite E, P. destruct (get h p); congruence.
    + destruct (existsb (Nat.eqb p) (children h x)), (get h p); cbn [option_map]; congruence.
Qed.
Lemma detach_self : forall h p, consistent h -> forest h -> ~ In p (children h p).
Proof. intros h p C F I. apply (F p). constructor. exact I. Qed.
(** No object is its own child. *)
Definition loopless (h : store) : Prop := forall p, ~ In p (children h p).

Lemma step_ok : forall h o, consistent h -> sound h -> loopless h -> allowed h o -> consistent (step h o) /\ sound (step h o) /\ loopless (step h o).
Proof.
  intros h o C S L A. destruct o as [n|p c|p c|x]; cbn [step allowed] in *.
  - split; [apply create_consistent; assumption|]. split; [apply create_sound, S|]. intros p. rewrite create_children. apply L.
  - destruct A as [A B]. destruct (attach_cases h p c A B) as [(_ & _ & ->)|[(N & NI & NP & NM & ->)|(_ & ->)]]; cbn [snd]; [auto| |auto].
    split; [apply attach_consistent; assumption|]. split; [apply linked_sound; auto|]. intros q. rewrite linked_children by assumption.
    destruct (Nat.eqb_spec p q) as [->|Nq]; [|apply L]. intros I. apply in_app_or in I. destruct I as [I|[I|[]]]; [apply (L q I)|congruence].
  - destruct A as [A B]. destruct (has_child h p c) eqn:HC.
    + apply has_child_in in HC. assert (N : p <> c) by (intros ->; apply (L c HC)). rewrite detach_cases by exact HC.
      split; [apply detach_consistent; assumption|]. split; [apply linked_sound; auto|]. intros q. rewrite linked_children by assumption.
      destruct (Nat.eqb_spec p q) as [->|Nq]; [|apply L]. intros I. apply erase_first_in in I; [|apply (once h C)]. apply (L q), I.
    + unfold detach_child. rewrite HC. auto.
  - destruct A as [A NL]. split; [apply destroy_consistent; assumption|]. split; [apply destroy_sound; assumption|].
    intros p. rewrite destroy_children by exact A. destruct (Nat.eqb x p); [intros []|apply L].
Qed.
Lemma reachable_ok : forall h, reachable h -> consistent h /\ sound h /\ loopless h.
Proof.
  intros h R. induction R as [|h o R (C & S & L) A].
  - split; [split|split].
    + intros p c. destruct p, c; cbn; split; intros; try contradiction; discriminate.
    + intros p. destruct p; constructor.
    + intros p c d n I. destruct p; destruct I.
    + intros x o p E. destruct x; discriminate.
    + intros p I. destruct p; destruct I.
  - apply step_ok; assumption.
Qed.

(** ** forests *)
Lemma below_trans : forall h a b c, below h a b -> below h b c -> below h a c.
Proof. intros h a b c H. induction H as [a b I|a d b I H IH]; intros K; [apply b_deep with b; assumption|apply b_deep with d; auto]. Qed.
(** Lists can only shrink: what is below stays below when they grow. *)
Lemma below_mono : forall h h' a b, (forall p x, In x (children h p) -> In x (children h' p)) -> below h a b -> below h' a b.
Proof. intros h h' a b M H. induction H as [a b I|a d b I H IH]; [apply b_child, M, I|apply b_deep with d; [apply M, I|exact IH]]. Qed.
Lemma forest_mono : forall h h', (forall p x, In x (children h' p) -> In x (children h p)) -> forest h -> forest h'.
Proof. intros h h' M F x B. apply (F x). apply (below_mono h' h x x M B). Qed.
(** After an edge from p to c was added. *)
Lemma below_added : forall h h' p c a b, (forall q x, In x (children h' q) -> In x (children h q) \/ q = p /\ x = c) -> below h' a b ->
  below h a b \/ (a = p \/ below h a p) /\ (b = c \/ below h c b).
Proof.
  intros h h' p c a b M H. induction H as [a b I|a d b I H IH].
  - destruct (M a b I) as [J|[-> ->]]; [left; apply b_child, J|right; auto].
  - destruct (M a d I) as [J|[-> ->]].
    + destruct IH as [K|[K1 K2]]; [left; apply b_deep with d; assumption|]. right. split; [|exact K2]. right. destruct K1 as [->|K1]; [apply b_child, J|apply b_deep with d; assumption].
    + destruct IH as [K|[K1 K2]]; [right; auto|]. right. split; [auto|exact K2].
Qed.
Lemma attach_forest : forall h p c, p <> c -> alive h p -> forest h ->
  (forest (linked h p c (children h p ++ [c]) (Some p)) <-> ~ below h c p).
Proof.
  intros h p c N A F. assert (CH : forall q x, In x (children (linked h p c (children h p ++ [c]) (Some p)) q) <-> In x (children h q) \/ q = p /\ x = c).
  { intros q x. rewrite linked_children by assumption. destruct (Nat.eqb_spec p q) as [->|Nq]; [rewrite in_app_iff; cbn [In]|]; intuition congruence. }
  split.
  - intros F' B. apply (F' c). apply below_trans with p; [apply (below_mono h); [|exact B]|].
    + intros q x I. apply CH. left. exact I.
    + apply b_child, CH. auto.
  - intros NB x B. apply (below_added h _ p c) in B; [|intros q y I; apply CH, I]. destruct B as [B|[[-> | B1] [E | B2]]].
    + apply (F x B).
    + congruence.
    + contradiction.
    + subst x. contradiction.
    + apply NB. apply below_trans with x; assumption.
Qed.
Lemma careful_ok : forall h, careful h -> reachable h /\ forest h.
Proof.
  intros h K. induction K as [|h o K (R & F) A G].
  - split; [constructor|]. intros x B. inversion B as [a b I|a b z I _]; subst; destruct x; destruct I.
  - split; [constructor; assumption|]. destruct (reachable_ok h R) as (C & S & L). destruct o as [n|p c|p c|x]; cbn [step allowed] in *.
    + apply (forest_mono h); [|exact F]. intros p x. rewrite create_children. auto.
    + destruct A as [A B]. destruct (attach_cases h p c A B) as [(_ & _ & ->)|[(N & NI & NP & NM & ->)|(_ & ->)]]; cbn [snd]; [exact F| |exact F].
      apply attach_forest; [assumption..|]. apply (G p c eq_refl).
    + destruct (has_child h p c) eqn:HC; [|unfold detach_child; rewrite HC; exact F].
      apply has_child_in in HC. assert (N : p <> c) by (intros ->; apply (L c HC)). rewrite detach_cases by exact HC. apply (forest_mono h); [|exact F].
      intros q x. rewrite linked_children by tauto. destruct (Nat.eqb_spec p q) as [->|]; [|auto]. intros I. apply erase_first_in in I; [tauto|apply (once h C)].
    + destruct A as [A NL]. apply (forest_mono h); [|exact F]. intros p y. rewrite destroy_children by exact A. destruct (Nat.eqb x p); [intros []|auto].
Qed.

(** ** the recursive search *)
Definition search (fuel : nat) (h : store) (c : nat) : list nat -> option bool :=
  fix loop (l : list nat) : option bool :=
    match l with
    | [] => Some false
    | k :: l => if Nat.eqb k c then Some true
                else match has_child_rec fuel h k c with
                     | None => None
                     | Some true => Some true
                     | Some false => loop l
                     end
    end.
Lemma has_child_rec_S : forall fuel h p c, has_child_rec (S fuel) h p c = search fuel h c (children h p).
Proof. reflexivity. Qed.
Lemma has_child_rec_sound : forall fuel h p c b, has_child_rec fuel h p c = Some b -> (b = true <-> below h p c).
Proof.
  induction fuel as [|fuel IH]; intros h p c b; [discriminate|]. rewrite has_child_rec_S.
  assert (G : forall l, search fuel h c l = Some b -> (b = true <-> exists k, In k l /\ (k = c \/ below h k c))).
  { induction l as [|k l IHl]; cbn [search]; fold (search fuel h c).
    - intros [= <-]. split; [discriminate|intros (k & [] & _)].
    - destruct (Nat.eqb_spec k c) as [->|N].
      + intros [= <-]. split; [intros _; exists c; split; [left; reflexivity|auto]|reflexivity].
      + destruct (has_child_rec fuel h k c) as [[|]|] eqn:E; [| |discriminate].
        * intros [= <-]. apply IH in E. split; [intros _; exists k; split; [left; reflexivity|right; apply E; reflexivity]|reflexivity].
        * intros H. specialize (IHl H). apply IH in E. rewrite IHl. split.
          -- intros (j & I & J). exists j. split; [right; exact I|exact J].
          -- intros (j & [<-|I] & J); [|exists j; auto]. exfalso. destruct J as [J|J]; [congruence|]. apply E in J. discriminate. }
  intros H. rewrite (G _ H). split.
  - intros (k & I & [->|J]); [apply b_child, I|apply b_deep with k; assumption].
  - intros B. inversion B as [a x I|a d x I B']; subst; [exists c; auto|exists d; auto].
Qed.
Lemma has_child_rec_ends : forall h, consistent h -> forest h -> forall fuel c path p,
  NoDup path -> (forall q, In q path -> q < List.length h /\ below h q p) -> List.length h <= fuel + List.length path -> has_child_rec (S fuel) h p c <> None.
Proof.
  intros h C F. induction fuel as [|fuel IH]; intros c path p ND LT LE; rewrite has_child_rec_S.
  - assert (NC : children h p = []).
    { destruct (children h p) as [|k l] eqn:E; [reflexivity|]. exfalso.
      assert (A : alive h p) by (apply (child_alive h p k C); rewrite E; left; reflexivity). apply alive_some in A. destruct A as (o & A). apply get_in in A.
      assert (NP : ~ In p path) by (intros I; apply LT in I; apply (F p), I).
      assert (B := NoDup_incl_length (l := p :: path) (l' := seq 0 (List.length h)) ltac:(constructor; assumption)).
      rewrite seq_length in B. cbn [List.length] in B. assert (incl (p :: path) (seq 0 (List.length h))); [|specialize (B H); lia].
      intros q [<-|I]; apply in_seq; [lia|]. apply LT in I. lia. }
    rewrite NC. discriminate.
  - assert (G : forall l, incl l (children h p) -> search (S fuel) h c l <> None).
    { induction l as [|k l IHl]; intros I; [discriminate|]. cbn [search]. fold (search (S fuel) h c). destruct (Nat.eqb k c); [discriminate|].
      assert (IK : In k (children h p)) by (apply I; left; reflexivity).
      assert (A : alive h p) by (apply (child_alive h p k C IK)). apply alive_some in A. destruct A as (o & A). apply get_in in A.
      assert (R : has_child_rec (S fuel) h k c <> None).
      { apply (IH c (p :: path) k).
        - constructor; [|exact ND]. intros J. apply LT in J. apply (F p), J.
        - intros q [<-|J]; [split; [exact A|apply b_child, IK]|]. apply LT in J. destruct J as [J1 J2]. split; [exact J1|]. apply below_trans with p; [exact J2|apply b_child, IK].
        - cbn [List.length]. lia. }
      destruct (has_child_rec (S fuel) h k c) as [[|]|]; [discriminate| |congruence]. apply IHl. intros x X. apply I. right. exact X. }
    apply G. intros x X. exact X.
Qed.

(** ** initialize *)
Lemma put_same : forall h x o, get h x = Some o -> put h x (Some o) = h.
Proof.
  unfold get. induction h as [|a h IH]; intros x o E; [destruct x; reflexivity|]. destruct x as [|x]; cbn [nth put] in *; [congruence|]. rewrite IH by exact E. reflexivity.
Qed.
Lemma set_parent_same : forall h x, sound h -> modify h x (fun o => with_parent o (parent h x)) = h.
Proof.
  intros h x S. unfold modify. destruct (get h x) as [o|] eqn:E; [|reflexivity].
  assert (P : parent h x = o_parent o).
  { unfold parent. rewrite E. destruct (o_parent o) as [p|] eqn:P; [|reflexivity]. specialize (S x o p E P). unfold alive in S. destruct (get h p); congruence. }
  rewrite P. replace (with_parent o (o_parent o)) with o; [apply put_same, E|]. destruct o; reflexivity.
Qed.
Definition init_all (fuel : nat) (x : nat) (l : list nat) (h : store) : option store :=
  fold_left (fun r c => match r with Some h => initialize fuel h c (Some x) [] | None => None end) l (Some h).
Lemma initialize_again : forall h, consistent h -> sound h -> forest h -> forall fuel path x p,
  parent h x = Some p -> NoDup path -> (forall q, In q path -> q < List.length h /\ below h q x) -> List.length h <= fuel + List.length path ->
  initialize (S fuel) h x (Some p) [] = Some h.
Proof.
  intros h C S F.
  assert (ALL : forall fuel x l, (forall c, In c l -> initialize fuel h c (Some x) [] = Some h) -> init_all fuel x l h = Some h).
  { intros fuel x l. unfold init_all. induction l as [|c l IH]; intros H; [reflexivity|]. cbn [fold_left]. rewrite H by (left; reflexivity). apply IH. intros d D. apply H. right. exact D. }
  assert (ST : forall fuel x p, parent h x = Some p -> initialize (Datatypes.S fuel) h x (Some p) [] = init_all fuel x (children h x) h).
  { intros fuel x p E. cbn [initialize]. assert (I := E). apply (listed h C), has_child_in in I. rewrite I. rewrite <- E, set_parent_same by exact S. reflexivity. }
  induction fuel as [|fuel IH]; intros path x p E ND LT LE; rewrite ST by exact E; apply ALL; intros c I.
  - exfalso. assert (A : alive h x) by (apply (child_alive h x c C I)). apply alive_some in A. destruct A as (o & A). apply get_in in A.
    assert (NP : ~ In x path) by (intros J; apply LT in J; apply (F x), J).
    assert (B := NoDup_incl_length (l := x :: path) (l' := seq 0 (List.length h)) ltac:(constructor; assumption)).
    rewrite seq_length in B. cbn [List.length] in B. assert (incl (x :: path) (seq 0 (List.length h))); [|specialize (B H); lia].
    intros q [<-|J]; apply in_seq; [lia|]. apply LT in J. lia.
  - assert (A : alive h x) by (apply (child_alive h x c C I)). apply alive_some in A. destruct A as (o & A). apply get_in in A.
    apply (IH (x :: path) c x).
    + apply (listed h C), I.
    + constructor; [|exact ND]. intros J. apply LT in J. apply (F x), J.
    + intros q [<-|J]; [split; [exact A|apply b_child, I]|]. apply LT in J. destruct J as [J1 J2]. split; [exact J1|]. apply below_trans with x; [exact J2|apply b_child, I].
    + cbn [List.length]. lia.
Qed.
Lemma initialize_ok : forall h x p cs h1 h3, consistent h1 -> sound h1 ->
  match p with Some q => (if has_child h q x then h else snd (attach_child h q x)) | None => h end = h1 -> parent h1 x = p ->
  fold_left (fun h c => if has_child h x c then h else snd (attach_child h x c)) cs h1 = h3 ->
  consistent h3 -> sound h3 -> forest h3 ->
  initialize (2 + List.length h3) h x p cs = Some h3.
Proof.
  intros h x p cs h1 h3 C1 S1 E1 P1 E3 C3 S3 F3. change (2 + List.length h3) with (S (S (List.length h3))). cbn [initialize]. rewrite E1. assert (SP := set_parent_same h1 x S1). rewrite P1 in SP. rewrite SP, E3.
  change (init_all (S (List.length h3)) x (children h3 x) h3 = Some h3).
  assert (G : forall l, incl l (children h3 x) -> init_all (S (List.length h3)) x l h3 = Some h3).
  { unfold init_all. induction l as [|c l IH]; intros I; [reflexivity|]. cbn [fold_left].
    rewrite (initialize_again h3 C3 S3 F3 (List.length h3) [] c x); [apply IH; intros d D; apply I; right; exact D| |constructor|intros q []|lia].
    apply (listed h3 C3), I. left. reflexivity. }
  apply G. intros c I. exact I.
Qed.
