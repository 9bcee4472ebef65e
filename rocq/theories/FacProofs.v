(** Proofs about robots built from robots. *)
From Coq Require Import Reals List Bool Arith Lia Lra Permutation.
From Verif Require Import QuatModel QuatSpec QuatProofs RpyModel JointModel KinModel KinSpec KinProofs JacModel JacSpec JacProofs AprProofs FacModel FacSpec.
Import ListNotations.
Open Scope R_scope.

(** ** The way from the root to a node *)
Lemma root_top r p : tree r -> desc r p (root r) -> p = root r.
Proof.
  intros T D. inversion D as [|q z D' I]; [reflexivity|]. subst. apply (t_links r T) in I. destruct I as (n & E & P).
  destruct (t_root r T) as (m & F & Q). congruence.
Qed.
Lemma desc_or r x p : tree r -> desc r (root r) x -> desc r p x \/ ~ desc r p x.
Proof.
  intros T D. induction D as [|q z D IH I].
  - destruct (Nat.eq_dec p (root r)) as [->|N]; [left; constructor|right]. intros E. apply N, (root_top r p T E).
  - destruct (Nat.eq_dec p z) as [->|N]; [left; constructor|]. destruct IH as [E|E].
    + left. apply d_step with q; assumption.
    + right. intros F. inversion F as [|q' z' F' J]; subst; [congruence|]. rewrite (one_parent r q' q z T J I) in F'. contradiction.
Qed.
Lemma desc_anti r a b : tree r -> desc r a b -> desc r b a -> a = b.
Proof.
  intros T D E. destruct (desc_first r a b D) as [->|(c & I & F)]; [reflexivity|]. exfalso.
  apply (t_acyclic r T a c I). apply (desc_trans r c b a F E).
Qed.
(** Induction along the way up. *)
Lemma up_ind r x (P : nat -> Prop) : P x -> (forall c p, desc r c x -> In c (kids r p) -> P c -> P p) -> forall y, desc r y x -> P y.
Proof.
  intros B H. assert (G : forall y z, desc r y z -> desc r z x -> P z -> P y).
  { intros y z D. induction D as [|p z D IH I]; intros E K; [exact K|]. apply IH.
    - apply desc_trans with z; [apply d_step with p; [constructor|exact I]|exact E].
    - exact (H z p E I K). }
  intros y D. apply (G y x D); [constructor|exact B].
Qed.

Lemma is_rn_proper n : is_rn n = true <-> proper n.
Proof. unfold is_rn, proper. destruct (n_kind n); split; intros H; try split; try congruence; destruct H; congruence. Qed.
Lemma rn_at_proper r x : rn_at r x = true <-> exists n, node_at r x = Some n /\ proper n.
Proof.
  unfold rn_at. destruct (node_at r x) as [n|]; [|split; [discriminate|intros (n & E & _); discriminate]].
  rewrite is_rn_proper. split; [intros H; exists n; now split|intros (m & [= <-] & H); exact H].
Qed.

(** ** The structure with another root *)
Section Structure.
  Variables (r : robot) (x : nat).
  Hypotheses (T : tree r) (W : whole r) (X : part r x).

  (** [y] is the parent of [z] after the change. *)
  Definition np (z y : nat) : Prop := (In z (kids r y) /\ ~ desc r z x) \/ (In y (kids r z) /\ desc r y x).

  Lemma np_fun z y y' : np z y -> np z y' -> y = y'.
  Proof.
    intros [(A & B)|(A & B)] [(C & D)|(C & D)].
    - apply (one_parent r y y' z T A C).
    - exfalso. apply B. apply desc_trans with y'; [apply d_step with z; [constructor|exact C]|exact D].
    - exfalso. apply D. apply desc_trans with y; [apply d_step with z; [constructor|exact A]|exact B].
    - apply (desc_apart r z y y' x T A C B D).
  Qed.
  Lemma np_x y : ~ np x y.
  Proof.
    intros [(A & B)|(A & B)]; [apply B; constructor|]. exact (t_acyclic r T x y A B).
  Qed.
  Lemma np_ne z y : np z y -> z <> y.
  Proof. intros [(A & B)|(A & B)] ->; apply (t_acyclic r T y y A); constructor. Qed.
  Lemma part_kid p c : part r p -> In c (kids r p) -> rn_at r c = true -> part r c.
  Proof. intros (D & _) I E. split; [apply d_step with p; assumption|now apply rn_at_proper]. Qed.
  Lemma part_up p c : part r c -> In c (kids r p) -> part r p.
  Proof.
    intros (D & n & E & Q) I. inversion D as [|q z D' J].
    - subst. apply (t_links r T) in I. destruct I as (m & F & P). destruct (t_root r T) as (k & F' & P'). congruence.
    - subst. assert (q = p) by (apply (one_parent r q p c T J I)). subst q. split; [exact D'|].
      unfold kids in I. destruct (node_at r p) as [m|] eqn:F; [|destruct I]. exists m. split; [reflexivity|].
      apply (proj2 W p c n m); [unfold kids; rewrite F; exact I|exact E|exact F|exact Q].
  Qed.
  Lemma way_part y : desc r y x -> part r y.
  Proof. revert y. apply up_ind; [exact X|]. intros c p _ I C. apply (part_up p c C I). Qed.
  Lemma rn_parent_spec p c : part r c -> (rn_parent r c = Some p <-> In c (kids r p)).
  Proof.
    intros C. split.
    - unfold rn_parent. destruct (node_at r c) as [n|] eqn:E; [|discriminate]. destruct (n_parent n) as [p'|] eqn:P; [|discriminate].
      destruct (rn_at r p'); [|discriminate]. intros [= ->]. apply (t_links r T). exists n. now split.
    - intros I. pose proof (part_up p c C I) as (_ & Q). apply rn_at_proper in Q. apply (t_links r T) in I. destruct I as (n & E & P).
      unfold rn_parent. rewrite E, P, Q. reflexivity.
  Qed.

  Definition from_ok (y : nat) (from : option nat) : Prop := (y = x /\ from = None) \/ exists f, from = Some f /\ np y f.

  Lemma is_some_true o y : is_some o y = true <-> o = Some y.
  Proof. destruct o as [z|]; cbn; [|split; discriminate]. rewrite Nat.eqb_eq. split; congruence. Qed.

  Lemma children_spec y from c i : part r y -> from_ok y from ->
    (In (c, i) (new_children r from y) <-> part r c /\ np c y /\ (i = true <-> In y (kids r c))).
  Proof.
    intros Y FR. unfold new_children. rewrite in_app_iff. split.
    - intros [H|H].
      + destruct (rn_parent r y) as [p|] eqn:E; [|destruct H]. apply (rn_parent_spec p y Y) in E.
        destruct (is_some from p) eqn:S'; [destruct H|]. destruct H as [[= <- <-]|[]].
        split; [apply (part_up p y Y E)|]. split; [|split; intros _; [exact E|reflexivity]].
        right. split; [exact E|]. destruct FR as [(-> & _)|(f & -> & N)]; [constructor|].
        destruct N as [(A & B)|(A & B)].
        * exfalso. assert (p = f) by (apply (one_parent r p f y T E A)). subst f. assert (V : is_some (Some p) p = true) by (apply is_some_true; reflexivity). congruence.
        * apply desc_trans with f; [apply d_step with y; [constructor|exact A]|exact B].
      + apply in_map_iff in H. destruct H as (c' & [= -> <-] & H). apply filter_In in H. destruct H as (I & V). apply andb_true_iff in V.
        destruct V as (V1 & V2). split; [apply (part_kid y c Y I V2)|]. split.
        * left. split; [exact I|]. destruct FR as [(-> & _)|(f & -> & N)]; [exact (t_acyclic r T x c I)|].
          destruct N as [(A & B)|(A & B)]; intros D.
          -- apply B. apply desc_trans with c; [apply d_step with y; [constructor|exact I]|exact D].
          -- assert (c = f) by (apply (desc_apart r y c f x T I A D B)). subst f. cbn in V1. rewrite Nat.eqb_refl in V1. discriminate.
        * split; [discriminate|]. intros J. exfalso. apply (t_acyclic r T y c I). apply d_step with c; [constructor|exact J].
    - intros (C & N & K). destruct N as [(A & B)|(A & B)].
      + right. assert (i = false). { destruct i; [|reflexivity]. exfalso. pose proof (proj1 K eq_refl) as J. apply (t_acyclic r T y c A). apply d_step with c; [constructor|exact J]. }
        subst i. apply in_map_iff. exists c. split; [reflexivity|]. apply filter_In. split; [exact A|]. destruct C as (_ & C). apply rn_at_proper in C. rewrite C, andb_true_r.
        apply negb_true_iff. destruct (is_some from c) eqn:S'; [|reflexivity]. apply is_some_true in S'. exfalso.
        destruct FR as [(_ & ->)|(f & -> & [(A' & B')|(A' & B')])]; [discriminate| |]; injection S' as ->.
        * apply (t_acyclic r T y c A). apply d_step with c; [constructor|exact A'].
        * contradiction.
      + left. assert (i = true) by (apply K, A). subst i. pose proof (proj2 (rn_parent_spec c y Y) A) as E. rewrite E.
        destruct (is_some from c) eqn:S'; [|left; reflexivity]. exfalso. apply is_some_true in S'.
        destruct FR as [(_ & ->)|(f & -> & [(A' & B')|(A' & B')])]; [discriminate| |]; injection S' as ->.
        * contradiction.
        * apply (t_acyclic r T c y A). apply d_step with y; [constructor|exact A'].
  Qed.
  Lemma children_once y from : part r y -> from_ok y from -> NoDup (map fst (new_children r from y)).
  Proof.
    intros Y FR. unfold new_children. rewrite map_app, map_map. cbn [fst]. rewrite map_id.
    assert (N : NoDup (filter (fun c => negb (is_some from c) && rn_at r c) (kids r y))) by (apply NoDup_filter, (t_once r T)).
    destruct (rn_parent r y) as [p|] eqn:E; [|exact N]. destruct (is_some from p); [exact N|].
    cbn [map fst app]. constructor; [|exact N]. intros H. apply filter_In in H. destruct H as (I & _).
    apply (rn_parent_spec p y Y) in E. apply (t_acyclic r T p y E). apply d_step with y; [constructor|exact I].
  Qed.

  (** The loop over the queue. *)
  Record inv (seen : list nat) (queue : list (option nat * nat)) : Prop := {
    i_once : NoDup (seen ++ map snd queue);
    i_part : forall y, In y (seen ++ map snd queue) -> part r y;
    i_from : forall f y, In (f, y) queue -> from_ok y f;
    i_up : forall z y, In z (seen ++ map snd queue) -> np z y -> In y seen;
    i_down : forall z y, In y seen -> part r z -> np z y -> In z (seen ++ map snd queue) }.

  Lemma bfs fuel : forall seen queue, inv seen queue -> (length (nodes r) <= fuel + length seen)%nat ->
    exists defs, inverse_structure fuel r queue = Some defs /\ inv (seen ++ map d_name defs) [] /\
      (forall y, In y (map snd queue) -> In y (map d_name defs)) /\
      Forall (fun d => exists from, from_ok (d_name d) from /\ d_children d = new_children r from (d_name d)) defs.
  Proof.
    induction fuel as [|fuel IH]; intros seen queue V L.
    - destruct queue as [|(f, y) rest].
      + exists []. split; [reflexivity|]. cbn [map]. rewrite app_nil_r. split; [exact V|]. split; [intros y []|constructor].
      + exfalso. pose proof (i_once _ _ V) as N. cbn [map snd] in N.
        assert (length (seen ++ y :: map snd rest) <= length (seq 0 (length (nodes r))))%nat.
        { apply NoDup_incl_length; [exact N|]. intros z I. apply (i_part _ _ V) in I. destruct I as (_ & n & E & _).
          apply in_seq. split; [lia|]. cbn. apply (node_lt r z n E). }
        rewrite seq_length, app_length in H. cbn [length] in H. lia.
    - destruct queue as [|(f, y) rest].
      + exists []. split; [reflexivity|]. cbn [map]. rewrite app_nil_r. split; [exact V|]. split; [intros y []|constructor].
      + cbn [inverse_structure]. set (cs := new_children r f y). set (q' := rest ++ map (fun e => (Some y, fst e)) cs).
        assert (PY : part r y) by (apply (i_part _ _ V); rewrite in_app_iff; right; left; reflexivity).
        assert (FY : from_ok y f) by (apply (i_from _ _ V); left; reflexivity).
        assert (Q : map snd q' = map snd rest ++ map fst cs).
        { unfold q'. rewrite map_app, map_map. reflexivity. }
        assert (CS : forall c, In c (map fst cs) <-> part r c /\ np c y).
        { intros c. rewrite in_map_iff. split.
          - intros ((c', i) & <- & I). apply (children_spec y f c' i PY FY) in I. cbn [fst]. tauto.
          - intros (C & N). destruct N as [(A & B)|(A & B)].
            + exists (c, false). split; [reflexivity|]. apply (children_spec y f c false PY FY). split; [exact C|]. split; [left; now split|].
              split; [discriminate|]. intros J. exfalso. apply (t_acyclic r T y c A). apply d_step with c; [constructor|exact J].
            + exists (c, true). split; [reflexivity|]. apply (children_spec y f c true PY FY). split; [exact C|]. split; [right; now split|].
              split; [intros _; exact A|reflexivity]. }
        pose proof (i_once _ _ V) as N0. cbn [map snd] in N0.
        assert (NY : ~ In y seen). { intros I. apply NoDup_remove_2 in N0. apply N0. apply in_or_app. now left. }
        assert (V' : inv (seen ++ [y]) q').
        { constructor.
          - rewrite Q. rewrite <- app_assoc. cbn [app]. rewrite (app_comm_cons (map snd rest)), app_assoc. 
            assert (ND : forall l1 l2 : list nat, NoDup l1 -> NoDup l2 -> (forall z, In z l1 -> ~ In z l2) -> NoDup (l1 ++ l2)).
            { clear. induction l1 as [|a l1 IH]; intros l2 A B C; [exact B|]. inversion A as [|a' l' A1 A2]; subst. cbn. constructor.
              - rewrite in_app_iff. intros [I|I]; [contradiction|]. apply (C a); [now left|exact I].
              - apply IH; [exact A2|exact B|]. intros z I. apply C. now right. }
            apply ND; [exact N0|apply (children_once y f PY FY)|]. intros z I J. apply CS in J. destruct J as (_ & J).
            apply NY. apply (i_up _ _ V z y); [exact I|exact J].
          - intros z I. rewrite Q in I. rewrite !in_app_iff in I. destruct I as [[I|[<-|[]]]|[I|I]].
            + apply (i_part _ _ V). apply in_or_app. now left.
            + exact PY.
            + apply (i_part _ _ V). apply in_or_app. right. now right.
            + now apply CS in I.
          - intros f' z I. apply in_app_or in I. destruct I as [I|I]; [apply (i_from _ _ V); now right|].
            apply in_map_iff in I. destruct I as (e & [= <- <-] & I). right. exists y. split; [reflexivity|]. apply CS. now apply in_map.
          - intros z w I N. rewrite Q in I. rewrite !in_app_iff in *. destruct I as [[I|[<-|[]]]|[I|I]].
            + left. apply (i_up _ _ V z w); [apply in_or_app; now left|exact N].
            + left. apply (i_up _ _ V y w); [apply in_or_app; right; now left|exact N].
            + left. apply (i_up _ _ V z w); [apply in_or_app; right; now right|exact N].
            + apply CS in I. destruct I as (_ & I). right. left. apply (np_fun z y w I N).
          - intros z w I Z N. rewrite Q. rewrite !in_app_iff in *. destruct I as [I|[<-|[]]].
            + pose proof (i_down _ _ V z w I Z N) as H. apply in_app_or in H. cbn [map snd In] in H. cbn [In]. tauto.
            + right. right. apply CS. now split. }
        destruct (IH (seen ++ [y]) q' V') as (defs & E & I & QQ & F); [rewrite app_length; cbn [length]; lia|].
        rewrite E. exists (Def y cs :: defs). split; [reflexivity|]. split; [|split].
        * cbn [map d_name]. rewrite <- app_assoc in I. exact I.
        * intros z [<-|J]; [now left|]. right. apply QQ. rewrite Q. apply in_or_app. left. exact J.
        * constructor; [|exact F]. exists f. split; [exact FY|reflexivity].
  Qed.

  (** What the structure says. *)
  Record good (defs : list def) : Prop := {
    g_once : NoDup (map d_name defs);
    g_all : forall y, In y (map d_name defs) <-> part r y;
    g_kids : forall d, In d defs -> forall c i, In (c, i) (d_children d) <-> part r c /\ np c (d_name d) /\ (i = true <-> In (d_name d) (kids r c));
    g_kids_once : forall d, In d defs -> NoDup (map fst (d_children d)) }.

  Lemma structure_ok fuel : (length (nodes r) <= fuel)%nat -> exists defs, inverse_structure fuel r [(None, x)] = Some defs /\ good defs.
  Proof.
    intros L. destruct (bfs fuel [] [(None, x)]) as (defs & E & V & Q & F).
    - constructor.
      + cbn. constructor; [intros []|constructor].
      + intros y [<-|[]]. exact X.
      + intros f y [[= <- <-]|[]]. left. now split.
      + intros z y [<-|[]] N. exfalso. apply (np_x y N).
      + intros z y [].
    - cbn [length]. lia.
    - exists defs. split; [exact E|]. cbn [app] in V.
      assert (XI : In x (map d_name defs)) by (apply Q; left; reflexivity).
      assert (UP : forall y, desc r y x -> In y (map d_name defs)).
      { apply up_ind; [exact XI|]. intros c p D I K. pose proof (i_part _ _ V c) as PC. rewrite app_nil_r in PC.
        pose proof (i_down _ _ V p c K (part_up p c (PC K) I)) as H. cbn [map] in H. rewrite app_nil_r in H. apply H. right. now split. }
      constructor.
      + pose proof (i_once _ _ V) as N. cbn [map] in N. rewrite app_nil_r in N. exact N.
      + intros y. split.
        * intros I. apply (i_part _ _ V). rewrite app_nil_r. exact I.
        * intros (D & n & En & P). revert n En P. induction D as [|p z D IH I]; intros n En P; [apply UP, (proj1 X)|].
          destruct (desc_or r x z T (proj1 X)) as [Z|Z]; [apply UP, Z|].
          assert (PZ : part r z) by (split; [apply d_step with p; assumption|exists n; now split]).
          destruct (part_up p z PZ I) as (_ & m & Em & Pm).
          pose proof (i_down _ _ V z p (IH m Em Pm) PZ) as H. cbn [map] in H. rewrite app_nil_r in H. apply H. left. now split.
      + intros d I c i. rewrite Forall_forall in F. destruct (F d I) as (from & FO & K). rewrite K. apply children_spec; [|exact FO].
        apply (i_part _ _ V). rewrite app_nil_r. now apply in_map.
      + intros d I. rewrite Forall_forall in F. destruct (F d I) as (from & FO & K). rewrite K. apply children_once; [|exact FO].
        apply (i_part _ _ V). rewrite app_nil_r. now apply in_map.
  Qed.
End Structure.

(** ** Carrying out a structure *)
Lemma nodup_left (l l' : list nat) : NoDup (l ++ l') -> NoDup l.
Proof.
  induction l as [|a l IH]; intros N; [constructor|]. cbn [app] in N. apply NoDup_cons_iff in N. destruct N as (N1 & N2). constructor; [|now apply IH].
  intros I. apply N1. apply in_or_app. now left.
Qed.
Section Run.
  Variable s : source.
  Let r := s_robot s.
  Let event : Type := (nat * nat * bool)%type.
  Definition child_of (e : nat * nat * bool) : nat := snd (fst e).
  (** The events of a structure: parent, child, inverted or not. *)
  Record sane (E : list event) : Prop := {
    e_child : NoDup (map child_of E);
    e_up : forall p c c', In (p, c, true) E -> In (p, c', true) E -> c = c';
    e_mix : forall p c q, In (p, c, true) E -> In (q, p, false) E -> False;
    e_ne : forall p c i, In (p, c, i) E -> p <> c }.
  Record at_events (evs : list event) (names : list nat) (b : build) : Prop := {
    v_parent : forall z p, b_parent b z = Some p <-> exists i, In (p, z, i) evs;
    v_kids : forall p c, In c (b_kids b p) <-> exists i, In (p, c, i) evs;
    v_once : forall p, NoDup (b_kids b p);
    v_inverted : forall p z, In (p, z, true) evs -> b_local b z = Some (inverted (local_of r p)) /\ b_flip b z = true;
    v_plain : forall p z, In (p, z, false) evs -> b_local b z = Some (local_of r z) /\ b_flip b z = false;
    v_top : forall z, (forall p i, ~ In (p, z, i) evs) -> b_flip b z = false /\ (In z names -> b_local b z = Some pid) /\ (~ In z names -> b_local b z = None);
    v_visu : forall u w d, b_visu b u = Some (w, d) <-> (In (u, w, true) evs /\ d = inverted (local_of r u) /\ s_model s w = true) \/
               (exists p, In (p, u, false) evs /\ w = u /\ d = pid /\ s_model s u = true);
    v_moved : forall u c, In (u, c, true) evs -> b_phys b u = Some (Phys (mass (s_phys s c)) (papply (inverted (local_of r u)) (com (s_phys s c))));
    v_empty : forall u p, (forall c, ~ In (u, c, true) evs) -> In (p, u, true) evs -> b_phys b u = Some no_phys;
    v_own : forall u, (forall c, ~ In (u, c, true) evs) -> (forall p, ~ In (p, u, true) evs) -> b_phys b u = None;
    v_sensors_up : forall u c, In (u, c, true) evs -> b_sensors b u = sensors_of r c;
    v_sensors_own : forall p u, In (p, u, false) evs -> b_sensors b u = sensors_of r u;
    v_sensors_none : forall u, (forall c, ~ In (u, c, true) evs) -> (forall p, ~ In (p, u, false) evs) -> b_sensors b u = [] }.

  Lemma at_start : at_events [] [] FacModel.start.
  Proof.
    constructor; cbn; intros; try contradiction; try tauto.
    - split; [discriminate|intros (i & [])].
    - split; [tauto|intros (i & [])].
    - constructor.
    - split; [discriminate|]. intros [([] & _)|(p & [] & _)].
  Qed.

  Lemma sane_child E p p' c i i' : sane E -> In (p, c, i) E -> In (p', c, i') E -> p = p' /\ i = i'.
  Proof.
    intros H A B. pose proof (e_child E H) as N. clear H. induction E as [|e E IH]; [destruct A|].
    cbn [map] in N. inversion N as [|a l N1 N2]; subst. destruct A as [->|A], B as [B|B].
    - injection B as -> ->. now split.
    - exfalso. apply N1. change (In (child_of (p', c, i')) (map child_of E)). now apply in_map.
    - subst e. exfalso. apply N1. change (In (child_of (p, c, i)) (map child_of E)). now apply in_map.
    - now apply IH.
  Qed.
  Lemma sane_sub E E' : sane (E ++ E') -> sane E.
  Proof.
    intros H. constructor.
    - pose proof (e_child _ H) as N. rewrite map_app in N. exact (nodup_left _ _ N).
    - intros p c c' A B. apply (e_up _ H p); apply in_or_app; now left.
    - intros p c q A B. apply (e_mix _ H p c q); apply in_or_app; now left.
    - intros p c i A. apply (e_ne _ H p c i); apply in_or_app; now left.
  Qed.

  Lemma put_same {A : Type} (m : nat -> A) x v : put m x v x = v.
  Proof. unfold put. now rewrite Nat.eqb_refl. Qed.
  Lemma put_other {A : Type} (m : nat -> A) x v y : y <> x -> put m x v y = m y.
  Proof. intros N. unfold put. apply Nat.eqb_neq in N. now rewrite N. Qed.

  Lemma in_snoc {A : Type} (l : list A) a e : In a (l ++ [e]) <-> In a l \/ a = e.
  Proof. rewrite in_app_iff. cbn. intuition. Qed.

  Lemma step_event evs names b p c i : sane (evs ++ [(p, c, i)]) -> at_events evs names b -> at_events (evs ++ [(p, c, i)]) names (add_child s p b (c, i)).
  Proof.
    intros H V.
    assert (LAST : In (p, c, i) (evs ++ [(p, c, i)])) by (apply in_snoc; now right).
    assert (OLD : forall e, In e evs -> In e (evs ++ [(p, c, i)])) by (intros e I; apply in_snoc; now left).
    assert (NEW : forall q j, ~ In (q, c, j) evs).
    { intros q j I. pose proof (e_child _ H) as N. rewrite map_app in N. cbn [map] in N. apply NoDup_remove_2 in N. apply N.
      rewrite app_nil_r. change (In (child_of (q, c, j)) (map child_of evs)). now apply in_map. }
    assert (PC : p <> c) by (apply (e_ne _ H p c i LAST)).
    assert (NP : b_parent b c = None).
    { destruct (b_parent b c) as [q|] eqn:E; [|reflexivity]. apply (v_parent _ _ _ V) in E. destruct E as (j & E). destruct (NEW q j E). }
    assert (NK : ~ In c (b_kids b p)).
    { intros I. apply (v_kids _ _ _ V) in I. destruct I as (j & I). destruct (NEW p j I). }
    assert (BL : Nat.eqb p c || existsb (Nat.eqb c) (b_kids b p) || match b_parent b c with Some _ => true | None => false end = false).
    { rewrite NP. apply Nat.eqb_neq in PC. rewrite PC. cbn. rewrite orb_false_r. destruct (existsb (Nat.eqb c) (b_kids b p)) eqn:E; [|reflexivity].
      apply existsb_exists in E. destruct E as (c' & I & E). apply Nat.eqb_eq in E. subst c'. contradiction. }
    assert (PAR : forall z q, put (b_parent b) c (Some p) z = Some q <-> exists j, In (q, z, j) (evs ++ [(p, c, i)])).
    { intros z q. destruct (Nat.eq_dec z c) as [->|N].
      - rewrite put_same. split.
        + intros [= <-]. exists i. exact LAST.
        + intros (j & I). apply in_snoc in I. destruct I as [I|I]; [destruct (NEW q j I)|congruence].
      - rewrite put_other by exact N. rewrite (v_parent _ _ _ V). split; intros (j & I); exists j; [now apply OLD|].
        apply in_snoc in I. destruct I as [I|I]; [exact I|congruence]. }
    assert (KID : forall q z, In z (put (b_kids b) p (b_kids b p ++ [c]) q) <-> exists j, In (q, z, j) (evs ++ [(p, c, i)])).
    { intros q z. destruct (Nat.eq_dec q p) as [->|N].
      - rewrite put_same, in_snoc, (v_kids _ _ _ V). split.
        + intros [(j & I)| ->]; [exists j; now apply OLD|exists i; exact LAST].
        + intros (j & I). apply in_snoc in I. destruct I as [I|I]; [left; now exists j|right; congruence].
      - rewrite put_other by exact N. rewrite (v_kids _ _ _ V). split; intros (j & I); exists j; [now apply OLD|].
        apply in_snoc in I. destruct I as [I|I]; [exact I|congruence]. }
    assert (ONCE : forall q, NoDup (put (b_kids b) p (b_kids b p ++ [c]) q)).
    { intros q. destruct (Nat.eq_dec q p) as [->|N]; [|rewrite put_other by exact N; apply (v_once _ _ _ V)]. rewrite put_same.
      apply NoDup_Add with (a := c) (l := b_kids b p); [|split; [apply (v_once _ _ _ V)|exact NK]].
      rewrite <- (app_nil_r (b_kids b p)) at 1. apply Add_app. }
    unfold add_child. rewrite BL. cbv zeta. fold r. destruct i.
    - (* inverted *)
      assert (U : forall c', ~ In (p, c', true) evs).
      { intros c' I. assert (c' = c) by (apply (e_up _ H p); [now apply OLD|exact LAST]). subst c'. apply (NEW p true I). }
      assert (M : forall q, ~ In (q, p, false) evs) by (intros q I; apply (e_mix _ H p c q LAST); now apply OLD).
      constructor; cbn [b_parent b_kids b_local b_flip b_visu b_phys b_sensors].
      + exact PAR.
      + exact KID.
      + exact ONCE.
      + intros q z I. apply in_snoc in I. destruct I as [I|[= -> ->]]; [|now rewrite !put_same].
        assert (z <> c) by (intros ->; apply (NEW q true I)). rewrite !put_other by assumption. apply (v_inverted _ _ _ V q z I).
      + intros q z I. apply in_snoc in I. destruct I as [I|I]; [|congruence].
        assert (z <> c) by (intros ->; apply (NEW q false I)). rewrite !put_other by assumption. apply (v_plain _ _ _ V q z I).
      + intros z N. assert (z <> c) by (intros ->; apply (N p true LAST)). rewrite !put_other by assumption. apply (v_top _ _ _ V). intros q j I. apply (N q j). now apply OLD.
      + intros u w d. destruct (Nat.eq_dec u p) as [->|N].
        * assert (b_visu b p = None).
          { destruct (b_visu b p) as [(w', d')|] eqn:E; [|reflexivity]. apply (v_visu _ _ _ V) in E. destruct E as [(I & _)|(q & I & _)]; [destruct (U w' I)|destruct (M q I)]. }
          destruct (s_model s c) eqn:MC; [rewrite put_same|rewrite H0]; split.
          -- intros [= <- <-]. left. split; [exact LAST|]. now split.
          -- intros [(I & -> & _)|(q & I & _)]; [|exfalso; apply (e_mix _ H p c q LAST I)]. now rewrite (e_up _ H p w c I LAST).
          -- discriminate.
          -- intros [(I & _ & K)|(q & I & _)]; [|exfalso; apply (e_mix _ H p c q LAST I)]. rewrite (e_up _ H p w c I LAST) in K. congruence.
        * assert (EQ : (if s_model s c then put (b_visu b) p (Some (c, inverted (local_of r p))) else b_visu b) u = b_visu b u) by (destruct (s_model s c); [now apply put_other|reflexivity]).
          rewrite EQ, (v_visu _ _ _ V). split; (intros [(I & K)|(q & I & K)]; [left|right; exists q]); (split; [|exact K]); try (now apply OLD); apply in_snoc in I; destruct I as [I|I]; (exact I || congruence).
      + intros u c' I. apply in_snoc in I.
        assert (B1 : forall v, (if Nat.eq_dec u p then True else b_phys b u = Some v) -> 
           match put (b_phys b) p (Some (Phys (mass (s_phys s c)) (papply (inverted (local_of r p)) (com (s_phys s c))))) c with
           | Some _ => put (b_phys b) p (Some (Phys (mass (s_phys s c)) (papply (inverted (local_of r p)) (com (s_phys s c)))))
           | None => put (put (b_phys b) p (Some (Phys (mass (s_phys s c)) (papply (inverted (local_of r p)) (com (s_phys s c)))))) c (Some no_phys) end u
           = if Nat.eq_dec u p then Some (Phys (mass (s_phys s c)) (papply (inverted (local_of r p)) (com (s_phys s c)))) else Some v).
        { intros v K. rewrite put_other by (intros E; apply PC; now symmetry). destruct (Nat.eq_dec u p) as [->|N].
          - destruct (b_phys b c); [now rewrite put_same|]. rewrite put_other by exact PC. now rewrite put_same.
          - destruct (b_phys b c) eqn:E; [now rewrite put_other|]. destruct (Nat.eq_dec u c) as [->|N']; [congruence|]. rewrite !put_other by assumption. exact K. }
        destruct I as [I|[= -> ->]].
        * assert (N : u <> p) by (intros ->; apply (U c' I)).
          rewrite (B1 (Phys (mass (s_phys s c')) (papply (inverted (local_of r u)) (com (s_phys s c'))))); destruct (Nat.eq_dec u p); try contradiction; [reflexivity|].
          apply (v_moved _ _ _ V u c' I).
        * rewrite (B1 no_phys); destruct (Nat.eq_dec p p); try contradiction; reflexivity || exact I.
      + intros u q N I. assert (UP : u <> p) by (intros ->; apply (N c LAST)). rewrite put_other by (intros E; apply PC; now symmetry).
        apply in_snoc in I. destruct I as [I|[= -> ->]].
        * assert (u <> c) by (intros ->; apply (NEW q true I)).
          assert (K : b_phys b u = Some no_phys) by (apply (v_empty _ _ _ V u q); [intros c' J; apply (N c'); now apply OLD|exact I]).
          destruct (b_phys b c); rewrite !put_other by assumption; exact K.
        * destruct (b_phys b c) as [v|] eqn:E; [|now rewrite put_same]. rewrite put_other by exact UP.
          (* no event wrote the physics of c *)
          exfalso. assert (K : b_phys b c = None); [|congruence]. apply (v_own _ _ _ V); [intros c' J; apply (N c'); now apply OLD|intros q J; apply (NEW q true J)].
      + intros u N N'. assert (UP : u <> p) by (intros ->; apply (N c LAST)). assert (UC : u <> c) by (intros ->; apply (N' p LAST)).
        assert (K : b_phys b u = None) by (apply (v_own _ _ _ V); [intros c' J; apply (N c'); now apply OLD|intros q J; apply (N' q); now apply OLD]).
        rewrite (put_other (b_phys b) p _ c) by (intros E; apply PC; now symmetry). destruct (b_phys b c); rewrite !put_other by assumption; exact K.
      + intros u c' I. apply in_snoc in I. destruct I as [I|[= -> ->]].
        * assert (u <> p) by (intros ->; apply (U c' I)). rewrite put_other by assumption. apply (v_sensors_up _ _ _ V u c' I).
        * rewrite put_same. rewrite (v_sensors_none _ _ _ V p U M). reflexivity.
      + intros q u I. apply in_snoc in I. destruct I as [I|I]; [|congruence]. assert (u <> p) by (intros ->; apply (M q I)). rewrite put_other by assumption. apply (v_sensors_own _ _ _ V q u I).
      + intros u N N'. assert (u <> p) by (intros ->; apply (N c LAST)). rewrite put_other by assumption.
        apply (v_sensors_none _ _ _ V); [intros c' J; apply (N c'); now apply OLD|intros q J; apply (N' q); now apply OLD].
    - (* kept *)
      assert (U : forall c', ~ In (c, c', true) evs) by (intros c' I; apply (e_mix _ H c c' p); [now apply OLD|exact LAST]).
      assert (M : forall q, ~ In (q, c, false) evs) by (intros q; apply NEW).
      constructor; cbn [b_parent b_kids b_local b_flip b_visu b_phys b_sensors].
      + exact PAR.
      + exact KID.
      + exact ONCE.
      + intros q z I. apply in_snoc in I. destruct I as [I|I]; [|congruence].
        assert (z <> c) by (intros ->; apply (NEW q true I)). rewrite !put_other by assumption. apply (v_inverted _ _ _ V q z I).
      + intros q z I. apply in_snoc in I. destruct I as [I|[= -> ->]]; [|now rewrite !put_same].
        assert (z <> c) by (intros ->; apply (NEW q false I)). rewrite !put_other by assumption. apply (v_plain _ _ _ V q z I).
      + intros z N. assert (z <> c) by (intros ->; apply (N p false LAST)). rewrite !put_other by assumption. apply (v_top _ _ _ V). intros q j I. apply (N q j). now apply OLD.
      + intros u w d. destruct (Nat.eq_dec u c) as [->|N].
        * assert (b_visu b c = None).
          { destruct (b_visu b c) as [(w', d')|] eqn:E; [|reflexivity]. apply (v_visu _ _ _ V) in E. destruct E as [(I & _)|(q & I & _)]; [destruct (U w' I)|destruct (M q I)]. }
          destruct (s_model s c) eqn:MC; [rewrite put_same|rewrite H0]; split.
          -- intros [= <- <-]. right. exists p. split; [exact LAST|]. now repeat split.
          -- intros [(I & _)|(q & I & -> & -> & _)]; [exfalso; apply (e_mix _ H c w p I LAST)|reflexivity].
          -- discriminate.
          -- intros [(I & _)|(q & I & -> & -> & K)]; [exfalso; apply (e_mix _ H c w p I LAST)|congruence].
        * assert (EQ : (if s_model s c then put (b_visu b) c (Some (c, pid)) else b_visu b) u = b_visu b u) by (destruct (s_model s c); [now apply put_other|reflexivity]).
          rewrite EQ, (v_visu _ _ _ V). split; (intros [(I & K)|(q & I & K)]; [left|right; exists q]); (split; [|exact K]); try (now apply OLD); apply in_snoc in I; destruct I as [I|I]; (exact I || congruence).
      + intros u c' I. apply in_snoc in I. destruct I as [I|I]; [|congruence]. apply (v_moved _ _ _ V u c' I).
      + intros u q N I. apply in_snoc in I. destruct I as [I|I]; [|congruence]. apply (v_empty _ _ _ V u q); [|exact I]. intros c' J. apply (N c'). now apply OLD.
      + intros u N N'. apply (v_own _ _ _ V); [intros c' J; apply (N c'); now apply OLD|intros q J; apply (N' q); now apply OLD].
      + intros u c' I. apply in_snoc in I. destruct I as [I|I]; [|congruence].
        assert (u <> c) by (intros ->; apply (U c' I)). rewrite put_other by assumption. apply (v_sensors_up _ _ _ V u c' I).
      + intros q u I. apply in_snoc in I. destruct I as [I|[= -> ->]].
        * assert (u <> c) by (intros ->; apply (M q I)). rewrite put_other by assumption. apply (v_sensors_own _ _ _ V q u I).
        * rewrite put_same. rewrite (v_sensors_none _ _ _ V c U M). reflexivity.
      + intros u N N'. assert (u <> c) by (intros ->; apply (N' p LAST)). rewrite put_other by assumption.
        apply (v_sensors_none _ _ _ V); [intros c' J; apply (N c'); now apply OLD|intros q J; apply (N' q); now apply OLD].
  Qed.

  Definition events_of (d : def) : list event := map (fun e => (d_name d, fst e, snd e)) (d_children d).
  Lemma step_children p l : forall evs names b, sane (evs ++ map (fun e => (p, fst e, snd e)) l) -> at_events evs names b ->
    at_events (evs ++ map (fun e => (p, fst e, snd e)) l) names (fold_left (add_child s p) l b).
  Proof.
    induction l as [|(c, i) l IH]; intros evs names b H V; cbn [map fold_left fst snd]; [rewrite app_nil_r; exact V|].
    cbn [map fst snd] in H. change ((p, c, i) :: map (fun e => (p, fst e, snd e)) l) with ([(p, c, i)] ++ map (fun e => (p, fst e, snd e)) l) in *.
    rewrite app_assoc in *. apply IH; [exact H|]. apply step_event; [apply sane_sub in H; exact H|exact V].
  Qed.
  Lemma step_def d evs names b : sane (evs ++ events_of d) -> at_events evs names b -> at_events (evs ++ events_of d) (names ++ [d_name d]) (add_def s b d).
  Proof.
    intros H V. pose proof (step_children (d_name d) (d_children d) evs names b H V) as V'. fold (events_of d) in V'. unfold add_def.
    set (b' := fold_left (add_child s (d_name d)) (d_children d) b) in *. clearbody b'. clear V. set (E := evs ++ events_of d) in *.
    assert (TOP : (forall p i, ~ In (p, d_name d, i) E) \/ exists p i, In (p, d_name d, i) E).
    { clear. induction E as [|((p, c), i) E IH]; [left; intros p i []|]. destruct (Nat.eq_dec c (d_name d)) as [->|N]; [right; exists p, i; now left|].
      destruct IH as [IH|(q & j & IH)]; [left|right; exists q, j; now right]. intros q j [[= -> -> ->]|I]; [now apply N|apply (IH q j I)]. }
    destruct (b_local b' (d_name d)) as [l|] eqn:L.
    - destruct V'. constructor; try assumption. intros z N. destruct (v_top0 z N) as (A & B & C). split; [exact A|]. split.
      + intros I. apply in_app_or in I. destruct I as [I|[<-|[]]]; [now apply B|].
        destruct (in_dec Nat.eq_dec (d_name d) names) as [I|I]; [now apply B|]. rewrite (C I) in L. discriminate.
      + intros I. apply C. intros J. apply I. apply in_or_app. now left.
    - assert (TOP' : forall p i, ~ In (p, d_name d, i) E).
      { destruct TOP as [TOP|(p & i & I)]; [exact TOP|]. exfalso. destruct i.
        - destruct (v_inverted _ _ _ V' _ _ I). congruence.
        - destruct (v_plain _ _ _ V' _ _ I). congruence. }
      destruct V'. constructor; cbn [b_parent b_kids b_local b_flip b_visu b_phys b_sensors]; try assumption.
      + intros p z I. assert (z <> d_name d) by (intros ->; apply (TOP' p true I)). rewrite !put_other by assumption. apply (v_inverted0 p z I).
      + intros p z I. assert (z <> d_name d) by (intros ->; apply (TOP' p false I)). rewrite !put_other by assumption. apply (v_plain0 p z I).
      + intros z N. destruct (v_top0 z N) as (A & B & C). destruct (Nat.eq_dec z (d_name d)) as [->|M].
        * rewrite !put_same. split; [reflexivity|]. split; [reflexivity|]. intros I. exfalso. apply I. apply in_or_app. right. now left.
        * rewrite !put_other by assumption. split; [exact A|]. split.
          -- intros I. apply B. apply in_app_or in I. destruct I as [I|[I|[]]]; [exact I|congruence].
          -- intros I. apply C. intros J. apply I. apply in_or_app. now left.
  Qed.
  Lemma run_defs defs : forall evs names b, sane (evs ++ flat_map events_of defs) -> at_events evs names b ->
    at_events (evs ++ flat_map events_of defs) (names ++ map d_name defs) (fold_left (add_def s) defs b).
  Proof.
    induction defs as [|d defs IH]; intros evs names b H V; cbn [flat_map map fold_left]; [rewrite !app_nil_r; exact V|].
    cbn [flat_map] in H. rewrite app_assoc in H. rewrite app_assoc. change (d_name d :: map d_name defs) with ([d_name d] ++ map d_name defs). rewrite app_assoc.
    apply IH; [exact H|]. apply step_def; [apply sane_sub in H; exact H|exact V].
  Qed.
  Lemma run_ok defs : sane (flat_map events_of defs) -> at_events (flat_map events_of defs) (map d_name defs) (fold_left (add_def s) defs FacModel.start).
  Proof. intros H. apply (run_defs defs [] [] FacModel.start H at_start). Qed.
End Run.

(** ** Rigid motions *)
Lemma pmul_rot a b : rotation (prot a) -> rotation (prot b) -> rotation (prot (pmul a b)).
Proof. intros A B. cbn [prot pmul]. now apply mmul_rotation. Qed.
Lemma inverted_rot a : rotation (prot a) -> rotation (prot (inverted a)).
Proof.
  intros (A & B & C). cbn [prot inverted]. unfold rotation. assert (TT : mtrans (mtrans (prot a)) = prot a) by (destruct (prot a); reflexivity).
  rewrite TT. split; [exact B|]. split; [exact A|]. rewrite <- C. destruct (prot a); unfold mdet, mtrans; cbn; ring.
Qed.
Lemma inverted_mul a b : rotation (prot a) -> inverted (pmul a b) = pmul (inverted b) (inverted a).
Proof.
  intros (_ & A & _). destruct a as [ra pa], b as [rb pb]. cbn [prot] in A. unfold inverted, pmul. cbn [prot ppos].
  assert (TM : mtrans (mmul ra rb) = mmul (mtrans rb) (mtrans ra)) by (destruct ra, rb; unfold mtrans, mmul; cbn; f_equal; ring).
  rewrite TM. f_equal. rewrite !mapply_mmul, !mapply_vadd. rewrite <- (mapply_mmul (mtrans ra) ra), A, mapply_mid.
  destruct (mtrans rb) as [e1 e2 e3 e4 e5 e6 e7 e8 e9], (mapply (mtrans ra) pa) as [u1 u2 u3], pb as [w1 w2 w3]; unfold mapply, vscale, vadd; cbn; f_equal; ring.
Qed.
Lemma inverted_pid : inverted pid = pid.
Proof. unfold inverted, pid, mtrans, mid, mapply, vscale; cbn. f_equal. f_equal; ring. Qed.
Lemma inverted_revolute a t : inverted (Pose (axisangle2mat a t) (Vec 0 0 0)) = Pose (axisangle2mat (vneg a) t) (Vec 0 0 0).
Proof.
  unfold inverted. cbn [prot ppos]. f_equal.
  - destruct a as [a1 a2 a3]. unfold axisangle2mat, mtrans, vneg, vscale. cbn. f_equal; ring.
  - unfold mapply, vscale. cbn. f_equal; ring.
Qed.
Lemma inverted_prismatic d t : inverted (Pose mid (vscale t d)) = Pose mid (vscale t (vneg d)).
Proof.
  unfold inverted. cbn [prot ppos]. f_equal. destruct d as [d1 d2 d3]. unfold mtrans, mid, mapply, vneg, vscale. cbn. f_equal; ring.
Qed.
Lemma transform_split n : proper n -> transform n = pmul (n_local n) (joint_motion n).
Proof.
  intros (A & B). unfold transform, joint_motion. destruct (n_kind n); try reflexivity; try congruence. now rewrite pmul_pid_r.
Qed.
Lemma motion_rotation r y n : rigid r -> node_at r y = Some n -> rotation (prot (joint_motion n)).
Proof.
  intros (_ & H) En. destruct (H y n En) as (_ & K). unfold joint_motion. destruct (n_kind n) as [|a|d| |]; cbn [prot]; try apply mid_rotation. now apply axis_ok.
Qed.

(** ** The clone *)
Lemma nth_numbered {A : Type} (l : list A) : forall k y, nth_error (combine (seq k (length l)) l) y = option_map (pair (k + y)%nat) (nth_error l y).
Proof.
  induction l as [|a l IH]; intros k y; [destruct y; reflexivity|]. cbn [length seq combine]. destruct y as [|y]; cbn [nth_error option_map].
  - now rewrite Nat.add_0_r.
  - rewrite IH. now rewrite Nat.add_succ_r.
Qed.
Lemma node_with_q q r y : node_at (with_q q r) y = option_map (fun n => with_joint (with_value (n_joint n) (q y)) n) (node_at r y).
Proof.
  unfold node_at, with_q. cbn [nodes]. rewrite nth_error_map, nth_numbered. cbn [Nat.add]. destruct (nth_error (nodes r) y); reflexivity.
Qed.
Lemma kids_with_q q r y : kids (with_q q r) y = kids r y.
Proof. unfold kids. rewrite node_with_q. destruct (node_at r y); reflexivity. Qed.
Lemma desc_with_q q r a b : desc (with_q q r) a b <-> desc r a b.
Proof. split; apply desc_kids; intros y; rewrite kids_with_q; reflexivity. Qed.
Lemma tree_with_q q r : tree r -> tree (with_q q r).
Proof.
  intros T. constructor.
  - intros p c. rewrite kids_with_q, (t_links r T). split.
    + intros (n & E & P). exists (with_joint (with_value (n_joint n) (q c)) n). rewrite node_with_q, E. split; [reflexivity|exact P].
    + intros (n & E & P). rewrite node_with_q in E. destruct (node_at r c) as [m|]; [|discriminate]. injection E as <-. exists m. split; [reflexivity|exact P].
  - intros p. rewrite kids_with_q. apply (t_once r T).
  - destruct (t_root r T) as (n & E & P). exists (with_joint (with_value (n_joint n) (q (root r))) n). change (root (with_q q r)) with (root r).
    rewrite node_with_q, E. split; [reflexivity|exact P].
  - intros y c I D. rewrite kids_with_q in I. rewrite desc_with_q in D. exact (t_acyclic r T y c I D).
Qed.

Lemma acyclic_reach r x y : (forall p p' c, In c (kids r p) -> In c (kids r p') -> p = p') -> (forall p, ~ In x (kids r p)) -> desc r x y ->
  forall c, In c (kids r y) -> ~ desc r c y.
Proof.
  intros U N D. induction D as [|p z D IH I]; intros c J E.
  - inversion E as [|q z' E' K]; subst; [exact (N x J)|exact (N q K)].
  - inversion E as [|q z' E' K]; subst.
    + assert (p = z) by (apply (U p z z I J)). subst p. apply (IH z I). constructor.
    + assert (q = p) by (apply (U q p z K I)). subst q. apply (IH z I). apply desc_trans with c; [apply d_step with z; [constructor|exact J]|exact E'].
Qed.

Section Clone.
  Variables (s : source) (x : nat).
  Let r := s_robot s.
  Hypotheses (T : tree r) (W : whole r) (X : part r x).
  Variable defs : list def.
  Hypothesis G : good r x defs.
  Let E := flat_map events_of defs.
  Let b := fold_left (add_def s) defs FacModel.start.
  Let made := made_nodes x defs.
  Let r' := built_robot r b made x.

  Lemma events_spec p c i : In (p, c, i) E <-> part r p /\ part r c /\ np r x c p /\ (i = true <-> In p (kids r c)).
  Proof.
    unfold E. rewrite in_flat_map. split.
    - intros (d & I & J). unfold events_of in J. apply in_map_iff in J. destruct J as ((c', i') & [= <- <- <-] & J).
      apply (g_kids _ _ _ G d I) in J. split; [|exact J]. apply (g_all _ _ _ G). now apply in_map.
    - intros (P & K). apply (g_all _ _ _ G) in P. apply in_map_iff in P. destruct P as (d & <- & I). exists d. split; [exact I|].
      apply in_map_iff. exists (c, i). split; [reflexivity|]. now apply (g_kids _ _ _ G d I).
  Qed.
  Lemma events_once : NoDup (map child_of E).
  Proof.
    assert (K : forall l, (forall d, In d l -> In d defs) -> NoDup (map d_name l) -> NoDup (map child_of (flat_map events_of l))).
    { induction l as [|d l IH]; intros S' N; [constructor|]. cbn [flat_map map] in *. apply NoDup_cons_iff in N. destruct N as (N1 & N2).
      rewrite map_app. assert (ND : forall l1 l2 : list nat, NoDup l1 -> NoDup l2 -> (forall z, In z l1 -> ~ In z l2) -> NoDup (l1 ++ l2)).
      { clear. induction l1 as [|a l1 IH]; intros l2 A B C; [exact B|]. inversion A as [|a' l' A1 A2]; subst. cbn. constructor.
        - rewrite in_app_iff. intros [I|I]; [contradiction|]. apply (C a); [now left|exact I].
        - apply IH; [exact A2|exact B|]. intros z I. apply C. now right. }
      apply ND.
      - unfold events_of. rewrite map_map. apply (g_kids_once _ _ _ G d). apply S'. now left.
      - apply IH; [intros d' I; apply S'; now right|exact N2].
      - intros z I J. unfold events_of in I. rewrite map_map in I. apply in_map_iff in I. destruct I as ((c, i) & <- & I). cbn in J |- *. cbn in J.
        apply in_map_iff in J. destruct J as (((p', c'), i') & J1 & J). cbn in J1. subst c'. apply in_flat_map in J. destruct J as (d' & I' & J).
        unfold events_of in J. apply in_map_iff in J. destruct J as ((c', j') & [= <- <- <-] & J). cbn [fst] in *.
        apply (g_kids _ _ _ G d (S' d (or_introl eq_refl))) in I. apply (g_kids _ _ _ G d' (S' d' (or_intror I'))) in J.
        destruct I as (_ & I & _), J as (_ & J & _). apply N1. rewrite (np_fun r x T c' (d_name d) (d_name d') I J). now apply in_map. }
    apply K; [intros d I; exact I|apply (g_once _ _ _ G)].
  Qed.
  Lemma events_sane : sane E.
  Proof.
    constructor.
    - exact events_once.
    - intros p c c' A B. apply events_spec in A, B. destruct A as (_ & _ & _ & A), B as (_ & _ & _ & B).
      apply (one_parent r c c' p T); [now apply A|now apply B].
    - intros p c q A B. apply events_spec in A, B. destruct A as (_ & _ & A & IA), B as (_ & _ & B & IB).
      destruct A as [(A1 & A2)|(A1 & A2)].
      + pose proof (proj1 IA eq_refl) as J. apply (t_acyclic r T p c A1). apply d_step with c; [constructor|exact J].
      + destruct B as [(B1 & B2)|(B1 & B2)]; [contradiction|]. apply IB in B1. discriminate.
    - intros p c i A EQ. apply events_spec in A. destruct A as (_ & _ & A & _). subst c. apply (np_ne r x T p p A). reflexivity.
  Qed.
  Lemma state_ok : at_events s E (map d_name defs) b.
  Proof. apply run_ok, events_sane. Qed.
  Lemma made_part y : In y made <-> part r y.
  Proof.
    unfold made, made_nodes. split.
    - intros [<-|I]; [exact X|]. apply in_flat_map in I. destruct I as (d & I & [<-|J]); [apply (g_all _ _ _ G); now apply in_map|].
      apply in_map_iff in J. destruct J as ((c, i) & <- & J). apply (g_kids _ _ _ G d I) in J. apply J.
    - intros P. right. apply in_flat_map. apply (g_all _ _ _ G) in P. apply in_map_iff in P. destruct P as (d & <- & I). exists d. split; [exact I|now left].
  Qed.
  Lemma made_in y : existsb (Nat.eqb y) made = true <-> part r y.
  Proof.
    rewrite <- made_part. split.
    - intros H. apply existsb_exists in H. destruct H as (z & I & K). apply Nat.eqb_eq in K. now subst.
    - intros I. apply existsb_exists. exists y. split; [exact I|apply Nat.eqb_refl].
  Qed.
  Lemma node_built y : node_at r' y = option_map (built_node r b made y) (node_at r y).
  Proof.
    unfold r', built_robot, node_at, numbered. cbn [nodes]. rewrite nth_error_map, nth_numbered. cbn [Nat.add]. destruct (nth_error (nodes r) y); reflexivity.
  Qed.
  Lemma node_part y n : part r y -> node_at r y = Some n -> node_at r' y = Some
    (Node (b_parent b y) (b_kids b y ++ b_sensors b y) (if b_flip b y then turned (n_kind n) else n_kind n)
          (match b_local b y with Some l => l | None => n_local n end) (n_offset n) (reset (n_joint n)) pid (n_prop n)).
  Proof. intros P En. rewrite node_built, En. cbn [option_map]. unfold built_node. apply made_in in P. now rewrite P. Qed.
  Lemma kids_part y : part r y -> kids r' y = b_kids b y ++ b_sensors b y.
  Proof. intros P. destruct P as (D & n & En & Q). unfold kids. rewrite (node_part y n); [reflexivity|split; [exact D|exists n; now split]|exact En]. Qed.
  Lemma kids_part_inv y c : In c (kids r' y) -> part r y.
  Proof.
    unfold kids. rewrite node_built. destruct (node_at r y) as [n|]; [|intros []]. cbn [option_map]. unfold built_node.
    destruct (existsb (Nat.eqb y) made) eqn:M; [intros _; now apply made_in|].
    destruct (n_kind n), (holder b (length (nodes r)) y); intros [].
  Qed.
  Lemma sensors_spec c y : In c (sensors_of r y) <-> In c (kids r y) /\ exists n, node_at r c = Some n /\ n_kind n = Sensor.
  Proof.
    unfold sensors_of. rewrite filter_In. split; intros (I & K); (split; [exact I|]).
    - destruct (node_at r c) as [n|]; [|discriminate]. exists n. split; [reflexivity|]. destruct (n_kind n); congruence.
    - destruct K as (n & -> & ->). reflexivity.
  Qed.
  (** Which sensors a node gets. *)
  Lemma sensors_new u c : In c (b_sensors b u) <-> exists w, In c (sensors_of r w) /\ (In (u, w, true) E \/ (w = u /\ exists p, In (p, u, false) E)).
  Proof.
    pose proof state_ok as V. split.
    - intros I.
      assert (TOP : forall (P : nat * nat * bool -> bool), (exists e, In e E /\ P e = true) \/ forall e, In e E -> P e = false).
      { clear. intros P. destruct (existsb P E) eqn:K; [left|right].
        - apply existsb_exists in K. exact K.
        - intros e I. destruct (P e) eqn:Q; [|reflexivity]. assert (existsb P E = true) by (apply existsb_exists; now exists e). congruence. }
      destruct (TOP (fun e => Nat.eqb (fst (fst e)) u && snd e)) as [(((p, w), i) & J & K)|N1].
      + cbn [fst snd] in K. apply andb_true_iff in K. destruct K as (K1 & ->). apply Nat.eqb_eq in K1. subst p.
        exists w. rewrite (v_sensors_up _ _ _ _ V u w J) in I. split; [exact I|now left].
      + destruct (TOP (fun e => Nat.eqb (child_of e) u && negb (snd e))) as [(((p, w), i) & J & K)|N2].
        * unfold child_of in K. cbn [fst snd] in K. apply andb_true_iff in K. destruct K as (K1 & K2). apply Nat.eqb_eq in K1. subst w. destruct i; [discriminate|].
          exists u. rewrite (v_sensors_own _ _ _ _ V p u J) in I. split; [exact I|]. right. split; [reflexivity|now exists p].
        * rewrite (v_sensors_none _ _ _ _ V u) in I; [destruct I| |].
          -- intros w J. apply N1 in J. cbn [fst snd] in J. rewrite Nat.eqb_refl in J. discriminate.
          -- intros p J. apply N2 in J. unfold child_of in J. cbn [fst snd] in J. rewrite Nat.eqb_refl in J. discriminate.
    - intros (w & I & [J|(-> & p & J)]); [rewrite (v_sensors_up _ _ _ _ V u w J)|rewrite (v_sensors_own _ _ _ _ V p u J)]; exact I.
  Qed.
  Lemma sensors_one u u' c : In c (b_sensors b u) -> In c (b_sensors b u') -> u = u'.
  Proof.
    intros I J. apply sensors_new in I, J. destruct I as (w & I & A), J as (w' & J & B). apply sensors_spec in I, J. destruct I as (I & _), J as (J & _).
    assert (w = w') by (apply (one_parent r w w' c T I J)). subst w'. destruct A as [A|(-> & p & A)], B as [B|(-> & p' & B)].
    - apply (sane_child E u u' w true true events_sane A B).
    - destruct (sane_child E _ _ _ _ _ events_sane A B). discriminate.
    - destruct (sane_child E _ _ _ _ _ events_sane A B). discriminate.
    - reflexivity.
  Qed.
  Lemma sensors_part u c : In c (b_sensors b u) -> part r u.
  Proof. intros I. apply sensors_new in I. destruct I as (w & _ & [A|(-> & p & A)]); apply events_spec in A; tauto. Qed.
  Lemma sensor_not_part u c : In c (b_sensors b u) -> ~ part r c /\ exists n, node_at r c = Some n /\ n_kind n = Sensor.
  Proof.
    intros I. apply sensors_new in I. destruct I as (w & I & _). apply sensors_spec in I. destruct I as (_ & n & En & K). split; [|exists n; now split].
    intros (_ & m & Em & Pm). rewrite En in Em. injection Em as <-. destruct Pm. contradiction.
  Qed.
  Lemma sensor_node u c n : In c (b_sensors b u) -> node_at r c = Some n -> node_at r' c = Some (Node (Some u) [] Sensor (n_local n) (n_offset n) (reset (n_joint n)) pid []).
  Proof.
    intros I En. rewrite node_built, En. cbn [option_map]. unfold built_node. destruct (sensor_not_part u c I) as (N & m & Em & K). rewrite En in Em. injection Em as <-.
    destruct (existsb (Nat.eqb c) made) eqn:M; [apply made_in in M; contradiction|]. rewrite K.
    unfold holder. destruct (find (fun y => existsb (Nat.eqb c) (b_sensors b y)) (seq 0 (length (nodes r)))) as [y|] eqn:F.
    - apply find_some in F. destruct F as (_ & F). apply existsb_exists in F. destruct F as (c' & J & F). apply Nat.eqb_eq in F. subst c'.
      now rewrite (sensors_one u y c I J).
    - exfalso. pose proof (find_none _ _ F u) as H. destruct (sensors_part u c I) as (_ & m & Em & _).
      assert (U : In u (seq 0 (length (nodes r)))) by (apply in_seq; split; [lia|]; cbn; apply (node_lt r u m Em)).
      specialize (H U). cbn beta in H. assert (existsb (Nat.eqb c) (b_sensors b u) = true); [|congruence]. apply existsb_exists. exists c. split; [exact I|apply Nat.eqb_refl].
  Qed.
  Lemma kids_new p c : part r c -> (In c (kids r' p) <-> part r p /\ np r x c p).
  Proof.
    intros C. split.
    - intros I. pose proof (kids_part_inv p c I) as P. split; [exact P|]. rewrite (kids_part p P) in I. apply in_app_or in I. destruct I as [I|I].
      + apply (v_kids _ _ _ _ state_ok) in I. destruct I as (i & I). apply events_spec in I. tauto.
      + exfalso. apply (sensor_not_part p c I). exact C.
    - intros (P & N). rewrite (kids_part p P). apply in_or_app. left. apply (v_kids _ _ _ _ state_ok).
      destruct N as [(A & B)|(A & B)].
      + exists false. apply events_spec. split; [exact P|]. split; [exact C|]. split; [left; now split|]. split; [discriminate|].
        intros J. exfalso. apply (t_acyclic r T p c A). apply d_step with c; [constructor|exact J].
      + exists true. apply events_spec. split; [exact P|]. split; [exact C|]. split; [right; now split|]. tauto.
  Qed.
  Lemma links_new p c : In c (kids r' p) <-> exists n, node_at r' c = Some n /\ n_parent n = Some p.
  Proof.
    pose proof state_ok as V. split.
    - intros I. pose proof (kids_part_inv p c I) as P. rewrite (kids_part p P) in I. apply in_app_or in I. destruct I as [I|I].
      + apply (v_kids _ _ _ _ V) in I. pose proof I as I0. destruct I as (i & I). apply events_spec in I. destruct I as (_ & C & _). pose proof C as (_ & n & En & _).
        eexists. split; [apply (node_part c n C En)|]. cbn [n_parent]. apply (v_parent _ _ _ _ V). exact I0.
      + destruct (sensor_not_part p c I) as (_ & n & En & _). eexists. split; [apply (sensor_node p c n I En)|reflexivity].
    - intros (n' & En' & P). rewrite node_built in En'. destruct (node_at r c) as [n|] eqn:En; [|discriminate]. cbn [option_map] in En'. injection En' as <-.
      unfold built_node in P. destruct (existsb (Nat.eqb c) made) eqn:M.
      + cbn [n_parent] in P. apply (v_parent _ _ _ _ V) in P. destruct P as (i & P). apply events_spec in P. apply kids_new; [apply P|]. tauto.
      + destruct (n_kind n) eqn:K; try discriminate. destruct (holder b (length (nodes r)) c) as [y|] eqn:F; [|discriminate]. cbn [n_parent] in P. injection P as ->.
        unfold holder in F. apply find_some in F. destruct F as (_ & F). apply existsb_exists in F. destruct F as (c' & J & F). apply Nat.eqb_eq in F. subst c'.
        rewrite (kids_part p (sensors_part p c J)). apply in_or_app. now right.
  Qed.
  Lemma reach_new y : part r y -> desc r' x y.
  Proof.
    assert (UP : forall y, desc r y x -> part r y /\ desc r' x y).
    { apply up_ind; [split; [exact X|constructor]|]. intros c p D I (C & K). pose proof (part_up r T W p c C I) as P. split; [exact P|].
      apply d_step with c; [exact K|]. apply kids_new; [exact P|]. split; [exact C|]. right. now split. }
    intros (D & n & En & Q). revert n En Q. induction D as [|p z D IH I]; intros n En Q; [apply UP, (proj1 X)|].
    destruct (desc_or r x z T (proj1 X)) as [Z|Z]; [apply UP, Z|].
    assert (PZ : part r z) by (split; [apply d_step with p; assumption|exists n; now split]).
    pose proof (part_up r T W p z PZ I) as (DP & m & Em & Pm).
    apply d_step with p; [apply (IH m Em Pm)|]. apply kids_new; [exact PZ|]. split; [split; [exact DP|exists m; now split]|]. left. now split.
  Qed.
  Lemma tree_new : tree r'.
  Proof.
    pose proof state_ok as V. constructor.
    - exact links_new.
    - intros p. destruct (kids r' p) as [|c l] eqn:K; [constructor|]. rewrite <- K. assert (P : part r p) by (apply (kids_part_inv p c); rewrite K; now left).
      rewrite (kids_part p P).
      assert (ND : forall l1 l2 : list nat, NoDup l1 -> NoDup l2 -> (forall z, In z l1 -> ~ In z l2) -> NoDup (l1 ++ l2)).
      { clear. induction l1 as [|a l1 IH]; intros l2 A B C; [exact B|]. inversion A as [|a' l' A1 A2]; subst. cbn. constructor.
        - rewrite in_app_iff. intros [I|I]; [contradiction|]. apply (C a); [now left|exact I].
        - apply IH; [exact A2|exact B|]. intros z I. apply C. now right. }
      apply ND; [apply (v_once _ _ _ _ V)| |].
      + destruct (b_sensors b p) as [|c' l'] eqn:S'; [constructor|]. rewrite <- S'. assert (I : In c' (b_sensors b p)) by (rewrite S'; now left).
        apply sensors_new in I. destruct I as (w & _ & [A|(-> & q & A)]); [rewrite (v_sensors_up _ _ _ _ V p w A)|rewrite (v_sensors_own _ _ _ _ V q p A)]; apply NoDup_filter, (t_once r T).
      + intros z I J. apply (v_kids _ _ _ _ V) in I. destruct I as (i & I). apply events_spec in I. apply (sensor_not_part p z J). tauto.
    - change (root r') with x. pose proof X as (_ & n & En & _). eexists. split; [apply (node_part x n X En)|]. cbn [n_parent].
      destruct (b_parent b x) as [p|] eqn:P; [|reflexivity]. apply (v_parent _ _ _ _ V) in P. destruct P as (i & P). apply events_spec in P. exfalso. apply (np_x r x T p). tauto.
    - intros y c I. apply (acyclic_reach r' x y).
      + intros p p' d A B. apply links_new in A, B. destruct A as (n & A & A'), B as (m & B & B'). congruence.
      + intros p A. apply kids_new in A; [|exact X]. apply (np_x r x T p). tauto.
      + apply reach_new, (kids_part_inv y c I).
      + exact I.
  Qed.
  Lemma part_new y : part r' y <-> part r y.
  Proof.
    split.
    - intros (D & n' & En' & Q). rewrite node_built in En'. destruct (node_at r y) as [n|] eqn:En; [|discriminate]. cbn [option_map] in En'. injection En' as <-.
      unfold built_node in Q. destruct (existsb (Nat.eqb y) made) eqn:M; [now apply made_in|]. exfalso.
      destruct Q as (Q1 & Q2). destruct (n_kind n), (holder b (length (nodes r)) y); cbn in *; congruence.
    - intros P. split; [apply (reach_new y P)|]. pose proof P as (_ & n & En & Q). eexists. split; [apply (node_part y n P En)|].
      unfold proper in *. cbn [n_kind]. destruct (b_flip b y), (n_kind n); cbn; split; try discriminate; destruct Q; congruence.
  Qed.

  (** ** Forward kinematics of the clone *)
  Hypothesis RG : rigid r.
  Variable q : nat -> R.
  Let R0 := with_q q r.
  Let R1 := with_q q r'.

  Lemma rigid_q : rigid R0.
  Proof.
    destruct RG as (A & B). split; [exact A|]. intros y n En. unfold R0 in En. rewrite node_with_q in En. destruct (node_at r y) as [m|] eqn:Em; [|discriminate].
    injection En as <-. exact (B y m Em).
  Qed.
  Lemma tree0 : tree R0.
  Proof. apply tree_with_q, T. Qed.
  Lemma tree1 : tree R1.
  Proof. apply tree_with_q, tree_new. Qed.
  Lemma fk_exists y : part r y -> exists g, fk R0 y g.
  Proof.
    intros (D & _). induction D as [|p z D (g & IH) I].
    - destruct (t_root r T) as (n & En & _). eexists. apply (fk_root R0). unfold R0. change (root (with_q q r)) with (root r). rewrite node_with_q, En. reflexivity.
    - destruct (kid_node r p z T I) as (n & En). eexists. apply fk_child with p; [exact IH|unfold R0; rewrite kids_with_q; exact I|unfold R0; rewrite node_with_q, En; reflexivity].
  Qed.
  Lemma proper_q y n : part r y -> node_at R0 y = Some n -> proper n.
  Proof.
    intros (_ & m & Em & P) En. unfold R0 in En. rewrite node_with_q, Em in En. injection En as <-. exact P.
  Qed.
  Lemma node_q y : part r y -> exists n, node_at R0 y = Some n /\ proper n.
  Proof.
    intros Y. pose proof Y as (_ & m & Em & P). eexists. split; [unfold R0; rewrite node_with_q, Em; reflexivity|exact P].
  Qed.
  (** The transformation which a node of the clone contributes. *)
  Lemma new_inverted p y n : In (p, y, true) E -> node_at R0 y = Some n -> exists n', node_at R1 y = Some n' /\
    transform n' = pmul (inverted (local_of r p)) (inverted (joint_motion n)).
  Proof.
    intros I En. pose proof I as I0. apply events_spec in I0. destruct I0 as (_ & Y & _).
    unfold R0 in En. rewrite node_with_q in En. destruct (node_at r y) as [m|] eqn:Em; [|discriminate]. injection En as <-.
    destruct (v_inverted _ _ _ _ state_ok p y I) as (L & F). fold r in L.
    eexists. split; [unfold R1; rewrite node_with_q, (node_part y m Y Em); reflexivity|]. rewrite L, F.
    assert (P : proper m) by (destruct Y as (_ & k & Ek & Pk); congruence). destruct (proj2 RG y m Em) as (RL & RA).
    unfold transform, joint_motion. cbn [with_joint n_kind n_joint n_offset n_local value with_value reset]. destruct (n_kind m) as [|a|d| |] eqn:K; cbn [turned].
    - rewrite inverted_pid, pmul_pid_r. reflexivity.
    - f_equal. symmetry. apply inverted_revolute. 
    - f_equal. symmetry. apply inverted_prismatic.
    - destruct P; congruence.
    - destruct P; congruence.
  Qed.
  Lemma new_kept p y n : In (p, y, false) E -> node_at R0 y = Some n -> exists n', node_at R1 y = Some n' /\ transform n' = transform n.
  Proof.
    intros I En. pose proof I as I0. apply events_spec in I0. destruct I0 as (_ & Y & _).
    unfold R0 in En. rewrite node_with_q in En. destruct (node_at r y) as [m|] eqn:Em; [|discriminate]. injection En as <-.
    destruct (v_plain _ _ _ _ state_ok p y I) as (L & F). fold r in L.
    eexists. split; [unfold R1; rewrite node_with_q, (node_part y m Y Em); reflexivity|]. rewrite L, F. unfold local_of. rewrite Em. reflexivity.
  Qed.
  Lemma new_root n : node_at R0 x = Some n -> exists n', node_at R1 x = Some n' /\ transform n' = joint_motion n.
  Proof.
    intros En. unfold R0 in En. rewrite node_with_q in En. destruct (node_at r x) as [m|] eqn:Em; [|discriminate]. injection En as <-.
    destruct (v_top _ _ _ _ state_ok x) as (F & L & _).
    { intros p i I. apply events_spec in I. apply (np_x r x T p). tauto. }
    eexists. split; [unfold R1; rewrite node_with_q, (node_part x m X Em); reflexivity|]. rewrite (L (proj2 (g_all _ _ _ G x) X)), F.
    assert (P : proper m) by (destruct X as (_ & k & Ek & Pk); congruence).
    unfold transform, joint_motion. cbn [with_joint n_kind n_joint n_offset n_local value with_value reset]. destruct (n_kind m) as [|a|d| |]; try reflexivity; apply pmul_pid_l.
  Qed.
  Lemma ev_way c p : part r c -> desc r c x -> In c (kids r p) -> In (c, p, true) E.
  Proof.
    intros C D I. apply events_spec. split; [exact C|]. split; [apply (part_up r T W p c C I)|]. split; [right; now split|]. tauto.
  Qed.
  Lemma ev_off c p : part r c -> ~ desc r c x -> In c (kids r p) -> In (p, c, false) E.
  Proof.
    intros C D I. apply events_spec. split; [apply (part_up r T W p c C I)|]. split; [exact C|]. split; [left; now split|].
    split; [discriminate|]. intros J. exfalso. apply (t_acyclic r T p c I). apply d_step with c; [constructor|exact J].
  Qed.
  Lemma fk_down p c i g n' : In (p, c, i) E -> fk R1 p g -> node_at R1 c = Some n' -> fk R1 c (pmul g (transform n')).
  Proof.
    intros I F En. apply fk_child with p; [exact F| |exact En]. unfold R1. rewrite kids_with_q. apply events_spec in I. apply kids_new; tauto.
  Qed.
  (** The frame of the old robot in the clone. *)
  Definition carries (A : pose) : Prop := forall y g n, desc r y x -> fk R0 y g -> node_at R0 y = Some n -> fk R1 y (pmul A (pmul g (inverted (joint_motion n)))).
  Lemma carried : exists A, rotation (prot A) /\ carries A.
  Proof.
    destruct (fk_exists x X) as (gx & Fx). destruct (node_q x X) as (nx & Enx & Px).
    pose proof (fk_rotation R0 x gx rigid_q Fx) as Rx. pose proof (motion_rotation R0 x nx rigid_q Enx) as Jx.
    set (A := pmul (joint_motion nx) (inverted (pmul gx (inverted (joint_motion nx))))).
    assert (RP : rotation (prot (pmul gx (inverted (joint_motion nx))))) by (apply pmul_rot; [exact Rx|apply inverted_rot, Jx]).
    exists A. split; [apply pmul_rot; [exact Jx|apply inverted_rot, RP]|].
    assert (K : forall y, desc r y x -> part r y /\ forall g n, fk R0 y g -> node_at R0 y = Some n -> fk R1 y (pmul A (pmul g (inverted (joint_motion n))))).
    { apply up_ind.
      - split; [exact X|]. intros g n F En. rewrite (fk_fun R0 x g gx tree0 F Fx). rewrite En in Enx. injection Enx as ->.
        unfold A. rewrite pmul_assoc, (inverted_left _ RP), pmul_pid_r. destruct (new_root nx En) as (n' & En' & TR).
        rewrite <- TR. rewrite <- (pmul_pid_l (transform n')). apply (fk_root R1). exact En'.
      - intros c p D I (C & IH). pose proof (part_up r T W p c C I) as P. split; [exact P|]. intros g n F En.
        destruct (node_q c C) as (nc & Enc & Pc). pose proof (ev_way c p C D I) as EV. destruct (new_inverted c p n EV En) as (n' & En' & TR).
        assert (Fc : fk R0 c (pmul g (transform nc))) by (apply fk_child with p; [exact F|unfold R0; rewrite kids_with_q; exact I|exact Enc]).
        pose proof (fk_down c p true _ n' EV (IH _ nc Fc Enc) En') as H. rewrite TR in H.
        pose proof (motion_rotation R0 c nc rigid_q Enc) as Jc. destruct (proj2 rigid_q c nc Enc) as (Lc & _).
        assert (LL : local_of r c = n_local nc).
        { unfold R0 in Enc. rewrite node_with_q in Enc. unfold local_of. destruct (node_at r c); [|discriminate]. now injection Enc as <-. }
        rewrite LL, (transform_split nc Pc) in H.
        assert (EQ : pmul (pmul A (pmul (pmul g (pmul (n_local nc) (joint_motion nc))) (inverted (joint_motion nc)))) (pmul (inverted (n_local nc)) (inverted (joint_motion n)))
                     = pmul A (pmul g (inverted (joint_motion n)))).
        { rewrite !pmul_assoc. do 2 f_equal. rewrite <- (pmul_assoc (joint_motion nc)), (inverted_right _ Jc), pmul_pid_l, <- (pmul_assoc (n_local nc)), (inverted_right _ Lc), pmul_pid_l. reflexivity. }
        rewrite EQ in H. exact H. }
    intros y g n D F En. exact (proj2 (K y D) g n F En).
  Qed.
  (** Off the way: everything that hangs on [p] is moved in one piece. *)
  Lemma off_way A p gp np' b' y g : carries A -> desc r p x -> fk R0 p gp -> node_at R0 p = Some np' -> In b' (kids r p) -> ~ desc r b' x -> desc r b' y -> part r y -> fk R0 y g ->
    fk R1 y (pmul A (pmul (pmul gp (inverted (joint_motion np'))) (pmul (inverted gp) g))).
  Proof.
    intros CA D Fp Ep I NB DB. revert g. induction DB as [|w z DB IH J]; intros g Y F.
    - destruct (node_q b' Y) as (n & En & Pn). pose proof (ev_off b' p Y NB I) as EV. destruct (new_kept p b' n EV En) as (n' & En' & TR).
      pose proof (fk_down p b' false _ n' EV (CA p gp np' D Fp Ep) En') as H. rewrite TR in H.
      assert (g = pmul gp (transform n)) by (apply (fk_fun R0 b' g _ tree0 F); apply fk_child with p; [exact Fp|unfold R0; rewrite kids_with_q; exact I|exact En]). subst g.
      pose proof (fk_rotation R0 p gp rigid_q Fp) as Rp. rewrite <- (pmul_assoc (inverted gp)), (inverted_left _ Rp), pmul_pid_l, <- pmul_assoc. exact H.
    - pose proof (part_up r T W w z Y J) as PW. destruct (fk_exists w PW) as (gw & Fw). specialize (IH gw PW Fw).
      assert (NZ : ~ desc r z x) by (intros DZ; apply NB; apply desc_trans with z; [apply d_step with w; assumption|exact DZ]).
      destruct (node_q z Y) as (n & En & Pn). pose proof (ev_off z w Y NZ J) as EV. destruct (new_kept w z n EV En) as (n' & En' & TR).
      pose proof (fk_down w z false _ n' EV IH En') as H. rewrite TR in H.
      assert (g = pmul gw (transform n)) by (apply (fk_fun R0 z g _ tree0 F); apply fk_child with w; [exact Fw|unfold R0; rewrite kids_with_q; exact J|exact En]). subst g.
      rewrite !pmul_assoc in *. exact H.
  Qed.

  Let c := Clone r' (b_visu b) (fun y => match b_phys b y with Some p => p | None => s_phys s y end).
  Lemma local_q y n : node_at R0 y = Some n -> local_of r y = n_local n.
  Proof. intros En. unfold R0 in En. rewrite node_with_q in En. unfold local_of. destruct (node_at r y); [|discriminate]. now injection En as <-. Qed.
  (** Models on the way stay where they are relative to each other. *)
  Lemma shown_way A y g h : carries A -> desc r y x -> y <> x -> fk R0 y g -> shown c q y h -> h = pmul A g.
  Proof.
    intros CA D N F (u & d & g' & M & F' & ->). cbn [c_model c_robot c] in *. fold R1 in F'. apply (v_visu _ _ _ _ state_ok) in M.
    destruct M as [(I & -> & _)|(p & I & -> & -> & _)].
    - apply events_spec in I. destruct I as (U & Y & NP & K). pose proof (proj1 K eq_refl) as J. fold r.
      destruct NP as [(A1 & A2)|(A1 & A2)]; [exfalso; apply (t_acyclic r T u y A1); apply d_step with y; [constructor|exact J]|].
      destruct (node_q u U) as (n & En & Pn). assert (Fu : fk R0 u (pmul g (transform n))) by (apply fk_child with y; [exact F|unfold R0; rewrite kids_with_q; exact J|exact En]).
      rewrite (fk_fun R1 u g' _ tree1 F' (CA u _ n A2 Fu En)). rewrite (local_q u n En), (transform_split n Pn).
      pose proof (motion_rotation R0 u n rigid_q En) as Ju. destruct (proj2 rigid_q u n En) as (Lu & _).
      rewrite !pmul_assoc. f_equal. rewrite <- (pmul_assoc (joint_motion n)), (inverted_right _ Ju), pmul_pid_l, (inverted_right _ Lu), pmul_pid_r. reflexivity.
    - apply events_spec in I. destruct I as (_ & _ & [(A1 & A2)|(A1 & A2)] & K); [contradiction|]. apply K in A1. discriminate.
  Qed.
  (** The place of a model off the way. *)
  Lemma shown_off A p gp np' y g h : carries A -> branches_off r x p y -> part r y -> fk R0 p gp -> node_at R0 p = Some np' -> fk R0 y g -> shown c q y h ->
    h = pmul A (pmul (pmul gp (inverted (joint_motion np'))) (pmul (inverted gp) g)).
  Proof.
    intros CA (D & b' & I & NB & DB) Y Fp Ep F (u & d & g' & M & F' & ->). cbn [c_model c_robot c] in *. fold R1 in F'. apply (v_visu _ _ _ _ state_ok) in M.
    assert (NY : ~ desc r y x) by (intros DY; apply NB; apply desc_trans with y; assumption).
    destruct M as [(J & _)|(w & J & -> & -> & _)].
    - exfalso. apply events_spec in J. destruct J as (_ & _ & [(A1 & A2)|(A1 & A2)] & K); pose proof (proj1 K eq_refl) as K1; [apply (t_acyclic r T u y A1); apply d_step with y; [constructor|exact K1]|].
      apply NY. apply desc_trans with u; [apply d_step with y; [constructor|exact A1]|exact A2].
    - rewrite pmul_pid_r. apply (fk_fun R1 u g' _ tree1 F'). apply (off_way A p gp np' b' u g); assumption.
  Qed.
  Lemma way_or_off y : part r y -> desc r y x \/ exists p, branches_off r x p y.
  Proof.
    intros (D & _). induction D as [|w z D IH I]; [left; exact (proj1 X)|]. destruct (desc_or r x z T (proj1 X)) as [Z|Z]; [now left|right].
    destruct IH as [IH|(p & Dp & b' & Ib & Nb & Db)].
    - exists w. split; [exact IH|]. exists z. split; [exact I|]. split; [exact Z|constructor].
    - exists p. split; [exact Dp|]. exists b'. split; [exact Ib|]. split; [exact Nb|]. apply d_step with w; assumption.
  Qed.
  Lemma shown_exists y : part r y -> y <> x -> s_model s y = true -> exists h, shown c q y h.
  Proof.
    intros Y N M. destruct carried as (A & _ & CA). destruct (fk_exists y Y) as (g & F). destruct (way_or_off y Y) as [D|(p & B)].
    - destruct (desc_first r y x D) as [->|(u & I & DU)]; [contradiction|].
      assert (U : part r u). { assert (KK : forall w, desc r w x -> part r w) by (apply up_ind; [exact X|intros a p' _ Ia Pa; apply (part_up r T W p' a Pa Ia)]). now apply KK. }
      destruct (fk_exists u U) as (gu & Fu). destruct (node_q u U) as (n & En & _).
      eexists. exists u, (inverted (local_of r u)). eexists. split; [|split; [apply (CA u gu n DU Fu En)|reflexivity]].
      cbn [c_model c]. apply (v_visu _ _ _ _ state_ok). left. split; [apply (ev_way u y U DU I)|]. now split.
    - destruct B as (Dp & b' & I & NB & DB).
      assert (P : part r p). { assert (KK : forall w, desc r w x -> part r w) by (apply up_ind; [exact X|intros a p' _ Ia Pa; apply (part_up r T W p' a Pa Ia)]). now apply KK. }
      destruct (fk_exists p P) as (gp & Fp). destruct (node_q p P) as (n & En & _).
      assert (NY : ~ desc r y x) by (intros DY; apply NB; apply desc_trans with y; assumption).
      eexists. exists y, pid. eexists. split; [|split; [apply (off_way A p gp n b' y g CA Dp Fp En I NB DB Y F)|reflexivity]].
      cbn [c_model c]. apply (v_visu _ _ _ _ state_ok). right.
      assert (exists w, In y (kids r w)) as (w & Iw). { inversion DB as [|w z DB' Iw]; subst; [now exists p|now exists w]. }
      exists w. split; [apply (ev_off y w Y NY Iw)|]. repeat split; try reflexivity. exact M.
  Qed.
  Lemma shown_not_root h : ~ shown c q x h.
  Proof.
    intros (u & d & g & M & _). cbn [c_model c] in M. apply (v_visu _ _ _ _ state_ok) in M. destruct M as [(I & _)|(p & I & EQ & _)].
    - apply events_spec in I. apply (np_x r x T u). tauto.
    - rewrite <- EQ in I. apply events_spec in I. apply (np_x r x T p). tauto.
  Qed.
  (** Physics. *)
  Lemma phys_way y u : part r u -> desc r u x -> In u (kids r y) -> c_phys c u = Phys (mass (s_phys s y)) (papply (inverted (local_of r u)) (com (s_phys s y))).
  Proof. intros U D I. cbn [c_phys c]. rewrite (v_moved _ _ _ _ state_ok u y (ev_way u y U D I)). reflexivity. Qed.
  Lemma phys_off y : part r y -> ~ desc r y x -> c_phys c y = s_phys s y.
  Proof.
    intros Y D. cbn [c_phys c]. rewrite (v_own _ _ _ _ state_ok y); [reflexivity| |].
    - intros w I. apply events_spec in I. destruct I as (_ & _ & [(A1 & A2)|(A1 & A2)] & K).
      + pose proof (proj1 K eq_refl) as J. apply (t_acyclic r T y w A1). apply d_step with w; [constructor|exact J].
      + contradiction.
    - intros p I. apply events_spec in I. destruct I as (_ & _ & [(A1 & A2)|(A1 & A2)] & K).
      + pose proof (proj1 K eq_refl) as J. apply (t_acyclic r T p y A1). apply d_step with y; [constructor|exact J].
      + apply D. apply desc_trans with p; [apply d_step with y; [constructor|exact A1]|exact A2].
  Qed.
  Lemma phys_root : c_phys c (root r) = if Nat.eqb x (root r) then s_phys s x else no_phys.
  Proof.
    assert (NU : forall w, ~ In (root r, w, true) E).
    { intros w I. apply events_spec in I. destruct I as (_ & _ & _ & K). pose proof (proj1 K eq_refl) as J. apply (t_links r T) in J. destruct J as (n & En & P).
      destruct (t_root r T) as (m & Em & Q). congruence. }
    cbn [c_phys c]. destruct (Nat.eqb x (root r)) eqn:XR.
    - apply Nat.eqb_eq in XR. rewrite (v_own _ _ _ _ state_ok (root r) NU); [now rewrite XR|]. intros p I. apply events_spec in I. apply (np_x r x T p). rewrite XR. rewrite XR in I. tauto.
    - apply Nat.eqb_neq in XR. destruct (desc_first r (root r) x (proj1 X)) as [EQ|(u & I & D)]; [congruence|].
      assert (U : part r u). { assert (KK : forall w, desc r w x -> part r w) by (apply up_ind; [exact X|intros a p' _ Ia Pa; apply (part_up r T W p' a Pa Ia)]). now apply KK. }
      rewrite (v_empty _ _ _ _ state_ok (root r) u NU (ev_way u (root r) U D I)). reflexivity.
  Qed.
  Lemma shown_node_way A y g u h : carries A -> rotation (prot A) -> desc r u x -> part r u -> In u (kids r y) -> fk R0 y g -> fk R1 u h -> h = pmul (pmul A g) (local_of r u).
  Proof.
    intros CA RA D U I F F'. destruct (node_q u U) as (n & En & Pn).
    assert (Fu : fk R0 u (pmul g (transform n))) by (apply fk_child with y; [exact F|unfold R0; rewrite kids_with_q; exact I|exact En]).
    rewrite (fk_fun R1 u h _ tree1 F' (CA u _ n D Fu En)). rewrite (local_q u n En), (transform_split n Pn).
    pose proof (motion_rotation R0 u n rigid_q En) as Ju.
    rewrite !pmul_assoc. do 2 f_equal. rewrite (inverted_right _ Ju), pmul_pid_r. reflexivity.
  Qed.
  Lemma fk_sensor t u n h : In t (b_sensors b u) -> node_at r t = Some n -> fk R1 t h -> exists g, fk R1 u g /\ h = pmul g (n_local n).
  Proof.
    intros I En F. inversion F as [m Em EQ|p t' m g Fp Ip Em].
    - exfalso. destruct (sensor_not_part u t I) as (N & _). apply N. unfold R1 in *. change (root (with_q q r')) with x in *. subst t. exact X.
    - subst t' h. unfold R1 in Ip. rewrite kids_with_q in Ip. apply links_new in Ip. destruct Ip as (m' & Em' & P). rewrite (sensor_node u t n I En) in Em'. injection Em' as <-.
      cbn [n_parent] in P. injection P as <-. exists g. split; [exact Fp|]. f_equal. unfold R1 in Em. rewrite node_with_q, (sensor_node u t n I En) in Em. injection Em as <-. reflexivity.
  Qed.
  Lemma sensor_on_way t n y u : part r u -> desc r u x -> In u (kids r y) -> In t (kids r y) -> node_at r t = Some n -> n_kind n = Sensor -> In t (b_sensors b u).
  Proof.
    intros U D I J En K. apply sensors_new. exists y. split; [|left; apply (ev_way u y U D I)]. apply sensors_spec. split; [exact J|]. exists n. now split.
  Qed.
  Lemma sensor_off_way t n y : part r y -> ~ desc r y x -> In t (kids r y) -> node_at r t = Some n -> n_kind n = Sensor -> In t (b_sensors b y).
  Proof.
    intros Y D J En K. apply sensors_new. exists y. split; [apply sensors_spec; split; [exact J|exists n; now split]|]. right. split; [reflexivity|].
    destruct Y as (DY & m & Em & Pm). inversion DY as [|w z DW Iw].
    - exfalso. apply D. subst y. exact (proj1 X).
    - subst z. exists w. apply ev_off; [split; [exact DY|exists m; now split]|exact D|exact Iw].
  Qed.
End Clone.

(** ** The mass of the clone *)
Lemma total_app f l l' : total f (l ++ l') = total f l + total f l'.
Proof. unfold total. rewrite map_app. induction (map f l) as [|a k IH]; cbn [app fold_right]; [lra|]. rewrite IH. lra. Qed.
Lemma total_perm f l l' : Permutation l l' -> total f l = total f l'.
Proof. intros P. unfold total. induction P; cbn [map fold_right]; lra. Qed.
Lemma total_ext f g l : (forall y, In y l -> f y = g y) -> total f l = total g l.
Proof. intros H. unfold total. f_equal. now apply map_ext_in. Qed.
Lemma way_total r z : tree r -> desc r (root r) z -> exists ws, NoDup ws /\ (forall y, In y ws <-> desc r y z) /\
  forall f g : nat -> R, (forall u y, In u (kids r y) -> desc r u z -> g u = f y) -> g (root r) = 0 -> total g ws = total f ws - f z.
Proof.
  intros T D. induction D as [|p z D (ws & N & W & IH) I].
  - exists [root r]. split; [constructor; [intros []|constructor]|]. split.
    + intros y. split; [intros [<-|[]]; constructor|]. intros D. left. symmetry. apply (root_top r y T D).
    + intros f g _ G. unfold total. cbn. lra.
  - exists (z :: ws). split; [|split].
    + constructor; [|exact N]. intros J. apply W in J. exact (t_acyclic r T p z I J).
    + intros y. split.
      * intros [<-|J]; [constructor|]. apply d_step with p; [now apply W|exact I].
      * intros DY. inversion DY as [|w z' DW J]; subst; [now left|]. right. apply W. rewrite <- (one_parent r w p z T J I). exact DW.
    + intros f g H G. pose proof (IH f g) as K. change (total g (z :: ws)) with (g z + total g ws). change (total f (z :: ws)) with (f z + total f ws).
      rewrite K, (H z p I); [lra|constructor| |exact G]. intros u y J DU. apply H; [exact J|]. apply d_step with p; assumption.
Qed.
Lemma total_moved r x l f g : tree r -> desc r (root r) x -> NoDup l -> (forall y, desc r y x -> In y l) ->
  (forall u y, In u (kids r y) -> desc r u x -> g u = f y) -> g (root r) = 0 -> (forall y, In y l -> ~ desc r y x -> g y = f y) -> total g l = total f l - f x.
Proof.
  intros T D N L H G O. destruct (way_total r x T D) as (ws & NW & W & K).
  set (off := filter (fun y => negb (existsb (Nat.eqb y) ws)) l).
  assert (OFF : forall y, In y off <-> In y l /\ ~ In y ws).
  { intros y. unfold off. rewrite filter_In, negb_true_iff. split; intros (A & B); (split; [exact A|]).
    - intros J. assert (existsb (Nat.eqb y) ws = true) by (apply existsb_exists; exists y; split; [exact J|apply Nat.eqb_refl]). congruence.
    - destruct (existsb (Nat.eqb y) ws) eqn:E; [|reflexivity]. exfalso. apply B. apply existsb_exists in E. destruct E as (y' & J & E). apply Nat.eqb_eq in E. now subst. }
  assert (P : Permutation l (ws ++ off)).
  { apply NoDup_Permutation; [exact N| |].
    - assert (ND : forall l1 l2 : list nat, NoDup l1 -> NoDup l2 -> (forall z, In z l1 -> ~ In z l2) -> NoDup (l1 ++ l2)).
      { clear. induction l1 as [|a l1 IH]; intros l2 A B C; [exact B|]. inversion A as [|a' l' A1 A2]; subst. cbn. constructor.
        - rewrite in_app_iff. intros [I|I]; [contradiction|]. apply (C a); [now left|exact I].
        - apply IH; [exact A2|exact B|]. intros z I. apply C. now right. }
      apply ND; [exact NW|apply NoDup_filter, N|]. intros z I J. apply OFF in J. tauto.
    - intros y. rewrite in_app_iff, OFF. split; [|intros [J|J]; [apply L, W, J|tauto]]. intros J. destruct (in_dec Nat.eq_dec y ws); tauto. }
  rewrite (total_perm g _ _ P), (total_perm f _ _ P), !total_app, (K f g H G).
  assert (EQ : total g off = total f off) by (apply total_ext; intros y J; apply OFF in J; apply O; [tauto|rewrite <- W; tauto]). lra.
Qed.
