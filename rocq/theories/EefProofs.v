(** Proofs for C74 and C75. *)
From Coq Require Import List ZArith Bool Arith Lia.
From Verif Require Import EefModel EefSpec.
Import ListNotations.
Open Scope Z_scope.

(** ** Joint values *)
Lemma set_length : forall st n v, length (set_value st n v) = length st.
Proof. induction st as [|x st IH]; intros [|n] v; cbn [set_value length]; auto. Qed.
Lemma set_same : forall st n v, (n < length st)%nat -> value (set_value st n v) n = v.
Proof. unfold value. induction st as [|x st IH]; intros [|n] v L; cbn [set_value length nth] in *; try lia; auto. apply IH. lia. Qed.
Lemma set_other : forall st n v m, m <> n -> value (set_value st n v) m = value st m.
Proof. unfold value. induction st as [|x st IH]; intros [|n] v [|m] N; cbn [set_value nth]; auto; try congruence. Qed.
Lemma set_back : forall st n v, set_value (set_value st n v) n (value st n) = st.
Proof. unfold value. induction st as [|x st IH]; intros [|n] v; cbn [set_value nth]; auto. f_equal. apply IH. Qed.
Lemma value_ext : forall st st', length st = length st' -> (forall n, value st n = value st' n) -> st = st'.
Proof. intros st st' L E. apply (nth_ext _ _ 0 0 L). intros n _. apply E. Qed.

(** ** One joint *)
Section ONE.
Variables (w : world) (e : eef) (obstacles : option (list nat)) (angle : Z).
Definition blocked (st : list Z) (a : actor) (d : adef) : Prop :=
  ~ within_limits w (ad_node d) (value st (ad_node d) + angle * ad_speed d) \/ in_touch w e obstacles (one_step st angle d) a.
Lemma in_limits_spec d v : in_limits w d v = true <-> within_limits w (ad_node d) v.
Proof. unfold in_limits, within_limits. rewrite andb_true_iff, !Z.leb_le. tauto. Qed.
Lemma any_mode_spec d : any_mode d = true <-> ad_actors d = true \/ ad_static d = true.
Proof. unfold any_mode. rewrite orb_true_iff. tauto. Qed.
Lemma obstacle_hits_in os st a n k : In (n, k) (obstacle_hits w (ac_defs a) os st) <-> meets w (Some os) st a n k.
Proof.
  unfold obstacle_hits, meets. rewrite in_flat_map. split.
  - intros (d & D & H). apply in_flat_map in H. destruct H as (k' & K & H).
    destruct (any_mode d && w_model w (Obstacle k') && w_model w (NodeBody (ad_node d)) && w_hit w st (NodeBody (ad_node d)) (Obstacle k')) eqn:E; [|destruct H].
    rewrite !andb_true_iff in E. destruct E as (((E1 & E2) & E3) & E4). destruct H as [[= <- <-]|[]]. apply any_mode_spec in E1. split; [exists d; auto|]. split; [exists os; auto|]. auto.
  - intros ((d & D & N & M) & (os' & [= <-] & K) & A & B & C). exists d. split; [exact D|]. apply in_flat_map. exists k. split; [exact K|]. subst n. apply any_mode_spec in M. rewrite M, A, B, C. left. reflexivity.
Qed.
Lemma hits_object_spec mode ds o st : hits_object w mode ds o st = true <-> w_model w o = true /\ exists d, In d ds /\ mode d = true /\ w_model w (NodeBody (ad_node d)) = true /\ w_hit w st (NodeBody (ad_node d)) o = true.
Proof.
  unfold hits_object. destruct (w_model w o); cbn [negb]; [|split; [discriminate|intros [H _]; discriminate]].
  rewrite existsb_exists. split.
  - intros (d & D & H). rewrite !andb_true_iff in H. split; [reflexivity|]. exists d. tauto.
  - intros (_ & d & D & A & B & C). exists d. rewrite A, B, C. auto.
Qed.
Lemma hits_actor_spec a b st : hits_actor w (ac_defs a) (ac_defs b) st = true <-> touches w st a b.
Proof.
  unfold hits_actor, touches. rewrite existsb_exists. split.
  - intros (d & D & H). apply andb_true_iff in H. destruct H as [H1 H2]. apply hits_object_spec in H2. destruct H2 as (M & d' & D' & A & B & C). apply any_mode_spec in A. exists d, d'. tauto.
  - intros (d & d' & D & A & D' & M & B & C & H). exists d. split; [exact D|]. rewrite A. cbn [andb]. apply hits_object_spec. split; [exact B|]. exists d'. apply any_mode_spec in M. auto.
Qed.
Definition the_hits (st : list Z) (a : actor) : list (nat * nat) := match obstacles with Some os => obstacle_hits w (ac_defs a) os st | None => [] end.
Lemma the_hits_in st a n k : In (n, k) (the_hits st a) <-> meets w obstacles st a n k.
Proof.
  unfold the_hits. destruct obstacles as [os|]; [apply obstacle_hits_in|]. split; [intros []|]. intros (_ & (os & H & _) & _). discriminate.
Qed.
Definition collides (st : list Z) (a : actor) : bool :=
  let collision := match the_hits st a with [] => false | _ => true end in
  let collision := if collision then true else existsb (fun b => negb (ac_name b =? ac_name a)%nat && hits_actor w (ac_defs a) (ac_defs b) st) (e_actors e) in
  if collision then true else existsb (fun n => hits_object w ad_static (ac_defs a) (NodeBody n) st) (e_statics e).
Lemma collides_spec st a : collides st a = true <-> in_touch w e obstacles st a.
Proof.
  unfold collides, in_touch. cbv zeta.
  assert (A : match the_hits st a with [] => false | _ => true end = true <-> exists n k, meets w obstacles st a n k).
  { destruct (the_hits st a) as [|[n k] l] eqn:E.
    - split; [discriminate|]. intros (n & k & H). apply the_hits_in in H. rewrite E in H. destruct H.
    - split; [|reflexivity]. intros _. exists n, k. apply the_hits_in. rewrite E. left. reflexivity. }
  assert (B : existsb (fun b => negb (ac_name b =? ac_name a)%nat && hits_actor w (ac_defs a) (ac_defs b) st) (e_actors e) = true <->
              exists b, In b (e_actors e) /\ ac_name b <> ac_name a /\ touches w st a b).
  { rewrite existsb_exists. split; intros (b & I & H); exists b.
    - apply andb_true_iff in H. destruct H as [H1 H2]. apply negb_true_iff, Nat.eqb_neq in H1. apply hits_actor_spec in H2. auto.
    - destruct H as [H1 H2]. apply Nat.eqb_neq in H1. apply hits_actor_spec in H2. rewrite H1, H2. auto. }
  assert (C : existsb (fun n => hits_object w ad_static (ac_defs a) (NodeBody n) st) (e_statics e) = true <-> rubs w e st a).
  { unfold rubs. rewrite existsb_exists. split.
    - intros (n & N & H). apply hits_object_spec in H. destruct H as (M & d & D & X & Y & Z). exists d, n. tauto.
    - intros (d & n & D & X & N & Y & M & Z). exists n. split; [exact N|]. apply hits_object_spec. split; [exact M|]. exists d. auto. }
  destruct (match the_hits st a with [] => false | _ => true end).
  - split; [intros _; left; apply A; reflexivity|reflexivity].
  - destruct (existsb _ (e_actors e)).
    + split; [intros _; right; left; apply B; reflexivity|reflexivity].
    + rewrite C. split; [auto|]. intros [H|[H|H]]; [apply A in H; discriminate|apply B in H; discriminate|exact H].
Qed.
(** A single admissible move. *)
Definition move (st st' : list Z) : Prop := exists a d, In a (e_actors e) /\ In d (ac_defs a) /\
  within_limits w (ad_node d) (value st (ad_node d) + angle * ad_speed d) /\ st' = one_step st angle d /\ ~ in_touch w e obstacles st' a.
Inductive moves : list Z -> list Z -> Prop :=
| moves_refl st : moves st st
| moves_cons st st' st'' : move st st' -> moves st' st'' -> moves st st''.
Lemma moves_one st st' : move st st' -> moves st st'.
Proof. intros M. apply moves_cons with (1 := M), moves_refl. Qed.
Lemma moves_trans st st' st'' : moves st st' -> moves st' st'' -> moves st st''.
Proof. intros A B. induction A as [|x y z H _ IH]; [exact B|]. apply moves_cons with (1 := H), IH, B. Qed.

Definition contacts_of (st : list Z) (a : actor) (d : adef) : list (nat * nat) :=
  if in_limits w d (stepped st angle d) then the_hits (one_step st angle d) a else [].
(** What one round does. *)
Lemma try_joint_spec a st news status d : In a (e_actors e) -> In d (ac_defs a) ->
  let '(st', news', status') := try_joint w e a obstacles angle (st, news, status) d in
  exists b, status' = (ad_node d, b) :: status /\ news' = news ++ contacts_of st a d /\
    if b then move st st' else st' = st /\ blocked st a d.
Proof.
  intros IA ID. unfold try_joint. cbv zeta.
  match goal with |- context [if ?c then (set_value _ _ _, _, _) else _] => change c with (collides (set_value st (ad_node d) (stepped st angle d)) a) end.
  change (match obstacles with Some os => _ | None => [] end) with (the_hits (set_value st (ad_node d) (stepped st angle d)) a).
  unfold contacts_of. change (one_step st angle d) with (set_value st (ad_node d) (stepped st angle d)).
  destruct (in_limits w d (stepped st angle d)) eqn:L.
  - apply in_limits_spec in L. assert (CS := collides_spec (set_value st (ad_node d) (stepped st angle d)) a). destruct (collides _ a).
    + exists false. split; [reflexivity|]. split; [reflexivity|]. split; [apply set_back|]. right. apply CS. reflexivity.
    + exists true. split; [reflexivity|]. split; [reflexivity|]. exists a, d. split; [exact IA|]. split; [exact ID|]. split; [exact L|]. split; [reflexivity|]. intros H. apply CS in H. discriminate.
  - exists false. split; [reflexivity|]. rewrite app_nil_r. split; [reflexivity|]. split; [reflexivity|]. left. intros H. apply in_limits_spec in H. unfold stepped in L. congruence.
Qed.
Lemma status_skip status n b m : m <> n -> status_of ((n, b) :: status) m = status_of status m.
Proof. intros N. unfold status_of. cbn [find fst]. destruct (Nat.eqb_spec n m); [congruence|reflexivity]. Qed.
Lemma status_head status n b : status_of ((n, b) :: status) n = b.
Proof. unfold status_of. cbn [find fst]. rewrite Nat.eqb_refl. reflexivity. Qed.
Definition strict (st st' : list Z) : Prop := exists x, move st x /\ moves x st'.
(** The loop over the joints of an actor. *)
Lemma fold_try a : In a (e_actors e) -> forall ds st news status, incl ds (ac_defs a) -> NoDup (map ad_node ds) ->
  let '(st', news', status') := fold_left (try_joint w e a obstacles angle) ds (st, news, status) in
  (forall m, ~ In m (map ad_node ds) -> status_of status' m = status_of status m) /\ moves st st' /\
  ((exists d, In d ds /\ status_of status' (ad_node d) = true) -> strict st st') /\
  ((forall d, In d ds -> status_of status' (ad_node d) = false) -> st' = st /\ (forall d, In d ds -> blocked st a d) /\ news' = news ++ flat_map (contacts_of st a) ds).
Proof.
  intros IA. induction ds as [|d ds IH]; intros st news status INC ND; cbn [fold_left].
  - split; [reflexivity|]. split; [apply moves_refl|]. split; [intros (d & [] & _)|]. intros _. split; [reflexivity|]. split; [intros d []|]. cbn. rewrite app_nil_r. reflexivity.
  - cbn [map] in ND. inversion ND as [|? ? NI ND']; subst. assert (T := try_joint_spec a st news status d IA (INC d (or_introl eq_refl))).
    destruct (try_joint w e a obstacles angle (st, news, status) d) as [[st1 news1] status1]. destruct T as (b & -> & -> & M).
    assert (H := IH st1 (news ++ contacts_of st a d) ((ad_node d, b) :: status) (fun x I => INC x (or_intror I)) ND').
    destruct (fold_left (try_joint w e a obstacles angle) ds (st1, news ++ contacts_of st a d, (ad_node d, b) :: status)) as [[st2 news2] status2].
    destruct H as (H1 & H2 & H3 & H4). assert (SD : status_of status2 (ad_node d) = b) by (rewrite (H1 _ NI); apply status_head). split; [|split; [|split]].
    + intros m NM. cbn [map In] in NM. rewrite H1 by tauto. apply status_skip. intros ->. tauto.
    + destruct b; [apply moves_trans with (2 := H2), moves_one, M|]. destruct M as [-> _]. exact H2.
    + intros (x & X & SX). destruct b.
      * exists st1. split; [exact M|exact H2].
      * destruct M as [-> _]. apply H3. destruct X as [<-|X]; [congruence|]. exists x. auto.
    + intros ALL. rewrite (ALL d (or_introl eq_refl)) in SD. subst b. destruct M as [-> B]. destruct (H4 (fun x X => ALL x (or_intror X))) as (-> & H5 & ->).
      split; [reflexivity|]. split; [intros x [<-|X]; [exact B|apply H5, X]|]. cbn [flat_map]. rewrite <- app_assoc. reflexivity.
Qed.

(** ** The contacts *)
Lemma move_defs_frame : forall ds st res, let '(st', _) := move_defs w angle ds st res in
  length st' = length st /\ forall n, ~ In n (map ad_node ds) -> value st' n = value st n.
Proof.
  induction ds as [|d ds IH]; intros st res; cbn [move_defs]; [auto|]. cbv zeta. destruct (in_limits w d (stepped st angle d)).
  - specialize (IH (set_value st (ad_node d) (stepped st angle d)) false). destruct (move_defs _ _ _ _ _) as [st' r]. rewrite set_length in IH. destruct IH as [L V]. split; [exact L|].
    intros n N. cbn [map In] in N. rewrite V by tauto. apply set_other. intros ->. tauto.
  - specialize (IH st res). destruct (move_defs _ _ _ _ _) as [st' r]. destruct IH as [L V]. split; [exact L|]. intros n N. cbn [map In] in N. apply V. tauto.
Qed.
Lemma set_config_values : forall (c : list (nat * Z)) st0 st, length st = length st0 -> (forall p, In p c -> snd p = value st0 (fst p)) ->
  length (set_config st c) = length st0 /\ forall n, (In n (map fst c) \/ value st n = value st0 n) -> value (set_config st c) n = value st0 n.
Proof.
  induction c as [|[m v] c IH]; intros st0 st L C; unfold set_config; cbn [fold_left].
  - split; [exact L|]. intros n [[]|H]; exact H.
  - cbn [fst snd]. fold (set_config (set_value st m v) c). destruct (IH st0 (set_value st m v)) as [L' V]; [rewrite set_length; exact L|intros p P; apply C; right; exact P|]. split; [exact L'|].
    intros n H. apply V. cbn [map In fst] in H. assert (VM : v = value st0 m) by (apply (C (m, v)); left; reflexivity).
    destruct (Nat.eq_dec n m) as [->|N].
    + right. destruct (Nat.lt_ge_cases m (length st)) as [B|B]; [rewrite set_same by exact B; exact VM|].
      unfold value. rewrite !nth_overflow; [reflexivity|lia|rewrite set_length; lia].
    + destruct H as [[H|H]|H]; [congruence|left; exact H|right; rewrite set_other by exact N; exact H].
Qed.
Lemma restored a st : set_config (fst (move_actor w a angle st)) (configuration a st) = st.
Proof.
  unfold move_actor. assert (F := move_defs_frame (ac_defs a) st true). destruct (move_defs w angle (ac_defs a) st true) as [st' r]. destruct F as [L V]. cbn [fst].
  destruct (set_config_values (configuration a st) st st' L) as [L' V'].
  { unfold configuration. intros p P. apply in_map_iff in P. destruct P as (d & <- & _). reflexivity. }
  apply value_ext; [exact L'|]. intros n. apply V'. destruct (in_dec Nat.eq_dec n (map ad_node (ac_defs a))) as [I|I]; [left|right; apply V, I].
  unfold configuration. rewrite map_map. exact I.
Qed.
Definition the_contact (st : list Z) (a : actor) (n k : nat) : contact := CInfo (ac_name a) n k st (fst (move_actor w a angle st)).
Definition keys (store : list contact) : list (nat * nat) := map (fun c => (ci_node c, ci_obstacle c)) store.
Lemma store_new_spec a : forall news st store, let '(st', store') := store_new w a angle news st store in
  st' = st /\ exists more, store' = store ++ more /\ (forall c, In c more -> c = the_contact st a (ci_node c) (ci_obstacle c) /\ In (ci_node c, ci_obstacle c) news) /\
    (forall p, In p (keys store') <-> In p (keys store) \/ In p news) /\ (NoDup (keys store) -> NoDup (keys store')).
Proof.
  induction news as [|[n k] news IH]; intros st store; cbn [store_new].
  - split; [reflexivity|]. exists []. rewrite app_nil_r. split; [reflexivity|]. split; [intros c []|]. split; [cbn; tauto|auto].
  - assert (EX : existsb (fun c => (ci_node c =? n)%nat && (ci_obstacle c =? k)%nat) store = true <-> In (n, k) (keys store)).
    { rewrite existsb_exists. unfold keys. rewrite in_map_iff. split; intros (c & A & B); exists c.
      - apply andb_true_iff in B. rewrite !Nat.eqb_eq in B. destruct B as [-> ->]. auto.
      - injection A as -> ->. rewrite !Nat.eqb_refl. auto. }
    destruct (existsb _ store).
    + specialize (IH st store). destruct (store_new w a angle news st store) as [st' store']. destruct IH as (-> & more & -> & H1 & H2 & H3). split; [reflexivity|]. exists more. split; [reflexivity|].
      split; [intros c C; destruct (H1 c C); split; [assumption|right; assumption]|]. split; [|exact H3]. intros p. rewrite H2. cbn [In]. assert (K : In (n, k) (keys store)) by (apply EX; reflexivity).
      split; [tauto|]. intros [H|[<-|H]]; tauto.
    + cbv zeta. rewrite restored. specialize (IH st (store ++ [the_contact st a n k])). change (CInfo (ac_name a) n k st (fst (move_actor w a angle st))) with (the_contact st a n k).
      destruct (store_new w a angle news st (store ++ [the_contact st a n k])) as [st' store']. destruct IH as (-> & more & -> & H1 & H2 & H3). split; [reflexivity|].
      exists (the_contact st a n k :: more). rewrite <- app_assoc. split; [reflexivity|]. assert (KA : keys (store ++ [the_contact st a n k]) = keys store ++ [(n, k)]) by (unfold keys; rewrite map_app; reflexivity).
      rewrite KA in H2, H3. split; [|split].
      * intros c [<-|C]; [split; [reflexivity|left; reflexivity]|]. destruct (H1 c C) as [X Y]. split; [exact X|right; exact Y].
      * intros p. rewrite <- app_assoc in H2. rewrite H2, in_app_iff. cbn [In]. tauto.
      * intros N. rewrite <- app_assoc in H3. apply H3. assert (NK : ~ In (n, k) (keys store)) by (intros H; apply EX in H; discriminate). clear - N NK. induction (keys store) as [|x l IH]; cbn [app].
        -- constructor; [intros []|constructor].
        -- inversion N; subst. cbn [In] in NK. constructor; [rewrite in_app_iff; cbn [In]; intros [H|[H|[]]]; [contradiction|subst; tauto]|apply IH; tauto].
Qed.

(** ** One actor *)
Lemma strict_moves st st' st'' : strict st st' -> moves st' st'' -> strict st st''.
Proof. intros (x & A & B) C. exists x. split; [exact A|apply moves_trans with (1 := B), C]. Qed.
Lemma moves_strict st st' st'' : moves st st' -> strict st' st'' -> strict st st''.
Proof.
  intros A B. destruct A as [|x y z M A]; [exact B|]. destruct B as (u & U & B). exists y. split; [exact M|]. apply moves_trans with (1 := A), moves_cons with (1 := U), B.
Qed.
Lemma strict_weak st st' : strict st st' -> moves st st'.
Proof. intros (x & A & B). apply moves_cons with (1 := A), B. Qed.
Definition found (st : list Z) (a : actor) (n k : nat) : Prop :=
  exists d, In d (ac_defs a) /\ within_limits w (ad_node d) (value st (ad_node d) + angle * ad_speed d) /\ meets w obstacles (one_step st angle d) a n k.
Lemma found_spec st a n k : In (n, k) (flat_map (contacts_of st a) (ac_defs a)) <-> found st a n k.
Proof.
  rewrite in_flat_map. unfold found, contacts_of. split; intros (d & D & H); exists d; (split; [exact D|]).
  - destruct (in_limits w d (stepped st angle d)) eqn:L; [|destruct H]. apply in_limits_spec in L. split; [exact L|apply the_hits_in, H].
  - destruct H as [L H]. apply in_limits_spec in L. change (in_limits w d (stepped st angle d) = true) in L. rewrite L. apply the_hits_in, H.
Qed.
Lemma move_check_spec a st store : In a (e_actors e) -> NoDup (map ad_node (ac_defs a)) ->
  let '(st', store', r) := move_check w e a obstacles angle st store in
  moves st st' /\ (if r then st' = st /\ (forall d, In d (ac_defs a) -> blocked st a d) /\
     (exists more, store' = store ++ more /\ (forall c, In c more -> c = the_contact st a (ci_node c) (ci_obstacle c) /\ found st a (ci_node c) (ci_obstacle c)) /\
       (forall n k, In (n, k) (keys store') <-> In (n, k) (keys store) \/ found st a n k) /\ (NoDup (keys store) -> NoDup (keys store')))
   else strict st st').
Proof.
  intros IA ND. unfold move_check. assert (F := fold_try a IA (ac_defs a) st [] [] (fun x I => I) ND).
  destruct (fold_left (try_joint w e a obstacles angle) (ac_defs a) (st, [], [])) as [[st1 news] status]. destruct F as (_ & F2 & F3 & F4).
  assert (S := store_new_spec a news st1 store). destruct (store_new w a angle news st1 store) as [st2 store']. destruct S as (-> & more & -> & S1 & S2 & S3).
  split; [exact F2|]. destruct (existsb (fun d => status_of status (ad_node d)) (ac_defs a)) eqn:E; cbn [negb].
  - apply existsb_exists in E. apply F3, E.
  - assert (ALL : forall d, In d (ac_defs a) -> status_of status (ad_node d) = false).
    { intros d D. destruct (status_of status (ad_node d)) eqn:X; [|reflexivity]. exfalso. assert (C : existsb (fun d => status_of status (ad_node d)) (ac_defs a) = true) by (apply existsb_exists; exists d; auto). congruence. }
    destruct (F4 ALL) as (-> & F5 & ->). cbn [app] in *. split; [reflexivity|]. split; [exact F5|]. exists more. split; [reflexivity|]. split; [|split; [|exact S3]].
    + intros c C. destruct (S1 c C) as [X Y]. split; [exact X|apply found_spec, Y].
    + intros n k. rewrite S2, found_spec. reflexivity.
Qed.
(** ** One pass over the actors *)
Definition unflagged (al : list (actor * bool)) : nat := length (filter (fun p => negb (snd p)) al).
Lemma pass_spec : (forall a, In a (e_actors e) -> NoDup (map ad_node (ac_defs a))) -> forall al st store fin, incl (map fst al) (e_actors e) ->
  let '(al', st', store', fin') := pass w e obstacles angle al st store fin in
  map fst al' = map fst al /\ moves st st' /\ (fin' = true <-> fin = true /\ forall p, In p al -> snd p = true) /\
  (strict st st' \/ forall p, In p al' -> snd p = true) /\
  ((forall p, In p al -> snd p = true) -> al' = al /\ st' = st /\ store' = store) /\
  ((forall p, In p al -> snd p = false) -> (forall p, In p al' -> snd p = true) -> st' = st /\
     (forall a d, In a (map fst al) -> In d (ac_defs a) -> blocked st a d) /\
     exists more, store' = store ++ more /\
       (forall c, In c more -> exists a, In a (map fst al) /\ c = the_contact st a (ci_node c) (ci_obstacle c) /\ found st a (ci_node c) (ci_obstacle c)) /\
       (forall n k, In (n, k) (keys store') <-> In (n, k) (keys store) \/ exists a, In a (map fst al) /\ found st a n k) /\ (NoDup (keys store) -> NoDup (keys store'))).
Proof.
  intros ND. induction al as [|[a f] al IH]; intros st store fin INC; cbn [pass].
  - split; [reflexivity|]. split; [apply moves_refl|]. split; [split; [intros H; split; [exact H|intros p []]|tauto]|]. split; [right; intros p []|]. split; [auto|].
    intros _ _. split; [reflexivity|]. split; [intros a d []|]. exists []. rewrite app_nil_r. split; [reflexivity|]. split; [intros c []|]. split; [|auto]. intros n k. split; [auto|]. intros [H|(a & [] & _)]. exact H.
  - cbn [map fst] in INC. assert (INC' : incl (map fst al) (e_actors e)) by (intros x X; apply INC; right; exact X). destruct f.
    + specialize (IH st store fin INC'). destruct (pass w e obstacles angle al st store fin) as [[[al' st'] store'] fin']. destruct IH as (H1 & H2 & H3 & H4 & H5 & H6).
      split; [cbn [map]; rewrite H1; reflexivity|]. split; [exact H2|]. split; [|split; [|split]].
      * rewrite H3. cbn [In]. split; intros [A B]; (split; [exact A|]); [intros p [<-|P]; [reflexivity|apply B, P]|intros p P; apply B; right; exact P].
      * destruct H4 as [H4|H4]; [left; exact H4|right]. intros p [<-|P]; [reflexivity|apply H4, P].
      * intros ALL. destruct (H5 (fun p P => ALL p (or_intror P))) as (-> & -> & ->). auto.
      * intros NONE. specialize (NONE (a, true) (or_introl eq_refl)). discriminate.
    + assert (M := move_check_spec a st store (INC a (or_introl eq_refl)) (ND a (INC a (or_introl eq_refl)))).
      destruct (move_check w e a obstacles angle st store) as [[st1 store1] r]. destruct M as [M1 M2].
      specialize (IH st1 store1 false INC'). destruct (pass w e obstacles angle al st1 store1 false) as [[[al' st'] store'] fin']. destruct IH as (H1 & H2 & H3 & H4 & H5 & H6).
      split; [cbn [map]; rewrite H1; reflexivity|]. split; [apply moves_trans with (1 := M1), H2|]. split; [|split; [|split]].
      * rewrite H3. split; [intros [A _]; discriminate|]. intros [_ B]. specialize (B (a, false) (or_introl eq_refl)). discriminate.
      * destruct r; [|left; apply strict_moves with (1 := M2), H2]. destruct M2 as [-> _]. destruct H4 as [H4|H4]; [left; exact H4|right]. intros p [<-|P]; [reflexivity|apply H4, P].
      * intros ALL. specialize (ALL (a, false) (or_introl eq_refl)). discriminate.
      * intros NONE ALL. assert (R : r = true) by (apply (ALL (a, r)); left; reflexivity). subst r. destruct M2 as (-> & B & more & -> & C1 & C2 & C3).
        destruct (H6 (fun p P => NONE p (or_intror P)) (fun p P => ALL p (or_intror P))) as (-> & B' & more' & -> & C1' & C2' & C3').
        split; [reflexivity|]. split; [intros x d [<-|X] D; [apply B, D|apply (B' x d X D)]|]. exists (more ++ more'). rewrite app_assoc. split; [reflexivity|]. split; [|split].
        -- intros c C. apply in_app_iff in C. destruct C as [C|C].
           ++ destruct (C1 c C). exists a. split; [left; reflexivity|auto].
           ++ destruct (C1' c C) as (x & X & Y). exists x. split; [right; exact X|exact Y].
        -- intros n k. rewrite C2', C2. cbn [map fst]. split.
           ++ intros [[H|H]|(x & X & H)]; [left; exact H|right; exists a; split; [left; reflexivity|exact H]|right; exists x; split; [right; exact X|exact H]].
           ++ intros [H|(x & [<-|X] & H)]; [left; left; exact H|left; right; exact H|right; exists x; auto].
        -- intros N. apply C3', C3, N.
Qed.
(** ** The end of the loop *)
Lemma close_end : (forall a, In a (e_actors e) -> NoDup (map ad_node (ac_defs a))) -> forall fuel al loop st store st' store', map fst al = e_actors e ->
  (loop = O -> store = [] /\ forall p, In p al -> snd p = false) ->
  (loop = 1%nat -> exists st0 al0 fin0, pass w e obstacles angle al0 st0 [] true = (al, st, store, fin0) /\ map fst al0 = e_actors e /\ forall p, In p al0 -> snd p = false) ->
  close_loop fuel w e obstacles angle al loop st store = Some (st', store') ->
  moves st st' /\ exists al0 al1 fin, pass w e obstacles angle al0 st' [] true = (al1, st', store', fin) /\ map fst al0 = e_actors e /\
    (forall p, In p al0 -> snd p = false) /\ (forall p, In p al1 -> snd p = true).
Proof.
  intros ND. induction fuel as [|fuel IH]; intros al loop st store st' store' MA L0 L1; cbn [close_loop]; [discriminate|]. cbv zeta.
  assert (P := pass_spec ND al st store true ltac:(rewrite MA; intros x X; exact X)). destruct (pass w e obstacles angle al st store true) as [[[al' s1] st1] fin] eqn:PE.
  destruct P as (P1 & P2 & P3 & P4 & P5 & P6). destruct fin.
  - destruct (proj1 P3 eq_refl) as [_ ALL]. destruct (P5 ALL) as (-> & -> & ->). destruct (Nat.ltb_spec 2 (S loop)) as [G|G].
    + intros C. apply IH in C; [exact C|rewrite map_map; cbn [fst]; exact MA| |discriminate].
      intros _. split; [reflexivity|]. intros p X. apply in_map_iff in X. destruct X as (q & <- & _). reflexivity.
    + intros [= <- <-]. split; [apply moves_refl|]. destruct loop as [|[|loop]]; [| |lia].
      * destruct (L0 eq_refl) as [-> F]. destruct al as [|p al]; [|exfalso; specialize (ALL p (or_introl eq_refl)); rewrite (F p (or_introl eq_refl)) in ALL; discriminate].
        exists [], [], true. split; [reflexivity|]. split; [exact MA|]. split; intros p [].
      * destruct (L1 eq_refl) as (st0 & al0 & fin0 & E0 & M0 & F0). exists al0, al. exists fin0.
        assert (Q := pass_spec ND al0 st0 [] true ltac:(rewrite M0; intros x X; exact X)). rewrite E0 in Q. destruct Q as (_ & _ & _ & _ & _ & Q6). destruct (Q6 F0 ALL) as (-> & _). auto.
  - intros C. apply IH in C; [|rewrite P1; exact MA|discriminate|].
    + destruct C as [C1 C2]. split; [apply moves_trans with (1 := P2), C1|exact C2].
    + intros E. injection E as ->. destruct (L0 eq_refl) as [-> F]. exists st, al, false. auto.
Qed.
Lemma close_spec fuel st st' cs : (forall a, In a (e_actors e) -> NoDup (map ad_node (ac_defs a))) -> close_actors fuel w e obstacles angle st = Some (st', cs) ->
  moves st st' /\ (forall a d, In a (e_actors e) -> In d (ac_defs a) -> blocked st' a d) /\
  (forall c, In c cs -> exists a, In a (e_actors e) /\ c = the_contact st' a (ci_node c) (ci_obstacle c) /\ found st' a (ci_node c) (ci_obstacle c)) /\
  (forall n k, In (n, k) (keys cs) <-> exists a, In a (e_actors e) /\ found st' a n k) /\ NoDup (keys cs).
Proof.
  intros ND C. unfold close_actors in C. apply (close_end ND) in C; [| |intros _; split; [reflexivity|]|discriminate].
  - destruct C as (M & al0 & al1 & fin & E & M0 & F0 & A1). split; [exact M|].
    assert (Q := pass_spec ND al0 st' [] true ltac:(rewrite M0; intros x X; exact X)). rewrite E in Q. destruct Q as (_ & _ & _ & _ & _ & Q6). rewrite M0 in Q6. destruct (Q6 F0 A1) as (_ & B & more & -> & C1 & C2 & C3). cbn [app] in *.
    split; [exact B|]. split; [exact C1|]. split; [intros n k; rewrite C2; split; [intros [[]|H]; exact H|auto]|]. apply C3. constructor.
  - rewrite map_map. apply map_id.
  - intros p X. apply in_map_iff in X. destruct X as (q & <- & _). reflexivity.
Qed.

(** ** Termination *)
Definition alldefs : list adef := flat_map ac_defs (e_actors e).
Definition room (d : adef) (v : Z) : nat := if 0 <? angle * ad_speed d then Z.to_nat (w_hi w (ad_node d) - v) else Z.to_nat (v - w_lo w (ad_node d)).
Definition mu (st : list Z) : nat := list_sum (map (fun d => room d (value st (ad_node d))) alldefs).
Lemma sum_le (A : Type) (f g : A -> nat) : forall l, (forall x, In x l -> (g x <= f x)%nat) -> (list_sum (map g l) <= list_sum (map f l))%nat.
Proof.
  unfold list_sum. induction l as [|y l IH]; intros H; cbn [map fold_right]; [lia|]. assert (A1 := H y (or_introl eq_refl)). assert (A2 := IH (fun x I => H x (or_intror I))). lia.
Qed.
Lemma sum_lt (A : Type) (f g : A -> nat) : forall l, (forall x, In x l -> (g x <= f x)%nat) -> (exists x, In x l /\ (g x < f x)%nat) -> (list_sum (map g l) < list_sum (map f l))%nat.
Proof.
  unfold list_sum. induction l as [|y l IH]; intros H (x & X & L); [destruct X|]. cbn [map fold_right]. assert (A1 := H y (or_introl eq_refl)). assert (A2 := sum_le A f g l (fun x I => H x (or_intror I))). unfold list_sum in A2.
  destruct X as [<-|X]; [lia|]. assert (A3 := IH (fun x I => H x (or_intror I)) (ex_intro _ x (conj X L))). lia.
Qed.
Lemma in_alldefs a d : In a (e_actors e) -> In d (ac_defs a) -> In d alldefs.
Proof. intros A D. apply in_flat_map. exists a. auto. Qed.
Lemma same_node (d d' : adef) : forall l, NoDup (map ad_node l) -> In d l -> In d' l -> ad_node d = ad_node d' -> d = d'.
Proof.
  induction l as [|x l IH]; intros ND A B E; [destruct A|]. cbn [map] in ND. inversion ND as [|? ? NI ND']; subst.
  destruct A as [->|A], B as [->|B]; [reflexivity| | |apply IH; assumption].
  - exfalso. apply NI. rewrite E. apply in_map, B.
  - exfalso. apply NI. rewrite <- E. apply in_map, A.
Qed.
Lemma move_mu st st' : proper e st -> (forall d, In d alldefs -> angle * ad_speed d <> 0) -> move st st' -> (mu st' < mu st)%nat /\ proper e st'.
Proof.
  intros [ND V] NZ (a & d & IA & ID & L & -> & _). assert (I := in_alldefs a d IA ID). assert (VL : (ad_node d < length st)%nat) by (rewrite Forall_forall in V; apply V, in_map, I).
  split; [|split; [exact ND|unfold one_step; rewrite set_length; exact V]]. unfold mu.
  assert (ST : (room d (value (one_step st angle d) (ad_node d)) < room d (value st (ad_node d)))%nat).
  { unfold one_step. rewrite set_same by exact VL. specialize (NZ d I). unfold room, within_limits in *. destruct (Z.ltb_spec 0 (angle * ad_speed d)); lia. }
  apply sum_lt; [|exists d; auto]. intros x X. destruct (Nat.eq_dec (ad_node x) (ad_node d)) as [E|N].
  - rewrite (same_node x d alldefs ND X I E). lia.
  - unfold one_step. rewrite set_other by exact N. lia.
Qed.
Lemma moves_mu st st' : proper e st -> (forall d, In d alldefs -> angle * ad_speed d <> 0) -> moves st st' -> (mu st' <= mu st)%nat /\ proper e st'.
Proof.
  intros P NZ M. induction M as [|x y z M _ IH]; [split; [lia|exact P]|]. destruct (move_mu _ _ P NZ M) as [L P']. destruct (IH P') as [L' P'']. split; [lia|exact P''].
Qed.
Lemma strict_mu st st' : proper e st -> (forall d, In d alldefs -> angle * ad_speed d <> 0) -> strict st st' -> (mu st' < mu st)%nat /\ proper e st'.
Proof.
  intros P NZ (x & M & MS). destruct (move_mu _ _ P NZ M) as [L P']. destruct (moves_mu _ _ P' NZ MS) as [L' P'']. split; [lia|exact P''].
Qed.
Lemma close_more : forall fuel al loop st store r, close_loop fuel w e obstacles angle al loop st store = Some r ->
  forall fuel', (fuel <= fuel')%nat -> close_loop fuel' w e obstacles angle al loop st store = Some r.
Proof.
  induction fuel as [|fuel IH]; intros al loop st store r; cbn [close_loop]; [discriminate|]. cbv zeta. intros H [|fuel'] L; [lia|]. cbn [close_loop]. cbv zeta.
  destruct (pass w e obstacles angle al st store true) as [[[al' s1] st1] fin]. destruct fin.
  - destruct (2 <? S loop)%nat; [|exact H]. apply (IH _ _ _ _ _ H). lia.
  - apply (IH _ _ _ _ _ H). lia.
Qed.
Lemma nodup_right (A : Type) : forall l1 l2 : list A, NoDup (l1 ++ l2) -> NoDup l2.
Proof. induction l1 as [|x l1 IH]; intros l2 H; [exact H|]. inversion H; subst. apply IH. assumption. Qed.
Lemma nodup_left (A : Type) : forall l1 l2 : list A, NoDup (l1 ++ l2) -> NoDup l1.
Proof. induction l1 as [|x l1 IH]; intros l2 H; [constructor|]. inversion H; subst. constructor; [|apply (IH l2); assumption]. intros X. apply H2, in_app_iff. left. exact X. Qed.
Lemma defs_nodup : NoDup (joints e) -> forall a, In a (e_actors e) -> NoDup (map ad_node (ac_defs a)).
Proof.
  unfold joints. intros ND a IA. apply in_split in IA. destruct IA as (l1 & l2 & E). rewrite E in ND. rewrite flat_map_app in ND. cbn [flat_map] in ND. rewrite !map_app in ND.
  apply nodup_right in ND. apply nodup_left in ND. exact ND.
Qed.
Lemma filter_le (A : Type) (f : A -> bool) : forall l, (length (filter f l) <= length l)%nat.
Proof. induction l as [|x l IH]; cbn [filter length]; [lia|]. destruct (f x); cbn [length]; lia. Qed.
Lemma unflagged_all al : (forall p, In p al -> snd p = true) <-> unflagged al = O.
Proof.
  unfold unflagged. induction al as [|[a f] al IH]; cbn [filter snd]; [split; [reflexivity|intros _ p []]|]. destruct f; cbn [negb length].
  - rewrite <- IH. split; [intros H p P; apply H; right; exact P|intros H p [<-|P]; [reflexivity|apply H, P]].
  - split; [intros H; specialize (H (a, false) (or_introl eq_refl)); discriminate|discriminate].
Qed.
Definition ends (al : list (actor * bool)) (loop : nat) (st : list Z) : Prop := forall store, exists fuel r, close_loop fuel w e obstacles angle al loop st store = Some r.
Definition fresh : list (actor * bool) := map (fun a => (a, false)) (e_actors e).
Lemma inner_ends M : NoDup (joints e) -> (forall d, In d alldefs -> angle * ad_speed d <> 0) ->
  (forall st, proper e st -> (mu st <= M)%nat -> ends fresh 0 st) ->
  forall k al loop st, map fst al = e_actors e -> proper e st -> (mu st <= M)%nat -> (mu st * S (length (e_actors e)) + unflagged al <= k)%nat -> ends al loop st.
Proof.
  intros ND NZ START. induction k as [k IH] using lt_wf_ind. intros al loop st MA P B K store.
  assert (Q := pass_spec (defs_nodup ND) al st store true ltac:(rewrite MA; intros x X; exact X)). destruct (pass w e obstacles angle al st store true) as [[[al' s1] st1] fin] eqn:PE.
  destruct Q as (Q1 & Q2 & Q3 & Q4 & Q5 & _). destruct (moves_mu _ _ P NZ Q2) as [L P']. destruct fin.
  - destruct (proj1 Q3 eq_refl) as [_ ALL]. destruct (Q5 ALL) as (-> & -> & ->). destruct (Nat.ltb_spec 2 (S loop)) as [G|G].
    + assert (F : map (fun p => (fst p, false)) al = fresh) by (unfold fresh; rewrite <- MA, map_map; reflexivity).
      destruct (START st P B []) as (fuel & r & H). exists (S fuel), r. cbn [close_loop]. cbv zeta. rewrite PE. destruct (Nat.ltb_spec 2 (S loop)); [|lia]. rewrite F. exact H.
    + exists 1%nat, (st, store). cbn [close_loop]. cbv zeta. rewrite PE. destruct (Nat.ltb_spec 2 (S loop)); [lia|reflexivity].
  - assert (LEN : (unflagged al' <= length (e_actors e))%nat) by (rewrite <- MA, <- Q1, map_length; apply filter_le).
    assert (NF : unflagged al <> O) by (intros U; assert (U' := proj2 (unflagged_all al) U); assert (F : false = true) by (apply (proj2 Q3); split; [reflexivity|exact U']); discriminate).
    assert (DEC : (mu s1 * S (length (e_actors e)) + unflagged al' < k)%nat).
    { destruct Q4 as [Q4|Q4]; [destruct (strict_mu _ _ P NZ Q4) as [L' _]; nia|]. assert (U' := proj1 (unflagged_all al') Q4). rewrite U'. nia. }
    destruct (IH _ DEC al' (S loop) s1 ltac:(rewrite Q1; exact MA) P' ltac:(lia) ltac:(lia) st1) as (fuel & r & H). exists (S fuel), r. cbn [close_loop]. cbv zeta. rewrite PE. exact H.
Qed.
Lemma fresh_fst : map fst fresh = e_actors e.
Proof. unfold fresh. rewrite map_map. apply map_id. Qed.
Lemma start_ends : NoDup (joints e) -> (forall d, In d alldefs -> angle * ad_speed d <> 0) -> forall M st, proper e st -> (mu st <= M)%nat -> ends fresh 0 st.
Proof.
  intros ND NZ. induction M as [M IH] using lt_wf_ind. intros st P B store.
  assert (Q := pass_spec (defs_nodup ND) fresh st store true ltac:(rewrite fresh_fst; intros x X; exact X)). destruct (pass w e obstacles angle fresh st store true) as [[[al' s1] st1] fin] eqn:PE.
  destruct Q as (Q1 & Q2 & Q3 & Q4 & Q5 & _). destruct (moves_mu _ _ P NZ Q2) as [L P']. destruct fin.
  - exists 1%nat, (s1, st1). cbn [close_loop]. cbv zeta. rewrite PE. reflexivity.
  - rewrite fresh_fst in Q1. destruct Q4 as [Q4|Q4].
    + destruct (strict_mu _ _ P NZ Q4) as [L' _]. destruct M as [|M]; [lia|].
      destruct (inner_ends M ND NZ (fun st0 P0 B0 => IH M ltac:(lia) st0 P0 B0) _ al' 1%nat s1 Q1 P' ltac:(lia) (le_n _) st1) as (fuel & r & H).
      exists (S fuel), r. cbn [close_loop]. cbv zeta. rewrite PE. exact H.
    + assert (Q := pass_spec (defs_nodup ND) al' s1 st1 true ltac:(rewrite Q1; intros x X; exact X)). destruct (pass w e obstacles angle al' s1 st1 true) as [[[al2 s2] st2] fin2] eqn:PE2.
      destruct Q as (_ & _ & Q3' & _). assert (fin2 = true) by (apply Q3'; auto). subst fin2. exists 2%nat, (s2, st2). cbn [close_loop]. cbv zeta. rewrite PE, PE2. reflexivity.
Qed.
(** ** What moved *)
Lemma moves_frame st st' : proper e st -> moves st st' -> length st' = length st /\ (forall n, ~ In n (joints e) -> value st' n = value st n) /\
  forall d, In d alldefs -> exists k, 0 <= k /\ value st' (ad_node d) = value st (ad_node d) + k * (angle * ad_speed d) /\
    (value st' (ad_node d) = value st (ad_node d) \/ within_limits w (ad_node d) (value st' (ad_node d))).
Proof.
  intros P M. induction M as [st|st x st' M MS IH].
  - split; [reflexivity|]. split; [reflexivity|]. intros d D. exists 0. split; [lia|]. split; [lia|]. left. reflexivity.
  - destruct M as (a & d & IA & ID & L & -> & _). assert (I := in_alldefs a d IA ID). destruct P as [ND V]. assert (VL : (ad_node d < length st)%nat) by (rewrite Forall_forall in V; apply V, in_map, I).
    destruct IH as (A & B & C); [split; [exact ND|unfold one_step; rewrite set_length; exact V]|]. unfold one_step in *. rewrite set_length in A. split; [exact A|]. split.
    + intros n N. rewrite (B n N). apply set_other. intros ->. apply N. apply in_map, I.
    + intros x X. destruct (C x X) as (k & K & E & W). destruct (Nat.eq_dec (ad_node x) (ad_node d)) as [EN|N].
      * assert (x = d) by (apply (same_node x d alldefs ND X I EN)). subst x. rewrite set_same in E, W by exact VL. exists (k + 1). split; [lia|]. split; [rewrite E; ring|].
        right. destruct W as [W|W]; [rewrite W; exact L|exact W].
      * rewrite set_other in E, W by exact N. exists k. auto.
Qed.
(** ** Freedom from collisions *)
Lemma disjoint_actor a b d : NoDup (joints e) -> NoDup (map ac_name (e_actors e)) -> In a (e_actors e) -> In b (e_actors e) -> ac_name a <> ac_name b -> In d (ac_defs a) ->
  ~ In (ad_node d) (map ad_node (ac_defs b)).
Proof.
  intros ND _ A B N D X. apply in_map_iff in X. destruct X as (d' & E & D').
  assert (GEN : forall l, NoDup (map ad_node (flat_map ac_defs l)) -> In a l -> In b l -> a = b).
  { induction l as [|x l IH]; intros NDL IA IB; [destruct IA|]. cbn [flat_map] in NDL. rewrite map_app in NDL.
    assert (X : forall y, In y (map ad_node (ac_defs x)) -> In y (map ad_node (flat_map ac_defs l)) -> False).
    { clear - NDL. induction (map ad_node (ac_defs x)) as [|z l1 IH]; intros y Y Z; [destruct Y|]. cbn [app] in NDL. inversion NDL; subst. destruct Y as [->|Y]; [apply H1, in_app_iff; right; exact Z|apply (IH H2 y Y Z)]. }
    destruct IA as [->|IA], IB as [->|IB]; [reflexivity| | |].
    - exfalso. apply (X (ad_node d)); [apply in_map, D|]. rewrite <- E. apply in_map, in_flat_map. exists b. auto.
    - exfalso. apply (X (ad_node d')); [apply in_map, D'|]. rewrite E. apply in_map, in_flat_map. exists a. auto.
    - apply IH; [|exact IA|exact IB]. apply nodup_right in NDL. exact NDL. }
  apply N. f_equal. apply (GEN _ ND A B).
Qed.
Lemma move_free st st' : proper e st -> NoDup (map ac_name (e_actors e)) -> independent w e ->
  (forall a d, In a (e_actors e) -> In d (ac_defs a) -> ad_static d = true -> ad_actors d = true) ->
  (forall s x y, w_hit w s x y = w_hit w s y x) ->
  (forall a, In a (e_actors e) -> ~ in_touch w e obstacles st a) -> move st st' -> forall b, In b (e_actors e) -> ~ in_touch w e obstacles st' b.
Proof.
  intros [ND V] NN [I1 I2] MODE SYM FREE (a & d & IA & ID & L & E & NT) b IB T.
  assert (SAME : forall x, In x (e_actors e) -> ac_name x = ac_name a -> x = a).
  { intros x X N. clear - NN X IA N. induction (e_actors e) as [|y l IH]; [destruct X|]. cbn [map] in NN. inversion NN; subst.
    destruct X as [->|X], IA as [->|A]; [reflexivity| | |apply IH; assumption]; exfalso; apply H1; [rewrite N|rewrite <- N]; apply in_map; assumption. }
  assert (LEN : length st' = length st) by (subst st'; unfold one_step; apply set_length).
  assert (FR : forall n, n <> ad_node d -> value st' n = value st n) by (intros n N; subst st'; apply set_other, N).
  assert (JD : In (ad_node d) (joints e)) by (apply in_map, (in_alldefs a d IA ID)).
  assert (NE : ac_name b <> ac_name a) by (intros N; rewrite (SAME b IB N) in T; contradiction).
  assert (KEEP : forall x, In x (e_actors e) -> ac_name x <> ac_name a -> forall n, ~ In n (joints e) \/ In n (map ad_node (ac_defs x)) -> value st' n = value st n).
  { intros x X N n H. apply FR. intros ->. destruct H as [H|H]; [contradiction|]. apply (disjoint_actor a x d ND NN IA X ltac:(congruence) ID H). }
  apply (FREE b IB). destruct T as [(n & k & (D & OB & M1 & M2 & H))|[(c & IC & NC & (x & y & X & AX & Y & AY & M1 & M2 & H))|(x & n & X & SX & N & M1 & M2 & H)]].
  - left. exists n, k. split; [exact D|]. split; [exact OB|]. split; [exact M1|]. split; [exact M2|]. destruct D as (x & X & <- & _).
    rewrite <- (I1 st st' b x (Obstacle k) IB X LEN (KEEP b IB NE) ltac:(left; exists k; reflexivity)). exact H.
  - destruct (Nat.eq_dec (ac_name c) (ac_name a)) as [EC|NC'].
    + exfalso. rewrite (SAME c IC EC) in *. apply NT. right. left. exists b. split; [exact IB|]. split; [exact NE|]. exists y, x. split; [exact Y|].
      split; [destruct AY as [AY|AY]; [exact AY|apply (MODE a y IA Y AY)]|]. split; [exact X|]. split; [left; exact AX|]. split; [exact M2|]. split; [exact M1|]. rewrite SYM. exact H.
    + right. left. exists c. split; [exact IC|]. split; [exact NC|]. exists x, y. repeat (split; [assumption|]).
      rewrite <- (I2 st st' c b y x IC IB Y X LEN); [exact H|]. intros n [K|[K|K]]; [apply (KEEP b IB NE); left; exact K|apply (KEEP c IC NC'); right; exact K|apply (KEEP b IB NE); right; exact K].
  - right. right. exists x, n. repeat (split; [assumption|]). rewrite <- (I1 st st' b x (NodeBody n) IB X LEN (KEEP b IB NE) ltac:(right; exists n; auto)). exact H.
Qed.
Lemma moves_free st st' : proper e st -> NoDup (map ac_name (e_actors e)) -> independent w e ->
  (forall a d, In a (e_actors e) -> In d (ac_defs a) -> ad_static d = true -> ad_actors d = true) ->
  (forall s x y, w_hit w s x y = w_hit w s y x) -> moves st st' ->
  (forall a, In a (e_actors e) -> ~ in_touch w e obstacles st a) -> forall b, In b (e_actors e) -> ~ in_touch w e obstacles st' b.
Proof.
  intros P NN I MODE SYM M. induction M as [|x y z M _ IH]; intros FREE; [exact FREE|]. apply IH.
  - destruct M as (a & d & _ & _ & _ & -> & _). destruct P as [ND V]. split; [exact ND|]. unfold one_step. rewrite set_length. exact V.
  - intros a A. apply (move_free x y P NN I MODE SYM FREE M a A).
Qed.
End ONE.
