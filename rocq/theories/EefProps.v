(** C74 (closing and opening a hand) and C75 (closing a hand does not run into anything). *)
From Coq Require Import List ZArith Bool Arith Lia.
From Verif Require Import EefModel EefSpec EefProofs.
Import ListNotations.
Open Scope Z_scope.

(** Closing ends if every joint of the hand has a speed and the step is not zero. *)
Theorem C74_terminates : forall w e obstacles step st, proper e st -> (forall a d, In a (e_actors e) -> In d (ac_defs a) -> step * ad_speed d <> 0) ->
  exists fuel0 st' cs, forall fuel, (fuel0 <= fuel)%nat -> close_actors fuel w e obstacles step st = Some (st', cs).
Proof.
  intros w e obs step st P NZ. destruct (start_ends w e obs step (proj1 P)) with (M := mu w e step st) (st := st) (store := @nil contact) as (fuel & [st' cs] & H).
  - intros d D. unfold alldefs in D. apply in_flat_map in D. destruct D as (a & A & D). apply (NZ a d A D).
  - exact P.
  - apply le_n.
  - exists fuel, st', cs. intros fuel' L. unfold close_actors. apply (close_more w e obs step fuel _ _ _ _ _ H _ L).
Qed.
(** Only the joints of the hand move, each by whole steps in its direction, and one that moved ends within its limits. *)
Theorem C74_motion : forall fuel w e obstacles step st st' cs, proper e st -> close_actors fuel w e obstacles step st = Some (st', cs) ->
  length st' = length st /\ (forall n, ~ In n (joints e) -> value st' n = value st n) /\
  forall a d, In a (e_actors e) -> In d (ac_defs a) -> exists k, 0 <= k /\ value st' (ad_node d) = value st (ad_node d) + k * (step * ad_speed d) /\
    (value st' (ad_node d) = value st (ad_node d) \/ within_limits w (ad_node d) (value st' (ad_node d))).
Proof.
  intros fuel w e obs step st st' cs P H. destruct (close_spec w e obs step fuel st st' cs (defs_nodup e (proj1 P)) H) as (M & _). destruct (moves_frame w e obs step st st' P M) as (A & B & C).
  split; [exact A|]. split; [exact B|]. intros a d IA ID. apply C, (in_alldefs e a d IA ID).
Qed.
(** At the end no joint of the hand can do another step: it would leave its limits or its actor would meet something. *)
Theorem C74_closed : forall fuel w e obstacles step st st' cs, proper e st -> close_actors fuel w e obstacles step st = Some (st', cs) ->
  forall a d, In a (e_actors e) -> In d (ac_defs a) ->
    ~ within_limits w (ad_node d) (value st' (ad_node d) + step * ad_speed d) \/ in_touch w e obstacles (one_step st' step d) a.
Proof.
  intros fuel w e obs step st st' cs P H. destruct (close_spec w e obs step fuel st st' cs (defs_nodup e (proj1 P)) H) as (_ & B & _). exact B.
Qed.
(** The contacts are, once each, the pairs of a node and an obstacle that meet if one more step of a joint of the actor is done; they
    are evaluated at the final joint values. *)
Theorem C74_contacts : forall fuel w e obstacles step st st' cs, proper e st -> close_actors fuel w e obstacles step st = Some (st', cs) ->
  (forall n k, (exists c, In c cs /\ ci_node c = n /\ ci_obstacle c = k) <->
     exists a d, In a (e_actors e) /\ In d (ac_defs a) /\ within_limits w (ad_node d) (value st' (ad_node d) + step * ad_speed d) /\ meets w obstacles (one_step st' step d) a n k) /\
  (forall c, In c cs -> ci_at c = st' /\ exists a, In a (e_actors e) /\ ci_actor c = ac_name a /\ In (ci_node c) (map ad_node (ac_defs a))) /\
  NoDup (map (fun c => (ci_node c, ci_obstacle c)) cs).
Proof.
  intros fuel w e obs step st st' cs P H. destruct (close_spec w e obs step fuel st st' cs (defs_nodup e (proj1 P)) H) as (_ & _ & C1 & C2 & C3). split; [|split; [|exact C3]].
  - intros n k. assert (K := C2 n k). unfold keys in K. rewrite in_map_iff in K. split.
    + intros (c & C & <- & <-). destruct (proj1 K) as (a & A & d & D & L & M); [exists c; auto|]. exists a, d. auto.
    + intros (a & d & A & D & L & M). destruct (proj2 K) as (c & E & C); [exists a; split; [exact A|exists d; auto]|]. injection E as E1 E2. exists c. auto.
  - intros c C. destruct (C1 c C) as (a & A & E & d & D & L & ((x & X & XN & _) & _)). rewrite E. cbn [the_contact ci_at ci_actor ci_node ci_obstacle]. split; [reflexivity|]. exists a. split; [exact A|]. split; [reflexivity|].
    rewrite <- XN. apply in_map, X.
Qed.
(** Closing a closed hand leaves it as it is and finds the same pairs again. *)
Theorem C74_again : forall fuel fuel' w e obstacles step st st' cs st'' cs', proper e st -> close_actors fuel w e obstacles step st = Some (st', cs) ->
  close_actors fuel' w e obstacles step st' = Some (st'', cs') ->
  st'' = st' /\ forall n k, (exists c, In c cs /\ ci_node c = n /\ ci_obstacle c = k) <-> exists c, In c cs' /\ ci_node c = n /\ ci_obstacle c = k.
Proof.
  intros fuel fuel' w e obs step st st' cs st'' cs' P H H'. destruct (close_spec w e obs step fuel st st' cs (defs_nodup e (proj1 P)) H) as (_ & B & _).
  destruct (close_spec w e obs step fuel' st' st'' cs' (defs_nodup e (proj1 P)) H') as (M & _).
  assert (E : st'' = st').
  { destruct M as [|x y z (a & d & A & D & L & E & NT) _]; [reflexivity|]. exfalso. destruct (B a d A D) as [W|T]; [exact (W L)|]. apply NT. rewrite E. exact T. }
  split; [exact E|]. subst st''. assert (P' : proper e st') by (destruct (C74_motion _ _ _ _ _ _ _ _ P H) as [LEN _]; destruct P as [ND V]; split; [exact ND|rewrite LEN; exact V]).
  intros n k. destruct (C74_contacts _ _ _ _ _ _ _ _ P H) as [K _]. destruct (C74_contacts _ _ _ _ _ _ _ _ P' H') as [K' _]. rewrite K, K'. reflexivity.
Qed.
(** Opening moves the joints of the hand the other way, until none can do another step. *)
Theorem C74_open : forall fuel w e obstacles step st st' cs, proper e st -> open_actors fuel w e obstacles step st = Some (st', cs) ->
  (forall n, ~ In n (joints e) -> value st' n = value st n) /\
  forall a d, In a (e_actors e) -> In d (ac_defs a) ->
    (exists k, 0 <= k /\ value st' (ad_node d) = value st (ad_node d) - k * (step * ad_speed d)) /\
    (~ within_limits w (ad_node d) (value st' (ad_node d) - step * ad_speed d) \/ in_touch w e obstacles (one_step st' (- step) d) a).
Proof.
  intros fuel w e obs step st st' cs P H. unfold open_actors in H. destruct (C74_motion _ _ _ _ _ _ _ _ P H) as (_ & F & K). split; [exact F|]. intros a d A D. split.
  - destruct (K a d A D) as (k & K1 & K2 & _). exists k. split; [exact K1|]. rewrite K2. ring.
  - assert (B := C74_closed _ _ _ _ _ _ _ _ P H a d A D). replace (value st' (ad_node d) - step * ad_speed d) with (value st' (ad_node d) + - step * ad_speed d) by ring. exact B.
Qed.

(** A hand with two fingers of one joint each, an obstacle in the way of the first. *)
Definition demo_world : world := World (fun _ => 0) (fun _ => 10) (fun _ => true) (fun st b o => match b, o with NodeBody 0, Obstacle 0 | Obstacle 0, NodeBody 0 => 3 <? value st 0 | _, _ => false end).
Definition demo_hand : eef := Eef [Actor 0 [ADef 0 true true 1]; Actor 1 [ADef 2 true true 2]] [1%nat].
Lemma demo_proper st : length st = 3%nat -> proper demo_hand st.
Proof. intros L. split; [repeat constructor; cbn; intuition discriminate|]. rewrite L. repeat constructor. Qed.
(** A joint with speed 0: closing never ends. *)
Theorem C74_speed_refuted : exists w e st, proper e st /\ forall fuel, close_actors fuel w e None 1 st = None.
Proof.
  set (e := Eef [Actor 0 [ADef 0 true true 0]] []). exists demo_world, e, [5]. split; [split; repeat constructor; cbn; tauto|].
  assert (G : forall fuel loop, close_loop fuel demo_world e None 1 [(Actor 0 [ADef 0 true true 0], false)] loop [5] [] = None).
  { induction fuel as [|fuel IH]; intros loop; [reflexivity|]. cbn [close_loop]. cbv zeta.
    replace (pass demo_world e None 1 [(Actor 0 [ADef 0 true true 0], false)] [5] [] true) with ([(Actor 0 [ADef 0 true true 0], false)], [5], @nil contact, false) by (vm_compute; reflexivity). apply IH. }
  intros fuel. apply G.
Qed.
(** If no actor of the hand meets anything, then none does after closing. *)
Theorem C75_free : forall fuel w e obstacles step st st' cs, proper e st -> NoDup (map ac_name (e_actors e)) -> independent w e ->
  (forall a d, In a (e_actors e) -> In d (ac_defs a) -> ad_static d = true -> ad_actors d = true) ->
  (forall s x y, w_hit w s x y = w_hit w s y x) ->
  (forall a, In a (e_actors e) -> ~ in_touch w e obstacles st a) ->
  close_actors fuel w e obstacles step st = Some (st', cs) -> forall a, In a (e_actors e) -> ~ in_touch w e obstacles st' a.
Proof.
  intros fuel w e obs step st st' cs P NN I MODE SYM FREE H. destruct (close_spec w e obs step fuel st st' cs (defs_nodup e (proj1 P)) H) as (M & _).
  apply (moves_free w e obs step st st' P NN I MODE SYM M FREE).
Qed.
(** The fingers cross at values above 8 in sum; the second minds the static part only, and runs into the first. *)
Definition cross_world : world := World (fun _ => 0) (fun _ => 10) (fun _ => true) (fun st b o => match b, o with NodeBody 0, NodeBody 2 | NodeBody 2, NodeBody 0 => 8 <? value st 0 + value st 2 | _, _ => false end).
Definition cross_hand : eef := Eef [Actor 0 [ADef 0 true true 1]; Actor 1 [ADef 2 false true 1]] [].
(** An actor that minds the static part only runs into another one, even though that one minds actors. *)
Theorem C75_modes_refuted : exists w e st st' cs, proper e st /\ NoDup (map ac_name (e_actors e)) /\ independent w e /\ (forall s x y, w_hit w s x y = w_hit w s y x) /\
  (forall a, In a (e_actors e) -> ~ in_touch w e None st a) /\ close_actors 40 w e None 1 st = Some (st', cs) /\ exists a, In a (e_actors e) /\ in_touch w e None st' a.
Proof.
  exists cross_world, cross_hand, [0; 0; 0], [4; 0; 10], []. split; [split; [repeat constructor; cbn; intuition discriminate|repeat constructor]|]. split; [repeat constructor; cbn; intuition discriminate|]. split; [|split; [|split; [|split]]].
  - split.
    + intros st st' a d o A D L V O. cbn [w_hit cross_world]. destruct O as [(k & ->)|(n & -> & [])]. destruct (ad_node d) as [|[|[|m]]]; reflexivity.
    + intros st st' a b d d' A B D D' L V. cbn in A, B.
      assert (H0 : In (ad_node d) (map ad_node (ac_defs a))) by (apply in_map, D). assert (H1 : In (ad_node d') (map ad_node (ac_defs b))) by (apply in_map, D').
      cbn [w_hit cross_world]. destruct (ad_node d) as [|[|[|m]]], (ad_node d') as [|[|[|m']]]; try reflexivity; rewrite !V; auto.
  - intros s x y. cbn [w_hit cross_world]. destruct x as [[|[|[|m]]]|k], y as [[|[|[|m']]]|k']; reflexivity.
  - intros a A [(n & k & _ & (os & E & _) & _)|[(b & B & NE & (d & d' & D & _ & D' & _ & _ & _ & H))|(d & n & _ & _ & [] & _)]]; [discriminate E|].
    cbn in A, B. destruct A as [<-|[<-|[]]], B as [<-|[<-|[]]]; cbn in D, D', NE; try (contradiction NE; reflexivity); destruct D as [<-|[]], D' as [<-|[]]; discriminate H.
  - vm_compute. reflexivity.
  - exists (Actor 0 [ADef 0 true true 1]). split; [left; reflexivity|]. right. left. exists (Actor 1 [ADef 2 false true 1]). split; [right; left; reflexivity|]. split; [discriminate|].
    exists (ADef 0 true true 1), (ADef 2 false true 1). cbn. intuition.
Qed.

(** The first finger stops at the obstacle, the second at its limit, with one contact. *)
Example C74_case : proper demo_hand [0; 7; 0] /\ close_actors 40 demo_world demo_hand (Some [0%nat]) 1 [0; 7; 0] = Some ([3; 7; 10], [CInfo 0 0 0 [3; 7; 10] [4; 7; 10]]) /\
  open_actors 40 demo_world demo_hand (Some [0%nat]) 1 [3; 7; 10] = Some ([0; 7; 0], []).
Proof. split; [apply demo_proper; reflexivity|]. split; vm_compute; reflexivity. Qed.
(** The hypotheses of C75 hold of this hand. *)
Example C75_case : independent demo_world demo_hand /\ NoDup (map ac_name (e_actors demo_hand)) /\ (forall s x y, w_hit demo_world s x y = w_hit demo_world s y x) /\
  (forall a, In a (e_actors demo_hand) -> ~ in_touch demo_world demo_hand (Some [0%nat]) [0; 7; 0] a) /\
  forall a, In a (e_actors demo_hand) -> ~ in_touch demo_world demo_hand (Some [0%nat]) [3; 7; 10] a.
Proof.
  assert (I : independent demo_world demo_hand).
  { split.
    - intros st st' a d o A D L V O. assert (H0 : In (ad_node d) (map ad_node (ac_defs a))) by (apply in_map, D). cbn [w_hit demo_world]. destruct (ad_node d) as [|m], o as [m'|[|k]]; try reflexivity. rewrite V; auto.
    - intros st st' a b d d' A B D D' L V. cbn [w_hit demo_world]. destruct (ad_node d) as [|m]; reflexivity. }
  assert (N : NoDup (map ac_name (e_actors demo_hand))) by (repeat constructor; cbn; intuition discriminate).
  assert (Y : forall s x y, w_hit demo_world s x y = w_hit demo_world s y x) by (intros s [[|m]|[|k]] [[|m']|[|k']]; reflexivity).
  assert (F : forall a, In a (e_actors demo_hand) -> ~ in_touch demo_world demo_hand (Some [0%nat]) [0; 7; 0] a).
  { intros a A [(n & k & _ & _ & _ & _ & H)|[(b & B & NE & (d & d' & _ & _ & _ & _ & _ & _ & H))|(d & n & _ & _ & _ & _ & _ & H)]]; cbn [w_hit demo_world] in H.
    - destruct n as [|n], k as [|k]; discriminate H.
    - destruct (ad_node d'); discriminate H.
    - destruct (ad_node d); discriminate H. }
  split; [exact I|]. split; [exact N|]. split; [exact Y|]. split; [exact F|].
  apply (C75_free 40%nat demo_world demo_hand (Some [0%nat]) 1 [0; 7; 0] [3; 7; 10] [CInfo 0 0 0 [3; 7; 10] [4; 7; 10]] (demo_proper [0; 7; 0] eq_refl) N I); [|exact Y|exact F|apply C74_case].
  intros a d A D. cbn in A. destruct A as [<-|[<-|[]]]; destruct D as [<-|[]]; reflexivity.
Qed.

Print Assumptions C74_terminates.
Print Assumptions C74_motion.
Print Assumptions C74_closed.
Print Assumptions C74_contacts.
Print Assumptions C74_again.
Print Assumptions C74_open.
Print Assumptions C74_speed_refuted.
Print Assumptions C75_free.
Print Assumptions C75_modes_refuted.
