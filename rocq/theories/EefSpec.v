(** Vocabulary for C74 and C75. *)
From Coq Require Import List ZArith Bool.
From Verif Require Import EefModel.
Import ListNotations.
Open Scope Z_scope.

(** At the joint values st, node n of actor a meets obstacle k. *)
Definition meets (w : world) (obstacles : option (list nat)) (st : list Z) (a : actor) (n k : nat) : Prop :=
  (exists d, In d (ac_defs a) /\ ad_node d = n /\ (ad_actors d = true \/ ad_static d = true)) /\
  (exists os, obstacles = Some os /\ In k os) /\
  w_model w (NodeBody n) = true /\ w_model w (Obstacle k) = true /\ w_hit w st (NodeBody n) (Obstacle k) = true.
(** A node of a that minds actors meets a node of b that minds anything. *)
Definition touches (w : world) (st : list Z) (a b : actor) : Prop :=
  exists d d', In d (ac_defs a) /\ ad_actors d = true /\ In d' (ac_defs b) /\ (ad_actors d' = true \/ ad_static d' = true) /\
    w_model w (NodeBody (ad_node d)) = true /\ w_model w (NodeBody (ad_node d')) = true /\
    w_hit w st (NodeBody (ad_node d')) (NodeBody (ad_node d)) = true.
(** A node of a that minds the static part meets it. *)
Definition rubs (w : world) (e : eef) (st : list Z) (a : actor) : Prop :=
  exists d n, In d (ac_defs a) /\ ad_static d = true /\ In n (e_statics e) /\
    w_model w (NodeBody (ad_node d)) = true /\ w_model w (NodeBody n) = true /\ w_hit w st (NodeBody (ad_node d)) (NodeBody n) = true.
(** The actor meets something. *)
Definition in_touch (w : world) (e : eef) (obstacles : option (list nat)) (st : list Z) (a : actor) : Prop :=
  (exists n k, meets w obstacles st a n k) \/ (exists b, In b (e_actors e) /\ ac_name b <> ac_name a /\ touches w st a b) \/ rubs w e st a.
(** The joint values after one step of joint d. *)
Definition one_step (st : list Z) (step : Z) (d : adef) : list Z := set_value st (ad_node d) (value st (ad_node d) + step * ad_speed d).
Definition within_limits (w : world) (n : nat) (v : Z) : Prop := w_lo w n <= v <= w_hi w n.

(** All joints of the hand; a hand whose joints are joints of the robot and belong to one actor each. *)
Definition joints (e : eef) : list nat := map ad_node (flat_map ac_defs (e_actors e)).
Definition proper (e : eef) (st : list Z) : Prop := NoDup (joints e) /\ Forall (fun n => (n < length st)%nat) (joints e).

(** The hit tests of an actor depend on its own joints (and those of the other actor) only. *)
Definition independent (w : world) (e : eef) : Prop :=
  (forall st st' a d o, In a (e_actors e) -> In d (ac_defs a) -> length st' = length st ->
     (forall n, ~ In n (joints e) \/ In n (map ad_node (ac_defs a)) -> value st' n = value st n) ->
     (exists k, o = Obstacle k) \/ (exists n, o = NodeBody n /\ In n (e_statics e)) ->
     w_hit w st' (NodeBody (ad_node d)) o = w_hit w st (NodeBody (ad_node d)) o) /\
  (forall st st' a b d d', In a (e_actors e) -> In b (e_actors e) -> In d (ac_defs a) -> In d' (ac_defs b) -> length st' = length st ->
     (forall n, ~ In n (joints e) \/ In n (map ad_node (ac_defs a)) \/ In n (map ad_node (ac_defs b)) -> value st' n = value st n) ->
     w_hit w st' (NodeBody (ad_node d)) (NodeBody (ad_node d')) = w_hit w st (NodeBody (ad_node d)) (NodeBody (ad_node d'))).
