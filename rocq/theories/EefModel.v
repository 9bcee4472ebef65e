(** Model of closing a hand: VirtualRobot/EndEffector/EndEffectorActor.cpp and EndEffector.cpp.  Joint values, limits, speeds and step
    sizes are integers: finitely many [float]s and their products are whole multiples of a common unit (exact arithmetic, rounding is
    left out).  The collision checker is an oracle on the joint values of the whole robot; propagated joint values are left out. *)
From Coq Require Import List ZArith Bool Arith.
Import ListNotations.
Open Scope Z_scope.

(** What a collision model can belong to: a node of the robot or an obstacle. *)
Inductive body := NodeBody (n : nat) | Obstacle (k : nat).
(** The robot and its surroundings: joint limits of the nodes, which bodies have a collision model, and checkCollision of two models
    for given joint values of the robot. *)
Record world := World { w_lo : nat -> Z; w_hi : nat -> Z; w_model : body -> bool; w_hit : list Z -> body -> body -> bool }.
(** ActorDefinition, EndEffectorActor.h 43-48; the collision mode by its two bits eActors and eStatic, 35-41. *)
Record adef := ADef { ad_node : nat; ad_actors : bool; ad_static : bool; ad_speed : Z }.
(** EndEffectorActor: name and actors. *)
Record actor := Actor { ac_name : nat; ac_defs : list adef }.
(** EndEffector: actors and statics. *)
Record eef := Eef { e_actors : list actor; e_statics : list nat }.

(** getJointValue and setJointValue of a value within the limits. *)
Definition value (st : list Z) (n : nat) : Z := nth n st 0.
Fixpoint set_value (st : list Z) (n : nat) (v : Z) : list Z :=
  match st, n with
  | [], _ => []
  | _ :: st, O => v :: st
  | x :: st, S n => x :: set_value st n v
  end.
(** The value after a step and the limit test, EndEffectorActor.cpp 79-81 and 116-121. *)
Definition stepped (st : list Z) (angle : Z) (d : adef) : Z := value st (ad_node d) + angle * ad_speed d.
Definition in_limits (w : world) (d : adef) (v : Z) : bool := (v <=? w_hi w (ad_node d)) && (w_lo w (ad_node d) <=? v).
(** moveActor, 65-90. *)
Fixpoint move_defs (w : world) (angle : Z) (ds : list adef) (st : list Z) (res : bool) : list Z * bool :=
  match ds with
  | [] => (st, res)
  | d :: ds =>
      let v := stepped st angle d in
      if in_limits w d v then move_defs w angle ds (set_value st (ad_node d) v) false else move_defs w angle ds st res
  end.
Definition move_actor (w : world) (a : actor) (angle : Z) (st : list Z) : list Z * bool := move_defs w angle (ac_defs a) st true.

(** colMode & eAll. *)
Definition any_mode (d : adef) : bool := ad_actors d || ad_static d.
(** isColliding with a set of obstacles, 235-273: the pairs of a node and an obstacle that are stored; true if there is one. *)
Definition obstacle_hits (w : world) (ds : list adef) (obstacles : list nat) (st : list Z) : list (nat * nat) :=
  flat_map (fun d => flat_map (fun k =>
    if any_mode d && w_model w (Obstacle k) && w_model w (NodeBody (ad_node d)) && w_hit w st (NodeBody (ad_node d)) (Obstacle k)
    then [(ad_node d, k)] else []) obstacles) ds.
(** isColliding with a scene object, 288-304, for eAll and for eStatic. *)
Definition hits_object (w : world) (mode : adef -> bool) (ds : list adef) (o : body) (st : list Z) : bool :=
  if negb (w_model w o) then false
  else existsb (fun d => mode d && w_model w (NodeBody (ad_node d)) && w_hit w st (NodeBody (ad_node d)) o) ds.
(** isColliding with an actor, 306-319. *)
Definition hits_actor (w : world) (ds : list adef) (other : list adef) (st : list Z) : bool :=
  existsb (fun d => ad_actors d && hits_object w any_mode other (NodeBody (ad_node d)) st) ds.

(** ContactInfo as it is stored: actor, node, obstacle, the joint values at which the distance and the contact points are computed
    (206-208), and those after the small move that gives the approach direction (213-217). *)
Record contact := CInfo { ci_actor : nat; ci_node : nat; ci_obstacle : nat; ci_at : list Z; ci_towards : list Z }.

(** One round of the loop over the joints, 114-186: joint values, newContacts and actorStatus (true: eMoving). *)
Definition try_joint (w : world) (e : eef) (a : actor) (obstacles : option (list nat)) (angle : Z)
    (s : list Z * list (nat * nat) * list (nat * bool)) (d : adef) : list Z * list (nat * nat) * list (nat * bool) :=
  let '(st, news, status) := s in
  let old := value st (ad_node d) in
  let v := stepped st angle d in
  if in_limits w d v then
    let st' := set_value st (ad_node d) v in
    let hits := match obstacles with Some os => obstacle_hits w (ac_defs a) os st' | None => [] end in
    let collision := match hits with [] => false | _ => true end in
    let collision := if collision then true
      else existsb (fun b => negb (ac_name b =? ac_name a)%nat && hits_actor w (ac_defs a) (ac_defs b) st') (e_actors e) in
    let collision := if collision then true
      else existsb (fun n => hits_object w ad_static (ac_defs a) (NodeBody n) st') (e_statics e) in
    if collision then (set_value st' (ad_node d) old, news ++ hits, (ad_node d, false) :: status)
    else (st', news ++ hits, (ad_node d, true) :: status)
  else (st, news, (ad_node d, false) :: status).
(** The map actorStatus: the last entry of a node. *)
Definition status_of (status : list (nat * bool)) (n : nat) : bool :=
  match find (fun p => (fst p =? n)%nat) status with Some p => snd p | None => false end.
(** getConfiguration, 523-543, and Robot::setJointValues. *)
Definition configuration (a : actor) (st : list Z) : list (nat * Z) := map (fun d => (ad_node d, value st (ad_node d))) (ac_defs a).
Definition set_config (st : list Z) (c : list (nat * Z)) : list Z := fold_left (fun st p => set_value st (fst p) (snd p)) c st.
(** The update of the contacts, 188-222: joint values and storeContacts. *)
Fixpoint store_new (w : world) (a : actor) (angle : Z) (news : list (nat * nat)) (st : list Z) (store : list contact) : list Z * list contact :=
  match news with
  | [] => (st, store)
  | (n, k) :: news =>
      if existsb (fun c => (ci_node c =? n)%nat && (ci_obstacle c =? k)%nat) store then store_new w a angle news st store
      else
        let config := configuration a st in
        let moved := fst (move_actor w a angle st) in
        store_new w a angle news (set_config moved config) (store ++ [CInfo (ac_name a) n k st moved])
  end.
(** moveActorCheckCollision, 92-233: joint values, storeContacts and the result. *)
Definition move_check (w : world) (e : eef) (a : actor) (obstacles : option (list nat)) (angle : Z) (st : list Z) (store : list contact)
    : list Z * list contact * bool :=
  let '(st, news, status) := fold_left (try_joint w e a obstacles angle) (ac_defs a) (st, [], []) in
  let '(st, store) := store_new w a angle news st store in
  (st, store, negb (existsb (fun d => status_of status (ad_node d)) (ac_defs a))).

(** The inner loop of closeActors, EndEffector.cpp 127-137, over the actors with their flags. *)
Fixpoint pass (w : world) (e : eef) (obstacles : option (list nat)) (angle : Z) (al : list (actor * bool)) (st : list Z) (store : list contact) (finished : bool)
    : list (actor * bool) * list Z * list contact * bool :=
  match al with
  | [] => ([], st, store, finished)
  | (a, f) :: al =>
      if f then let '(al, st, store, finished) := pass w e obstacles angle al st store finished in ((a, f) :: al, st, store, finished)
      else
        let '(st, store, f) := move_check w e a obstacles angle st store in
        let '(al, st, store, finished) := pass w e obstacles angle al st store false in ((a, f) :: al, st, store, finished)
  end.
(** The outer loop, 122-150; None: out of fuel. *)
Fixpoint close_loop (fuel : nat) (w : world) (e : eef) (obstacles : option (list nat)) (angle : Z) (al : list (actor * bool)) (loop : nat) (st : list Z) (store : list contact)
    : option (list Z * list contact) :=
  match fuel with
  | O => None
  | S fuel =>
      let loop := S loop in
      let '(al, st, store, finished) := pass w e obstacles angle al st store true in
      if finished then
        if (2 <? loop)%nat then close_loop fuel w e obstacles angle (map (fun p => (fst p, false)) al) 0 st []
        else Some (st, store)
      else close_loop fuel w e obstacles angle al loop st store
  end.
(** closeActors, 114-153: joint values and contacts; openActors, 169-172, is the same with a negative step. *)
Definition close_actors (fuel : nat) (w : world) (e : eef) (obstacles : option (list nat)) (step : Z) (st : list Z) : option (list Z * list contact) :=
  close_loop fuel w e obstacles step (map (fun a => (a, false)) (e_actors e)) 0 st [].
Definition open_actors (fuel : nat) (w : world) (e : eef) (obstacles : option (list nat)) (step : Z) (st : list Z) : option (list Z * list contact) :=
  close_actors fuel w e obstacles (- step) st.
