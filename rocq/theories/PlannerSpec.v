(** Vocabulary for C09, C10, C11: what a user of the RRT planners relies on. *)
From Coq Require Import List ZArith Bool.
From Verif Require Import TreeModel TreeSpec PlannerModel.
Import ListNotations.

(** [a] is directly followed by [b] in the list. *)
Definition consecutive {A : Type} (a b : A) (l : list A) : Prop :=
  exists l1 l2, l = l1 ++ a :: b :: l2.

(** A step from [a] to [b] that the C-space has checked: it is a part of a path between two
    configurations whose connection [isPathValid] accepted, or a part of a path delivered by
    [createPathUntilInvalid]. *)
Definition validated_step (cs : cspace) (a b : cfg cs) : Prop :=
  (exists q c, path_valid cs q c = true /\ consecutive a b (create_path cs q c)) \/
  (exists q c, consecutive a b (fst (create_path_until cs q c))).

(** What the planners need from a C-space class: its path constructors start at the first
    configuration, and end near the second one if they are complete. [near] is equality for [CSpace];
    [CSpaceSampled] only guarantees a distance of 1e-6. *)
Record path_contract (cs : cspace) (near : cfg cs -> cfg cs -> Prop) : Prop :=
  { pc_start : forall a b, exists l, create_path cs a b = a :: l;
    pc_end : forall a b, 1 < length (create_path cs a b) -> near (last (create_path cs a b) a) b;
    pc_until_start : forall a b, exists l, fst (create_path_until cs a b) = a :: l;
    pc_until_end : forall a b, 1 < length (fst (create_path_until cs a b)) ->
      snd (create_path_until cs a b) = true -> near (last (fst (create_path_until cs a b)) a) b }.

(** Histories of one Rrt object with its own C-space of [max] nodes. *)
Inductive rrt_run (cs : cspace) (max : nat) (mode : rrt_mode) (step : num cs) : rrt cs -> Prop :=
| rr_new : forall p, pool_new max = Some p -> rrt_run cs max mode step (rrt_new cs p)
| rr_start : forall s c b s', rrt_run cs max mode step s -> rrt_set_start cs s c = Ok (b, s') ->
    rrt_run cs max mode step s'
| rr_goal : forall s c b s', rrt_run cs max mode step s -> rrt_set_goal cs s c = (b, s') ->
    rrt_run cs max mode step s'
| rr_max : forall s n, rrt_run cs max mode step s -> rrt_run cs max mode step (rrt_set_max cs s n)
| rr_plan : forall s inp b s', rrt_run cs max mode step s -> rrt_plan cs mode step inp s = Ok (b, s') ->
    rrt_run cs max mode step s'
| rr_solution : forall s o s', rrt_run cs max mode step s -> rrt_get_solution cs s = Ok (o, s') ->
    rrt_run cs max mode step s'
| rr_reset : forall s, rrt_run cs max mode step s -> rrt_run cs max mode step (rrt_reset cs s).

(** Histories of one BiRrt object.  The flag tells whether [plan] was called since the construction
    or the last [reset]; [setGoal] is only called before that. *)
Inductive birrt_run (cs : cspace) (max : nat) (m1 m2 : rrt_mode) (step : num cs) : bool -> birrt cs -> Prop :=
| br_new : forall p, pool_new max = Some p -> birrt_run cs max m1 m2 step false (birrt_new cs p)
| br_start : forall f s c b s', birrt_run cs max m1 m2 step f s -> birrt_set_start cs s c = Ok (b, s') ->
    birrt_run cs max m1 m2 step f s'
| br_goal : forall s c b s', birrt_run cs max m1 m2 step false s -> birrt_set_goal cs s c = Ok (b, s') ->
    birrt_run cs max m1 m2 step false s'
| br_max : forall f s n, birrt_run cs max m1 m2 step f s -> birrt_run cs max m1 m2 step f (birrt_set_max cs s n)
| br_plan : forall f s inp b s', birrt_run cs max m1 m2 step f s ->
    birrt_plan cs m1 m2 step inp s = Ok (b, s') -> birrt_run cs max m1 m2 step true s'
| br_solution : forall f s o s', birrt_run cs max m1 m2 step f s -> birrt_get_solution cs s = Ok (o, s') ->
    birrt_run cs max m1 m2 step f s'
| br_reset : forall f s, birrt_run cs max m1 m2 step f s -> birrt_run cs max m1 m2 step false (birrt_reset cs s).

(** A step of a BiRrt solution: validated in one of the two directions, or the bridge between the
    trees, where the end of a step validated backwards was only reached approximately. *)
Definition bi_step (cs : cspace) (near : cfg cs -> cfg cs -> Prop) (a b : cfg cs) : Prop :=
  validated_step cs a b \/ validated_step cs b a \/
  (exists a', (near a' a \/ near a a') /\ validated_step cs b a').
