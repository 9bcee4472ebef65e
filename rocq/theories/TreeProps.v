(** C05, C06, C07: C-space node pool, tree and nearest neighbour query. *)
From Coq Require Import List ZArith Relations PeanoNat.
From Verif Require Import TreeModel TreeSpec TreeProofs.
Import ListNotations.

(** C05. Whatever a client does with the pool, the nodes it holds are pairwise different, their IDs
    are below the capacity, creation fails exactly when [max] nodes are in use, and a new node is
    none of those in use. *)
Theorem C05_node_pool : forall (C : Type) max (p : pool C) live, pool_run max p live ->
  NoDup live /\ (forall id, In id live -> id < max) /\
  (pool_create p = None <-> length live = max) /\
  (forall id p', pool_create p = Some (id, p') -> ~ In id live /\ id < max).
Proof. intros C. exact pool_live_ok. Qed.
Print Assumptions C05_node_pool.

(** C05. The [allocated] flag of a node tells whether it is in use. *)
Theorem C05_node_allocated_flag : forall (C : Type) max (p : pool C) live, pool_run max p live ->
  forall id, id < max -> (p_alloc p id = true <-> In id live).
Proof. intros C. exact pool_alloc_flag. Qed.
Print Assumptions C05_node_allocated_flag.

Example C05_witness : exists p, @pool_run nat 3 p [2; 1].
Proof.
  eexists. eapply run_create.
  - eapply (run_remove 3 _ [1] 2 []). eapply run_create.
    + eapply run_create.
      * eapply (run_remove 3 _ [] 2 []). eapply run_create; [apply run_new|]; reflexivity.
      * reflexivity.
    + reflexivity.
  - reflexivity.
Qed.

(** C05. Giving a node back twice is not detected: the pool then hands it out twice. *)
Theorem C05_double_remove_refuted : exists (p0 p1 p2 p3 : pool nat) id,
  pool_new 2 = Some p0 /\ pool_create p0 = Some (id, p1) /\
  pool_create (pool_remove (pool_remove p1 id) id) = Some (id, p2) /\
  pool_create p2 = Some (id, p3).
Proof. do 5 eexists. repeat split; reflexivity. Qed.
Print Assumptions C05_double_remove_refuted.

(** C06. Whatever a client does with a tree (appending below existing nodes, removing nodes without
    children, resetting), the tree stays well-formed. *)
Theorem C06_tree_well_formed : forall (C : Type) max (p : pool C) t,
  tree_run max p t -> well_formed p t.
Proof. intros C. exact tree_run_well_formed. Qed.
Print Assumptions C06_tree_well_formed.

(** C06. createPath(start, goal) terminates; it succeeds exactly if [start] is an ancestor of [goal]
    (or the same node), and then delivers the configurations on the parent chain, from start to goal. *)
Theorem C06_tree_path : forall (C : Type) max (p : pool C) t start goal,
  tree_run max p t -> In start (t_nodes t) -> In goal (t_nodes t) ->
  exists r, tree_create_path (S (S (length (t_nodes t)))) p t start goal = Some r /\
  (r <> None <-> clos_refl_trans nat (parent_of p t) goal start) /\
  (forall cfgs, r = Some cfgs -> exists ids,
     cfgs = map (node_cfg p) ids /\ hd_error ids = Some start /\ last ids 0 = goal /\
     adjacent (fun par child => parent_of p t child par) ids).
Proof. intros C. exact tree_path_ok. Qed.
Print Assumptions C06_tree_path.

Example C06_witness : exists p t, @tree_run nat 4 p t /\ t_nodes t = [3; 2; 1; 0] /\
  tree_create_path 6 p t 3 1 = Some (Some [Some 10; Some 11; Some 12]) /\
  tree_create_path 6 p t 2 0 = Some None.
Proof.
  do 2 eexists. split.
  - eapply (trun_append 4 _ _ 13 3).
    + eapply (trun_path 4 _ _ 3 [11; 12]).
      * eapply (trun_append 4 _ _ 10 (-1)); [now apply trun_new|now left|reflexivity].
      * now left.
      * reflexivity.
    + right. exists 3. cbn. auto.
    + reflexivity.
  - repeat split; reflexivity.
Qed.

(** C06. Removing a node that has children is not prevented; its ID is used again, and the parent
    links can then form a cycle on which createPath runs for ever. *)
Theorem C06_remove_inner_node_refuted : exists (p : pool nat) t id,
  tree_run_any 2 p t /\ In id (t_nodes t) /\ clos_trans nat (parent_of p t) id id /\
  (forall fuel, tree_create_path fuel p t 7 id = None).
Proof. exact remove_inner_cycle. Qed.
Print Assumptions C06_remove_inner_node_refuted.

(** C07. In a non-empty tree the nearest neighbour query returns a tree node, and no tree node is
    closer; [ltb] is any comparison of distances that is a strict weak order. *)
Theorem C07_nearest_neighbour : forall (C D : Type) (ltb : D -> D -> bool) (dist2 : nat -> D) max
    (p : pool C) t,
  (forall x, ltb x x = false) -> (forall x y, ltb x y = true -> ltb y x = false) ->
  (forall x y z, ltb y x = false -> ltb z y = false -> ltb z x = false) ->
  tree_run max p t -> t_nodes t <> [] ->
  exists id, nearest ltb dist2 t = Some id /\ In id (t_nodes t) /\
    forall x, In x (t_nodes t) -> ltb (dist2 x) (dist2 id) = false.
Proof. intros C D. exact nearest_ok. Qed.
Print Assumptions C07_nearest_neighbour.

Example C07_witness :
  nearest Nat.ltb (fun id => (id - 5) * (id - 5) + (5 - id) * (5 - id)) (Tree [9; 3; 7; 4; 6] [9; 3; 7; 4; 6])
  = Some 4.
Proof. reflexivity. Qed.
