(** Vocabulary for the properties C05 - C07 of the C-space node pool and tree. *)
From Coq Require Import List ZArith Relations.
From Verif Require Import TreeModel.
Import ListNotations.

(** A client of the node pool.  [live] lists the nodes it was handed out and did not give back. *)
Inductive pool_run {C : Type} (max : nat) : pool C -> list nat -> Prop :=
| run_new : forall p, pool_new max = Some p -> pool_run max p []
| run_create : forall p live id p',
    pool_run max p live -> pool_create p = Some (id, p') -> pool_run max p' (id :: live)
| run_remove : forall p live1 id live2,
    pool_run max p (live1 ++ id :: live2) -> pool_run max (pool_remove p id) (live1 ++ live2)
| run_reset : forall p live, pool_run max p live -> pool_run max (pool_reset p) [].

(** The parent of a tree node as the client sees it: [getNode(id)->parentID]. *)
Definition parent_of {C : Type} (p : pool C) (t : tree) (child par : nat) : Prop :=
  In child (t_nodes t) /\
  exists n, p_store p child = Some n /\ n_parent n = Z.of_nat par.

(** A client of one tree and its C-space.  Parents passed to [appendNode] are tree nodes or negative;
    only nodes without children are removed. *)
Inductive tree_run {C : Type} (max : nat) : pool C -> tree -> Prop :=
| trun_new : forall p, pool_new max = Some p -> tree_run max p tree_empty
| trun_append : forall p t c par id p' t',
    tree_run max p t ->
    ((par < 0)%Z \/ exists k, par = Z.of_nat k /\ In k (t_nodes t)) ->
    tree_append_node p t c par = Some (id, p', t') -> tree_run max p' t'
| trun_path : forall p t start path id p' t',
    tree_run max p t -> In start (t_nodes t) ->
    tree_append_path p t start path = Some (id, p', t') -> tree_run max p' t'
| trun_remove_leaf : forall p t id p' t',
    tree_run max p t -> (forall child, ~ parent_of p t child id) ->
    tree_remove p t id = (p', t') -> tree_run max p' t'
| trun_reset_tree : forall p t, tree_run max p t -> tree_run max p (tree_reset t)
| trun_reset_all : forall p t, tree_run max p t -> tree_run max (pool_reset p) (tree_reset t).

(** The same client, who may also remove inner nodes. *)
Inductive tree_run_any {C : Type} (max : nat) : pool C -> tree -> Prop :=
| arun_new : forall p, pool_new max = Some p -> tree_run_any max p tree_empty
| arun_append : forall p t c par id p' t',
    tree_run_any max p t ->
    ((par < 0)%Z \/ exists k, par = Z.of_nat k /\ In k (t_nodes t)) ->
    tree_append_node p t c par = Some (id, p', t') -> tree_run_any max p' t'
| arun_remove : forall p t id p' t',
    tree_run_any max p t -> tree_remove p t id = (p', t') -> tree_run_any max p' t'.

(** A well-formed tree. *)
Definition well_formed {C : Type} (p : pool C) (t : tree) : Prop :=
  (* unique IDs *)
  NoDup (t_nodes t) /\
  (* lookup by ID finds exactly the stored nodes *)
  (forall id : nat, tree_get t (Z.of_nat id) = (if in_dec Nat.eq_dec id (t_nodes t) then Some id else None)) /\
  (* every node is a root or has its parent in the tree *)
  (forall id, In id (t_nodes t) ->
     exists n, p_store p id = Some n /\
       ((n_parent n < 0)%Z \/ exists par, n_parent n = Z.of_nat par /\ In par (t_nodes t))) /\
  (* following parents never cycles *)
  (forall id, ~ clos_trans nat (parent_of p t) id id).

(** All consecutive pairs of a list are related. *)
Inductive adjacent {A : Type} (R : A -> A -> Prop) : list A -> Prop :=
| adj_nil : adjacent R []
| adj_one : forall a, adjacent R [a]
| adj_cons : forall a b l, R a b -> adjacent R (b :: l) -> adjacent R (a :: b :: l).
