(** Model of the node pool of MotionPlanning/CSpace/CSpace.cpp and of
    MotionPlanning/CSpace/CSpaceTree.cpp.

    The pool allocates all [CSpaceNode] objects once, in the constructor, with [ID] equal to the index
    in [CSpace::nodes]; a [CSpaceNodePtr] is therefore represented by that ID.  The fields of the
    nodes live in a store indexed by ID.  The type of configurations ([Eigen::VectorXf]) is a
    parameter [C].  Not represented: [obstacleDistance], [dynDomRadius], [status], the optional
    [children] lists, the performance counters, log output and the mutexes. *)
From Coq Require Import List ZArith Bool PeanoNat.
Import ListNotations.

Section Tree.
Context {C : Type}.

(** [CSpaceNode], CSpaceNode.h:42-60: configuration and parentID (negative for a root). *)
Record cs_node := CsNode { n_cfg : C; n_parent : Z }.

(** The pool part of [CSpace]: [maxNodes], the stack [freeNodes] (head = back of the vector), the
    flags [allocated] and the node contents ([None]: never filled). *)
Record pool := Pool
  { p_max : nat; p_free : list nat; p_alloc : nat -> bool; p_store : nat -> option cs_node }.

(** Updating one entry of an array. *)
Definition upd {A : Type} (f : nat -> A) (k : nat) (v : A) : nat -> A :=
  fun i => if Nat.eqb i k then v else f i.

(** [CSpace::CSpace], CSpace.cpp:103-116: the loop pushes IDs 0 .. maxConfigs-1.
    [maxConfigs = 0] throws (line 31). *)
Definition pool_new (max_configs : nat) : option pool :=
  if Nat.eqb max_configs 0 then None
  else Some (Pool max_configs (rev (seq 0 max_configs)) (fun _ => false) (fun _ => None)).

(** [CSpace::reset], CSpace.cpp:137-148. *)
Definition pool_reset (p : pool) : pool :=
  Pool (p_max p) (rev (seq 0 (p_max p))) (fun _ => false) (p_store p).

(** [CSpace::createNewNode], CSpace.cpp:572-587.  [None]: the exception of line 576. *)
Definition pool_create (p : pool) : option (nat * pool) :=
  match p_free p with
  | [] => None
  | id :: free => Some (id, Pool (p_max p) free (upd (p_alloc p) id true) (p_store p))
  end.

(** [CSpace::removeNode], CSpace.cpp:766-778. *)
Definition pool_remove (p : pool) (id : nat) : pool :=
  if p_max p <=? id then p
  else Pool (p_max p) (id :: p_free p) (upd (p_alloc p) id false) (p_store p).

(** [CSpace::getNode], CSpace.cpp:150-164 (the warning for unallocated nodes is only printed). *)
Definition pool_get (p : pool) (id : Z) : option nat :=
  if ((0 <=? id) && (id <? Z.of_nat (p_max p)))%Z then Some (Z.to_nat id) else None.

(** Writing the fields of a node, CSpaceTree.cpp:145 and 164. *)
Definition pool_write (p : pool) (id : nat) (n : cs_node) : pool :=
  Pool (p_max p) (p_free p) (p_alloc p) (upd (p_store p) id (Some n)).

(** [CSpaceTree]: the vector [nodes] and the keys of [idNodeMapping] (the mapped value of a key is
    always the node with this ID, line 142). *)
Record tree := Tree { t_nodes : list nat; t_keys : list nat }.

Definition tree_empty : tree := Tree [] [].

(** [CSpaceTree::reset], CSpaceTree.cpp:58-62. *)
Definition tree_reset (t : tree) : tree := tree_empty.

(** [idNodeMapping.find(id) != end]. *)
Definition mem (id : nat) (l : list nat) : bool := existsb (Nat.eqb id) l.

(** [CSpaceTree::getNode], CSpaceTree.cpp:64-73.  The argument is [unsigned int]; callers pass [int]
    values, a negative one becomes a huge number that is no key. *)
Definition tree_get (t : tree) (id : Z) : option nat :=
  if ((0 <=? id)%Z && mem (Z.to_nat id) (t_keys t))%bool then Some (Z.to_nat id) else None.

(** [CSpaceTree::hasNode], CSpaceTree.cpp:75-88 (for a non-null argument). *)
Definition tree_has (t : tree) (id : nat) : bool := mem id (t_keys t).

(** [CSpaceTree::appendNode], CSpaceTree.cpp:129-184. [None]: the exception of [createNewNode]. *)
Definition tree_append_node (p : pool) (t : tree) (c : C) (parent : Z) : option (nat * pool * tree) :=
  match pool_create p with
  | None => None
  | Some (id, p) =>
      Some (id, pool_write p id (CsNode c parent),
            Tree (t_nodes t ++ [id]) (if mem id (t_keys t) then t_keys t else id :: t_keys t))
  end.

(** The loop of [CSpaceTree::appendPath(node, path)], CSpaceTree.cpp:216-228; returns the ID of the
    last node. *)
Fixpoint tree_append_path (p : pool) (t : tree) (n : nat) (path : list C)
  : option (nat * pool * tree) :=
  match path with
  | [] => Some (n, p, t)
  | c :: path =>
      match tree_append_node p t c (Z.of_nat n) with
      | None => None
      | Some (id, p, t) => tree_append_path p t id path
      end
  end.

(** First [idNodeMapping.erase] / [nodes.erase] of one element. *)
Fixpoint erase_first (id : nat) (l : list nat) : list nat :=
  match l with
  | [] => []
  | x :: r => if Nat.eqb x id then r else x :: erase_first id r
  end.

(** [CSpaceTree::removeNode], CSpaceTree.cpp:253-289.  A node that is not in the vector is left
    alone. *)
Definition tree_remove (p : pool) (t : tree) (id : nat) : pool * tree :=
  if mem id (t_nodes t) then
    (pool_remove p id, Tree (erase_first id (t_nodes t)) (erase_first id (t_keys t)))
  else (p, t).

(** The configuration and parent stored for a node. *)
Definition node_cfg (p : pool) (id : nat) : option C := option_map n_cfg (p_store p id).
Definition node_parent (p : pool) (id : nat) : option Z := option_map n_parent (p_store p id).

(** The scan of [CSpaceTree::getNearestNeighborID], CSpaceTree.cpp:313-322.  [D] and [ltb] stand for
    [float] and its comparison, [dist2] for [calcDist2(config, ., true)] of the node with that ID. *)
Fixpoint nn_scan {D : Type} (ltb : D -> D -> bool) (dist2 : nat -> D) (best : nat) (d : D)
         (l : list nat) : nat * D :=
  match l with
  | [] => (best, d)
  | id :: l =>
      let test := dist2 id in
      if ltb test d then nn_scan ltb dist2 id test l else nn_scan ltb dist2 best d l
  end.

(** [CSpaceTree::getNearestNeighborID], CSpaceTree.cpp:298-330: 0 for an empty tree (with a warning). *)
Definition nearest_id {D : Type} (ltb : D -> D -> bool) (dist2 : nat -> D) (t : tree) : nat :=
  match t_nodes t with
  | [] => 0
  | id :: l => fst (nn_scan ltb dist2 id (dist2 id) l)
  end.

(** [CSpaceTree::getNearestNeighbor], CSpaceTree.cpp:292-295. *)
Definition nearest {D : Type} (ltb : D -> D -> bool) (dist2 : nat -> D) (t : tree) : option nat :=
  tree_get t (Z.of_nat (nearest_id ltb dist2 t)).

(** The [while] loop of [CSpaceTree::createPath(startNode, goalNode, path)], CSpaceTree.cpp:401-425:
    the IDs from the goal upwards.  [None]: out of fuel (an endless loop); [Some None]: start node
    not found. *)
Fixpoint walk_to (fuel : nat) (p : pool) (t : tree) (start : nat) (act : Z) : option (option (list nat)) :=
  match fuel with
  | O => None
  | S fuel =>
      if (act <? 0)%Z then Some None
      else
        match tree_get t act with
        | None => Some None
        | Some id =>
            if Nat.eqb id start then Some (Some [id])
            else
              match node_parent p id with
              | None => Some None
              | Some par =>
                  match walk_to fuel p t start par with
                  | Some (Some l) => Some (Some (id :: l))
                  | r => r
                  end
              end
        end
  end.

(** [CSpaceTree::createPath], CSpaceTree.cpp:392-441: the configurations from start to goal. *)
Definition tree_create_path (fuel : nat) (p : pool) (t : tree) (start goal : nat)
  : option (option (list (option C))) :=
  match walk_to fuel p t start (Z.of_nat goal) with
  | None => None
  | Some None => Some None
  | Some (Some l) => Some (Some (map (node_cfg p) (rev l)))
  end.

End Tree.
Arguments cs_node : clear implicits.
Arguments pool : clear implicits.
