(** Model of VirtualRobot/Workspace/VoxelTreeND.hpp and VoxelTreeNDElement.hpp.  Coordinates are rational numbers (rounding of
    [float] is left out), ids are natural numbers (no wrap-around of [unsigned int]), positions are lists of N coordinates.
    A null [children] array is the empty list.  [None] is undefined behaviour (null pointer or index out of range) or,
    where [fuel] is an argument, a recursion deeper than [fuel]. *)
From Coq Require Import List ZArith QArith Bool Arith.
Import ListNotations.
Open Scope nat_scope.

Definition nthq (l : list Q) (i : nat) : Q := nth i l 0%Q.

(** An element, VoxelTreeNDElement.hpp:681-692. *)
Inductive elem (T : Type) := Elem (id : nat) (pos : list Q) (level : nat) (leaf : bool) (entry : option T) (children : list (option (elem T))).
Arguments Elem {T}.
Definition e_id {T} (e : elem T) := let '(Elem i _ _ _ _ _) := e in i.
Definition e_pos {T} (e : elem T) := let '(Elem _ p _ _ _ _) := e in p.
Definition e_level {T} (e : elem T) := let '(Elem _ _ l _ _ _) := e in l.
Definition e_leaf {T} (e : elem T) := let '(Elem _ _ _ l _ _) := e in l.
Definition e_entry {T} (e : elem T) := let '(Elem _ _ _ _ x _) := e in x.
Definition e_children {T} (e : elem T) := let '(Elem _ _ _ _ _ c) := e in c.

(** What an element sees of its tree: N, maxLevels, and the size of the whole space; VoxelTreeND.hpp:831-848. *)
Record cfg := Cfg { c_dim : nat; c_levels : nat; c_size : list Q }.
Definition num_children (c : cfg) : nat := 2 ^ c_dim c.
Definition dims (c : cfg) : list nat := seq 0 (c_dim c).

(** [elementExtends] and [getExtends], VoxelTreeND.hpp:104-117, 806-810. *)
Definition extends (c : cfg) (level : nat) : list Q := Nat.iter level (map (fun x => x * (1 # 2))%Q) (c_size c).

(** The constructor of an element, VoxelTreeNDElement.hpp:48-79. *)
Definition new_elem {T} (c : cfg) (id : nat) (p : list Q) (level : nat) : elem T :=
  if c_levels c - 1 <=? level then Elem id p level true None []
  else Elem id p level false None (repeat None (num_children c)).

Definition Qgt_bool (x y : Q) : bool := negb (Qle_bool x y).

(** [covers], VoxelTreeNDElement.hpp:538-549. *)
Definition covers (c : cfg) (pos : list Q) (level : nat) (p : list Q) : bool :=
  forallb (fun i => negb (Qgt_bool (nthq pos i) (nthq p i) || Qgt_bool (nthq p i) (nthq pos i + nthq (extends c level) i)%Q)) (dims c).

(** The test for the right half in dimension [i], e.g. VoxelTreeNDElement.hpp:527. *)
Definition right_half (c : cfg) (pos : list Q) (level : nat) (p : list Q) (i : nat) : bool :=
  Qgt_bool (nthq p i) (nthq pos i + nthq (extends c level) i * (1 # 2))%Q.

(** [getChildIndx], VoxelTreeNDElement.hpp:500-536; [None] is the result -1. *)
Definition bits_sum (b : nat -> bool) (is : list nat) : nat := fold_left (fun res i => if b i then res + 2 ^ i else res) is 0.
Definition child_indx {T} (c : cfg) (e : elem T) (p : list Q) : option nat :=
  if negb (covers c (e_pos e) (e_level e) p) then None
  else if e_leaf e then None
  else Some (bits_sum (right_half c (e_pos e) (e_level e) p) (dims c)).

(** The position of a new child, VoxelTreeNDElement.hpp:475-494. *)
Definition child_pos (c : cfg) (pos : list Q) (level : nat) (p : list Q) : list Q :=
  map (fun i => if right_half c pos level p i then (nthq pos i + nthq (extends c level) i * (1 # 2))%Q else nthq pos i) (dims c).

Fixpoint put {A} (l : list A) (i : nat) (x : A) : list A :=
  match l, i with
  | [], _ => []
  | _ :: l, O => x :: l
  | y :: l, S i => y :: put l i x
  end.

(** [setEntry] with [createChild], VoxelTreeNDElement.hpp:90-122, 443-498; [next] is the last id given out. *)
Fixpoint set_entry {T} (fuel : nat) (c : cfg) (next : nat) (e : elem T) (p : list Q) (x : T) : option (bool * elem T * nat) :=
  match fuel with
  | O => None
  | S fuel =>
      if negb (covers c (e_pos e) (e_level e) p) then Some (false, e, next)
      else if e_leaf e || (c_levels c - 1 <=? e_level e) then
        Some (true, Elem (e_id e) (e_pos e) (e_level e) true (Some x) (e_children e), next)
      else
        match child_indx c e p with
        | None => None
        | Some i =>
            match nth_error (e_children e) i with
            | None => None
            | Some oc =>
                let '(ch, next) := match oc with
                  | Some ch => (ch, next)
                  | None => (new_elem c (S next) (child_pos c (e_pos e) (e_level e) p) (S (e_level e)), S next)
                  end in
                match set_entry fuel c next ch p x with
                | None => None
                | Some (b, ch, next) =>
                    Some (b, Elem (e_id e) (e_pos e) (e_level e) (e_leaf e) (e_entry e) (put (e_children e) i (Some ch)), next)
                end
            end
        end
  end.

(** [getLeaf], VoxelTreeNDElement.hpp:180-195. *)
Fixpoint get_leaf {T} (fuel : nat) (c : cfg) (e : elem T) (p : list Q) : option (option (elem T)) :=
  match fuel with
  | O => None
  | S fuel =>
      if e_leaf e then Some (Some e)
      else match child_indx c e p with
           | None => Some None
           | Some i =>
               match nth_error (e_children e) i with
               | None => None
               | Some None => Some None
               | Some (Some ch) => get_leaf fuel c ch p
               end
           end
  end.

(** [getEntry], VoxelTreeNDElement.hpp:160-177. *)
Fixpoint get_entry {T} (fuel : nat) (c : cfg) (e : elem T) (p : list Q) : option (option T) :=
  match fuel with
  | O => None
  | S fuel =>
      if e_leaf e then Some (e_entry e)
      else match child_indx c e p with
           | None => Some None
           | Some i =>
               match nth_error (e_children e) i with
               | None => None
               | Some None => Some None
               | Some (Some ch) => get_entry fuel c ch p
               end
           end
  end.

(** [hasEntry], VoxelTreeNDElement.hpp:128-155. *)
Fixpoint has_entry {T} (fuel : nat) (c : cfg) (e : elem T) (p : list Q) : option bool :=
  match fuel with
  | O => None
  | S fuel =>
      if e_leaf e then Some (covers c (e_pos e) (e_level e) p && match e_entry e with Some _ => true | None => false end)
      else match child_indx c e p with
           | None => Some false
           | Some i =>
               match nth_error (e_children e) i with
               | None => None
               | Some None => Some false
               | Some (Some ch) => has_entry fuel c ch p
               end
           end
  end.

(** [getAllChildrenIndx], VoxelTreeNDElement.hpp:319-352: the first dimensions by the position, the others both ways. *)
Definition all_children_indx (c : cfg) (pos : list Q) (level : nat) (p : list Q) : list nat :=
  fold_left (fun l i => l ++ map (fun j => j + 2 ^ i) l) (seq (length p) (c_dim c - length p))
    [bits_sum (right_half c pos level p) (seq 0 (length p))].

(** [getAllLeafs], VoxelTreeNDElement.hpp:237-270. *)
Fixpoint all_leafs {T} (fuel : nat) (c : cfg) (e : elem T) (p : list Q) : option (list (elem T)) :=
  match fuel with
  | O => None
  | S fuel =>
      if e_leaf e then Some [e]
      else fold_left (fun (r : option (list (elem T))) i =>
             match r with
             | None => None
             | Some r =>
                 match nth_error (e_children e) i with
                 | None => None
                 | Some None => Some r
                 | Some (Some ch) => match all_leafs fuel c ch p with None => None | Some l => Some (r ++ l) end
                 end
             end) (all_children_indx c (e_pos e) (e_level e) p) (Some [])
  end.

(** [maxLeaf], VoxelTreeNDElement.hpp:198-235; [gt] is the comparison of entries. *)
Fixpoint max_leaf {T} (gt : T -> T -> bool) (fuel : nat) (c : cfg) (e : elem T) (p : list Q) : option (option (elem T)) :=
  match fuel with
  | O => None
  | S fuel =>
      if e_leaf e then Some (Some e)
      else fold_left (fun (r : option (option (elem T))) i =>
             match r with
             | None => None
             | Some best =>
                 match nth_error (e_children e) i with
                 | None => None
                 | Some None => Some best
                 | Some (Some ch) =>
                     match max_leaf gt fuel c ch p with
                     | None => None
                     | Some None => Some best
                     | Some (Some l) =>
                         if e_leaf l then
                           match best with
                           | None => match e_entry l with Some _ => Some (Some l) | None => Some best end
                           | Some b =>
                               match e_entry l, e_entry b with
                               | Some x, Some y => Some (if gt x y then Some l else best)
                               | _, _ => None
                               end
                           end
                         else Some best
                     end
                 end
             end) (all_children_indx c (e_pos e) (e_level e) p) (Some None)
  end.

(** [countNodesRecursive], VoxelTreeNDElement.hpp:300-316. *)
Fixpoint count_nodes {T} (fuel : nat) (e : elem T) : option nat :=
  match fuel with
  | O => None
  | S fuel =>
      if e_leaf e then Some 1
      else fold_left (fun (r : option nat) (oc : option (elem T)) =>
             match r with
             | None => None
             | Some k => match oc with
                         | None => Some k
                         | Some ch => match count_nodes fuel ch with None => None | Some n => Some (k + n) end
                         end
             end) (e_children e) (Some 1)
  end.

(** [collectElements], VoxelTreeNDElement.hpp:580-595. *)
Fixpoint collect {T} (fuel : nat) (e : elem T) : option (list (elem T)) :=
  match fuel with
  | O => None
  | S fuel =>
      if e_leaf e then Some [e]
      else fold_left (fun (r : option (list (elem T))) (oc : option (elem T)) =>
             match r with
             | None => None
             | Some l => match oc with
                         | None => Some l
                         | Some ch => match collect fuel ch with None => None | Some k => Some (l ++ k) end
                         end
             end) (e_children e) (Some [e])
  end.

(** The tree, VoxelTreeND.hpp:831-848. *)
Record vtree (T : Type) := VTree { v_min : list Q; v_max : list Q; v_disc : list Q; v_cfg : cfg; v_next : nat; v_root : elem T }.
Arguments VTree {T}. Arguments v_min {T}. Arguments v_max {T}. Arguments v_disc {T}. Arguments v_cfg {T}. Arguments v_next {T}. Arguments v_root {T}.

Definition sizes (mn mx : list Q) : list Q := map (fun q => (snd q - fst q)%Q) (combine mn mx).
(** [(int)(size / discretization + 0.5f)] for positive arguments, VoxelTreeND.hpp:89. *)
Definition steps (size disc : Q) : Z := let q := (size / disc + (1 # 2))%Q in (Qnum q / QDen q)%Z.
(** The number of levels, VoxelTreeND.hpp:85-102, with exact logarithms. *)
Definition max_steps (size disc : list Q) : Z := fold_left Z.max (map (fun q => steps (fst q) (snd q)) (combine size disc)) 0%Z.

Inductive made (T : Type) := Made (t : vtree T) | Thrown | Undefined.
Arguments Made {T}. Arguments Thrown {T}. Arguments Undefined {T}.

(** The constructor, VoxelTreeND.hpp:70-141; for maxSteps = 0 the logarithm is infinite and its conversion to [int] undefined. *)
Definition new_tree (T : Type) (mn mx disc : list Q) : made T :=
  let size := sizes mn mx in
  if negb (forallb (fun s => Qgt_bool s 0%Q) size && forallb (fun d => Qgt_bool d 0%Q) disc) then Thrown
  else if (max_steps size disc =? 0)%Z then Undefined
  else
    let c := Cfg (length mn) (Nat.log2_up (Z.to_nat (max_steps size disc)) + 1) size in
    Made (VTree mn mx disc c 1 (new_elem c 1 mn 0)).

Definition depth {T} (t : vtree T) : nat := c_levels (v_cfg t).
(** [setEntry], [getEntry], [getLeafElement], [getAllLeafs], [getMaxEntry], [getNumNodes], VoxelTreeND.hpp:153-164, 213-236, 798-801. *)
Definition tree_set {T} (t : vtree T) (p : list Q) (x : T) : option (bool * vtree T) :=
  match set_entry (depth t) (v_cfg t) (v_next t) (v_root t) p x with
  | None => None
  | Some (b, r, n) => Some (b, VTree (v_min t) (v_max t) (v_disc t) (v_cfg t) n r)
  end.
Definition tree_get {T} (t : vtree T) (p : list Q) : option (option T) := get_entry (depth t) (v_cfg t) (v_root t) p.
Definition tree_has {T} (t : vtree T) (p : list Q) : option bool := has_entry (depth t) (v_cfg t) (v_root t) p.
Definition tree_leaf {T} (t : vtree T) (p : list Q) : option (option (elem T)) := get_leaf (depth t) (v_cfg t) (v_root t) p.
Definition tree_leafs {T} (t : vtree T) (p : list Q) : option (list (elem T)) := all_leafs (depth t) (v_cfg t) (v_root t) p.
Definition tree_max {T} (gt : T -> T -> bool) (t : vtree T) (p : list Q) : option (option (elem T)) := max_leaf gt (depth t) (v_cfg t) (v_root t) p.
Definition tree_count {T} (t : vtree T) : option nat := count_nodes (depth t) (v_root t).
(** [getVoxelCenter], VoxelTreeNDElement.hpp:288-298. *)
Definition voxel_center {T} (c : cfg) (e : elem T) : list Q :=
  map (fun i => (nthq (e_pos e) i + nthq (extends c (e_level e)) i * (1 # 2))%Q) (dims c).

(** Sequences of writes. *)
Fixpoint tree_run {T} (t : vtree T) (ws : list (list Q * T)) : option (vtree T) :=
  match ws with
  | [] => Some t
  | (p, x) :: ws => match tree_set t p x with None => None | Some (_, t) => tree_run t ws end
  end.

(** The iterator, VoxelTreeND.hpp:640-783: stacks with the top first. *)
Record iter (T : Type) := Iter { i_elems : list (elem T); i_ids : list nat; i_cur : option (elem T); i_nr : nat }.
Arguments Iter {T}. Arguments i_elems {T}. Arguments i_ids {T}. Arguments i_cur {T}. Arguments i_nr {T}.

(** [getNextChild], VoxelTreeNDElement.hpp:663-678: the first child from [start] on, with its index; a null array is undefined. *)
Fixpoint first_child {T} (l : list (option (elem T))) (i : nat) : option (nat * elem T) :=
  match l with
  | [] => None
  | Some e :: _ => Some (i, e)
  | None :: l => first_child l (S i)
  end.
Definition next_child {T} (c : cfg) (e : elem T) (start : nat) : option (option (nat * elem T)) :=
  if Nat.eqb (length (e_children e)) (num_children c) then Some (first_child (skipn start (e_children e)) start) else None.

(** The descent, VoxelTreeND.hpp:656-661 and 733-738. *)
Fixpoint go_down {T} (fuel : nat) (c : cfg) (it : iter T) : option (iter T) :=
  match fuel with
  | O => None
  | S fuel =>
      match i_cur it with
      | None => Some it
      | Some e =>
          if e_leaf e then Some it
          else match next_child c e 0 with
               | None => None
               | Some None => Some (Iter (e :: i_elems it) (i_nr it :: i_ids it) None (i_nr it))
               | Some (Some (k, ch)) => go_down fuel c (Iter (e :: i_elems it) (i_nr it :: i_ids it) (Some ch) k)
               end
      end
  end.

(** [init], VoxelTreeND.hpp:645-674; [nr0] is the uninitialised number. *)
Definition iter_init {T} (nr0 : nat) (t : vtree T) : option (option (elem T) * iter T) :=
  let c := v_cfg t in
  match next_child c (v_root t) 0 with
  | None => None
  | Some r =>
      let it := match r with
        | Some (k, e) => Iter [v_root t] [] (Some e) k
        | None => Iter [v_root t] [] None nr0
        end in
      match go_down (S (depth t)) c it with
      | None => None
      | Some it =>
          match i_cur it with
          | Some e => if e_leaf e then Some (Some e, Iter (e :: i_elems it) (i_nr it :: i_ids it) (Some e) (i_nr it)) else Some (Some e, it)
          | None => Some (None, it)
          end
      end
  end.

(** The loop upwards, VoxelTreeND.hpp:704-718: [None] when a stack is empty where its top is used. *)
Fixpoint go_up {T} (c : cfg) (es : list (elem T)) (ids : list nat) (nr : nat) : option (iter T) :=
  match es, ids with
  | e :: es', k :: ids' =>
      match next_child c e (k + 1) with
      | None => None
      | Some (Some (k', ch)) => Some (Iter es ids' (Some ch) k')
      | Some None =>
          match es', ids' with
          | [], _ | _, [] => Some (Iter es' ids' None k)
          | _, _ => go_up c es' ids' k
          end
      end
  | _, _ => None
  end.

(** [getNextElement], VoxelTreeND.hpp:679-759. *)
Definition iter_next {T} (t : vtree T) (it : iter T) : option (option (elem T) * iter T) :=
  let c := v_cfg t in
  match i_cur it with
  | None => Some (None, it)
  | Some e =>
      if negb (e_leaf e) then Some (None, it)
      else
        match i_elems it with
        | [] => None
        | _ :: es =>
            match go_up c es (i_ids it) (i_nr it) with
            | None => None
            | Some it =>
                match i_cur it with
                | None => Some (None, it)
                | Some _ =>
                    match go_down (S (depth t)) c it with
                    | None => None
                    | Some it =>
                        match i_cur it with
                        | Some e => if e_leaf e then Some (Some e, Iter (e :: i_elems it) (i_nr it :: i_ids it) (Some e) (i_nr it)) else Some (None, it)
                        | None => Some (None, it)
                        end
                    end
                end
            end
        end
  end.

(** [n] further calls of [getNextElement]. *)
Fixpoint iter_calls {T} (t : vtree T) (n : nat) (it : iter T) : option (list (option (elem T))) :=
  match n with
  | O => Some []
  | S n =>
      match iter_next t it with
      | None => None
      | Some (r, it) => match iter_calls t n it with None => None | Some l => Some (r :: l) end
      end
  end.
Definition iterate {T} (nr0 : nat) (t : vtree T) (n : nat) : option (list (option (elem T))) :=
  match iter_init nr0 t with
  | None => None
  | Some (r, it) => match iter_calls t n it with None => None | Some l => Some (r :: l) end
  end.

(** The file, VoxelTreeND.hpp:467-607: strings, version, type size, N and the (unused) number of levels are left out; the
    byte stream through bzip2 is taken to be read back as written. *)
Inductive fblock (T : Type) := FLeaf (id : nat) (x : T) | FInner (id : nat) (children : list nat).
Arguments FLeaf {T}. Arguments FInner {T}.
Record vfile (T : Type) := VFile { f_min : list Q; f_max : list Q; f_disc : list Q; f_count : nat; f_last : nat; f_blocks : list (fblock T) }.
Arguments VFile {T}. Arguments f_min {T}. Arguments f_max {T}. Arguments f_disc {T}. Arguments f_count {T}. Arguments f_last {T}. Arguments f_blocks {T}.

(** [write], VoxelTreeNDElement.hpp:366-404; [None] is the result false. *)
Definition write_elem {T} (c : cfg) (e : elem T) : option (fblock T) :=
  if e_leaf e then match e_entry e with Some x => Some (FLeaf (e_id e) x) | None => None end
  else Some (FInner (e_id e) (map (fun oc => match oc with Some ch => e_id ch | None => 0 end) (e_children e))).
Fixpoint write_all {T} (c : cfg) (es : list (elem T)) : option (list (fblock T)) :=
  match es with
  | [] => Some []
  | e :: es =>
      match write_elem c e with
      | None => None
      | Some b => match write_all c es with None => None | Some bs => Some (b :: bs) end
      end
  end.
Inductive saved (T : Type) := Saved (f : vfile T) | SaveFailed | SaveUndefined.
Arguments Saved {T}. Arguments SaveFailed {T}. Arguments SaveUndefined {T}.
Definition save {T} (t : vtree T) : saved T :=
  match collect (depth t) (v_root t) with
  | None => SaveUndefined
  | Some es =>
      match write_all (v_cfg t) es with
      | None => SaveFailed
      | Some bs => Saved (VFile (v_min t) (v_max t) (v_disc t) (length es) (v_next t) bs)
      end
  end.

(** The elements while loading: the address of an element is its number in [idElementMapping]. *)
Record hnode (T : Type) := HNode { n_id : nat; n_leaf : bool; n_entry : option T; n_children : list (option nat) }.
Arguments HNode {T}. Arguments n_id {T}. Arguments n_leaf {T}. Arguments n_entry {T}. Arguments n_children {T}.

(** [read], VoxelTreeNDElement.hpp:406-441: [find] for the ids of children; more ids than children is undefined.
    [Some None] is the result false. *)
Fixpoint link (count : nat) (ids : list nat) : option (list (option nat)) :=
  match ids with
  | [] => Some []
  | i :: ids =>
      match link count ids with
      | None => None
      | Some l => if i =? 0 then Some (None :: l) else if i <=? count then Some (Some i :: l) else None
      end
  end.
Definition read_elem {T} (c : cfg) (count : nat) (b : fblock T) : option (nat * hnode T) :=
  match b with
  | FLeaf i x => Some (i, HNode i true (Some x) [])
  | FInner i ids =>
      if Nat.eqb (length ids) (num_children c) then
        match link count ids with Some l => Some (i, HNode i false None l) | None => None end
      else None
  end.

(** The loop over the blocks, VoxelTreeND.hpp:318-441: the block goes to the element with the id of the block.  An element for
    which there is no block (impossible in a file written by [save]) is left out of the heap. *)
Fixpoint read_all {T} (c : cfg) (count : nat) (bs : list (fblock T)) (heap : nat -> option (hnode T)) : option (nat -> option (hnode T)) :=
  match bs with
  | [] => Some heap
  | b :: bs =>
      match read_elem c count b with
      | None => None
      | Some (i, n) =>
          if (1 <=? i) && (i <=? count) then read_all c count bs (fun j => if Nat.eqb j i then Some n else heap j) else None
      end
  end.

(** The position of child [i], VoxelTreeNDElement.hpp:626-643: from the highest bit down. *)
Fixpoint prop_pos (c : cfg) (p : list Q) (level : nat) (js : list nat) (res : nat) (acc : list Q) : list Q :=
  match js with
  | [] => acc
  | j :: js =>
      if 2 ^ j <=? res then prop_pos c p level js (res - 2 ^ j) ((nthq p j + (1 # 2) * nthq (extends c level) j)%Q :: acc)
      else prop_pos c p level js res (nthq p j :: acc)
  end.

(** The loop over the children, VoxelTreeNDElement.hpp:614-648. *)
Fixpoint prop_children {T} (f : nat -> nat -> option (elem T)) (l : list (option nat)) (i : nat) : option (list (option (elem T))) :=
  match l with
  | [] => Some []
  | None :: l => match prop_children f l (S i) with Some r => Some (None :: r) | None => None end
  | Some b :: l =>
      match f b i, prop_children f l (S i) with
      | Some ch, Some r => Some (Some ch :: r)
      | _, _ => None
      end
  end.

(** [propagateData], VoxelTreeNDElement.hpp:597-650: follows the pointers and sets positions and levels. *)
Fixpoint propagate {T} (fuel : nat) (c : cfg) (heap : nat -> option (hnode T)) (a : nat) (p : list Q) (level : nat) : option (elem T) :=
  match fuel with
  | O => None
  | S fuel =>
      match heap a with
      | None => None
      | Some n =>
          if n_leaf n then Some (Elem (n_id n) p level true (n_entry n) [])
          else
            match prop_children (fun b i => propagate fuel c heap b (prop_pos c p level (rev (dims c)) i []) (S level)) (n_children n) 0 with
            | Some ch => Some (Elem (n_id n) p level false (n_entry n) ch)
            | None => None
            end
      end
  end.

(** [load], VoxelTreeND.hpp:238-457: failures (exceptions, null results) and undefined behaviour are [None]. *)
Definition load (T : Type) (f : vfile T) : option (vtree T) :=
  match new_tree T (f_min f) (f_max f) (f_disc f) with
  | Made t =>
      let c := v_cfg t in
      match read_all c (f_count f) (f_blocks f) (fun _ => None) with
      | None => None
      | Some heap =>
          match propagate (depth t) c heap 1 (f_min f) 0 with
          | Some r => Some (VTree (f_min f) (f_max f) (f_disc f) c (f_count f) r)
          | None => None
          end
      end
  | _ => None
  end.
