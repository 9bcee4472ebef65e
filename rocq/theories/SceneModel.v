(** Model of the scene graph: objects, attaching and detaching.
    VirtualRobot/SceneObject.cpp, VirtualRobot/SceneObject.h. *)
From Coq Require Import List Arith Bool String.
Import ListNotations.

(** The fields of a SceneObject that matter for the graph (SceneObject.h: name, parent, children).
    parent is a weak pointer: here an identifier that may no longer stand for a living object.
    children is a vector of shared pointers: a list of identifiers. *)
Record obj := Obj { o_name : string; o_parent : option nat; o_children : list nat }.
(** All objects created so far; an object that was destroyed is None.  The identifier of an object is its place in the list. *)
Notation store := (list (option obj)).
Definition get (h : store) (x : nat) : option obj := nth x h None.
(** Writing to an object: nothing happens for identifiers that were never handed out. *)
Fixpoint put (h : store) (x : nat) (o : option obj) : store :=
  match h, x with
  | [], _ => []
  | _ :: h, O => o :: h
  | a :: h, S x => a :: put h x o
  end.
Definition with_parent (o : obj) (p : option nat) : obj := Obj (o_name o) p (o_children o).
Definition with_children (o : obj) (c : list nat) : obj := Obj (o_name o) (o_parent o) c.
Definition with_name (o : obj) (n : string) : obj := Obj n (o_parent o) (o_children o).
Definition modify (h : store) (x : nat) (f : obj -> obj) : store :=
  match get h x with Some o => put h x (Some (f o)) | None => h end.

(** Constructor, SceneObject.cpp 15-49: no parent, no children.  The new identifier is the length of the store. *)
Definition create (h : store) (n : string) : store := h ++ [Some (Obj n None [])].
(** getChildren, SceneObject.cpp 1184-1187. *)
Definition children (h : store) (x : nat) : list nat := match get h x with Some o => o_children o | None => [] end.
(** getParent, SceneObject.cpp 1178-1182: weak_ptr::lock gives the null pointer for an object that was destroyed. *)
Definition parent (h : store) (x : nat) : option nat :=
  match get h x with
  | Some o => match o_parent o with
              | Some p => match get h p with Some _ => Some p | None => None end
              | None => None
              end
  | None => None
  end.
(** hasParent, SceneObject.cpp 1166-1176. *)
Definition has_parent (h : store) (x : nat) : bool := match parent h x with Some _ => true | None => false end.
(** getName, SceneObject.cpp 157-160. *)
Definition name (h : store) (x : nat) : option string := match get h x with Some o => Some (o_name o) | None => None end.
(** hasChild(child, false), SceneObject.cpp 1081-1099; recursive is false by default, SceneObject.h 357. *)
Definition has_child (h : store) (p c : nat) : bool := existsb (Nat.eqb c) (children h p).
(** hasChild(name, false), SceneObject.cpp 1101-1117. *)
Definition has_child_named (h : store) (p : nat) (n : string) : bool :=
  existsb (fun c => match name h c with Some m => String.eqb m n | None => false end) (children h p).
(** hasChild(child, true), SceneObject.cpp 1081-1099: the calls descend into every child that is not the one searched for.
    None: the calls go deeper than [fuel]. *)
Fixpoint has_child_rec (fuel : nat) (h : store) (p c : nat) : option bool :=
  match fuel with
  | O => None
  | S fuel =>
      (fix loop (l : list nat) : option bool :=
         match l with
         | [] => Some false
         | k :: l => if Nat.eqb k c then Some true
                     else match has_child_rec fuel h k c with
                          | None => None
                          | Some true => Some true
                          | Some false => loop l
                          end
         end) (children h p)
  end.

(** attachChild, SceneObject.cpp 1133-1164.  attached (1194-1200) throws only if the child has another parent, which is excluded
    before.  The first component is the result. *)
Definition attach_child (h : store) (p c : nat) : bool * store :=
  if Nat.eqb p c then (false, h)
  else if has_child h p c then (true, h)
  else if has_parent h c then (false, h)
  else match name h c with
       | None => (false, h)
       | Some n => if has_child_named h p n then (false, h)
                   else (true, modify (modify h p (fun o => with_children o (o_children o ++ [c]))) c (fun o => with_parent o (Some p)))
       end.
(** std::find followed by erase, SceneObject.cpp 1129: the first occurrence goes. *)
Fixpoint erase_first (c : nat) (l : list nat) : list nat :=
  match l with [] => [] | a :: l => if Nat.eqb a c then l else a :: erase_first c l end.
(** detachChild, SceneObject.cpp 1119-1131, with detachedFromParent, 1189-1192. *)
Definition detach_child (h : store) (p c : nat) : store :=
  if has_child h p c
  then modify (modify h p (fun o => with_children o (erase_first c (o_children o)))) c (fun o => with_parent o None)
  else h.
(** Destructor, SceneObject.cpp 52-58: the children are told that they have no parent.  The children vector goes away with the
    object; a child that nobody else holds is destroyed by a step of its own. *)
Definition destroy (h : store) (x : nat) : store :=
  put (fold_left (fun h c => modify h c (fun o => with_parent o None)) (children h x) h) x None.
(** setName, SceneObject.cpp 946-949. *)
Definition set_name (h : store) (x : nat) (n : string) : store := modify h x (fun o => with_name o n).

(** initialize(parent, children), SceneObject.cpp 61-101, as far as the graph is concerned: the results of attachChild are ignored,
    the parent is overwritten, and all children are initialised in turn with this object as parent.
    None: the calls go deeper than [fuel]. *)
Fixpoint initialize (fuel : nat) (h : store) (x : nat) (p : option nat) (cs : list nat) : option store :=
  match fuel with
  | O => None
  | S fuel =>
      let h1 := match p with
                | Some p => if has_child h p x then h else snd (attach_child h p x)
                | None => h
                end in
      let h2 := modify h1 x (fun o => with_parent o p) in
      let h3 := fold_left (fun h c => if has_child h x c then h else snd (attach_child h x c)) cs h2 in
      fold_left (fun r c => match r with Some h => initialize fuel h c (Some x) [] | None => None end) (children h3 x) (Some h3)
  end.

(** What a client can do.  An object is destroyed when nobody holds it any more; in particular it is nobody's child then. *)
Inductive op :=
| Create (n : string)
| Attach (p c : nat)
| Detach (p c : nat)
| Destroy (x : nat).
Definition alive (h : store) (x : nat) : Prop := get h x <> None.
Definition allowed (h : store) (o : op) : Prop :=
  match o with
  | Create _ => True
  | Attach p c | Detach p c => alive h p /\ alive h c
  | Destroy x => alive h x /\ forall p, ~ In x (children h p)
  end.
Definition step (h : store) (o : op) : store :=
  match o with
  | Create n => create h n
  | Attach p c => snd (attach_child h p c)
  | Detach p c => detach_child h p c
  | Destroy x => destroy h x
  end.
