(** Model of the sets of scene objects, VirtualRobot/SceneObjectSet.cpp.  An object is its address, a pointer an optional address, a
    collision checker a number; [chk o] is the collision checker of object o, which does not change.  Names, warnings, bounding boxes
    and createStaticObstacle are left out. *)
From Coq Require Import List Bool Arith.
Import ListNotations.

(** The members colChecker and sceneObjects. *)
Record oset := OSet { checker : nat; objs : list nat }.
(** The constructor, 16-26; [global] is the global collision checker, taken for a null pointer. *)
Definition new_set (global : nat) (c : option nat) : oset := OSet (match c with Some c => c | None => global end) [].
(** hasSceneObject, 232-243. *)
Definition has (s : oset) (o : nat) : bool := existsb (Nat.eqb o) (objs s).
(** addSceneObject, 51-75: null pointer, other checker, already there, new. *)
Definition add (chk : nat -> nat) (s : oset) (o : option nat) : oset * bool :=
  match o with
  | None => (s, false)
  | Some o => if negb (checker s =? chk o) then (s, false)
              else if has s o then (s, false)
              else (OSet (checker s) (objs s ++ [o]), true)
  end.
(** The loop 94-100 of addSceneObjects: it ends at the first failure. *)
Fixpoint add_all (chk : nat -> nat) (s : oset) (os : list nat) : oset * bool :=
  match os with
  | [] => (s, true)
  | o :: os => let (s', ok) := add chk s (Some o) in if ok then add_all chk s' os else (s', false)
  end.
(** addSceneObjects(set), 78-103; the objects are copied before the loop, so a set may be added to itself. *)
Definition add_set (chk : nat -> nat) (s : oset) (t : option oset) : oset * bool :=
  match t with
  | None => (s, false)
  | Some t => if negb (checker s =? checker t) then (s, false) else add_all chk s (objs t)
  end.
(** addSceneObjects(vector of robot nodes), 117-140: null pointers and nodes of another checker are skipped, a failure ends the loop. *)
Fixpoint add_nodes (chk : nat -> nat) (s : oset) (ns : list (option nat)) : oset * bool :=
  match ns with
  | [] => (s, true)
  | None :: ns => add_nodes chk s ns
  | Some n :: ns => if negb (checker s =? chk n) then add_nodes chk s ns
                    else let (s', ok) := add chk s (Some n) in if ok then add_nodes chk s' ns else (s', false)
  end.
(** The erase loop 151-159: the first entry that is the object. *)
Fixpoint erase (o : nat) (l : list nat) : list nat :=
  match l with [] => [] | x :: l => if x =? o then l else x :: erase o l end.
(** removeSceneObject, 142-168. *)
Definition remove (s : oset) (o : option nat) : oset * bool :=
  match o with
  | None => (s, false)
  | Some o => if has s o then (OSet (checker s) (erase o (objs s)), true) else (s, false)
  end.
(** getSceneObject(nr), 270-274.  None: outside of the vector (undefined). *)
Definition get_object (s : oset) (n : nat) : option nat := nth_error (objs s) n.
(** getCollisionModels, 245-258; [model o] is the collision model of o, if any. *)
Definition models (model : nat -> option nat) (s : oset) : list nat :=
  flat_map (fun o => match model o with Some m => [m] | None => [] end) (objs s).
(** clone(name), 298-308. *)
Definition clone (chk : nat -> nat) (global : nat) (s : oset) : oset :=
  fold_left (fun r o => fst (add chk r (Some o))) (objs s) (new_set global (Some (checker s))).
(** clone(name, checker), 311-322.  The clones are new objects; the address of the i-th one is [fresh + i], and the object constructor
    takes the global checker for a null pointer, as the constructor of the set does. *)
Definition clone_chk (chk : nat -> nat) (global : nat) (c : option nat) (fresh n : nat) : nat -> nat :=
  fun o => if (fresh <=? o) && (o <? fresh + n) then checker (new_set global c) else chk o.
Definition clone_deep (chk : nat -> nat) (global : nat) (c : option nat) (fresh : nat) (s : oset) : oset :=
  fold_left (fun r o => fst (add (clone_chk chk global c fresh (length (objs s))) r (Some o))) (seq fresh (length (objs s))) (new_set global c).
