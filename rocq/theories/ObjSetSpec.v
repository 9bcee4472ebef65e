(** Vocabulary for C38. *)
From Coq Require Import List Bool Arith.
From Verif Require Import ObjSetModel.
Import ListNotations.

(** The operations of a user, and a history of them. *)
Inductive op := Add (o : option nat) | Remove (o : option nat) | AddSet (t : option oset) | AddNodes (ns : list (option nat)).
Definition step (chk : nat -> nat) (s : oset) (p : op) : oset :=
  match p with
  | Add o => fst (add chk s o)
  | Remove o => fst (remove s o)
  | AddSet t => fst (add_set chk s t)
  | AddNodes ns => fst (add_nodes chk s ns)
  end.
Definition run (chk : nat -> nat) (s : oset) (h : list op) : oset := fold_left (step chk) h s.
(** Histories of single adds and removes. *)
Definition single (p : op) : Prop := match p with Add _ | Remove _ => True | _ => False end.
(** What the history says about object o in a set of checker c: the number of the operation that brought it in, if it is in.  An
    object comes in by an add when it is out and has the right checker, and goes out by a remove. *)
Definition since_step (chk : nat -> nat) (c o : nat) (n : nat) (cur : option nat) (p : op) : option nat :=
  match p with
  | Add (Some o') => if o' =? o then (if chk o =? c then match cur with Some t => Some t | None => Some n end else cur) else cur
  | Remove (Some o') => if o' =? o then None else cur
  | _ => cur
  end.
Definition since (chk : nat -> nat) (c o : nat) (h : list op) : option nat :=
  snd (fold_left (fun s p => (S (fst s), since_step chk c o (fst s) (snd s) p)) h (0, None)).
(** Whether an object can be added. *)
Definition fine (chk : nat -> nat) (s : oset) (o : nat) : Prop := chk o = checker s /\ ~ In o (objs s).
(** a comes before b in the list. *)
Definition before (l : list nat) (a b : nat) : Prop := exists i j, i < j /\ nth_error l i = Some a /\ nth_error l j = Some b.
