(** Vocabulary for C44. *)
From Coq Require Import List Bool Arith.
From Verif Require Import GraspModel.
Import ListNotations.

(** The grasps of a set are different, and made for its robot type and end effector. *)
Definition proper (h : heap) (s : gset) : Prop := NoDup (grasps s) /\ forall g, In g (grasps s) -> gtype (h g) = stype s /\ geef (h g) = seef s.
(** Operations of a user and histories of them; None once an assert fails. *)
Inductive op := Add (g : option nat) | Include (t : gset) | Remove (g : nat) | RemoveAt (i : nat) | Clear.
Definition step (debug : bool) (h : heap) (s : gset) (p : op) : option gset :=
  match p with
  | Add g => add debug h s g
  | Include t => include debug h s t
  | Remove g => Some (fst (remove s g))
  | RemoveAt i => Some (fst (remove_at s i))
  | Clear => Some (clear s)
  end.
Fixpoint run (debug : bool) (h : heap) (s : gset) (l : list op) : option gset :=
  match l with [] => Some s | p :: l => match step debug h s p with None => None | Some s => run debug h s l end end.
