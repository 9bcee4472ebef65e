(** Vocabulary for C40. *)
From Coq Require Import List Bool Arith QArith.
From Verif Require Import CdmModel.
Import ListNotations.

(** The pair (a, b) is one of those to be checked. *)
Definition registered (s : cdm) (a b : nat) : Prop := exists l, In (a, l) (col_pairs s) /\ In b l.
(** Two sets that are the same, or hold one and the same single object. *)
Definition alike (content : nat -> list nat) (m x : nat) : Prop := x = m \/ exists o, content m = [o] /\ content x = [o].
(** d is the least of the numbers f x for the x of a collection, or [flt_max] if none of them is smaller. *)
Definition minimum (P : Q -> Prop) (d : Q) : Prop := (d <= flt_max)%Q /\ (forall x, P x -> (d <= x)%Q) /\ (d = flt_max \/ P d).
(** Adding sets one after the other; [room n] says whether the vector has room at the n-th. *)
Fixpoint add_models (room : nat -> bool) (s : cdm) (ms : list nat) : option cdm :=
  match ms with
  | [] => Some s
  | m :: ms => match add_model (room (length (col_models s))) s (Some m) with Some s' => add_models room s' ms | None => None end
  end.
