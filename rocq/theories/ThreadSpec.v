(** Vocabulary for C42. *)
From Coq Require Import List Bool Arith.
From Verif Require Import ThreadModel.
Import ListNotations.

(** The life of the planning runs: start, begin and end of the planner, and the note that it is over. *)
Definition life {A : Type} (e : event A) : bool := match e with Started _ | Begin _ | End _ _ | Over _ => true | _ => false end.
(** One whole run. *)
Definition one_run {A : Type} (ir : nat * A) : list (event A) := [Started (fst ir); Begin (fst ir); End (fst ir) (snd ir); Over (fst ir)].
(** Runs 0, 1, 2, ... with the given results, one after the other. *)
Definition whole_runs {A : Type} (rs : list A) : list (event A) := flat_map one_run (combine (seq 0 (length rs)) rs).
(** The beginning of a run that is not over. *)
Definition cut {A : Type} (i : nat) (l : list (event A)) : Prop := l = [] \/ l = [Started i] \/ l = [Started i; Begin i] \/ exists r, l = [Started i; Begin i; End i r].
(** Runs one after the other, the last one possibly cut off. *)
Definition in_order {A : Type} (l : list (event A)) : Prop := exists rs t, filter life l = whole_runs rs ++ t /\ cut (length rs) t.
(** A run has been started and is not over. *)
Definition running {A : Type} (l : list (event A)) : bool := match rev (filter life l) with [] => false | Over _ :: _ => false | _ => true end.
(** The result of the last run that is over, if none has been started since. *)
Definition last_result {A : Type} (l : list (event A)) : option A := match rev (filter life l) with Over _ :: End _ r :: _ => Some r | _ => None end.
(** Somebody has asked the planner to stop since it last began. *)
Definition asked {A : Type} (l : list (event A)) : bool := fold_left (fun b e => match e with Request => true | Begin _ => false | _ => b end) l false.
(** The planner of the last accepted start has begun. *)
Definition begun {A : Type} (l : list (event A)) : bool := match rev (filter life l) with Started _ :: _ => false | _ => true end.
