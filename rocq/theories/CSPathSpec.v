(** Vocabulary for C49. *)
From Coq Require Import Reals List.
From Verif Require Import SampledModel.
Import ListNotations.
Open Scope R_scope.

(** No weights: all are 1. *)
Definition unit_weights (ds : list dim) : Prop := forall d, In d ds -> d_weight d = 1.

(** The values of each limitless joint are at most one and a half turns apart. *)
Inductive near_turns : list dim -> config -> config -> Prop :=
| nt_nil : near_turns [] [] []
| nt_cons : forall d ds a p b q, (d_kind d = Linear \/ Rabs (b - a) <= 3 * PI) -> near_turns ds p q ->
    near_turns (d :: ds) (a :: p) (b :: q).
