(** Vocabulary for the metric of the C-space. *)
From Coq Require Import Reals List.
From Verif Require Import AngleSpec SampledModel.
Import ListNotations.
Open Scope R_scope.

(** The same position of a joint: equal values, or for a limitless joint equal up to full turns. *)
Definition same_value (d : dim) (a b : R) : Prop :=
  match d_kind d with Linear => a = b | _ => same_angle a b end.

Inductive same_config : list dim -> config -> config -> Prop :=
| sc_nil : same_config [] [] []
| sc_cons : forall d ds a p b q, same_value d a b -> same_config ds p q ->
    same_config (d :: ds) (a :: p) (b :: q).

(** Length of a path: the sum of the distances of consecutive configurations, without weights. *)
Fixpoint total_length (ds : list dim) (l : list config) : R :=
  match l with
  | a :: ((b :: _) as r) => calc_dist ds a b + total_length ds r
  | _ => 0
  end.
