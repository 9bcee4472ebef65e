(** Vocabulary for the path processors. *)
From Coq Require Import Reals List Bool.
From Verif Require Import SampledModel SampledPlanModel SampledSpec.
Import ListNotations.
Open Scope R_scope.

(** [x] is directly followed by [y]. *)
Definition consecutive (l : list config) (x y : config) : Prop := exists a b, l = a ++ x :: y :: b.

(** The step from [x] to [y] runs along a connection that [isPathValid] accepted. *)
Definition checked_step (ds : list dim) (free : config -> bool) (dcd : R) (x y : config) : Prop :=
  exists p q u v, sampled_path_valid ds free dcd max_depth p q = true /\ 0 <= u <= v /\ v <= 1 /\
    at_fraction u ds p q x /\ at_fraction v ds p q y.

(** The same first and the same last configuration (or both empty). *)
Definition same_ends (l m : list config) : Prop :=
  hd_error l = hd_error m /\ hd_error (rev l) = hd_error (rev m).
