(** What the joint properties talk about. *)
From Coq Require Import Reals ZArith.
From Verif Require Import JointModel.
Open Scope R_scope.

(** The same angle: the numbers differ by a multiple of 2 pi. *)
Definition same_angle (x y : R) : Prop := exists k : Z, x = y + IZR k * (2 * PI).
(** Within the limits. *)
Definition within (j : joint) (q : R) : Prop := limit_lo j <= q <= limit_hi j.
(** Only the value changed. *)
Definition only_value (j j' : joint) : Prop :=
  limit_lo j' = limit_lo j /\ limit_hi j' = limit_hi j /\ limitless j' = limitless j /\ enforce j' = enforce j.
