(** Vocabulary for C31. *)
From Coq Require Import Reals ZArith.
Open Scope R_scope.

(** Two numbers differ by a multiple of [m]. *)
Definition congruent (m a b : R) : Prop := exists k : Z, a - b = IZR k * m.

(** The same direction. *)
Definition same_angle (a b : R) : Prop := congruent (2 * PI) a b.
