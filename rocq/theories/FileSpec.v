(** Strings and words that fit the file format. *)
From Coq Require Import List ZArith.
Import ListNotations.
Open Scope Z_scope.

Definition byte (z : Z) : Prop := 0 <= z < 256.
Definition word (z : Z) : Prop := 0 <= z < 2 ^ 32.
Definition int32 (z : Z) : Prop := - 2 ^ 31 <= z < 2 ^ 31.
(** A non-empty string without NUL of less than 2 GB. *)
Definition plain (s : list Z) : Prop := s <> [] /\ Forall (fun c => 0 < c < 256) s /\ Z.of_nat (length s) < 2 ^ 31.
(** [p] is the part of [s] before its first NUL. *)
Definition before_nul (s p : list Z) : Prop := ~ In 0 p /\ (s = p \/ exists t, s = p ++ 0 :: t).
