(** Vocabulary for the statements about the RLE codec. *)
From Coq Require Import List NArith PeanoNat.
Import ListNotations.
Open Scope N_scope.

(** A buffer of bytes. *)
Definition byte_list (l : list N) : Prop := Forall (fun b => b < 256) l.

(** The output buffer size documented in CompressionRLE.h:41-42: 0.4% (1/256) larger than the input,
    plus one byte. *)
Definition documented_bound (n : nat) : nat := (n + n / 256 + 1)%nat.
