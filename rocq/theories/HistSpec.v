(** Vocabulary for the histogram. *)
From Coq Require Import List ZArith QArith Bool Arith.
Import ListNotations.

(** Lower edge of bin [i] of [n] equal bins between [mn] and [mx]. *)
Definition edge (mn mx : Q) (n i : nat) : Q := (mn + (mx - mn) * inject_Z (Z.of_nat i) / inject_Z (Z.of_nat n))%Q.
(** [v] belongs to bin [i]; the last bin is open to the right. *)
Definition in_bin (mn mx : Q) (n i : nat) (v : Q) : bool :=
  Qle_bool (edge mn mx n i) v && (negb (Qle_bool (edge mn mx n (S i)) v) || Nat.eqb (S i) n).
(** How many of the values belong to bin [i]. *)
Definition members (mn mx : Q) (n i : nat) (vs : list Q) : nat := length (filter (in_bin mn mx n i) vs).
