(** Runs of equal bytes, and how many pairs they take. *)
From Coq Require Import List ZArith Bool Arith.
Import ListNotations.

(** The maximal runs of a block, with their lengths. *)
Fixpoint runs (l : list Z) : list (nat * Z) :=
  match l with
  | [] => []
  | x :: l =>
      match runs l with
      | (n, y) :: r => if (x =? y)%Z then (S n, y) :: r else (1, x) :: (n, y) :: r
      | [] => [(1, x)]
      end
  end.
(** A run of length [n] takes one pair for each started 255 bytes. *)
Definition pairs (l : list Z) : nat := list_sum (map (fun r => (fst r + 254) / 255) (runs l)).
Definition is_byte (x : Z) : Prop := (0 <= x <= 255)%Z.
