(** A priority queue as a multiset of tests. *)
From Coq Require Import List QArith Permutation PeanoNat.
From Verif Require Import QueueModel.
Import ListNotations.
Open Scope nat_scope.

(** The history [cs] on a queue with the contents [l] and capacity [size]: the extracted tests [ts] and the contents [l'] at
    the end (lists up to permutation).  It never holds more than [size] tests and never extracts from an
    empty queue. *)
Inductive served {A : Type} (size : nat) : list (test A) -> list (call A) -> list (test A) -> list (test A) -> Prop :=
| served_nil : forall l, served size l [] [] l
| served_add : forall l t cs ts l', length l < size -> served size (t :: l) cs ts l' ->
    served size l (Add t :: cs) ts l'
| served_extract : forall l t r cs ts l', Permutation l (t :: r) ->
    (forall u, In u l -> (t_d t <= t_d u)%Q) -> served size r cs ts l' ->
    served size l (Extract :: cs) (t :: ts) l'.

(** The history keeps within the bounds: number of tests held, starting from [n]. *)
Fixpoint within {A : Type} (size n : nat) (cs : list (call A)) : Prop :=
  match cs with
  | [] => True
  | Add _ :: cs => n < size /\ within size (S n) cs
  | Extract :: cs => 0 < n /\ within size (n - 1) cs
  end.
