(** What the properties of the constraint solver mean. *)
From Coq Require Import ZArith QArith List Bool Permutation.
From Verif Require Import CikModel.
Import ListNotations.
Open Scope Z_scope.

(** What std::sort promises: a rearrangement in which no later element has a greater priority. *)
Definition sorts (srt : (nat -> Z) -> list nat -> list nat) : Prop :=
  forall pr l, Permutation l (srt pr l) /\
    forall l1 a l2 b l3, srt pr l = l1 ++ a :: l2 ++ b :: l3 -> pr b <= pr a.

(** What the last call about the constraint [c] said: its priority and whether it is hard; nothing if it was removed or
    never added. *)
Definition said (ops : list op) (c : nat) : option (Z * bool) :=
  fold_left (fun r o => match o with
                        | Add c' p h => if Nat.eqb c' c then Some (p, h) else r
                        | Remove c' => if Nat.eqb c' c then None else r
                        end) ops None.

(** No constraint is added while it is there. *)
Definition no_doubles (ops : list op) : Prop :=
  forall before c p h after, ops = before ++ Add c p h :: after -> said before c = None.

Section World.
Variable W : Type.
Variable solve_step : W -> W * bool.
Variable tolerances : nat -> W -> bool.

(** The world after [n] steps. *)
Fixpoint world (n : nat) (w : W) : W :=
  match n with O => w | S m => fst (solve_step (world m w)) end.

(** The step after the first [n] ones succeeds. *)
Definition succeeds (n : nat) (w : W) : Prop := snd (solve_step (world n w)) = true.

(** All hard constraints are met. *)
Definition met (k : ik) (w : W) : Prop :=
  forall c, In c (get_constraints k) -> hard k c = true -> tolerances c w = true.

(** The iterations that are left. *)
Definition left_over (k : ik) : nat := Z.to_nat (max_iter k - cur k).

(** [k'] is [k] with another number of iterations done and not running. *)
Definition stopped (k k' : ik) (i : Z) : Prop :=
  cons k' = cons k /\ prio k' = prio k /\ hard k' = hard k /\ max_iter k' = max_iter k /\ cur k' = i /\ running k' = false.

(** A client that calls solve(true) again and again as long as the answer is false and getRunning() is true. *)
Inductive stepping : ik -> W -> bool -> ik -> W -> Prop :=
| stepping_stop k w b k' w' :
    solve W solve_step tolerances true k w = Some (b, k', w') -> b = true \/ running k' = false ->
    stepping k w b k' w'
| stepping_more k w k1 w1 b k' w' :
    solve W solve_step tolerances true k w = Some (false, k1, w1) -> running k1 = true ->
    stepping k1 w1 b k' w' -> stepping k w b k' w'.
End World.

(** All constraints in turn initialized. *)
Definition initialized {W} (c_init : nat -> W -> W) (l : list nat) (w : W) : W := fold_left (fun w c => c_init c w) l w.

(** The square of the Euclidean distance of two steps. *)
Definition distance_sq (a b : list Q) : Q :=
  fold_right Qplus 0%Q (map (fun p => Qpower (fst p - snd p) 2) (combine a b)).
