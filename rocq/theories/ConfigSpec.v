(** Vocabulary for C39. *)
From Coq Require Import Reals List Bool Arith.
From Verif Require Import KinModel ConfigModel.
Import ListNotations.
Open Scope R_scope.

(** Every node is registered under its name, and a name once (registerRobotNode, Robot.cpp 106-122). *)
Definition named (nm : nat -> nat) (r : rob) : Prop := NoDup (map fst (reg r)) /\ forall n x, In (n, x) (reg r) -> nm x = n.
(** Requests to store a value, by name or by node; a request that throws leaves the configuration as it is. *)
Inductive req := ByName (n : nat) (v : R) | ByNode (x : nat) (v : R).
Definition store (nm : nat -> nat) (r : rob) (c : config) (q : req) : config :=
  match q with
  | ByName n v => fst (set_name (Some r) c n v)
  | ByNode x v => match set_node nm (Some r) c (Some x) v with Some (c', _) => c' | None => c end
  end.
(** The last value requested for the name n, among the requests for nodes of the robot. *)
Definition wanted (nm : nat -> nat) (r : rob) (h : list req) (n : nat) : option R :=
  fold_left (fun w q => match q with
    | ByName m v => if m =? n then match lookup n (reg r) with Some _ => Some v | None => w end else w
    | ByNode x v => if nm x =? n then match lookup n (reg r) with Some y => if y =? x then Some v else w | None => w end else w
    end) h None.
