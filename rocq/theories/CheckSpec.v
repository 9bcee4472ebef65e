(** Vocabulary for C65 and C66. *)
From Coq Require Import List ZArith QArith.
From Verif Require Import ObjSetModel CheckModel.
Import ListNotations.

(** The collision models of an object: its own, or those of its nodes if it is a robot. *)
Definition body (s : scene) (o m : nat) : Prop :=
  match nodes s o with Some ns => exists n, In n ns /\ model s n = Some m | None => model s o = Some m end.
(** The collision models of a set: those of its objects. *)
Definition set_body (s : scene) (t : oset) (m : nat) : Prop := exists o, In o (objs t) /\ body s o m.
(** The nodes of a robot that have a collision model belong to the checker. *)
Definition belongs (s : scene) (this o : nat) : Prop :=
  forall ns, nodes s o = Some ns -> forall n, In n ns -> model s n <> None -> chk s n = this.
(** An object that is no robot. *)
Definition no_robot (s : scene) (o : nat) : Prop := nodes s o = None.
(** Which pairs of collision models touch; the answers for pairs are right, and touching has no direction. *)
Definition right_hits (hit : nat -> nat -> bool) (touch : nat -> nat -> Prop) : Prop :=
  (forall m n, hit m n = true <-> touch m n) /\ (forall m n, touch m n -> touch n m).

(** r is the answer for the two bodies A and B: an answer for a pair (one model of each), and no pair is closer. *)
Definition nearest {P} (dist : nat -> nat -> near P) (A B : nat -> Prop) (r : near P) : Prop :=
  (exists m n, A m /\ B n /\ r = dist m n) /\ forall m n, A m -> B n -> (gap r <= gap (dist m n))%Q.
(** The answers for pairs: no distance is greater than FLT_MAX, and with the arguments exchanged the answer is the exchanged one. *)
Definition fair {P} (dist : nat -> nat -> near P) (flt_max : Q) : Prop :=
  (forall m n, (gap (dist m n) <= flt_max)%Q) /\ (forall m n, dist n m = swap (dist m n)).
