(** Vocabulary for C34. *)
From Coq Require Import List String.
From Verif Require Import SceneModel.
Import ListNotations.

(** The stores a client can bring about, starting without objects. *)
Inductive reachable : store -> Prop :=
| r_start : reachable []
| r_step : forall h o, reachable h -> allowed h o -> reachable (step h o).

(** Every object is listed as a child exactly by its parent, once, and siblings have different names. *)
Record consistent (h : store) : Prop := {
  listed : forall p c, In c (children h p) <-> parent h c = Some p;
  once : forall p, NoDup (children h p);
  siblings : forall p c d n, In c (children h p) -> In d (children h p) -> name h c = Some n -> name h d = Some n -> c = d }.

(** [below h a x]: x is a child of a, or a child of a child, and so on. *)
Inductive below (h : store) : nat -> nat -> Prop :=
| b_child : forall a x, In x (children h a) -> below h a x
| b_deep : forall a b x, In b (children h a) -> below h b x -> below h a x.
(** Nothing is below itself. *)
Definition forest (h : store) : Prop := forall x, ~ below h x x.
(** Two stores in which all objects look alike. *)
Definition alike (h h' : store) : Prop := forall x, name h' x = name h x /\ children h' x = children h x /\ parent h' x = parent h x.
(** The stores a client can bring about who never attaches an object to itself or to something below it. *)
Inductive careful : store -> Prop :=
| c_start : careful []
| c_step : forall h o, careful h -> allowed h o -> (forall p c, o = Attach p c -> ~ below h c p) -> careful (step h o).
