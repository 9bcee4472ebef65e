(** What editing a trajectory means: operations on sequences; and what the position at a fraction of
    the arc length is. *)
From Coq Require Import List Reals Bool.
From Verif Require Import TrajModel.
Import ListNotations.
Open Scope nat_scope.

Definition spliced {C : Type} (l : list C) (pos : nat) (new : list C) : list C :=
  firstn pos l ++ new ++ skipn pos l.

Definition spec_edit {C : Type} (l : list C) (e : edit) : list C :=
  match e with
  | AddPoint c => l ++ [c]
  | InsertPosition pos c => if pos <=? length l then spliced l pos [c] else l
  | InsertPositions pos cs => if pos <=? length l then spliced l pos cs else l
  | InsertTrajectory pos other => if pos <=? length l then spliced l pos other else l
  | ErasePosition pos => firstn pos l ++ skipn (S pos) l
  | RemovePositions s e => if ((s <=? e) && (e <? length l))%bool then firstn s l ++ skipn (S e) l else l
  | Reverse => rev l
  | Reset => []
  end.

(** The closed index range. *)
Definition range {C : Type} (l : list C) (s e : nat) : list C := firstn (S e - s) (skipn s l).

Open Scope R_scope.

(** Arc length of the polyline. *)
Fixpoint arc_length {C : Type} (dist : C -> C -> R) (l : list C) : R :=
  match l with
  | a :: ((b :: _) as r) => dist a b + arc_length dist r
  | _ => 0
  end.

(** [q] is the point at arc length [s] of the polyline [l], on the segment with index [i]: it divides
    this segment at the fraction [f]. *)
Definition at_arc {C : Type} (dist : C -> C -> R) (mix : C -> C -> R -> C) (l : list C) (s : R) (i : nat) (q : C) : Prop :=
  exists a b f, nth_error l i = Some a /\ nth_error l (S i) = Some b /\ 0 <= f <= 1 /\
    q = mix a b f /\ arc_length dist (firstn (S i) l) + f * dist a b = s.
