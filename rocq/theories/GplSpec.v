(** What the grasp planner properties talk about. *)
From Coq Require Import List ZArith QArith.
From Verif Require Import GplModel.
Import ListNotations.
Open Scope Z_scope.

Section Spec.
Context {W C P J : Type} (e : env W C P J).

(** The fingers close from [before] and end in [after] with the contacts [cs] (those of the fingers and of the palm). *)
Definition closes (before after : W) (cs : list C) : Prop :=
  fst (close e before) = after /\ cs = snd (close e before) ++ static e after.
(** A grasp that the planner may return for the demanded quality and force closure: the hand closed, made at least two contacts,
    does not touch an obstacle, and the stored pose, joint values and quality are those of the closed hand. *)
Definition sound (obstacles : bool) (minq : Q) (fc : bool) (g : grasp P J) : Prop :=
  exists before after cs, closes before after cs /\ (2 <= length cs)%nat /\ (obstacles = true -> hits_obstacle e after = false) /\
    g_pose g = tcp_pose e after /\ g_joints g = joints e after /\ g_quality g = score e cs /\ (minq <= g_quality g)%Q /\
    (fc = true -> closure e cs = true) /\
    ((exists w, random_pose e w = (before, true) /\ (obstacles = true -> hits_obstacle e before = false)) \/
     (exists w w', w' = retreat e (open_hand e w) /\ hits_object e w' = false /\ (2 <= length (snd (close e w')))%nat /\ before = open_hand e (fst (close e w')))).

Fixpoint count (l : list bool) : Z := match l with [] => 0 | b :: l => (if b then 1 else 0) + count l end.
(** An evaluation whose counters agree with its lists. *)
Definition consistent (x : evaluation) : Prop :=
  n_generated x = n_valid x + (n_collision x + n_fc x + n_contacts x) /\
  n_generated x = Z.of_nat (length (times x)) /\ length (scores x) = length (times x) /\ length (valids x) = length (times x) /\ length (powers x) = length (times x) /\
  n_valid x = count (valids x) /\ Forall (eq true) (powers x) /\ n_power x = n_valid x /\ n_precision x = 0 /\
  0 <= n_collision x /\ 0 <= n_fc x /\ 0 <= n_contacts x.
End Spec.

(** Sums over the entries of the evaluation: of all, and of the valid ones. *)
Fixpoint zsum (l : list Z) : Z := match l with [] => 0 | x :: l => x + zsum l end.
Fixpoint valid_sum (s : list Q) (v : list bool) : Q := match s, v with x :: s, b :: v => (if b then x + valid_sum s v else valid_sum s v)%Q | _, _ => 0%Q end.
