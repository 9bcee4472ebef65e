(** Cells of a regular grid, and what a sequence of writes stores in them. *)
From Coq Require Import List ZArith QArith Bool Arith.
From Verif Require Import VoxModel.
Import ListNotations.
Open Scope nat_scope.

(** The point [p] lies in the box from [mn] to [mx]; [d] is the number of coordinates that count. *)
Definition within (d : nat) (mn mx p : list Q) : Prop := forall i, i < d -> (nthq mn i <= nthq p i <= nthq mx i)%Q.

(** The coordinate [x] lies in interval number [k] of width [w] from [lo] on: open below and closed above, except that the
    first interval is closed. *)
Definition in_interval (lo w : Q) (k : Z) (x : Q) : Prop :=
  (lo + inject_Z k * w < x /\ x <= lo + inject_Z (k + 1) * w)%Q \/ (k = 0%Z /\ (x == lo)%Q).

(** The width of a cell when each side is cut into [2 ^ n] parts. *)
Definition width (n : nat) (lo hi : Q) : Q := ((hi - lo) / inject_Z (2 ^ Z.of_nat n))%Q.

(** Two points in the same cell. *)
Definition same_cell (d n : nat) (mn mx p q : list Q) : Prop :=
  forall i, i < d -> exists k, (0 <= k < 2 ^ Z.of_nat n)%Z /\
    in_interval (nthq mn i) (width n (nthq mn i) (nthq mx i)) k (nthq p i) /\
    in_interval (nthq mn i) (width n (nthq mn i) (nthq mx i)) k (nthq q i).

(** What a query at [q] gives after the writes: the last value written into the cell of [q]. *)
Inductive value {T : Type} (d n : nat) (mn mx q : list Q) : list (list Q * T) -> option T -> Prop :=
| value_none : value d n mn mx q [] None
| value_hit : forall ws p x, same_cell d n mn mx p q -> value d n mn mx q (ws ++ [(p, x)]) (Some x)
| value_miss : forall ws p x r, ~ same_cell d n mn mx p q -> value d n mn mx q ws r -> value d n mn mx q (ws ++ [(p, x)]) r.

(** The trees that can be made by construction and writes. *)
Definition built {T} (mn mx disc : list Q) (ws : list (list Q * T)) (t : vtree T) : Prop :=
  exists t0, new_tree T mn mx disc = Made t0 /\ tree_run t0 ws = Some t.

(** A comparison of entries as an order. *)
Definition ordering {T} (gt : T -> T -> bool) : Prop :=
  (forall x, gt x x = false) /\ (forall x y, gt x y = true -> gt y x = false) /\
  (forall x y z, gt x y = false -> gt y z = false -> gt x z = false).
