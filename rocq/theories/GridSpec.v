(** A grid of cells over a rectangle, each holding the largest value written to it. *)
From Coq Require Import List ZArith QArith Bool Arith.
From Verif Require Import GridModel.
Import ListNotations.
Open Scope Z_scope.

(** [x] lies in cell [k] of [n] cells that divide the interval of length [ext] from [lo] on.  The first cell also takes the
    positions up to one cell width below [lo] (the conversion to [int] rounds towards zero). *)
Definition in_cell (lo ext : Q) (n k : Z) (x : Q) : Prop :=
  let w := (ext / inject_Z n)%Q in
  0 <= k < n /\
  ((k <> 0 /\ (lo + inject_Z k * w <= x < lo + inject_Z (k + 1) * w)%Q) \/ (k = 0 /\ (lo - w < x < lo + w)%Q)).

(** The frame: lower corner, extents and numbers of cells. *)
Record frame := Frame { f_x : Q; f_y : Q; f_extx : Q; f_exty : Q; f_nx : Z; f_ny : Z }.
Definition in_cell2 (f : frame) (i j : Z) (x y : Q) : Prop := in_cell (f_x f) (f_extx f) (f_nx f) i x /\ in_cell (f_y f) (f_exty f) (f_ny f) j y.
(** The cell has all its eight neighbours. *)
Definition inner (f : frame) (i j : Z) : Prop := 0 < i < f_nx f - 1 /\ 0 < j < f_ny f - 1.

(** Does an operation write to the cell, and what? *)
Definition writes (f : frame) (o : gop) (i j v : Z) (gr : option nat) : Prop :=
  match o with
  | SetEntry x y v' gr' => v' = v /\ gr' = gr /\ in_cell2 f i j x y
  | SetCell cx cy v' gr' => v' = v /\ gr' = gr /\ cx = i /\ cy = j
  | SetNeighbors x y v' gr' => v' = v /\ gr' = gr /\
      exists a b, in_cell2 f a b x y /\ ((i = a /\ j = b) \/ (inner f a b /\ -1 <= i - a <= 1 /\ -1 <= j - b <= 1))
  | _ => False
  end.

(** The frame moves when the grid is moved. *)
Definition moved (f : frame) (o : gop) : frame :=
  match o with
  | SetPosition x y => Frame (x - f_extx f / 2)%Q (y - f_exty f / 2)%Q (f_extx f) (f_exty f) (f_nx f) (f_ny f)
  | _ => f
  end.
Definition frame_after (f : frame) (os : list gop) : frame := fold_left moved os f.

Definition add_grasp (gr : option nat) (l l' : list nat) : Prop :=
  match gr with
  | None => l' = l
  | Some k => (In k l /\ l' = l) \/ (~ In k l /\ l' = l ++ [k])
  end.

(** The value and the grasps of a cell after a history, starting in the given frame. *)
Inductive content (f : frame) (i j : Z) : list gop -> Z -> list nat -> Prop :=
| content_new : content f i j [] 0 []
| content_reset : forall os, content f i j (os ++ [Reset]) 0 []
| content_write : forall os o v gr old l l', content f i j os old l -> writes (frame_after f os) o i j v gr ->
    (if (old <=? v) || (100 <=? v) then add_grasp gr l l' else l' = l) ->
    content f i j (os ++ [o]) (Z.max old v) l'
| content_other : forall os o old l, content f i j os old l -> o <> Reset -> (forall v gr, ~ writes (frame_after f os) o i j v gr) ->
    content f i j (os ++ [o]) old l.
