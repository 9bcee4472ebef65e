(** What the hull properties talk about, independent of the code. *)
From Coq Require Import List ZArith.
Import ListNotations.
Open Scope Z_scope.

Notation point := (Z * Z)%type.
(** Twice the signed area of the triangle a, b, c: positive for a turn to the left at b. *)
Definition turn (a b c : point) : Z := (fst b - fst a) * (snd c - snd b) - (snd b - snd a) * (fst c - fst b).
(** Strictly convex and counter-clockwise: any three vertices, taken in their order, make a turn to the left. *)
Definition convex_ccw (vs : list point) : Prop :=
  forall i j k a b c, (i < j < k)%nat -> nth_error vs i = Some a -> nth_error vs j = Some b -> nth_error vs k = Some c -> 0 < turn a b c.

Definition total (ws : list Z) : Z := fold_right Z.add 0 ws.
Definition weighted (f : point -> Z) (ws : list Z) (vs : list point) : Z := total (map (fun wv => fst wv * f (snd wv)) (combine ws vs)).
(** The closed polygon spanned by [vs]: the weighted means of the vertices, with weights that are not negative. *)
Definition in_polygon (vs : list point) (p : point) : Prop :=
  exists ws, length ws = length vs /\ Forall (Z.le 0) ws /\ 0 < total ws /\
    total ws * fst p = weighted fst ws vs /\ total ws * snd p = weighted snd ws vs.

Definition dist2 (p q : point) : Z := (fst p - fst q) * (fst p - fst q) + (snd p - snd q) * (snd p - snd q).
Definition collinear (l : list point) : Prop := forall a b c, In a l -> In b l -> In c l -> turn a b c = 0.
Definition vertical (l : list point) : Prop := forall p q, In p l -> In q l -> fst p = fst q.

(** The points that are kept as distinct: a part of the input, no two of them closer than the bound, and every input point is one of
    them or closer than the bound to one of them. *)
Definition distinct_points (eps : Z) (points kept : list point) : Prop :=
  incl kept points /\
  (forall i j p q, i <> j -> nth_error kept i = Some p -> nth_error kept j = Some q -> eps <= dist2 p q) /\
  (forall p, In p points -> exists q, In q kept /\ (p = q \/ dist2 q p < eps)).
