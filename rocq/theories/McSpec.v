(** Vocabulary for C82 to C85. *)
From Coq Require Import List ZArith QArith Bool Arith Relations.
From Verif Require Import McModel.
Import ListNotations.
Open Scope Z_scope.

(** Twice the midpoint of the grid edge between two points: it names the edge. *)
Definition midpoint (p q : point) : point := plus3 p q.
(** The directed sides of triangles. *)
Definition sides {V} (ts : list (V * V * V)) : list (V * V) := flat_map (fun t => let '(a, b, c) := t in [(a, b); (b, c); (c, a)]) ts.
(** The vertices of triangles. *)
Definition vertices {V} (ts : list (V * V * V)) : list V := flat_map (fun t => let '(a, b, c) := t in [a; b; c]) ts.
(** Coordinates. *)
Definition coordinate (d : nat) (p : point) : Z := let '(x, y, z) := p in match d with O => x | 1%nat => y | _ => z end.
(** Points of the grid with cells numbered from 0 to size - 1 along each axis, and those on its hull. *)
Definition in_grid (size : Z) (p : point) : Prop := forall d, 0 <= coordinate d p <= size.
Definition on_hull (size : Z) (p : point) : Prop := in_grid size p /\ exists d, coordinate d p = 0 \/ coordinate d p = size.
(** Midpoints that lie on the same side of the hull. *)
Definition rim (size : Z) (a b : point) : Prop := exists d, (coordinate d a = 0 /\ coordinate d b = 0) \/ (coordinate d a = 2 * size /\ coordinate d b = 2 * size).
(** Two points joined by an edge of the grid. *)
Definition joined (p q : point) : Prop := exists d, (d < 3)%nat /\ (q = plus3 p (match d with O => (1, 0, 0) | 1%nat => (0, 1, 0) | _ => (0, 0, 1) end) \/ p = plus3 q (match d with O => (1, 0, 0) | 1%nat => (0, 1, 0) | _ => (0, 0, 1) end)).
(** The field is above the level at one end of the edge and not at the other. *)
Definition crosses (f : point -> Z) (iso : Z) (p q : point) : Prop := (f p <= iso /\ iso < f q) \/ (f q <= iso /\ iso < f p).
(** The field is on the same side of the level on the whole hull. *)
Definition hull_one_side (size : Z) (f : point -> Z) (iso : Z) : Prop := (forall p, on_hull size p -> iso < f p) \/ (forall p, on_hull size p -> f p <= iso).
(** No crossed edge has both of its ends within the threshold of the level. *)
Definition no_thin_edge (th size : Z) (f : point -> Z) (iso : Z) : Prop :=
  forall p q, in_grid size p -> in_grid size q -> joined p q -> crosses f iso p q -> th <= Z.abs (iso - f p) \/ th <= Z.abs (iso - f q).
(** How often a side occurs. *)
Definition occurs {V} (eqb : V -> V -> bool) (a b : V) (l : list (V * V)) : nat := length (filter (fun s => eqb (fst s) a && eqb (snd s) b) l).
(** A cell that the surface meets: two corners on different sides of the level. *)
Definition corner_of (c p : point) : Prop := forall d, coordinate d c <= coordinate d p <= coordinate d c + 1.
Definition meets (f : point -> Z) (iso : Z) (c : point) : Prop := exists p q, corner_of c p /\ corner_of c q /\ crosses f iso p q.
(** A cell of the grid; neighbours share a face. *)
Definition cell (size : Z) (c : point) : Prop := forall d, 0 <= coordinate d c < size.
Definition beside (c c' : point) : Prop := joined c c'.
(** The cells of one surface: met by it, one beside the other. *)
Definition same_surface (size : Z) (f : point -> Z) (iso : Z) : point -> point -> Prop :=
  clos_refl_trans point (fun c c' => beside c c' /\ cell size c' /\ meets f iso c').
(** Values fetched through the cache, one after the other. *)
Fixpoint fetch (size : Z) (f : point -> Z) (ps : list point) (s : cache) : option (list Z * cache) :=
  match ps with
  | [] => Some ([], s)
  | p :: ps => match cache_get size f p s with None => None | Some (v, s) => match fetch size f ps s with None => None | Some (l, s) => Some (v :: l, s) end end
  end.
(** Equality of positions. *)
Definition same_place (a b : Q * Q * Q) : bool := let '(x, y, z) := a in let '(x', y', z') := b in Qeq_bool x x' && Qeq_bool y y' && Qeq_bool z z'.
Definition eq3 (a b : Q * Q * Q) : Prop := let '(x, y, z) := a in let '(x', y', z') := b in (x == x' /\ y == y' /\ z == z')%Q.
(** The point at parameter mu of a segment. *)
Definition at_mu (mu : Q) (p q : point) : Q * Q * Q :=
  let '(x, y, z) := p in let '(x', y', z') := q in
  (inject_Z x + mu * inject_Z (x' - x), inject_Z y + mu * inject_Z (y' - y), inject_Z z + mu * inject_Z (z' - z))%Q.
(** The field, interpolated along an edge, has the level at mu, or the end at mu is within the threshold of it. *)
Definition hits (th : Z) (f : point -> Z) (iso : Z) (p q : point) (mu : Q) : Prop :=
  (0 <= mu <= 1)%Q /\ ((inject_Z (f p) + mu * inject_Z (f q - f p) == inject_Z iso)%Q \/ ((mu == 0)%Q /\ Z.abs (iso - f p) < th) \/ ((mu == 1)%Q /\ Z.abs (iso - f q) < th)).
(** A set of cells whose surface does not go on in a cell outside of the set. *)
Definition complete (size : Z) (f : point -> Z) (iso : Z) (cs : list point) : Prop := forall c c', In c cs -> meets f iso c -> beside c c' -> cell size c' -> meets f iso c' -> In c' cs.
