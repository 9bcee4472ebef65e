(** Model of the two-dimensional convex hull of VirtualRobot/MathTools.cpp.  The coordinates are integers: every finite [float] is
    a multiple of the smallest positive one, which is the unit here; the arithmetic is exact (rounding is left out).  [eps] is the
    bound 1e-8 of [sortPoints] in squared units. *)
From Coq Require Import List ZArith Bool Arith.
Import ListNotations.
Open Scope Z_scope.

Notation pt := (Z * Z)%type.
(** [isLeft], MathTools.h:682-685. *)
Definition is_left (p0 p1 p2 : pt) : Z := (fst p1 - fst p0) * (snd p2 - snd p0) - (fst p2 - fst p0) * (snd p1 - snd p0).

(** The test of the lambda of [sortPoints], negated, MathTools.cpp:561-564. *)
Definition far (eps : Z) (p q : pt) : bool :=
  negb ((fst p - fst q) * (fst p - fst q) + (snd p - snd q) * (snd p - snd q) <? eps).
(** The loop that erases double entries, MathTools.cpp:559-565; [n] bounds the number of turns by the number of points. *)
Fixpoint dedup (n : nat) (eps : Z) (l : list pt) : list pt :=
  match n, l with
  | S n, p :: l => p :: dedup n eps (filter (far eps p) l)
  | _, _ => []
  end.
(** The order of [std::sort], MathTools.cpp:567-570. *)
Definition ltb (a b : pt) : bool := (fst a <? fst b) || ((fst a =? fst b) && (snd a <? snd b)).
Fixpoint insert (p : pt) (l : list pt) : list pt :=
  match l with [] => [p] | q :: l => if ltb q p then q :: insert p l else p :: q :: l end.
Definition sort (l : list pt) : list pt := fold_right insert [] l.
(** [sortPoints], MathTools.cpp:554-572. *)
Definition sort_points (eps : Z) (l : list pt) : list pt := sort (dedup (length l) eps l).

(** The leading points with the given x: the loops that find [minmax] and [maxmin], MathTools.cpp:405-411 and 454-460 (the second
    one from behind). *)
Fixpoint run (x : Z) (l : list pt) : list pt * list pt :=
  match l with
  | [] => ([], [])
  | p :: l' => if fst p =? x then let (a, b) := run x l' in (p :: a, b) else ([], l)
  end.

(** The inner loops: points are popped off the stack (its top is the head) until the new point is to the left of the line through
    the two topmost ones or only one is left, MathTools.cpp:474-485 and 507-518. *)
Fixpoint pop (st : list pt) (p : pt) : list pt :=
  match st with
  | b :: ((a :: _) as st') => if 0 <? is_left a b p then st else pop st' p
  | _ => st
  end.
(** The loops over the points, MathTools.cpp:466-488 and 499-521: [f] and [l] are the ends of the line, the last point of [ps] is
    [l] itself. *)
Fixpoint scan (f l : pt) (ps : list pt) (st : list pt) : list pt :=
  match ps with
  | [] => st
  | p :: ps' =>
      if (0 <=? is_left f l p) && negb (match ps' with [] => true | _ => false end) then scan f l ps' st
      else scan f l ps' (p :: pop st p)
  end.

(** [createConvexHull2D], MathTools.cpp:389-552, the vertices: [None] is the exception.  [a] are the points with the smallest x, [z] those
    with the largest x, [m] the rest. *)
Definition hull_vertices (eps : Z) (points : list pt) : option (list pt) :=
  let p := sort_points eps points in
  if (length p <? 3)%nat then None
  else match p with
  | [] => None
  | minmin :: _ =>
      let (a, r) := run (fst minmin) p in
      let minmax := last a minmin in
      match rev r with
      | [] => Some (minmin :: (if snd minmax =? snd minmin then [] else [minmax]) ++ [minmin])
      | maxmax :: _ =>
          let (z, m') := run (fst maxmax) (rev r) in
          let m := rev m' in
          let maxmin := last z maxmax in
          let lower := scan minmin maxmin (m ++ [maxmin]) [minmin] in
          let st := if (length z =? 1)%nat then lower else maxmax :: lower in
          let upper := scan maxmax minmax (rev m ++ [minmax]) [maxmax] in
          let h := upper ++ tl st in
          let h := if (length a =? 1)%nat then h else minmin :: h in
          Some (rev (tl h))
      end
  end.
(** The segments, MathTools.cpp:428-445 and 532-549: pairs of vertex numbers. *)
Definition hull_segments (n : nat) : list (nat * nat) :=
  map (fun u => (u, if (u =? n - 1)%nat then 0 else S u)%nat) (seq 0 n).

(** [isInside], MathTools.cpp:574-615; [None] is an access outside the vertices. *)
Fixpoint inside_loop (p : pt) (vs : list pt) (segs : list (nat * nat)) : option bool :=
  match segs with
  | [] => Some true
  | (i, j) :: segs =>
      match nth_error vs i, nth_error vs j with
      | Some q, Some r =>
          let x := (fst r - fst q) * (snd p - snd q) - (fst p - fst q) * (snd r - snd q) in
          if x <=? 0 then
            if x =? 0 then
              if 0 <? (fst p - fst q) * (fst p - fst r) then Some false
              else if 0 <? (snd p - snd q) * (snd p - snd r) then Some false
              else Some true
            else Some false
          else inside_loop p vs segs
      | _, _ => None
      end
  end.
Definition is_inside (p : pt) (vs : list pt) : option bool := inside_loop p vs (hull_segments (length vs)).
