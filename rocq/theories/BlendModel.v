(** Model of VirtualRobot/TimeOptimalTrajectory/Path.cpp over the real numbers: the waypoint path with circular blends.  Rounding is left out;
    all vectors of a call have the same size [n] (Eigen asserts that they do). *)
From Coq Require Import Reals List Arith.
From Verif Require Import RpyModel.
Import ListNotations.
Open Scope R_scope.

(** An Eigen::VectorXd: its coefficients. *)
Notation vec := (nat -> R).
Definition vadd (a b : vec) : vec := fun i => a i + b i.
Definition vsub (a b : vec) : vec := fun i => a i - b i.
Definition vscale (k : R) (a : vec) : vec := fun i => k * a i.
Definition vzero : vec := fun _ => 0.
(** [a.dot(b)] of the first n coefficients. *)
Fixpoint dot (n : nat) (a b : vec) : R := match n with O => 0 | S n => dot n a b + a n * b n end.
Definition norm (n : nat) (a : vec) : R := sqrt (dot n a a).
(** [normalized()] (a zero vector is left alone). *)
Definition normalized (n : nat) (a : vec) : vec := if Rlt_dec 0 (dot n a a) then vscale (/ norm n a) a else a.

(** A path segment: LinearPathSegment (lines 52-87) with its length, CircularPathSegment (90-172) with radius, length, centre and axes. *)
Inductive segment := Lin (start stop : vec) (len : R) | Circ (radius len : R) (center x y : vec).
Definition seg_length (g : segment) : R := match g with Lin _ _ l => l | Circ _ l _ _ _ => l end.
(** The constant 0.000001. *)
Definition tiny : R := 1 / 10 ^ 6.

Section Dim.
Context (n : nat).
(** Constructor of LinearPathSegment, 55-60. *)
Definition new_lin (start stop : vec) : segment := Lin start stop (norm n (vsub stop start)).
(** Constructor of CircularPathSegment, 93-129. *)
Definition no_blend (inter : vec) : segment := Circ 1 0 inter vzero vzero.
Definition new_circ (start inter stop : vec) (dev : R) : segment :=
  if Rlt_dec (norm n (vsub inter start)) tiny then no_blend inter
  else if Rlt_dec (norm n (vsub stop inter)) tiny then no_blend inter
  else let sd := normalized n (vsub inter start) in
       let ed := normalized n (vsub stop inter) in
       if Rlt_dec (norm n (vsub sd ed)) tiny then no_blend inter
       else let distance := Rmin (norm n (vsub start inter)) (norm n (vsub stop inter)) in
            let angle := acos (dot n sd ed) in
            let distance := Rmin distance (dev * sin (1 / 2 * angle) / (1 - cos (1 / 2 * angle))) in
            let radius := distance / tan (1 / 2 * angle) in
            let center := vadd inter (vscale (radius / cos (1 / 2 * angle)) (normalized n (vsub ed sd))) in
            let x := normalized n (vsub (vsub inter (vscale distance sd)) center) in
            Circ radius (angle * radius) center x sd.
(** getConfig, 62-66 and 131-134.  For a line of length 0 the quotient is NaN or infinite; std::min(1.0, NaN) is 1. *)
Definition seg_config (g : segment) (s : R) : vec :=
  match g with
  | Lin start stop len =>
      let q := if Req_EM_T len 0 then (if Rlt_dec s 0 then 0 else 1) else Rmax 0 (Rmin 1 (s / len)) in
      vadd (vscale (1 - q) start) (vscale q stop)
  | Circ radius _ center x y => let angle := s / radius in vadd center (vscale radius (vadd (vscale (cos angle) x) (vscale (sin angle) y)))
  end.
(** getTangent, 68-70 and 136-139; [None] if a line of length 0 makes it NaN. *)
Definition seg_tangent (g : segment) (s : R) : option vec :=
  match g with
  | Lin start stop len => if Req_EM_T len 0 then None else Some (vscale (/ len) (vsub stop start))
  | Circ radius _ _ x y => let angle := s / radius in Some (vadd (vscale (- sin angle) x) (vscale (cos angle) y))
  end.
(** getCurvature, 72-74 and 141-144. *)
Definition seg_curvature (g : segment) (s : R) : vec :=
  match g with
  | Lin _ _ _ => vzero
  | Circ radius _ _ x y => let angle := s / radius in vscale (- 1 / radius) (vadd (vscale (cos angle) x) (vscale (sin angle) y))
  end.
(** The loop of the constructor of Path, 185-205: config1, config2 and what follows. *)
Fixpoint build (dev : R) (start c1 c2 : vec) (rest : list vec) : list segment :=
  match rest with
  | c3 :: r =>
      if Rlt_dec 0 dev
      then let blend := new_circ (vscale (1 / 2) (vadd c1 c2)) c2 (vscale (1 / 2) (vadd c2 c3)) dev in
           let e := seg_config blend 0 in
           (if Rlt_dec tiny (norm n (vsub e start)) then [new_lin start e] else []) ++ blend :: build dev (seg_config blend (seg_length blend)) c2 c3 r
      else new_lin start c2 :: build dev c2 c2 c3 r
  | [] => [new_lin start c2]
  end.
(** The constructor, 176-206: no segments for fewer than two waypoints. *)
Definition new_path (dev : R) (pts : list vec) : list segment := match pts with c1 :: c2 :: r => build dev c1 c1 c2 r | _ => [] end.
(** Positions of the segments (208-218) and length of the path. *)
Fixpoint place (p : R) (l : list segment) : list (R * segment) := match l with [] => [] | g :: l => (p, g) :: place (p + seg_length g) l end.
Fixpoint total (p : R) (l : list segment) : R := match l with [] => p | g :: l => total (p + seg_length g) l end.
Definition path_length (l : list segment) : R := total 0 l.
(** getPathSegment, 241-251: the segment and the position on it. *)
Fixpoint find_seg (p : R) (g : segment) (rest : list (R * segment)) (s : R) : segment * R :=
  match rest with
  | [] => (g, s - p)
  | (p', g') :: r => if Rle_dec p' s then find_seg p' g' r s else (g, s - p)
  end.
Definition path_segment (l : list segment) (s : R) : option (segment * R) := match place 0 l with [] => None | (p, g) :: r => Some (find_seg p g r s) end.
(** getConfig, getTangent, getCurvature, 253-266; [None]: undefined (a path without segments, a tangent that is NaN). *)
Definition path_config (l : list segment) (s : R) : option vec := match path_segment l s with None => None | Some (g, t) => Some (seg_config g t) end.
Definition path_tangent (l : list segment) (s : R) : option vec := match path_segment l s with None => None | Some (g, t) => seg_tangent g t end.
Definition path_curvature (l : list segment) (s : R) : option vec := match path_segment l s with None => None | Some (g, t) => Some (seg_curvature g t) end.

(** getSwitchingPoints of a segment, 76-78 and 146-161 (list::sort). *)
Fixpoint insert (a : R) (l : list R) : list R := match l with [] => [a] | b :: r => if Rlt_dec b a then b :: insert a r else a :: l end.
Definition sort (l : list R) : list R := fold_right insert [] l.
Definition switch_angle (x y : vec) (i : nat) : R := let a := atan2 (y i) (x i) in if Rlt_dec a 0 then a + PI else a.
Definition seg_switching (g : segment) : list R :=
  match g with
  | Lin _ _ _ => []
  | Circ radius len _ x y => sort (flat_map (fun i => let p := switch_angle x y i * radius in if Rlt_dec p len then [p] else []) (seq 0 n))
  end.
(** Lines 208-219.  The list is kept with its last element first. *)
Fixpoint drop_from (len : R) (l : list (R * bool)) : list (R * bool) := match l with [] => [] | (p, b) :: r => if Rle_dec len p then drop_from len r else l end.
Fixpoint collect (acc : list (R * bool)) (len : R) (l : list segment) : list (R * bool) :=
  match l with
  | [] => acc
  | g :: l => let acc := rev (map (fun p => (len + p, false)) (seg_switching g)) ++ acc in
              let len := len + seg_length g in
              collect ((len, true) :: drop_from len acc) len l
  end.
Definition path_switching (l : list segment) : list (R * bool) := rev (tl (collect [] 0 l)).
(** getNextSwitchingPoint, 268-281. *)
Fixpoint next_point (len s : R) (l : list (R * bool)) : R * bool := match l with [] => (len, true) | (p, b) :: r => if Rle_dec p s then next_point len s r else (p, b) end.
Definition next_switching (l : list segment) (s : R) : R * bool := next_point (path_length l) s (path_switching l).
End Dim.
