(** Model of the axis oriented bounding boxes, VirtualRobot/BoundingBox.cpp, over the real numbers (rounding and infinities are left
    out).  A coordinate that is not a number is None. *)
From Coq Require Import Reals List Bool.
From Verif Require Import QuatModel QuatSpec RpyModel KinModel.
Import ListNotations.
Open Scope R_scope.

Notation num := (option R).
(** Comparisons with a NaN are false. *)
Definition nlt (a b : num) : bool := match a, b with Some x, Some y => if Rlt_dec x y then true else false | _, _ => false end.
Definition nle (a b : num) : bool := match a, b with Some x, Some y => if Rle_dec x y then true else false | _, _ => false end.
Definition isnan (a : num) : bool := match a with Some _ => false | None => true end.
Definition nadd (a b : num) : num := match a, b with Some x, Some y => Some (x + y) | _, _ => None end.
Definition nsub (a b : num) : num := match a, b with Some x, Some y => Some (x - y) | _, _ => None end.
Definition nmul (a b : num) : num := match a, b with Some x, Some y => Some (x * y) | _, _ => None end.

(** An [Eigen::Vector3f]. *)
Record vec := V { c0 : num; c1 : num; c2 : num }.
(** The members min and max. *)
Record box := Box { bmin : vec; bmax : vec }.
Definition point (x y z : R) : vec := V (Some x) (Some y) (Some z).

(** clear, BoundingBox.cpp 120-128. *)
Definition empty : box := Box (V None None None) (V None None None).
(** One round of the loop of addPoint, 95-107. *)
Definition lower (m p : num) : num := if isnan m || nlt p m then p else m.
Definition upper (m p : num) : num := if isnan m || nlt m p then p else m.
(** addPoint, 93-108. *)
Definition add_point (b : box) (p : vec) : box :=
  Box (V (lower (c0 (bmin b)) (c0 p)) (lower (c1 (bmin b)) (c1 p)) (lower (c2 (bmin b)) (c2 p)))
      (V (upper (c0 (bmax b)) (c0 p)) (upper (c1 (bmax b)) (c1 p)) (upper (c2 (bmax b)) (c2 p))).
(** addPoints, 79-85, and the constructor from points, 36-43. *)
Definition add_points (b : box) (ps : list vec) : box := fold_left add_point ps b.
Definition of_points (ps : list vec) : box := add_points empty ps.
(** The test at the beginning of getPoints, transform and scale. *)
Definition has_nan (b : box) : bool :=
  isnan (c0 (bmin b)) || isnan (c1 (bmin b)) || isnan (c2 (bmin b)) || isnan (c0 (bmax b)) || isnan (c1 (bmax b)) || isnan (c2 (bmax b)).
(** getPoints, 46-67. *)
Definition get_points (b : box) : list vec :=
  let l := bmin b in let h := bmax b in
  if has_nan b then []
  else [V (c0 l) (c1 l) (c2 l); V (c0 l) (c1 l) (c2 h); V (c0 l) (c1 h) (c2 l); V (c0 l) (c1 h) (c2 h);
        V (c0 h) (c1 l) (c2 l); V (c0 h) (c1 l) (c2 h); V (c0 h) (c1 h) (c2 l); V (c0 h) (c1 h) (c2 h)].
(** addPoints(bbox), 87-91. *)
Definition add_box (b b' : box) : box := add_points b (get_points b').

(** [FLT_MAX]. *)
Definition flt_max : R := (2 - / 2 ^ 23) * 2 ^ 127.
(** The position of pose * m for a translation m, 149-155; the last row of the pose is not used. *)
Definition move (g : pose) (v : vec) : vec :=
  let m := prot g in let t := ppos g in
  V (nadd (nadd (nadd (nmul (Some (m00 m)) (c0 v)) (nmul (Some (m01 m)) (c1 v))) (nmul (Some (m02 m)) (c2 v))) (Some (vx t)))
    (nadd (nadd (nadd (nmul (Some (m10 m)) (c0 v)) (nmul (Some (m11 m)) (c1 v))) (nmul (Some (m12 m)) (c2 v))) (Some (vy t)))
    (nadd (nadd (nadd (nmul (Some (m20 m)) (c0 v)) (nmul (Some (m21 m)) (c1 v))) (nmul (Some (m22 m)) (c2 v))) (Some (vz t))).
(** One round of the loop 161-175: min and max never are NaN here. *)
Definition take_min (m p : num) : num := if nlt p m then p else m.
Definition take_max (m p : num) : num := if nlt m p then p else m.
Definition widen (b : box) (p : vec) : box :=
  Box (V (take_min (c0 (bmin b)) (c0 p)) (take_min (c1 (bmin b)) (c1 p)) (take_min (c2 (bmin b)) (c2 p)))
      (V (take_max (c0 (bmax b)) (c0 p)) (take_max (c1 (bmax b)) (c1 p)) (take_max (c2 (bmax b)) (c2 p))).
(** transform, 130-177. *)
Definition transform (b : box) (g : pose) : box :=
  let l := bmin b in let h := bmax b in
  if has_nan b then b
  else fold_left widen (map (move g)
         [V (c0 l) (c1 l) (c2 l); V (c0 h) (c1 l) (c2 l); V (c0 l) (c1 h) (c2 l); V (c0 h) (c1 h) (c2 l);
          V (c0 l) (c1 l) (c2 h); V (c0 h) (c1 l) (c2 h); V (c0 l) (c1 h) (c2 h); V (c0 h) (c1 h) (c2 h)])
         (Box (point flt_max flt_max flt_max) (point (- flt_max) (- flt_max) (- flt_max))).
(** scale, 179-192. *)
Definition scale (b : box) (s : vec) : box :=
  if has_nan b then b
  else Box (V (nmul (c0 (bmin b)) (c0 s)) (nmul (c1 (bmin b)) (c1 s)) (nmul (c2 (bmin b)) (c2 s)))
           (V (nmul (c0 (bmax b)) (c0 s)) (nmul (c1 (bmax b)) (c1 s)) (nmul (c2 (bmax b)) (c2 s))).

Definition vsub3 (a b : vec) : vec := V (nsub (c0 a) (c0 b)) (nsub (c1 a) (c1 b)) (nsub (c2 a) (c2 b)).
Definition dot3 (a b : vec) : num := nadd (nadd (nmul (c0 a) (c0 b)) (nmul (c1 a) (c1 b))) (nmul (c2 a) (c2 b)).
(** The lambda isBetween, 235-244. *)
Definition is_between (x a b : num) : bool := if nle a b then nle a x && nle x b else nle b x && nle x a.
(** isInside, 220-249. *)
Definition is_inside (b : box) (p : vec) : bool :=
  let l := bmin b in let h := bmax b in
  let p0 := V (c0 l) (c1 l) (c2 l) in let p1 := V (c0 l) (c1 l) (c2 h) in
  let p2 := V (c0 l) (c1 h) (c2 l) in let p4 := V (c0 h) (c1 l) (c2 l) in
  let v01 := vsub3 p0 p1 in let v02 := vsub3 p0 p2 in let v04 := vsub3 p0 p4 in
  let mid x a b := if isnan x then nmul (nadd a b) (Some (/ 2)) else x in
  let p := V (mid (c0 p) (c0 h) (c0 l)) (mid (c1 p) (c1 h) (c1 l)) (mid (c2 p) (c2 h) (c2 l)) in
  is_between (dot3 v01 p) (dot3 v01 p0) (dot3 v01 p1) && is_between (dot3 v02 p) (dot3 v02 p0) (dot3 v02 p2)
  && is_between (dot3 v04 p) (dot3 v04 p0) (dot3 v04 p4).

(** onNormalPointingSide, MathTools.cpp 851-854, for a plane given by a point and a normal. *)
Definition on_normal_side (q n : vec) (p : vec) : bool := nle (Some 0) (dot3 (vsub3 p q) n).
(** planeGoesThrough, BoundingBox.cpp 11-33.  None: for a box without points the loop reads outside the vector. *)
Definition plane_goes_through (b : box) (q n : vec) : option bool :=
  match get_points b with
  | [] => None
  | ps => let left := existsb (on_normal_side q n) ps in
          let right := existsb (fun p => negb (on_normal_side q n p)) ps in
          Some (if negb left || negb right then false else true)
  end.
