(** Model of the geometry helpers of VirtualRobot/MathTools.h and MathTools.cpp: planes, lines, segments, boxes, triangles, spherical
    coordinates; over the real numbers (rounding is left out).  The templates for vectors of any dimension are modelled for three. *)
From Coq Require Import Reals List Bool.
From Verif Require Import QuatModel QuatSpec RpyModel KinModel BBoxModel.
Import ListNotations.
Open Scope R_scope.

(** Plane, MathTools.h 193-216, with the constructor from a point and a normal, 201-206. *)
Record plane := Plane { pl_p : vec3; pl_n : vec3 }.
Definition mk_plane (p n : vec3) : plane := Plane p (vnormalize n).
(** getFloorPlane, MathTools.cpp 1581-1584. *)
Definition floor_plane : plane := mk_plane (Vec 0 0 0) (Vec 0 0 1).
(** getDistancePointPlane, MathTools.cpp 371-374. *)
Definition plane_dist (x : vec3) (pl : plane) : R := vdot (pl_n pl) (vsub x (pl_p pl)).
(** projectPointToPlane, 376-380. *)
Definition project (x : vec3) (pl : plane) : vec3 := vsub x (vscale (plane_dist x pl) (pl_n pl)).
(** onNormalPointingSide, 851-854. *)
Definition on_side (x : vec3) (pl : plane) : bool := if Rle_dec 0 (vdot (vsub x (pl_p pl)) (pl_n pl)) then true else false.
(** planePoint3D, 671-690. *)
Definition plane_point (u : R * R) (pl : plane) : vec3 :=
  vadd (mapply (to_mat (get_rotation (Vec 0 0 1) (pl_n pl))) (Vec (fst u) (snd u) 0)) (pl_p pl).
(** projectPointToPlane2D, 692-714: the rotation and then the translation by -p. *)
Definition project2 (x : vec3) (pl : plane) : R * R :=
  let y := vadd (mapply (to_mat (get_rotation (pl_n pl) (Vec 0 0 1))) (project x pl)) (vscale (-1) (pl_p pl)) in (vx y, vy y).

(** MIN_TO_ZERO, 16. *)
Definition min_to_zero : R := / 1000000.
(** intersectSegmentPlane, 1676-1709; None: eNoIntersection, nothing is stored. *)
Definition intersect_segment (p0 p1 : vec3) (pl : plane) : option vec3 :=
  if Bool.eqb (on_side p0 pl) (on_side p1 pl) then None
  else
    let u := vsub p1 p0 in
    let w := vsub p0 (pl_p pl) in
    let d := vdot (pl_n pl) u in
    let n := - vdot (pl_n pl) w in
    if Rlt_dec (Rabs d) min_to_zero then None
    else
      let s := n / d in
      if Rlt_dec s 0 then None else if Rlt_dec 1 s then None
      else Some (vadd p0 (vscale s u)).
(** OOBB, MathTools.h 271-387: corners in the local frame and the pose. *)
Record oobb := Oobb { bb_min : vec3; bb_max : vec3; bb_pose : pose }.
(** A position in the frame of a pose, as the position of pose * m for a matrix m with that position. *)
Definition to_global (g : pose) (v : vec3) : vec3 := vadd (mapply (prot g) v) (ppos g).
(** getOOBBPoints, 286-309.  (The rotation part of m is not reset between the rounds; the position does not depend on it.) *)
Definition local_corners (b : oobb) : list vec3 :=
  let l := bb_min b in let h := bb_max b in
  [Vec (vx l) (vy l) (vz l); Vec (vx h) (vy l) (vz l); Vec (vx l) (vy h) (vz l); Vec (vx h) (vy h) (vz l);
   Vec (vx l) (vy l) (vz h); Vec (vx h) (vy l) (vz h); Vec (vx l) (vy h) (vz h); Vec (vx h) (vy h) (vz h)].
Definition box_corners (b : oobb) : list vec3 := map (to_global (bb_pose b)) (local_corners b).
(** getSegments, 311-332. *)
Definition segments (b : oobb) : list (vec3 * vec3) :=
  let c i := nth i (box_corners b) (Vec 0 0 0) in
  [(c 0, c 1); (c 0, c 2); (c 2, c 3); (c 1, c 3); (c 4, c 5); (c 4, c 6); (c 5, c 7); (c 6, c 7);
   (c 2, c 6); (c 0, c 4); (c 1, c 5); (c 3, c 7)]%nat.
(** One round of the loop of intersectOOBBPlane, 1719-1740. *)
Definition gather (pl : plane) (pts : list vec3) (s : vec3 * vec3) : list vec3 :=
  match intersect_segment (fst s) (snd s) pl with
  | None => pts
  | Some r => if existsb (fun q => if Rle_dec (vnorm (vsub q r)) (/ 1000000) then true else false) pts then pts else pts ++ [r]
  end.
(** intersectOOBBPlane, 1711-1748; None: eNoIntersection, nothing is stored. *)
Definition intersect_oobb (b : oobb) (pl : plane) : option (list vec3) :=
  let pts := fold_left (gather pl) (segments b) [] in
  if Nat.ltb (length pts) 3 then None else Some pts.
(** changeCoordSystem, MathTools.h 334-380; [inverted] is the inverse of a rigid transformation, and [widen] one round of the loop 363-377. *)
Definition change_coord (b : oobb) (g : pose) : oobb :=
  let r := fold_left widen (map (fun v => let w := to_global (inverted g) (to_global (bb_pose b) v) in BBoxModel.point (vx w) (vy w) (vz w)) (local_corners b))
             (Box (BBoxModel.point flt_max flt_max flt_max) (BBoxModel.point (- flt_max) (- flt_max) (- flt_max))) in
  let get n := match n with Some x => x | None => 0 end in
  Oobb (Vec (get (c0 (bmin r))) (get (c1 (bmin r))) (get (c2 (bmin r)))) (Vec (get (c0 (bmax r))) (get (c1 (bmax r))) (get (c2 (bmax r)))) g.

(** BaseLine, MathTools.h 221-250. *)
Record line := Line { ln_p : vec3; ln_d : vec3 }.
Definition mk_line (p d : vec3) : line := Line p (if Rlt_dec (/ 1000000000) (vnorm d) then vnormalize d else d).
Definition line_valid (l : line) : bool := if Rlt_dec (/ 1000000000) (vnorm (ln_d l)) then true else false.
(** nearestPointOnLine, 507-520. *)
Definition nearest_on_line (l : line) (p : vec3) : vec3 :=
  if line_valid l then vadd (ln_p l) (vscale (vdot (ln_d l) (vsub p (ln_p l))) (ln_d l)) else Vec 0 0 0.
(** distPointLine, 551-560. *)
Definition dist_point_line (l : line) (p : vec3) : R := if line_valid l then vnorm (vsub (nearest_on_line l p) p) else -1.
(** nearestPointOnSegment, 524-548.  If the two ends are equal, the direction is 0/0: all its components are NaN, the line is not valid
    (a comparison with NaN is false), nearestPointOnLine returns zero, alpha is NaN, and both comparisons with it are false. *)
Definition nearest_on_segment (a b p : vec3) : vec3 :=
  let d := vsub b a in
  if Req_EM_T (vnorm d) 0 then Vec 0 0 0
  else
    let dir := vscale (/ vnorm d) d in
    let l := mk_line a dir in
    let q := nearest_on_line l p in
    let alpha := vdot (vsub q a) dir in
    if Rlt_dec alpha 0 then a else if Rlt_dec (vnorm d) alpha then b else q.
(** distPointSegment, 564-567. *)
Definition dist_point_segment (a b p : vec3) : R := vnorm (vsub p (nearest_on_segment a b p)).
(** intersectPlanes, MathTools.cpp 1586-1620. *)
Definition intersect_planes (p1 p2 : plane) : line :=
  let n1 := pl_n p1 in let n2 := pl_n p2 in
  let none := mk_line (Vec 0 0 0) (Vec 0 0 0) in
  if Rlt_dec (Rabs (vdot n1 n2 - 1)) (/ 1000000) then none
  else
    let dir := vcross n1 n2 in
    let d1 := vdot n1 (pl_p p1) in
    let d2 := vdot n2 (pl_p p2) in
    let det := vdot n1 n1 * vdot n2 n2 - vdot n1 n2 * vdot n1 n2 in
    if Rlt_dec (Rabs det) (/ 1000000000) then none
    else
      let c1 := (d1 * vdot n2 n2 - d2 * vdot n1 n2) / det in
      let c2 := (d2 * vdot n1 n1 - d1 * vdot n1 n2) / det in
      let pos := vadd (vscale c1 n1) (vscale c2 n2) in
      mk_line (nearest_on_line (mk_line pos dir) (pl_p p1)) dir.

(** collinear, 997-1001. *)
Definition collinear (p1 p2 p3 : vec3) : bool := if Rlt_dec (vnorm (vcross (vsub p2 p1) (vsub p2 p3))) (/ 1000000) then true else false.
(** findNormal, 974-995: the loop over consecutive triples. *)
Fixpoint find_normal (ps : list vec3) : vec3 :=
  match ps with
  | a :: ((b :: c :: _) as rest) => if collinear a b c then find_normal rest else vnormalize (vcross (vsub b a) (vsub b c))
  | _ => Vec 0 0 1
  end.
(** getTriangleArea, 2114-2136. *)
Definition triangle_area (a b c : vec3) : R :=
  let ab := vsub b a in let ac := vsub c a in
  let nb := vnorm ab in let nc := vnorm ac in
  if Rle_dec nb 0 then 0 else if Rle_dec nc 0 then 0
  else
    let ca := vdot (vscale (/ nb) ab) (vscale (/ nc) ac) in
    let sa := sqrt (1 - ca * ca) in
    / 2 * sa * nb * nc.
(** randomPointInTriangle, 959-966; x and y are the random numbers. *)
Definition random_point (x y : R) (v1 v2 v3 : vec3) : vec3 :=
  let b0 := x in let b1 := (1 - b0) * y in let b2 := 1 - b0 - b1 in
  vadd (vadd (vscale b0 v1) (vscale b1 v2)) (vscale b2 v3).

(** SphericalCoord, MathTools.h 111-114, toPosition, MathTools.cpp 1768-1776, and toSphericalCoords, 1778-1793. *)
Record spherical := Spherical { sr : R; sphi : R; stheta : R }.
Definition to_position (s : spherical) : vec3 :=
  Vec (sr s * sin (stheta s) * cos (sphi s)) (sr s * sin (stheta s) * sin (sphi s)) (sr s * cos (stheta s)).
Definition to_spherical (p : vec3) : spherical :=
  let r := vnorm p in
  if Rlt_dec r (/ 100000000) then Spherical r 0 0 else Spherical r (atan2 (vy p) (vx p)) (acos (vz p / r)).
