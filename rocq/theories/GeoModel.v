(** Model of the lines, planes and triangles of VirtualRobot/math: Line.cpp, Plane.cpp, ImplicitPlane.cpp, Triangle.cpp and Helpers::GetOrthonormalVectors.
    Over the real numbers, without rounding.  Where the code may divide by zero the outcome is an extended real, as in IEEE arithmetic. *)
From Coq Require Import Reals List Bool.
From Verif Require Import QuatModel QuatSpec RpyModel JointModel KinModel CrvModel.
Import ListNotations.
Open Scope R_scope.

(** [Line::GetClosestPoint], [GetDistanceToPoint] and [GetT], Line.cpp:52-69; for a direction that is not zero. *)
Definition line_closest (pos dir p : vec3) : vec3 := vsub pos (vscale (/ vdot dir dir) (vscale (vdot (vsub pos p) dir) dir)).
Definition line_distance (pos dir p : vec3) : vec3 :=
  let n := vnormalize dir in let q := vsub p pos in vsub q (vscale (vdot n q) n).
Definition line_t (pos dir p : vec3) : R := vdot (vsub p pos) dir / vdot dir dir.

(** Extended reals: what a float can be when a division by zero has happened. *)
Inductive xr := Fin (r : R) | PInf | NInf | NaN.
(** A finite number times the inverse of the determinant. *)
Definition xmul (r : R) (i : xr) : xr :=
  match i with
  | Fin x => Fin (r * x)
  | PInf => if Rlt_dec 0 r then PInf else if Rlt_dec r 0 then NInf else NaN
  | NInf => if Rlt_dec 0 r then NInf else if Rlt_dec r 0 then PInf else NaN
  | NaN => NaN
  end.
Definition xadd (a b : xr) : xr :=
  match a, b with
  | Fin x, Fin y => Fin (x + y)
  | NaN, _ | _, NaN => NaN
  | PInf, NInf | NInf, PInf => NaN
  | PInf, _ | _, PInf => PInf
  | NInf, _ | _, NInf => NInf
  end.
(** Comparison with <; false when one side is NaN. *)
Definition xlt (a b : xr) : bool :=
  match a, b with
  | Fin x, Fin y => if Rlt_dec x y then true else false
  | NaN, _ | _, NaN => false
  | NInf, NInf | PInf, _ => false
  | NInf, _ | _, PInf => true
  | _, NInf => false
  end.
(** [Line::IntersectsTriangle], Line.cpp:80-126.  EPS is 0, so the test of line 101 never holds.  [zs]: a zero determinant is +0.  None: returns false;
    Some t: returns true with the result t. *)
Definition intersects_triangle (zs : bool) (pos dir a b c : vec3) : option xr :=
  let e1 := vsub b a in
  let e2 := vsub c a in
  let P := vcross dir e2 in
  let det := vdot e1 P in
  if (if Rlt_dec (-0) det then true else false) && (if Rlt_dec det 0 then true else false) then None
  else
    let inv_det := if Req_EM_T det 0 then (if zs then PInf else NInf) else Fin (1 / det) in
    let T := vsub pos a in
    let u := xmul (vdot T P) inv_det in
    if xlt u (Fin 0) || xlt (Fin 1) u then None
    else
      let Q := vcross T e1 in
      let v := xmul (vdot dir Q) inv_det in
      if xlt v (Fin 0) || xlt (Fin 1) (xadd u v) then None
      else
        let t := xmul (vdot e2 Q) inv_det in
        if xlt (Fin 0) t then Some t else None.
(** [Line::IntersectsPrimitive], Line.cpp:130-141; [M] is FLT_MAX.  None: returns false. *)
Definition triangle := (vec3 * vec3 * vec3)%type.
Definition nearest_hit (zs : triangle -> bool) (pos dir : vec3) (M : R) (l : list triangle) : R :=
  fold_left (fun mn tri => let '(a, b, c) := tri in
               match intersects_triangle (zs tri) pos dir a b c with
               | Some (Fin t) => if Rlt_dec t mn then t else mn
               | _ => mn
               end) l M.
Definition intersects_primitive (zs : triangle -> bool) (pos dir : vec3) (M : R) (l : list triangle) : option R :=
  let out := nearest_hit zs pos dir M l in if Rlt_dec out M then Some out else None.

(** Plane.cpp:27-61: position and two directions. *)
Record plane := Plane { p_pos : vec3; p_dir1 : vec3; p_dir2 : vec3 }.
Definition plane_point (p : plane) (u v : R) : vec3 := vadd (vadd (p_pos p) (vscale u (p_dir1 p))) (vscale v (p_dir2 p)).
Definition plane_normal (p : plane) : vec3 := vcross (p_dir1 p) (p_dir2 p).
Definition plane_swapped (p : plane) : plane := Plane (p_pos p) (p_dir2 p) (p_dir1 p).
(** [Helpers::AssertNormalized], Helpers.cpp:124-128, with the default epsilon 0.05; false: throws. *)
Definition assert_normalized (v : vec3) : bool := if Rlt_dec (vdot v v) (1 - 1/20) then false else if Rlt_dec (1 + 1/20) (vdot v v) then false else true.
(** [GetRotationMatrix] and [GetUVW], Plane.cpp:73-97; None: throws. *)
Definition plane_uvw (p : plane) (x : vec3) : option (R * R * R) :=
  if assert_normalized (p_dir1 p) && assert_normalized (p_dir2 p) then
    let d := vsub x (p_pos p) in Some (vdot (p_dir1 p) d, vdot (p_dir2 p) d, vdot (plane_normal p) d)
  else None.
(** [Helpers::GetOrthonormalVectors], Helpers.cpp:35-48: the normalized vector and the two directions; [Plane::FromNormal], Plane.cpp:98-103. *)
Definition orthonormal_vectors (vec : vec3) : vec3 * vec3 * vec3 :=
  let v := vnormalize vec in
  let d := vcross v (Vec 0 0 1) in
  let d := if Rlt_dec (vnorm d) (1/10) then vcross v (Vec 0 1 0) else d in
  let dir1 := vscale (-1) (vnormalize d) in
  (v, dir1, vnormalize (vcross v dir1)).
Definition plane_from_normal (pos n : vec3) : plane := let '(_, d1, d2) := orthonormal_vectors n in Plane pos d1 d2.
(** [Plane::Transform], Plane.cpp:105-108. *)
Definition plane_transform (g : pose) (p : plane) : plane := Plane (vadd (mapply (prot g) (p_pos p)) (ppos g)) (mapply (prot g) (p_dir1 p)) (mapply (prot g) (p_dir2 p)).

(** ImplicitPlane.cpp:28-72. *)
Record iplane := IPlane { ip_n : vec3; ip_d : R }.
Definition iplane_normalize (p : iplane) : iplane := let len := vnorm (ip_n p) in IPlane (Vec (vx (ip_n p) / len) (vy (ip_n p) / len) (vz (ip_n p) / len)) (ip_d p / len).
Definition iplane_flipped (p : iplane) : iplane := IPlane (Vec (- vx (ip_n p)) (- vy (ip_n p)) (- vz (ip_n p))) (- ip_d p).
Definition iplane_closest (p : iplane) (v : vec3) : vec3 :=
  let d := ip_d p - vdot v (ip_n p) in vadd (vscale (/ vdot (ip_n p) (ip_n p)) (vscale d (ip_n p))) v.
Definition from_position_normal (pos n : vec3) : iplane := IPlane n (vdot n pos).
Definition iplane_signed_distance (p : iplane) (x : vec3) : R := vdot (ip_n p) x + ip_d p.
(** [ImplicitPlane::Intersect], ImplicitPlane.cpp:74-92: position and direction of a line. *)
Definition iplane_intersect (p : iplane) (q : plane) : vec3 * vec3 :=
  let n := ip_n p in
  let '(u, v) := if Rlt_dec (Rabs (vdot n (p_dir1 q))) (Rabs (vdot n (p_dir2 q))) then (p_dir2 q, p_dir1 q) else (p_dir1 q, p_dir2 q) in
  (vadd (p_pos q) (vscale ((ip_d p - vdot n (p_pos q)) / vdot n u) u), vsub v (vscale (vdot n v / vdot n u) u)).
(** [ImplicitPlane::Get], ImplicitPlane.cpp:95-98, and [Plane::ToImplicit], Plane.cpp:68-71. *)
Definition iplane_get (p : iplane) (x : vec3) : R := vdot (ip_n p) (vsub x (iplane_closest p x)).
Definition to_implicit (p : plane) : iplane := from_position_normal (p_pos p) (plane_normal p).

(** Triangle.cpp:44-85. *)
Definition tri_normal (t : triangle) : vec3 := let '(a, b, c) := t in vcross (vsub b a) (vsub c a).
Definition tri_flipped (t : triangle) : triangle := let '(a, b, c) := t in (b, a, c).
Definition tri_centroid (t : triangle) : vec3 := let '(a, b, c) := t in vscale (/ 3) (vadd (vadd a b) c).
(** [Subdivide]: a negative depth is treated like 0. *)
Fixpoint subdivide (depth : nat) (t : triangle) : list triangle :=
  match depth with
  | O => [t]
  | S n => let '(a, b, c) := t in let m := vscale (/ 3) (vadd (vadd a b) c) in
           subdivide n (a, b, m) ++ subdivide n (b, c, m) ++ subdivide n (c, a, m)
  end.
Definition tri_transform (center : vec3) (k : R) (t : triangle) : triangle :=
  let '(a, b, c) := t in (vadd (vscale k a) center, vadd (vscale k b) center, vadd (vscale k c) center).
