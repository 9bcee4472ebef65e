(** Model of the geometry of PQP's collision query: the fitting of an oriented box to triangles
    (PQP++/Build.cpp, PQP++/BV.cpp), the overlap test of two boxes (PQP++/OBB_Disjoint.h), the contact test of two
    triangles and the transformations of the traversal (PQP++/PQP.cpp), and
    [CollisionCheckerPQP::checkCollision] (CollisionCheckerPQP.cpp) on top of the traversal of PqpModel and the
    construction of PqpBuildModel.  Numbers are real numbers: float rounding is not modelled.  Not modelled: the RSS
    volumes (distance queries only). *)
From Coq Require Import List ZArith QArith Reals Bool PeanoNat.
From Verif Require Import PqpModel PqpBuildModel.
Import ListNotations.
Open Scope R_scope.

(** Comparisons. *)
Definition rlt (x y : R) : bool := if Rlt_dec x y then true else false.
Definition rle (x y : R) : bool := negb (rlt y x).

(** [PQP_REAL[3]] and [PQP_REAL[3][3]]. *)
Record vec := V3 { vx : R; vy : R; vz : R }.
Record mat := M33 { m00 : R; m01 : R; m02 : R; m10 : R; m11 : R; m12 : R; m20 : R; m21 : R; m22 : R }.

(** MatVec.h:134-148. *)
Definition midentity : mat := M33 1 0 0 0 1 0 0 0 1.
Definition videntity : vec := V3 0 0 0.
(** [McolcV], MatVec.h:189-196; columns 0, 1, 2. *)
Definition col0 (m : mat) : vec := V3 (m00 m) (m10 m) (m20 m).
Definition col1 (m : mat) : vec := V3 (m01 m) (m11 m) (m21 m).
Definition col2 (m : mat) : vec := V3 (m02 m) (m12 m) (m22 m).
(** [MxM], MatVec.h:249-280. *)
Definition mxm (a b : mat) : mat := M33
  (m00 a * m00 b + m01 a * m10 b + m02 a * m20 b) (m00 a * m01 b + m01 a * m11 b + m02 a * m21 b) (m00 a * m02 b + m01 a * m12 b + m02 a * m22 b)
  (m10 a * m00 b + m11 a * m10 b + m12 a * m20 b) (m10 a * m01 b + m11 a * m11 b + m12 a * m21 b) (m10 a * m02 b + m11 a * m12 b + m12 a * m22 b)
  (m20 a * m00 b + m21 a * m10 b + m22 a * m20 b) (m20 a * m01 b + m21 a * m11 b + m22 a * m21 b) (m20 a * m02 b + m21 a * m12 b + m22 a * m22 b).
(** [MTxM], MatVec.h:316-347. *)
Definition mtxm (a b : mat) : mat := M33
  (m00 a * m00 b + m10 a * m10 b + m20 a * m20 b) (m00 a * m01 b + m10 a * m11 b + m20 a * m21 b) (m00 a * m02 b + m10 a * m12 b + m20 a * m22 b)
  (m01 a * m00 b + m11 a * m10 b + m21 a * m20 b) (m01 a * m01 b + m11 a * m11 b + m21 a * m21 b) (m01 a * m02 b + m11 a * m12 b + m21 a * m22 b)
  (m02 a * m00 b + m12 a * m10 b + m22 a * m20 b) (m02 a * m01 b + m12 a * m11 b + m22 a * m21 b) (m02 a * m02 b + m12 a * m12 b + m22 a * m22 b).
(** [MxV], [MxVpV], [MTxV], MatVec.h:349-381, 402-415. *)
Definition mxv (m : mat) (v : vec) : vec := V3
  (m00 m * vx v + m01 m * vy v + m02 m * vz v) (m10 m * vx v + m11 m * vy v + m12 m * vz v) (m20 m * vx v + m21 m * vy v + m22 m * vz v).
Definition mtxv (m : mat) (v : vec) : vec := V3
  (m00 m * vx v + m10 m * vy v + m20 m * vz v) (m01 m * vx v + m11 m * vy v + m21 m * vz v) (m02 m * vx v + m12 m * vy v + m22 m * vz v).
(** [VmV], [VpV], [VcrossV], [VdotV], MatVec.h:448-464, 489-496, 515-520. *)
Definition vmv (a b : vec) : vec := V3 (vx a - vx b) (vy a - vy b) (vz a - vz b).
Definition vpv (a b : vec) : vec := V3 (vx a + vx b) (vy a + vy b) (vz a + vz b).
Definition vcross (a b : vec) : vec := V3 (vy a * vz b - vz a * vy b) (vz a * vx b - vx a * vz b) (vx a * vy b - vy a * vx b).
Definition vdot (a b : vec) : R := vx a * vx b + vy a * vy b + vz a * vz b.
Definition mxvpv (m : mat) (v t : vec) : vec := vpv (mxv m v) t.

(** The corners of [struct Tri], Tri.h. *)
Record tri3 := T3 { p1 : vec; p2 : vec; p3 : vec }.

Section Fit.
(** The test [fabs(d) + g == fabs(d)] of Meigen, MatVec.h:961-962, 970: [g] is negligible beside [d].  Its answer
    depends on float rounding; it is a parameter. *)
Variable negligible : R -> R -> bool.

(** The working variables of [Meigen], MatVec.h:907-1030: the upper triangle of [a], [d], [z], [v]. *)
Record jacobi := Jacobi { j01 : R; j02 : R; j12 : R; jd : vec; jz : vec; jv : mat }.

(** [ROTATE], MatVec.h:903. *)
Definition rot (s tau g h : R) : R * R := (g - s * (h + g * tau), h + s * (g - h * tau)).

(** The decision for one off-diagonal element, MatVec.h:958-966: set it to zero, leave it or rotate by [t],
    MatVec.h:968-983. *)
Inductive action := Clear | Leave | Rotate (t : R).
Definition decide (late : bool) (tresh apq dp dq : R) : action :=
  let g := 100 * Rabs apq in
  if late && negligible dp g && negligible dq g then Clear
  else if rlt tresh (Rabs apq) then
    let h := dq - dp in
    Rotate (if negligible h g then apq / h
            else let theta := 1 / 2 * h / apq in
                 let t := 1 / (Rabs theta + sqrt (1 + theta * theta)) in
                 if rlt theta 0 then - t else t)
  else Leave.

(** [c], [s], [tau], MatVec.h:985-987. *)
Definition jc (t : R) : R := 1 / sqrt (1 + t * t).
Definition js (t : R) : R := t * jc t.
Definition jtau (t : R) : R := js t / (1 + jc t).

(** The bodies of the double loop for (0,1), (0,2), (1,2), MatVec.h:956-1017: the update of [d], [z] and [a], and
    the rotation of two columns of [v]. *)
Definition pivot01 (late : bool) (tresh : R) (st : jacobi) : jacobi :=
  match decide late tresh (j01 st) (vx (jd st)) (vy (jd st)) with
  | Clear => Jacobi 0 (j02 st) (j12 st) (jd st) (jz st) (jv st)
  | Leave => st
  | Rotate t =>
      let h := t * j01 st in let r := rot (js t) (jtau t) in let v := jv st in
      Jacobi 0 (fst (r (j02 st) (j12 st))) (snd (r (j02 st) (j12 st)))
        (V3 (vx (jd st) - h) (vy (jd st) + h) (vz (jd st))) (V3 (vx (jz st) - h) (vy (jz st) + h) (vz (jz st)))
        (M33 (fst (r (m00 v) (m01 v))) (snd (r (m00 v) (m01 v))) (m02 v)
             (fst (r (m10 v) (m11 v))) (snd (r (m10 v) (m11 v))) (m12 v)
             (fst (r (m20 v) (m21 v))) (snd (r (m20 v) (m21 v))) (m22 v))
  end.
Definition pivot02 (late : bool) (tresh : R) (st : jacobi) : jacobi :=
  match decide late tresh (j02 st) (vx (jd st)) (vz (jd st)) with
  | Clear => Jacobi (j01 st) 0 (j12 st) (jd st) (jz st) (jv st)
  | Leave => st
  | Rotate t =>
      let h := t * j02 st in let r := rot (js t) (jtau t) in let v := jv st in
      Jacobi (fst (r (j01 st) (j12 st))) 0 (snd (r (j01 st) (j12 st)))
        (V3 (vx (jd st) - h) (vy (jd st)) (vz (jd st) + h)) (V3 (vx (jz st) - h) (vy (jz st)) (vz (jz st) + h))
        (M33 (fst (r (m00 v) (m02 v))) (m01 v) (snd (r (m00 v) (m02 v)))
             (fst (r (m10 v) (m12 v))) (m11 v) (snd (r (m10 v) (m12 v)))
             (fst (r (m20 v) (m22 v))) (m21 v) (snd (r (m20 v) (m22 v))))
  end.
Definition pivot12 (late : bool) (tresh : R) (st : jacobi) : jacobi :=
  match decide late tresh (j12 st) (vy (jd st)) (vz (jd st)) with
  | Clear => Jacobi (j01 st) (j02 st) 0 (jd st) (jz st) (jv st)
  | Leave => st
  | Rotate t =>
      let h := t * j12 st in let r := rot (js t) (jtau t) in let v := jv st in
      Jacobi (fst (r (j01 st) (j02 st))) (snd (r (j01 st) (j02 st))) 0
        (V3 (vx (jd st)) (vy (jd st) - h) (vz (jd st) + h)) (V3 (vx (jz st)) (vy (jz st) - h) (vz (jz st) + h))
        (M33 (m00 v) (fst (r (m01 v) (m02 v))) (snd (r (m01 v) (m02 v)))
             (m10 v) (fst (r (m11 v) (m12 v))) (snd (r (m11 v) (m12 v)))
             (m20 v) (fst (r (m21 v) (m22 v))) (snd (r (m21 v) (m22 v))))
  end.

(** The loop of [Meigen], MatVec.h:929-1025: [n] iterations left of 50, [i] the counter, [b] the sums.  [None]: "too
    many iterations", the output arguments are left uninitialised. *)
Fixpoint meigen_loop (n i : nat) (b : vec) (st : jacobi) : option (mat * vec) :=
  match n with
  | O => None
  | S n =>
      let sm := Rabs (j01 st) + Rabs (j02 st) + Rabs (j12 st) in
      if Req_EM_T sm 0 then Some (jv st, jd st)
      else
        let tresh := if (i <? 3)%nat then 2 / 10 * sm / 9 else 0 in
        let late := (3 <? i)%nat in
        let st := pivot12 late tresh (pivot02 late tresh (pivot01 late tresh st)) in
        let b := vpv b (jz st) in
        meigen_loop n (S i) b (Jacobi (j01 st) (j02 st) (j12 st) b videntity (jv st))
  end.
(** The bound of the loop, MatVec.h:929. *)
Definition eigen_iterations : nat := 50.
(** [MatVec::Meigen], MatVec.h:905-1030: eigenvectors (columns) and eigenvalues of a symmetric matrix. *)
Definition meigen (a : mat) : option (mat * vec) :=
  let d := V3 (m00 a) (m11 a) (m22 a) in
  meigen_loop eigen_iterations 0 d (Jacobi (m01 a) (m02 a) (m12 a) d videntity midentity).

(** The corners of the triangles in the order of the loops. *)
Definition points (ts : list (tri tri3)) : list vec := flat_map (fun t => [p1 (corners t); p2 (corners t); p3 (corners t)]) ts.
Definition vsum (l : list vec) : vec := fold_left vpv l videntity.
Definition rsum (l : list R) : R := fold_left Rplus l 0.

(** [Builder::get_centroid_triverts], Build.cpp:301-325. *)
Definition centroid (ts : list (tri tri3)) : vec :=
  let n := INR (3 * length ts) in let s := vsum (points ts) in V3 (vx s / n) (vy s / n) (vz s / n).
(** [Builder::get_covariance_triverts], Build.cpp:327-383. *)
Definition covariance (ts : list (tri tri3)) : mat :=
  let n := INR (3 * length ts) in let s := vsum (points ts) in
  let cov f1 f2 := rsum (map (fun p => f1 p * f2 p) (points ts)) - f1 s * f2 s / n in
  M33 (cov vx vx) (cov vx vy) (cov vx vz) (cov vx vy) (cov vy vy) (cov vy vz) (cov vx vz) (cov vy vz) (cov vz vz).

(** The column of [E] with the index chosen for max or mid. *)
Definition col (k : nat) (m : mat) : vec := match k with O => col0 m | S O => col1 m | _ => col2 m end.
Definition comp (k : nat) (v : vec) : R := match k with O => vx v | S O => vy v | _ => vz v end.
(** "place axes of E in order of increasing s", Build.cpp:471-499: (mid, max). *)
Definition order_axes (s : vec) : nat * nat :=
  let '(mx, mn) := if rlt (vy s) (vx s) then (0, 1)%nat else (1, 0)%nat in
  if rlt (vz s) (comp mn s) then (mn, mx)
  else if rlt (comp mx s) (vz s) then (mx, 2%nat)
  else (2%nat, mx).
(** The columns of [R], Build.cpp:501-505. *)
Definition frame (e : mat) (s : vec) : mat :=
  let '(mid, mx) := order_axes s in
  let a := col mx e in let b := col mid e in
  M33 (vx a) (vx b) (vy a * vz b - vy b * vz a) (vy a) (vy b) (vx b * vz a - vx a * vz b) (vz a) (vz b) (vx a * vy b - vx b * vy a).

(** [struct BV] without the RSS members, BV.h:53-66. *)
Record obb := Obb { o_R : mat; o_To : vec; o_d : vec }.

(** The loop over the projected points, BV.cpp:85-117: minimum and maximum of one coordinate. *)
Fixpoint extent (l : list R) (mn mx : R) : R * R :=
  match l with
  | [] => (mn, mx)
  | x :: l => if rlt x mn then extent l x mx else if rlt mx x then extent l mn x else extent l mn mx
  end.
Definition extent_of (l : list R) : R * R := match l with [] => (0, 0) | x :: l => extent l x x end.

(** [BV::FitToTris], BV.cpp:54-128, the oriented box. *)
Definition fit_to_tris (r : mat) (ts : list (tri tri3)) : obb :=
  let P := map (mtxv r) (points ts) in
  let '(minx, maxx) := extent_of (map vx P) in
  let '(miny, maxy) := extent_of (map vy P) in
  let '(minz, maxz) := extent_of (map vz P) in
  let c := V3 (1 / 2 * (maxx + minx)) (1 / 2 * (maxy + miny)) (1 / 2 * (maxz + minz)) in
  Obb r (mxv r c) (V3 (1 / 2 * (maxx - minx)) (1 / 2 * (maxy - miny)) (1 / 2 * (maxz - minz))).

(** The matrix that [build_recurse] passes to [FitToTris], Build.cpp:450-509; [junk] is the uninitialised content of E
    and s when [Meigen] gives up. *)
Variable junk : mat * vec.
Definition eigen (ts : list (tri tri3)) : mat * vec := match meigen (covariance ts) with Some r => r | None => junk end.
Definition axes_of (ts : list (tri tri3)) : mat := let '(e, s) := eigen ts in frame e s.

(** "x <= c" in [split_tris], Build.cpp:409-415, with the axis and coordinate of Build.cpp:526-533. *)
Definition split_below (ts : list (tri tri3)) (t : tri tri3) : bool :=
  let axis := col0 (axes_of ts) in
  rle (vdot (vpv (vpv (p1 (corners t)) (p2 (corners t))) (p3 (corners t))) axis / 3) (vdot axis (centroid ts)).

(** "make self parent relative", Build.cpp:592-601. *)
Definition parent_relative (parent v : obb) : obb :=
  Obb (mtxm (o_R parent) (o_R v)) (mtxv (o_R parent) (vmv (o_To v) (o_To parent))) (o_d v).

(** The arguments of the construction of PqpBuildModel; the root's parent is the identity, Build.cpp:618-620. *)
Definition obb_builder : builder obb tri3 :=
  Builder (fun ts => fit_to_tris (axes_of ts) ts) split_below parent_relative (Obb midentity videntity videntity).
End Fit.

(** [OBB_Processor::obb_disjoint], OBB_Disjoint.h:64-268: 0 if no test separates the boxes, else the number of the
    test. *)
Definition obb_disjoint (B : mat) (T a b : vec) : nat :=
  let reps := 1 / 1000000 in
  let f x := Rabs x + reps in
  let over s x := rlt x (Rabs s) in
  if over (vx T) (vx a + vx b * f (m00 B) + vy b * f (m01 B) + vz b * f (m02 B)) then 1%nat
  else if over (vx T * m00 B + vy T * m10 B + vz T * m20 B) (vx b + vx a * f (m00 B) + vy a * f (m10 B) + vz a * f (m20 B)) then 2%nat
  else if over (vy T) (vy a + vx b * f (m10 B) + vy b * f (m11 B) + vz b * f (m12 B)) then 3%nat
  else if over (vz T) (vz a + vx b * f (m20 B) + vy b * f (m21 B) + vz b * f (m22 B)) then 4%nat
  else if over (vx T * m01 B + vy T * m11 B + vz T * m21 B) (vy b + vx a * f (m01 B) + vy a * f (m11 B) + vz a * f (m21 B)) then 5%nat
  else if over (vx T * m02 B + vy T * m12 B + vz T * m22 B) (vz b + vx a * f (m02 B) + vy a * f (m12 B) + vz a * f (m22 B)) then 6%nat
  else if over (vz T * m10 B - vy T * m20 B) (vy a * f (m20 B) + vz a * f (m10 B) + vy b * f (m02 B) + vz b * f (m01 B)) then 7%nat
  else if over (vz T * m11 B - vy T * m21 B) (vy a * f (m21 B) + vz a * f (m11 B) + vx b * f (m02 B) + vz b * f (m00 B)) then 8%nat
  else if over (vz T * m12 B - vy T * m22 B) (vy a * f (m22 B) + vz a * f (m12 B) + vx b * f (m01 B) + vy b * f (m00 B)) then 9%nat
  else if over (vx T * m20 B - vz T * m00 B) (vx a * f (m20 B) + vz a * f (m00 B) + vy b * f (m12 B) + vz b * f (m11 B)) then 10%nat
  else if over (vx T * m21 B - vz T * m01 B) (vx a * f (m21 B) + vz a * f (m01 B) + vx b * f (m12 B) + vz b * f (m10 B)) then 11%nat
  else if over (vx T * m22 B - vz T * m02 B) (vx a * f (m22 B) + vz a * f (m02 B) + vx b * f (m11 B) + vy b * f (m10 B)) then 12%nat
  else if over (vy T * m00 B - vx T * m10 B) (vx a * f (m10 B) + vy a * f (m00 B) + vy b * f (m22 B) + vz b * f (m21 B)) then 13%nat
  else if over (vy T * m01 B - vx T * m11 B) (vx a * f (m11 B) + vy a * f (m01 B) + vx b * f (m22 B) + vz b * f (m20 B)) then 14%nat
  else if over (vy T * m02 B - vx T * m12 B) (vx a * f (m12 B) + vy a * f (m02 B) + vx b * f (m21 B) + vy b * f (m20 B)) then 15%nat
  else 0%nat.

(** [pqp_max], [pqp_min], PQP.cpp:350-386. *)
Definition max3 (a b c : R) : R := let t := a in let t := if rlt t b then b else t in if rlt t c then c else t.
Definition min3 (a b c : R) : R := let t := a in let t := if rlt b t then b else t in if rlt c t then c else t.

(** [PQP_Checker::project6], PQP.cpp:388-416: false if the projections on [ax] are disjoint. *)
Definition project6 (ax : vec) (p q : tri3) : bool :=
  let P1 := vdot ax (p1 p) in let P2 := vdot ax (p2 p) in let P3 := vdot ax (p3 p) in
  let Q1 := vdot ax (p1 q) in let Q2 := vdot ax (p2 q) in let Q3 := vdot ax (p3 q) in
  if rlt (max3 Q1 Q2 Q3) (min3 P1 P2 P3) then false
  else if rlt (max3 P1 P2 P3) (min3 Q1 Q2 Q3) then false
  else true.

(** The axes of [TriContact] in the order of the tests. *)
Definition contact_axes (p q : tri3) : list vec :=
  let e1 := vmv (p2 p) (p1 p) in let e2 := vmv (p3 p) (p2 p) in let e3 := vmv (p1 p) (p3 p) in
  let f1 := vmv (p2 q) (p1 q) in let f2 := vmv (p3 q) (p2 q) in let f3 := vmv (p1 q) (p3 q) in
  let n1 := vcross e1 e2 in let m1 := vcross f1 f2 in
  [n1; m1; vcross e1 f1; vcross e1 f2; vcross e1 f3; vcross e2 f1; vcross e2 f2; vcross e2 f3; vcross e3 f1; vcross e3 f2; vcross e3 f3;
   vcross e1 n1; vcross e2 n1; vcross e3 n1; vcross f1 m1; vcross f2 m1; vcross f3 m1].
(** [PQP_Checker::TriContact], PQP.cpp:418-595. *)
Definition tri_contact (P Q : tri3) : bool :=
  let s v := vmv v (p1 P) in
  let p := T3 (s (p1 P)) (s (p2 P)) (s (p3 P)) in let q := T3 (s (p1 Q)) (s (p2 Q)) (s (p3 Q)) in
  forallb (fun ax => project6 ax p q) (contact_axes p q).

(** A transformation [R][T]. *)
Record xform := XF { x_R : mat; x_T : vec }.
(** The points of a triangle transformed, PQP.cpp:651-653. *)
Definition move (x : xform) (t : tri3) : tri3 := let f v := mxvpv (x_R x) v (x_T x) in T3 (f (p1 t)) (f (p2 t)) (f (p3 t)).

(** The geometry of the collision query: [rel] is (res->R, res->T); the steps to the children, PQP.cpp:685-741;
    [size] is [BV::GetSize], which only decides which volume is split first.  Distances are not used. *)
Definition obb_geometry (size : obb -> Q) (rel : xform) : geometry obb tri3 unit xform := Geometry
  size
  (fun x c => XF (mtxm (o_R c) (x_R x)) (mtxv (o_R c) (vmv (x_T x) (o_To c))))
  (fun x c => XF (mxm (x_R x) (o_R c)) (mxvpv (x_R x) (o_To c) (x_T x)))
  (fun x v1 v2 => (obb_disjoint (x_R x) (x_T x) (o_d v1) (o_d v2) =? 0)%nat)
  (fun t1 t2 => tri_contact t1 (move rel t2))
  (fun _ _ _ => 0%Q) (fun _ _ => (0%Q, tt)).

(** [PQP_Collide], PQP.cpp:773-797: the relative pose of the models and that of the root volumes. *)
Definition relative_pose (x1 x2 : xform) : xform := XF (mtxm (x_R x1) (x_R x2)) (mtxv (x_R x1) (vmv (x_T x2) (x_T x1))).
Definition start_pose (rel : xform) (v1 v2 : obb) : xform :=
  XF (mtxm (o_R v1) (mxm (x_R rel) (o_R v2))) (mtxv (o_R v1) (vmv (mxvpv (x_R rel) (o_To v2) (x_T rel)) (o_To v1))).

(** [CollisionCheckerPQP::checkCollision], CollisionCheckerPQP.cpp:58-102, on two models at their global poses;
    [PQP_FIRST_CONTACT].  [None]: undefined behaviour or exhausted fuel. *)
Definition check_collision (size : obb -> Q) (fuel : nat) (pose1 pose2 : xform) (o1 o2 : model obb tri3) : option bool :=
  let rel := relative_pose pose1 pose2 in
  match child o1 0, child o2 0 with
  | Some r1, Some r2 =>
      match pqp_collide (obb_geometry size rel) o1 o2 fuel true (start_pose rel (vol r1) (vol r2)) with
      | Some res => Some (negb (length res =? 0)%nat)
      | None => None
      end
  | _, _ => None
  end.
