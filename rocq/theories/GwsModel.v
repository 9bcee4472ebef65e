(** Model of the grasp quality measures: VirtualRobot/Grasping/BasicGraspQualityMeasure.cpp, GraspPlanning/ContactConeGenerator.cpp,
    GraspPlanning/GraspQuality/GraspQualityMeasure(WrenchSpace).cpp and the six-dimensional ConvexHullGenerator::CreateConvexHull.
    Numbers are real numbers (rounding is left out).  The qhull library is an argument: a function from points to the facets and
    vertices it reports, or nothing when it ends with an error.  The random choice of object points is an argument as well. *)
From Coq Require Import Reals List Lra Arith.
From Verif Require Import QuatModel QuatSpec.
Import ListNotations.
Open Scope R_scope.

(** [MathTools::ContactPoint], MathTools.h:393-398. *)
Record contact := Contact { c_p : vec3; c_n : vec3; c_force : R }.
(** [EndEffector::ContactInfo], EndEffector.h:41-54 (the fields the measures read). *)
Record info := Info { finger_local : vec3; obstacle_local : vec3; finger_global : vec3; obstacle_global : vec3; approach : vec3 }.

Definition vadd (a b : vec3) : vec3 := Vec (vx a + vx b) (vy a + vy b) (vz a + vz b).
Definition vneg (a : vec3) : vec3 := Vec (- vx a) (- vy a) (- vz a).
Definition vsub (a b : vec3) : vec3 := Vec (vx a - vx b) (vy a - vy b) (vz a - vz b).
Definition v0 : vec3 := Vec 0 0 0.

(** The constructor of the cone generator: the angle and the rim points, ContactConeGenerator.cpp:28-47. *)
Definition rim (samples : nat) (mu unit_force : R) (i : nat) : vec3 :=
  Vec (unit_force * (cos (atan mu) * cos (INR i * 2 * PI / INR samples)))
      (unit_force * (cos (atan mu) * sin (INR i * 2 * PI / INR samples)))
      (unit_force * cos (atan mu)).

(** [computeConePoints], ContactConeGenerator.cpp:54-107: what is appended for one contact. *)
Definition cone_points (samples : nat) (mu unit_force : R) (c : contact) : list contact :=
  let t := to_mat (get_rotation (Vec 0 0 1) (c_n c)) in
  map (fun i =>
    let cp := mapply t (vscale (c_force c) (rim samples mu unit_force i)) in
    Contact (vadd cp (c_p c)) (vnormalize cp) (c_force c)) (seq 0 samples).

(** A wrench: the fields [p] and [n] of a ContactPoint in the wrench space. *)
Definition wrench : Type := (vec3 * vec3)%type.

(** [createWrenchPoints] (with the centre at the origin, as calculateConvexHull calls it), GraspQualityMeasureWrenchSpace.cpp:171-241. *)
Definition factor (len : R) : R := if Req_EM_T len 0 then 1 else 2 / (len / 1000).
Definition wrench_point (len : R) (c : contact) : wrench :=
  (c_n c, vscale (factor len) (vcross (vsub (c_p c) v0) (vneg (c_n c)))).

Definition wzero : wrench := (v0, v0).
Definition wadd (a b : wrench) : wrench := (vadd (fst a) (fst b), vadd (snd a) (snd b)).
Definition wscale (k : R) (a : wrench) : wrench := (vscale k (fst a), vscale k (snd a)).
Definition wdot (a b : wrench) : R := vdot (fst a) (fst b) + vdot (snd a) (snd b).

(** What qhull reports: facets with normal, offset and vertices, the vertices of the hull, and the volume. *)
Record facet := Facet { f_normal : wrench; f_offset : R; f_verts : list wrench }.
Record answer := Answer { a_facets : list facet; a_verts : list wrench; a_volume : R }.
(** [TriangleFace6D] and [ConvexHull6D], MathTools.h:460-471, 660-666 (the fields that are read). *)
Record face := Face { dist_plane_zero : R; dist_norm_center : R }.
Record hull := Hull { h_verts : list wrench; h_faces : list face; h_volume : R; h_center : wrench }.

(** [CreateConvexHull], ConvexHullGenerator.cpp:288-518.  [qh_distplane] and [qh_distnorm] are the offset plus the scalar product
    with the normal.  A failed call leaves the new hull without vertices and faces (its volume and centre are then not read). *)
Definition no_hull : hull := Hull [] [] 0 wzero.
Definition mean (l : list wrench) : wrench :=
  let s := fold_left wadd l wzero in
  if (0 <? length l)%nat then wscale (/ INR (length l)) s else s.
Definition create_hull (qh : list wrench -> option answer) (pts : list wrench) : hull :=
  if (length pts <? 4)%nat then no_hull
  else match qh pts with
       | None => no_hull
       | Some a =>
           let c := mean (a_verts a) in
           Hull (flat_map (fun f => firstn 6 (f_verts f)) (a_facets a))
                (map (fun f => Face (f_offset f) (f_offset f + wdot (f_normal f) c)) (a_facets a))
                (a_volume a) c
       end.

(** [minOffset], GraspQualityMeasureWrenchSpace.cpp:398-426. *)
Definition flt_max : R := (2 - / 2 ^ 23) * 2 ^ 127.
Definition min_offset (h : hull) : R :=
  fold_left (fun res f => if Rlt_dec 0 (dist_norm_center f) then res
                          else if Rlt_dec (- dist_norm_center f) res then - dist_norm_center f else res) (h_faces h) flt_max.
(** The loop of [isOriginInGWSHull], GraspQualityMeasureWrenchSpace.cpp:384-393. *)
Definition origin_inside (h : hull) : bool :=
  forallb (fun f => if Rlt_dec (1 / 10000) (dist_plane_zero f) then false else true) (h_faces h).

(** The measure: the fixed parameters (object and cone) and the fields that change. *)
Record params := Params { p_samples : nat; p_mu : R; p_unit : R; p_length : R; p_center : vec3; p_qhull : list wrench -> option answer }.
Record measure := Measure { contacts : list contact (* contactPoints *); contacts_m : list contact (* contactPointsM *);
  gws_done : bool; gws : option hull; ows_done : bool; ows_offset : R; ows_volume : R }.
(** The constructors, BasicGraspQualityMeasure.cpp:19-50, GraspQualityMeasureWrenchSpace.cpp:32-39. *)
Definition fresh : measure := Measure [] [] false None false 0 0.

(** [convertMM2M], MathTools.cpp:856-864. *)
Definition mm2m (c : contact) : contact := Contact (vscale (1 / 1000) (c_p c)) (c_n c) (c_force c).

(** [setContactPoints(vector<ContactPoint>)], BasicGraspQualityMeasure.cpp:73-95, GraspQualityMeasureWrenchSpace.cpp:45-49: the loop
    runs over the member that has just been cleared; the argument has no name. *)
Definition of_point (ps : params) (c : contact) : contact := Contact (vsub (c_p c) (p_center ps)) (vnormalize (c_n c)) 1.
Definition set_points (ps : params) (arg : list contact) (m : measure) : measure :=
  let cleared := @nil contact in
  let l := map (of_point ps) cleared in
  Measure l (map mm2m l) false (gws m) (ows_done m) (ows_offset m) (ows_volume m).

(** [setContactPoints(ContactInfoVector)], BasicGraspQualityMeasure.cpp:97-135, GraspQualityMeasureWrenchSpace.cpp:51-55. *)
Definition of_info (ps : params) (i : info) : contact :=
  let g := vsub (obstacle_global i) (finger_global i) in
  Contact (vsub (obstacle_local i) (p_center ps)) (vnormalize (vsub (finger_local i) (obstacle_local i)))
    (if Rlt_dec (1 / 10 ^ 10) (vnorm g) then vdot g (approach i) / vnorm g else 0).
Definition set_infos (ps : params) (arg : list info) (m : measure) : measure :=
  let l := map (of_info ps) arg in
  Measure l (map mm2m l) false (gws m) (ows_done m) (ows_offset m) (ows_volume m).

(** [calculateConvexHull] of the cones of some contacts, GraspQualityMeasureWrenchSpace.cpp:147-158, 171-191. *)
Definition wrench_points (ps : params) (l : list contact) : list wrench :=
  map (wrench_point (p_length ps)) (flat_map (cone_points (p_samples ps) (p_mu ps) (p_unit ps)) l).
(** [calculateGWS], GraspQualityMeasureWrenchSpace.cpp:127-169. *)
Definition calc_gws (ps : params) (m : measure) : measure :=
  match contacts_m m with
  | [] => m
  | l => Measure (contacts m) l true (Some (create_hull (p_qhull ps) (wrench_points ps l))) (ows_done m) (ows_offset m) (ows_volume m)
  end.
Definition ensure_gws (ps : params) (m : measure) : measure := if gws_done m then m else calc_gws ps m.

(** [isGraspForceClosure] and [isOriginInGWSHull], GraspQualityMeasureWrenchSpace.cpp:65-73, 375-394. *)
Definition force_closure (ps : params) (m : measure) : bool * measure :=
  let m := ensure_gws ps m in
  (if gws_done m then match gws m with Some h => origin_inside h | None => false end else false, m).

(** [sampleObjectPoints], GraspQualityMeasure.cpp:35-88, from the triangles drawn at random: the middle of a triangle and its normal. *)
Definition of_triangle (ps : params) (t : vec3 * vec3) : contact :=
  Contact (vsub (fst t) (p_center ps)) (vscale (p_unit ps) (vnormalize (snd t))) 1.
(** [calculateOWS], GraspQualityMeasureWrenchSpace.cpp:75-125. *)
Definition calc_ows (ps : params) (sample : list (vec3 * vec3)) (m : measure) : measure :=
  match sample with
  | [] => m
  | _ => let h := create_hull (p_qhull ps) (wrench_points ps (map mm2m (map (of_triangle ps) sample))) in
         Measure (contacts m) (contacts_m m) (gws_done m) (gws m) true (min_offset h) (h_volume h)
  end.
(** [preCalculatedOWS], GraspQualityMeasureWrenchSpace.cpp:457-462. *)
Definition precalculated (offset volume : R) (m : measure) : measure :=
  Measure (contacts m) (contacts_m m) (gws_done m) (gws m) true offset volume.

(** [getGraspQuality], [calculateObjectProperties], [calculateGraspQuality], GraspQualityMeasureWrenchSpace.cpp:58-63, 464-518. *)
Definition quality (ps : params) (sample : list (vec3 * vec3)) (m : measure) : R * measure :=
  let m := if ows_done m then m else calc_ows ps sample m in
  let m := ensure_gws ps m in
  (match gws m with
   | None => 0
   | Some h =>
       if (length (h_verts h) =? 0)%nat then 0
       else if Rle_dec (ows_offset m) 0 then 0
       else if Rle_dec (h_volume h) 0 then 0
       else if Req_EM_T (ows_offset m) 0 then min_offset h else min_offset h / ows_offset m
   end, m).

(** [getVolumeGraspMeasure], GraspQualityMeasureWrenchSpace.cpp:428-455. *)
Definition volume_measure (ps : params) (m : measure) : R * measure :=
  let m := ensure_gws ps m in
  (match gws m with
   | None => 0
   | Some h =>
       if (length (h_verts h) =? 0)%nat then 0
       else if Rle_dec (ows_volume m) 0 then 0
       else if Rle_dec (h_volume h) 0 then 0
       else if Rlt_dec (1 / 10 ^ 10) (ows_volume m) then h_volume h / ows_volume m else h_volume h
   end, m).

(** [getGraspQuality] and [calculateGraspQuality] of the basic measure, BasicGraspQualityMeasure.cpp:52-68 ([maxContacts] is 5). *)
Definition basic_quality (m : measure) : R :=
  let q := INR (length (contacts m)) / 5 in if Rlt_dec 1 q then 1 else q.
