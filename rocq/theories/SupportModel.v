(** Model of the contacts of an object with a plane (VirtualRobot/CollisionDetection/CollisionChecker.cpp, getContacts) and of the
    support polygon (VirtualRobot/IK/SupportPolygon.cpp), over the real numbers; the convex hull and its inside test are those of
    HullModel.v, whose coordinates are whole multiples of a unit.  Rounding is left out. *)
From Coq Require Import Reals List Bool ZArith.
From Verif Require Import QuatModel QuatSpec RpyModel KinModel BBoxModel PlaneModel.
From Verif Require HullModel.
Import ListNotations.
Open Scope R_scope.

(** What getContacts uses of a CollisionModel: bbox and globalPose (CollisionModel.h) and the vertices of its TriMeshModel. *)
Record colmodel := ColModel { cm_box : box; cm_pose : pose; cm_vertices : list vec3 }.
(** getModelVeticesGlobal, CollisionModel.cpp 209-230: the matrix t is kept from one round to the next. *)
Fixpoint vertices_loop (g t : pose) (vs : list vec3) : list vec3 :=
  match vs with
  | [] => []
  | v :: vs => let t := pmul g (Pose (prot t) v) in ppos t :: vertices_loop g t vs
  end.
Definition vertices_global (m : colmodel) : list vec3 := vertices_loop (cm_pose m) pid (cm_vertices m).

(** ContactPoint, MathTools.h 393-398; getContacts does not set the force. *)
Record contact := Contact { ct_p : vec3; ct_n : vec3 }.
(** The enlarged box, CollisionChecker.cpp 758-761. *)
Definition enlarge (b : box) (d : R) : box :=
  Box (V (nsub (c0 (bmin b)) (Some d)) (nsub (c1 (bmin b)) (Some d)) (nsub (c2 (bmin b)) (Some d)))
      (V (nadd (c0 (bmax b)) (Some d)) (nadd (c1 (bmax b)) (Some d)) (nadd (c2 (bmax b)) (Some d))).
(** A vector of a plane as the bounding box code sees it. *)
Definition vec_of (v : vec3) : vec := point (vx v) (vy v) (vz v).
(** The exception, the access outside the vector in planeGoesThrough, or the vector of contacts. *)
Inductive result (A : Type) := Throws | Outside | Done (a : A).
Arguments Throws {A}. Arguments Outside {A}. Arguments Done {A} a.
(** getContacts, CollisionChecker.cpp 753-790. *)
Definition get_contacts (p : plane) (m : option colmodel) (store : list contact) (max_dist : R) : result (list contact) :=
  match m with
  | None => Throws
  | Some m =>
      let b := of_points (map (move (cm_pose m)) (get_points (enlarge (cm_box m) max_dist))) in
      match plane_goes_through b (vec_of (pl_p p)) (vec_of (pl_n p)) with
      | None => Outside
      | Some false => Done store
      | Some true =>
          Done (store ++ map (fun x => Contact x (pl_n p))
                             (filter (fun x => if Rle_dec (plane_dist x p) max_dist then true else false) (vertices_global m)))
      end
  end.

(** The constructor of SupportPolygon, SupportPolygon.cpp 9-25: the collision models of the objects that have one. *)
Definition support_models (objects : list (option colmodel)) : option (list colmodel) :=
  match flat_map (fun o => match o with Some m => [m] | None => [] end) objects with
  | [] => None
  | ms => Some ms
  end.
(** The loop over the models, 33-37. *)
Fixpoint all_contacts (ms : list colmodel) (store : list contact) (max_dist : R) : result (list contact) :=
  match ms with
  | [] => Done store
  | m :: ms =>
      match get_contacts floor_plane (Some m) store max_dist with
      | Done store => all_contacts ms store max_dist
      | r => r
      end
  end.
(** updateSupportPolygon, 27-59: currentContactPoints2D and the new polygon.  [grid] gives a position in units. *)
Definition update_polygon (eps : Z) (grid : R * R -> HullModel.pt) (ms : list colmodel) (max_dist : R) : result (list HullModel.pt * option (list HullModel.pt)) :=
  match all_contacts ms [] max_dist with
  | Done cs =>
      let pts := HullModel.sort_points eps (map (fun c => grid (project2 (ct_p c) floor_plane)) cs) in
      Done (pts, if (length pts <? 3)%nat then None else HullModel.hull_vertices eps pts)
  | Throws => Throws
  | Outside => Outside
  end.

(** A Vector2f given in units. *)
Definition real_point (p : HullModel.pt) : R * R := (IZR (fst p), IZR (snd p)).
(** Vector2f::normalize. *)
Definition normalize2 (v : R * R) : R * R :=
  let n := sqrt (fst v * fst v + snd v * snd v) in if Rlt_dec 0 n then (fst v / n, snd v / n) else v.
(** getSquaredDistLine, 72-83. *)
Definition sq_dist_line (p a b : R * R) : R :=
  let lp := (fst p - fst a, snd p - snd a) in
  let dir := normalize2 (fst b - fst a, snd b - snd a) in
  let lambda := fst dir * fst lp + snd dir * snd lp in
  let q := (fst a + lambda * fst dir, snd a + lambda * snd dir) in
  (fst q - fst p) * (fst q - fst p) + (snd q - snd p) * (snd q - snd p).
(** getConvexHullCenter, MathTools.cpp 1879-1917: the loop keeps minPos and maxPos. *)
Definition stretch (b : HullModel.pt * HullModel.pt) (v : HullModel.pt) : HullModel.pt * HullModel.pt :=
  let (l, h) := b in
  ((if (fst v <? fst l)%Z then fst v else fst l, if (snd v <? snd l)%Z then snd v else snd l),
   (if (fst h <? fst v)%Z then fst v else fst h, if (snd h <? snd v)%Z then snd v else snd h)).
Definition hull_center (vs : list HullModel.pt) : R * R :=
  match vs with
  | [] => (0, 0)
  | v :: vs => let (l, h) := fold_left stretch vs (v, v) in ((IZR (fst l) + IZR (fst h)) * / 2, (IZR (snd l) + IZR (snd h)) * / 2)
  end.
(** The end points of round i of the loop, 121-132. *)
Definition edge (vs : list HullModel.pt) (i : nat) : (R * R) * (R * R) :=
  (real_point (nth (if (i =? 0)%nat then length vs - 1 else i - 1)%nat vs (0, 0)%Z), real_point (nth i vs (0, 0)%Z)).
(** The variable minDistCenter or minDistCoM after the loop, 117-154; [big] is FLT_MAX in squared units. *)
Definition min_dist (big : R) (vs : list HullModel.pt) (p : R * R) : R :=
  fold_left (fun m e => let d := sq_dist_line p (fst e) (snd e) in if Rlt_dec d m then d else m) (map (edge vs) (seq 0 (length vs))) big.
(** getStabilityIndex, 86-175, for the polygon of the last update: [com] is the projected centre of mass, None for a missing node
    set; [tol] is the bound 1e-8 in units.  None is an access outside the vertices in isInside. *)
Definition stability_index (tol big : R) (com : option HullModel.pt) (ch : option (list HullModel.pt)) : option R :=
  match com with
  | None => Some 0
  | Some com =>
      match ch with
      | None => Some 0
      | Some vs =>
          if (length vs <? 2)%nat then Some 0
          else match HullModel.is_inside com vs with
          | None => None
          | Some false => Some 0
          | Some true =>
              let dc := sqrt (min_dist big vs (hull_center vs)) in
              let dm := sqrt (min_dist big vs (real_point com)) in
              let res := if Rlt_dec tol (Rabs dc) then dm / dc else 0 in
              Some (if Rlt_dec 1 res then 1 else res)
          end
      end
  end.
