(** Vocabulary for C67-C70: distances, segments, boxes and convex hulls; [side] (on which side of the plane through q with normal n a point
    lies), [within] and [image] are those of C37. *)
From Coq Require Import Reals List.
From Verif Require Import QuatModel RpyModel BBoxSpec PlaneModel.
Import ListNotations.
Open Scope R_scope.

Definition dist3 (a b : vec3) : R := sqrt ((vx a - vx b) * (vx a - vx b) + (vy a - vy b) * (vy a - vy b) + (vz a - vz b) * (vz a - vz b)).
Definition dist2 (a b : R * R) : R := sqrt ((fst a - fst b) * (fst a - fst b) + (snd a - snd b) * (snd a - snd b)).
(** The point that divides the way from a to b as t to 1 - t. *)
Definition between (t : R) (a b : vec3) : vec3 :=
  Vec ((1 - t) * vx a + t * vx b) ((1 - t) * vy a + t * vy b) ((1 - t) * vz a + t * vz b).
Definition on_segment (a b x : vec3) : Prop := exists t, 0 <= t <= 1 /\ x = between t a b.
(** The straight line through p in direction d. *)
Definition on_line (p d x : vec3) : Prop := exists t, x = Vec (vx p + t * vx d) (vy p + t * vy d) (vz p + t * vz d).
(** The points of a box placed by a pose. *)
Definition in_box (b : oobb) (x : vec3) : Prop := exists q, within (bb_min b) (bb_max b) q /\ x = image (bb_pose b) q.
(** The corners of a box. *)
Definition is_corner (b : oobb) (x : vec3) : Prop :=
  exists q, (vx q = vx (bb_min b) \/ vx q = vx (bb_max b)) /\ (vy q = vy (bb_min b) \/ vy q = vy (bb_max b)) /\
            (vz q = vz (bb_min b) \/ vz q = vz (bb_max b)) /\ x = image (bb_pose b) q.
(** The convex hull: the least set with the given points that contains with two points all points between them. *)
Inductive in_hull (pts : list vec3) : vec3 -> Prop :=
| hull_point : forall x, In x pts -> in_hull pts x
| hull_between : forall t x y, 0 <= t <= 1 -> in_hull pts x -> in_hull pts y -> in_hull pts (between t x y).
(** Any two points at different places of the list are further apart than e. *)
Definition spread (e : R) (pts : list vec3) : Prop :=
  forall i j x y, nth_error pts i = Some x -> nth_error pts j = Some y -> i <> j -> e < dist3 x y.
