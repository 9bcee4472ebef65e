(** Points of triangle meshes at poses. *)
From Coq Require Import List Reals.
From Verif Require Import PqpModel PqpBuildModel ObbModel.
Import ListNotations.
Open Scope R_scope.

(** [p] is a point of the triangle: a weighted mean of the corners. *)
Definition in_tri (t : tri3) (p : vec) : Prop :=
  exists a b c, 0 <= a /\ 0 <= b /\ 0 <= c /\ a + b + c = 1 /\
    vx p = a * vx (p1 t) + b * vx (p2 t) + c * vx (p3 t) /\
    vy p = a * vy (p1 t) + b * vy (p2 t) + c * vy (p3 t) /\
    vz p = a * vz (p1 t) + b * vz (p2 t) + c * vz (p3 t).

(** The columns of [m] are orthonormal. *)
Definition orthonormal (m : mat) : Prop :=
  m00 m * m00 m + m10 m * m10 m + m20 m * m20 m = 1 /\
  m01 m * m01 m + m11 m * m11 m + m21 m * m21 m = 1 /\
  m02 m * m02 m + m12 m * m12 m + m22 m * m22 m = 1 /\
  m00 m * m01 m + m10 m * m11 m + m20 m * m21 m = 0 /\
  m00 m * m02 m + m10 m * m12 m + m20 m * m22 m = 0 /\
  m01 m * m02 m + m11 m * m12 m + m21 m * m22 m = 0.

(** The world position of the point [p] of a model at the pose. *)
Definition at_pose (x : xform) (p : vec) : vec := V3
  (m00 (x_R x) * vx p + m01 (x_R x) * vy p + m02 (x_R x) * vz p + vx (x_T x))
  (m10 (x_R x) * vx p + m11 (x_R x) * vy p + m12 (x_R x) * vz p + vy (x_T x))
  (m20 (x_R x) * vx p + m21 (x_R x) * vy p + m22 (x_R x) * vz p + vz (x_T x)).

(** The meshes share a point in the world. *)
Definition meshes_meet (x1 x2 : xform) (tris1 tris2 : list (tri tri3)) : Prop :=
  exists t1 t2 p q, In t1 tris1 /\ In t2 tris2 /\ in_tri (corners t1) p /\ in_tri (corners t2) q /\ at_pose x1 p = at_pose x2 q.

(** The point [p] lies in the box. *)
Definition in_obb (v : obb) (p : vec) : Prop :=
  exists u, Rabs (vx u) <= vx (o_d v) /\ Rabs (vy u) <= vy (o_d v) /\ Rabs (vz u) <= vz (o_d v) /\
    p = at_pose (XF (o_R v) (o_To v)) u.

(** The eigenvector routine converges on the covariance of every selection of the triangles. *)
Definition eigen_converges (negligible : R -> R -> bool) (tris : list (tri tri3)) : Prop :=
  forall ts, ts <> [] -> incl ts tris -> meigen negligible (covariance ts) <> None.

(** The triangle has an area: its edges are not parallel. *)
Definition normal (t : tri3) : vec := vcross (vmv (p2 t) (p1 t)) (vmv (p3 t) (p2 t)).
Definition has_area (t : tri3) : Prop := normal t <> V3 0 0 0.

(** [o] is the model that EndModel makes of the triangles; [junk], [initial]: the content of uninitialised memory. *)
Definition mesh_model (negligible : R -> R -> bool) (junk : mat * vec) (initial : bvol obb) (tris : list (tri tri3)) (o : model obb tri3) : Prop :=
  build_model (obb_builder negligible junk) initial tris = Some o.
