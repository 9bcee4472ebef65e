(** Vocabulary for lines, planes and triangles. *)
From Coq Require Import Reals List.
From Verif Require Import QuatModel CrvSpec.
Import ListNotations.
Open Scope R_scope.

Definition inner (a b : vec3) : R := vx a * vx b + vy a * vy b + vz a * vz b.
Definition diff (a b : vec3) : vec3 := Vec (vx a - vx b) (vy a - vy b) (vz a - vz b).
Definition outer (a b : vec3) : vec3 := Vec (vy a * vz b - vz a * vy b) (vz a * vx b - vx a * vz b) (vx a * vy b - vy a * vx b).
Definition origin : vec3 := Vec 0 0 0.
Definition opposite (a : vec3) : vec3 := Vec (- vx a) (- vy a) (- vz a).
Definition times (k : R) (a : vec3) : vec3 := Vec (k * vx a) (k * vy a) (k * vz a).
Definition is_unit (a : vec3) : Prop := inner a a = 1.
(** The point at parameter [t] of a line, and that a point is on a line. *)
Definition at_line (pos dir : vec3) (t : R) : vec3 := Vec (vx pos + t * vx dir) (vy pos + t * vy dir) (vz pos + t * vz dir).
Definition on_line (pos dir x : vec3) : Prop := exists t, x = at_line pos dir t.
(** The plane through [pos] spanned by two directions, and the plane with normal [n] and offset [d]. *)
Definition span_point (pos a b : vec3) (u v : R) : vec3 := Vec (vx pos + u * vx a + v * vx b) (vy pos + u * vy a + v * vy b) (vz pos + u * vz a + v * vz b).
Definition on_span (pos a b x : vec3) : Prop := exists u v, x = span_point pos a b u v.
Definition on_plane (n : vec3) (d : R) (x : vec3) : Prop := inner n x = d.
(** The points of a triangle. *)
Definition in_triangle (a b c x : vec3) : Prop :=
  exists s t u, 0 <= s /\ 0 <= t /\ 0 <= u /\ s + t + u = 1 /\
    x = Vec (s * vx a + t * vx b + u * vx c) (s * vy a + t * vy b + u * vy c) (s * vz a + t * vz b + u * vz c).
(** The ray from [pos] meets the triangle at parameter [t]. *)
Definition meets (pos dir a b c : vec3) (t : R) : Prop := 0 < t /\ in_triangle a b c (at_line pos dir t).
(** The line is parallel to the plane of the triangle, or the triangle is degenerate. *)
Definition parallel (dir a b c : vec3) : Prop := inner dir (outer (diff b a) (diff c a)) = 0.
(** Twice the area of a triangle. *)
Definition area2 (a b c : vec3) : R := sqrt (inner (outer (diff b a) (diff c a)) (outer (diff b a) (diff c a))).
