(** Vocabulary for curves. *)
From Coq Require Import Reals List.
From Verif Require Import QuatModel RpyModel JointModel KinModel.
Import ListNotations.
Open Scope R_scope.

(** [d] is the derivative of the curve [f] at [t]. *)
Definition tangent (f : R -> vec3) (t : R) (d : vec3) : Prop :=
  derivable_pt_lim (fun s => vx (f s)) t (vx d) /\ derivable_pt_lim (fun s => vy (f s)) t (vy d) /\ derivable_pt_lim (fun s => vz (f s)) t (vz d).
(** [p] is in the convex hull of four points. *)
Definition in_hull4 (a b c d p : vec3) : Prop :=
  exists s t u v, 0 <= s /\ 0 <= t /\ 0 <= u /\ 0 <= v /\ s + t + u + v = 1 /\
    p = Vec (s * vx a + t * vx b + u * vx c + v * vx d) (s * vy a + t * vy b + u * vy c + v * vy d) (s * vz a + t * vz b + u * vz c + v * vz d).
Definition distance (a b : vec3) : R := sqrt ((vx a - vx b) * (vx a - vx b) + (vy a - vy b) * (vy a - vy b) + (vz a - vz b) * (vz a - vz b)).
(** The point a part [k] of the way from [a] to [b]. *)
Definition between (a b : vec3) (k : R) : vec3 := Vec (vx a + k * (vx b - vx a)) (vy a + k * (vy b - vy a)) (vz a + k * (vz b - vz a)).
(** A point moved by a pose: turned, then shifted. *)
Definition moved (g : pose) (p : vec3) : vec3 :=
  let m := prot g in
  Vec (m00 m * vx p + m01 m * vy p + m02 m * vz p + vx (ppos g)) (m10 m * vx p + m11 m * vy p + m12 m * vz p + vy (ppos g)) (m20 m * vx p + m21 m * vy p + m22 m * vz p + vz (ppos g)).
