(** Vocabulary for C61. *)
From Coq Require Import Reals List Bool.
From Verif Require Import QuatModel QuatSpec RpyModel JointModel KinModel KinSpec JacModel.
Import ListNotations.
Open Scope R_scope.

(** The robot with another value of the joint [x]. *)
Definition at_value (r : robot) (x : nat) (q : R) : robot :=
  Robot (update (nodes r) x (fun n => with_joint (with_value (n_joint n) q) n)) (root r) (rpose r).
(** [G q] is where forward kinematics puts [t] when the joint [x] has the value [q]. *)
Definition motion (r : robot) (x t : nat) (G : R -> pose) : Prop := forall q, fk (at_value r x q) t (G q).

(** The derivative of a vector and of a matrix at [q]. *)
Definition vec_deriv (f : R -> vec3) (q : R) (d : vec3) : Prop :=
  derivable_pt_lim (fun q => vx (f q)) q (vx d) /\ derivable_pt_lim (fun q => vy (f q)) q (vy d) /\ derivable_pt_lim (fun q => vz (f q)) q (vz d).
Definition mat_deriv (f : R -> mat3) (q : R) (d : mat3) : Prop :=
  derivable_pt_lim (fun q => m00 (f q)) q (m00 d) /\ derivable_pt_lim (fun q => m01 (f q)) q (m01 d) /\ derivable_pt_lim (fun q => m02 (f q)) q (m02 d) /\
  derivable_pt_lim (fun q => m10 (f q)) q (m10 d) /\ derivable_pt_lim (fun q => m11 (f q)) q (m11 d) /\ derivable_pt_lim (fun q => m12 (f q)) q (m12 d) /\
  derivable_pt_lim (fun q => m20 (f q)) q (m20 d) /\ derivable_pt_lim (fun q => m21 (f q)) q (m21 d) /\ derivable_pt_lim (fun q => m22 (f q)) q (m22 d).
(** The matrix of the cross product with [w]: a rotation with the angular velocity [w] changes R by [w]x R. *)
Definition cross_mat (w : vec3) : mat3 := Mat 0 (- vz w) (vy w) (vz w) 0 (- vx w) (- vy w) (vx w) 0.
(** The pose as seen from the coordinate system [c], which is held fixed. *)
Definition seen_from (c : option pose) (g : pose) : pose := match c with Some c => pmul (inverted c) g | None => g end.
(** Velocity [v] and angular velocity [w] of the motion [G] at [q], in the coordinate system. *)
Definition velocity (c : option pose) (G : R -> pose) (q : R) (v w : vec3) : Prop :=
  vec_deriv (fun q => ppos (seen_from c (G q))) q v /\
  mat_deriv (fun q => prot (seen_from c (G q))) q (mmul (cross_mat w) (prot (seen_from c (G q)))).

(** Every transformation is rigid, and axes of rotation have length one. *)
Definition rigid (r : robot) : Prop := rotation (prot (rpose r)) /\
  forall x n, node_at r x = Some n -> rotation (prot (n_local n)) /\
    match n_kind n with Revolute a => vx a * vx a + vy a * vy a + vz a * vz a = 1 | _ => True end.

(** The selected coordinates of a velocity and an angular velocity, in order. *)
Definition selected (m : selection) (v w : vec3) : list R :=
  (if s_x m then [vx v] else []) ++ (if s_y m then [vy v] else []) ++ (if s_z m then [vz v] else []) ++
  (if s_orientation m then [vx w; vy w; vz w] else []).
(** The column [i] of a matrix given by its rows is the list [c]. *)
Definition is_column (rows : list (list R)) (i : nat) (c : list R) : Prop := map (fun row => nth_error row i) rows = map Some c.
(** What convertModelScalingtoM does to the velocity: it is divided by 1000 for a revolute joint, and for no other. *)
Definition in_unit (convert : bool) (k : kind) (v : vec3) : vec3 :=
  match k with Revolute _ => if convert then vscale (1 / 1000) v else v | _ => v end.
(** A robot node: no sensor and no other object.  The tcp is a robot node or attached to one. *)
Definition proper (n : node) : Prop := n_kind n <> Sensor /\ n_kind n <> Plain.
Definition on_robot (r : robot) (t : nat) : Prop := exists n, node_at r t = Some n /\
  (proper n \/ exists p m, n_parent n = Some p /\ node_at r p = Some m /\ proper m).
