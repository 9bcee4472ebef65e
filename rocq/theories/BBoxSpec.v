(** Vocabulary for C37. *)
From Coq Require Import Reals List.
From Verif Require Import QuatModel RpyModel BBoxModel.
Import ListNotations.
Open Scope R_scope.

(** A box with corners l and h. *)
Definition span (b : box) (l h : vec3) : Prop := bmin b = point (vx l) (vy l) (vz l) /\ bmax b = point (vx h) (vy h) (vz h).
(** The points of the box between l and h. *)
Definition within (l h p : vec3) : Prop := vx l <= vx p <= vx h /\ vy l <= vy p <= vy h /\ vz l <= vz p <= vz h.
Definition ordered (l h : vec3) : Prop := vx l <= vx h /\ vy l <= vy h /\ vz l <= vz h.
Definition pt (p : vec3) : vec := point (vx p) (vy p) (vz p).
(** The image of a point under a pose. *)
Definition image (g : pose) (p : vec3) : vec3 :=
  let m := prot g in let t := ppos g in
  Vec (m00 m * vx p + m01 m * vy p + m02 m * vz p + vx t) (m10 m * vx p + m11 m * vy p + m12 m * vz p + vy t) (m20 m * vx p + m21 m * vy p + m22 m * vz p + vz t).
(** On which side of the plane through q with normal n a point lies. *)
Definition side (q n p : vec3) : R := (vx p - vx q) * vx n + (vy p - vy q) * vy n + (vz p - vz q) * vz n.
(** The least and the greatest of the numbers in a list; None if there is no number in it. *)
Definition least (ns : list num) (v : num) : Prop :=
  match v with
  | None => forall n, In n ns -> n = None
  | Some x => In (Some x) ns /\ forall y, In (Some y) ns -> x <= y
  end.
Definition greatest (ns : list num) (v : num) : Prop :=
  match v with
  | None => forall n, In n ns -> n = None
  | Some x => In (Some x) ns /\ forall y, In (Some y) ns -> y <= x
  end.
