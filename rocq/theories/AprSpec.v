(** What the properties of approach poses talk about. *)
From Coq Require Import Reals List.
From Verif Require Import QuatModel QuatSpec RpyModel JointModel KinModel AprModel.
Import ListNotations.
Open Scope R_scope.

(** [p] is a point of the triangle with the corners a, b and c. *)
Definition on_triangle (a b c p : vec3) : Prop :=
  exists s t u, 0 <= s /\ 0 <= t /\ 0 <= u /\ s + t + u = 1 /\ p = vadd (vadd (vscale s a) (vscale t b)) (vscale u c).
(** [p] is a point of face [f] of the mesh. *)
Definition on_face (m : mesh) (f : face) (p : vec3) : Prop :=
  exists a b c, nth_error (verts m) (f1 f) = Some a /\ nth_error (verts m) (f2 f) = Some b /\ nth_error (verts m) (f3 f) = Some c /\ on_triangle a b c p.
(** The faces refer to vertices of the mesh. *)
Definition mesh_ok (m : mesh) : Prop := forall f, In f (faces m) -> (f1 f < length (verts m))%nat /\ (f2 f < length (verts m))%nat /\ (f3 f < length (verts m))%nat.
(** A right handed orthonormal frame whose third axis points against [d]. *)
Definition faces_against (r : mat3) (d : vec3) : Prop := rotation r /\ exists k, 0 < k /\ d = vscale (- k) (Vec (m02 r) (m12 r) (m22 r)).
(** The poses of the hand and of its frames are rigid. *)
Definition rigid {J} (e : eef J) : Prop := (forall c, rotation (prot (gcp_off e c))) /\ (forall f c, shape_tcp e = Some f -> rotation (prot (f c))).
(** The hand moved by a vector. *)
Definition shifted {J} (v : vec3) (h : hand J) : hand J := Hand (Pose (prot (base h)) (vadd (ppos (base h)) v)) (conf h).
(** The directions that are of use for the random turn around [z]: not tiny and not (nearly) along it. *)
Definition useful (z y : vec3) : Prop := 1 / 10 ^ 8 <= vnorm y /\ 1 / 10 ^ 8 <= vnorm (vcross (vscale (/ vnorm y) y) z).
