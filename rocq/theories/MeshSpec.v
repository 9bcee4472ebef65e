(** Vocabulary for C76 to C79. *)
From Coq Require Import List ZArith Bool Arith.
From Verif Require Import MeshModel.
Import ListNotations.
Open Scope Z_scope.

(** The points and the colours at the corners of a face. *)
Definition points {N} (vs : list vtx) (f : face N) : option vtx * option vtx * option vtx :=
  (at_ vs (i1 (f_vertex f)), at_ vs (i2 (f_vertex f)), at_ vs (i3 (f_vertex f))).
Definition triangles {N} (m : mesh N) : list (option vtx * option vtx * option vtx) := map (points (m_vertices m)) (m_faces m).
Definition colors {N} (m : mesh N) : list (option nat * option nat * option nat) :=
  map (fun f => (at_ (m_colors m) (i1 (f_color f)), at_ (m_colors m) (i2 (f_color f)), at_ (m_colors m) (i3 (f_color f)))) (m_faces m).
(** Three indices of a list of the given length. *)
Definition in_range (n : nat) (x : ids) : Prop := forall c, (c < 3)%nat -> exists i, corner x c = Some i /\ (i < n)%nat.
(** All faces are made of vertices of the mesh; all faces have colours. *)
Definition sound {N} (m : mesh N) : Prop := Forall (fun f => in_range (length (m_vertices m)) (f_vertex f)) (m_faces m).
Definition colored {N} (m : mesh N) : Prop := Forall (fun f => in_range (length (m_colors m)) (f_color f)) (m_faces m).

(** lo and hi are the corners of the smallest box around the points. *)
Definition vx (v : vtx) : Z := fst (fst v).
Definition vy (v : vtx) : Z := snd (fst v).
Definition vz (v : vtx) : Z := snd v.
Definition smallest_box (vs : list vtx) (lo hi : vtx) : Prop :=
  (forall v, In v vs -> vx lo <= vx v <= vx hi /\ vy lo <= vy v <= vy hi /\ vz lo <= vz v <= vz hi) /\
  (exists a b c d e f, In a vs /\ In b vs /\ In c vs /\ In d vs /\ In e vs /\ In f vs /\
     vx a = vx lo /\ vx b = vx hi /\ vy c = vy lo /\ vy d = vy hi /\ vz e = vz lo /\ vz f = vz hi).
Definition boxed {N} (m : mesh N) : Prop :=
  match m_box m with None => m_vertices m = [] | Some (lo, hi) => smallest_box (m_vertices m) lo hi end.

(** Squared distance; two points closer than the threshold; chains of close vertices. *)
Definition sqdist (p q : vtx) : Z := (vx p - vx q) * (vx p - vx q) + (vy p - vy q) * (vy p - vy q) + (vz p - vz q) * (vz p - vz q).
Definition close (t : Z) (p q : vtx) : Prop := sqdist p q < t.
Inductive chain (vs : list vtx) (t : Z) (p : vtx) : vtx -> Prop :=
  | chain_here : In p vs -> chain vs t p p
  | chain_step : forall q r, chain vs t p q -> In r vs -> close t q r -> chain vs t p r.
(** The radius search finds exactly the vertices that are closer than the threshold. *)
Definition exact (t : Z) (near : list vtx -> nat -> list nat) (vs : list vtx) : Prop :=
  forall i p, nth_error vs i = Some p -> forall k, In k (near vs i) <-> exists q, nth_error vs k = Some q /\ close t p q.
(** A vertex that is a corner of a face. *)
Definition used {N} (m : mesh N) (i : nat) : Prop := exists f c, In f (m_faces m) /\ (c < 3)%nat /\ corner (f_vertex f) c = Some i.

(** Triangles with three different corners, their corners and edges. *)
Definition tri : Type := (vtx * vtx * vtx)%type.
Definition proper (t : tri) : Prop := let '(a, b, c) := t in a <> b /\ b <> c /\ a <> c.
Definition has_corner (t : tri) (p : vtx) : Prop := let '(a, b, c) := t in p = a \/ p = b \/ p = c.
Definition edge (t : tri) (p q : vtx) : Prop := let '(a, b, c) := t in (p = a /\ q = b) \/ (p = b /\ q = c) \/ (p = c /\ q = a).
Definition turned (t : tri) : tri := let '(a, b, c) := t in (c, b, a).
(** Two triangles with exactly two corners in common; they run through the common edge in opposite directions. *)
Definition adjacent (t u : tri) : Prop :=
  (exists p q, p <> q /\ has_corner t p /\ has_corner t q /\ has_corner u p /\ has_corner u q) /\ (exists r, has_corner t r /\ ~ has_corner u r).
Definition consistent (t u : tri) : Prop := exists p q, edge t p q /\ edge u q p.
(** The mesh consists of these triangles. *)
Definition made_of {N} (m : mesh N) (ts : list tri) : Prop := triangles m = map (fun t => let '(a, b, c) := t in (Some a, Some b, Some c)) ts.
Definition all_consistent (ts : list tri) : Prop :=
  forall i j t u, nth_error ts i = Some t -> nth_error ts j = Some u -> i <> j -> adjacent t u -> consistent t u.
(** us is ts with some triangles turned. *)
Definition some_turned (ts us : list tri) : Prop := Forall2 (fun t u => u = t \/ u = turned t) ts us.
(** Turning some triangles makes all consistent; every triangle but the first is adjacent to an earlier one. *)
Definition orientable (ts : list tri) : Prop := exists us, some_turned ts us /\ all_consistent us.
Definition in_order (ts : list tri) : Prop := forall j u, (0 < j)%nat -> nth_error ts j = Some u -> exists i t, (i < j)%nat /\ nth_error ts i = Some t /\ adjacent t u.

(** Three points without NaN; a face whose corners have a vertex and a colour of the mesh. *)
Definition three_points (t : option vtx * option vtx * option vtx) : Prop := let '(a, b, c) := t in a <> None /\ b <> None /\ c <> None.
Definition face_ok {N} (src : mesh N) (f : face N) : Prop := in_range (length (m_vertices src)) (f_vertex f) /\ in_range (length (m_colors src)) (f_color f).
(** The index of the vertex at corner c of face j, its point and its colour. *)
Definition corner_at {N} (m : mesh N) (j c : nat) (i : nat) : Prop := (c < 3)%nat /\ exists f, nth_error (m_faces m) j = Some f /\ corner (f_vertex f) c = Some i.
Definition color_id {N} (m : mesh N) (j c : nat) : option nat := match nth_error (m_faces m) j with Some f => corner (f_color f) c | None => None end.
(** Faces that differ in the indices of their vertices only. *)
Definition same_look {N} (f g : face N) : Prop := f_color g = f_color f /\ f_nid g = f_nid f /\ f_normal g = f_normal f.
(** What becomes of the indices of the normals of face f, with ns the normals at the end: those there are are kept; if the first was
    missing all others refer to the normal of the face. *)
Definition filled {N} (ns : list N) (f g : face N) : Prop :=
  f_vertex g = f_vertex f /\ f_color g = f_color f /\
  forall c, (c < 3)%nat -> match corner (f_nid f) c with
    | Some i => corner (f_nid g) c = Some i
    | None => if missing (i1 (f_nid f)) then exists i, corner (f_nid g) c = Some i /\ nth_error ns i = Some (f_normal g) else corner (f_nid g) c = None
    end.
(** The normal of a face stays, or, if it was too short, is the one computed from its corners. *)
Definition renewed {N} (o : nops N) (vs : list vtx) (f g : face N) : Prop :=
  if n_tiny o (f_normal f) then f_normal g = f_normal f \/ f_normal g = (let '(a, b, c) := points vs f in n_create o a b c) else f_normal g = f_normal f.
