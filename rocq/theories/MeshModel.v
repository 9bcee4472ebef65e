(** Model of triangle meshes: VirtualRobot/Visualization/TriMeshModel.cpp and MathTools.h 400-459 (TriangleFace).
    Coordinates are integers: finitely many [float]s are whole multiples of a common unit; only comparisons, sums and products are used.
    A vertex with a NaN coordinate is None where it can occur.  Normals are an arbitrary type with the operations used on them, so that
    the rounding of their lengths does not matter.  Indices: Some i for i, None for UINT_MAX and the two values below it; meshes with
    2^32 - 3 vertices or more are left out. *)
From Coq Require Import List ZArith Bool Arith QArith_base.
Import ListNotations.
Close Scope Q_scope.
Open Scope Z_scope.

Definition vtx : Type := (Z * Z * Z)%type.
Definition vtx_eqb (a b : vtx) : bool := let '(x, y, z) := a in let '(x', y', z') := b in (x =? x') && (y =? y') && (z =? z').
(** Operations on normals: the test norm() < 1e-10 or NaN, CreateNormal, normalize and *= -1. *)
Record nops (N : Type) := NOps { n_tiny : N -> bool; n_create : option vtx -> option vtx -> option vtx -> N; n_unit : N -> N; n_neg : N -> N }.
Arguments n_tiny {N}. Arguments n_create {N}. Arguments n_unit {N}. Arguments n_neg {N}.
(** A triple of indices and its corners 1, 2 and 3. *)
Record ids := Ids { i1 : option nat; i2 : option nat; i3 : option nat }.
(** TriangleFace, MathTools.h 400-459; the material is left out. *)
Record face (N : Type) := Face { f_vertex : ids; f_color : ids; f_nid : ids; f_normal : N }.
Arguments Face {N}. Arguments f_vertex {N}. Arguments f_color {N}. Arguments f_nid {N}. Arguments f_normal {N}.
Definition no_ids : ids := Ids None None None.
(** TriMeshModel.h: the data members; colours are numbers, materials are left out; the bounding box by its corners, None when cleared. *)
Record mesh (N : Type) := Mesh { m_vertices : list vtx; m_normals : list N; m_colors : list nat; m_faces : list (face N); m_box : option (vtx * vtx) }.
Arguments Mesh {N}. Arguments m_vertices {N}. Arguments m_normals {N}. Arguments m_colors {N}. Arguments m_faces {N}. Arguments m_box {N}.
Definition empty_mesh {N : Type} : mesh N := Mesh [] [] [] [] None.

(** BoundingBox::addPoint, BoundingBox.cpp 93-107, for a point without NaN. *)
Definition vmin (a b : vtx) : vtx := let '(x, y, z) := a in let '(x', y', z') := b in (if x' <? x then x' else x, if y' <? y then y' else y, if z' <? z then z' else z).
Definition vmax (a b : vtx) : vtx := let '(x, y, z) := a in let '(x', y', z') := b in (if x <? x' then x' else x, if y <? y' then y' else y, if z <? z' then z' else z).
Definition box_add (b : option (vtx * vtx)) (v : vtx) : option (vtx * vtx) :=
  match b with None => Some (v, v) | Some (lo, hi) => Some (vmin lo v, vmax hi v) end.
(** addVertex, TriMeshModel.cpp 169-179: the mesh and the result (None: -1). *)
Definition add_vertex {N} (m : mesh N) (v : option vtx) : mesh N * option nat :=
  match v with
  | None => (m, None)
  | Some v => (Mesh (m_vertices m ++ [v]) (m_normals m) (m_colors m) (m_faces m) (box_add (m_box m) v), Some (length (m_vertices m)))
  end.
(** addNormal, 184-189, addColor, 194-199, addFace, 151-163: the last adds a face without colours and normals. *)
Definition add_normal {N} (m : mesh N) (n : N) : mesh N * option nat :=
  (Mesh (m_vertices m) (m_normals m ++ [n]) (m_colors m) (m_faces m) (m_box m), Some (length (m_normals m))).
Definition add_color {N} (m : mesh N) (c : nat) : mesh N * option nat :=
  (Mesh (m_vertices m) (m_normals m) (m_colors m ++ [c]) (m_faces m) (m_box m), Some (length (m_colors m))).
Definition add_face {N} (m : mesh N) (f : face N) : mesh N := Mesh (m_vertices m) (m_normals m) (m_colors m) (m_faces m ++ [f]) (m_box m).
(** size() - k as an unsigned number. *)
Definition back (n k : nat) : option nat := if (n <? k)%nat then None else Some (n - k)%nat.
(** std::vector::at and access by index; None: std::out_of_range or undefined behaviour. *)
Definition at_ {A} (l : list A) (i : option nat) : option A := match i with Some i => nth_error l i | None => None end.
(** addTriangleWithFace with a normal and colours, 50-89. *)
Definition add_triangle {N} (o : nops N) (m : mesh N) (v1 v2 v3 : option vtx) (normal : N) (c1 c2 c3 : nat) : mesh N :=
  let m := fst (add_vertex (fst (add_vertex (fst (add_vertex m v1)) v2)) v3) in
  let m := fst (add_color (fst (add_color (fst (add_color m c1)) c2)) c3) in
  let normal := if n_tiny o normal then n_create o v1 v2 v3 else n_unit o normal in
  let nv := length (m_vertices m) in let nc := length (m_colors m) in
  add_face m (Face (Ids (back nv 3) (back nv 2) (back nv 1)) (Ids (back nc 3) (back nc 2) (back nc 1)) no_ids normal).
(** addTriangleWithFace of three points, 44-48, with the default colour gray, and the constructor from triangles, 25-31. *)
Definition gray : nat := 0.
Definition add_points {N} (o : nops N) (m : mesh N) (v1 v2 v3 : option vtx) : mesh N := add_triangle o m v1 v2 v3 (n_create o v1 v2 v3) gray gray gray.
Definition of_triangles {N} (o : nops N) (ts : list (option vtx * option vtx * option vtx)) : mesh N :=
  fold_left (fun m t => let '(a, b, c) := t in add_points o m a b c) ts empty_mesh.
(** addTriangleWithFace with colours as vectors of four numbers, 91-98: entry 4 is read for the opacity; mk makes a colour of four numbers. *)
Definition add_colored {N} (o : nops N) (mk : Z -> Z -> Z -> Z -> nat) (m : mesh N) (v1 v2 v3 : option vtx) (c1 c2 c3 : list Z) : option (mesh N) :=
  let color := fun c => match nth_error c 0, nth_error c 1, nth_error c 2, nth_error c 4 with Some r, Some g, Some b, Some a => Some (mk r g b a) | _, _, _, _ => None end in
  match color c1, color c2, color c3 with
  | Some c1, Some c2, Some c3 => Some (add_triangle o m v1 v2 v3 (n_create o v1 v2 v3) c1 c2 c3)
  | _, _, _ => None
  end.
(** addMesh, 100-108, of another mesh: the mesh and whether all went well (false: std::out_of_range was thrown, the mesh is left as it is then). *)
Fixpoint add_faces {N} (o : nops N) (m : mesh N) (src : mesh N) (fs : list (face N)) : mesh N * bool :=
  match fs with
  | [] => (m, true)
  | f :: fs =>
      match at_ (m_vertices src) (i1 (f_vertex f)), at_ (m_vertices src) (i2 (f_vertex f)), at_ (m_vertices src) (i3 (f_vertex f)),
            at_ (m_colors src) (i1 (f_color f)), at_ (m_colors src) (i2 (f_color f)), at_ (m_colors src) (i3 (f_color f)) with
      | Some v1, Some v2, Some v3, Some c1, Some c2, Some c3 => add_faces o (add_triangle o m (Some v1) (Some v2) (Some v3) (f_normal f) c1 c2 c3) src fs
      | _, _, _, _, _, _ => (m, false)
      end
  end.
Definition add_mesh {N} (o : nops N) (m src : mesh N) : mesh N * bool := add_faces o m src (m_faces src).
(** clear, 223-230: the normals are not cleared. *)
Definition clear {N} (m : mesh N) : mesh N := Mesh [] (m_normals m) [] [] None.

(** getSize, 626-655: the least and the greatest coordinates, None for false. *)
Definition get_size {N} (m : mesh N) : option (vtx * vtx) :=
  match m_vertices m with [] => None | v :: _ => Some (fold_left (fun b v => (vmin (fst b) v, vmax (snd b) v)) (m_vertices m) (v, v)) end.
(** getCOM, 607-624: the sum of the vertices and what it is divided by. *)
Definition vplus (a b : vtx) : vtx := let '(x, y, z) := a in let '(x', y', z') := b in (x + x', y + y', z + z').
Definition get_com {N} (m : mesh N) : vtx * positive := (fold_left vplus (m_vertices m) (0, 0, 0), match length (m_vertices m) with O => 1%positive | S n => Pos.of_succ_nat n end).
(** scale, 835-851, with BoundingBox::scale, BoundingBox.cpp 179-192, and clone, 853-872. *)
Definition vscale (s v : vtx) : vtx := let '(a, b, c) := s in let '(x, y, z) := v in (x * a, y * b, z * c).
Definition scale {N} (m : mesh N) (s : vtx) : mesh N :=
  if vtx_eqb s (1, 1, 1) then m
  else Mesh (map (vscale s) (m_vertices m)) (m_normals m) (m_colors m) (m_faces m) (match m_box m with None => None | Some (lo, hi) => Some (vscale s lo, vscale s hi) end).
Definition clone {N} (m : mesh N) (s : vtx) : mesh N := scale (Mesh (m_vertices m) (m_normals m) (m_colors m) (m_faces m) (m_box m)) s.
(** setColor, 595-600. *)
Definition set_color {N} (m : mesh N) (c : nat) : mesh N := Mesh (m_vertices m) (m_normals m) (map (fun _ => c) (m_vertices m)) (m_faces m) (m_box m).

(** TriangleFace::flipOrientation, MathTools.h 411-415, and flipVertexOrientations, TriMeshModel.cpp 333-336. *)
Definition flip {N} (o : nops N) (f : face N) : face N :=
  Face (Ids (i3 (f_vertex f)) (i2 (f_vertex f)) (i1 (f_vertex f))) (f_color f) (f_nid f) (n_neg o (f_normal f)).
Definition flip_all {N} (o : nops N) (m : mesh N) : mesh N := Mesh (m_vertices m) (m_normals m) (m_colors m) (map (flip o) (m_faces m)) (m_box m).

(** ** Merging vertices *)
(** vertex2FaceMap, TriMeshModel.cpp 343-352 and 461-470: for every vertex the faces that use it, by their positions; None: undefined
    behaviour, an index is not that of a vertex. *)
Fixpoint set_nth {A} (l : list A) (i : nat) (x : A) : list A :=
  match l, i with [], _ => [] | _ :: l, O => x :: l | y :: l, S i => y :: set_nth l i x end.
Definition insert (j : nat) (s : list nat) : list nat := if existsb (Nat.eqb j) s then s else j :: s.
Definition register (v : option nat) (j : nat) (vf : option (list (list nat))) : option (list (list nat)) :=
  match vf, v with
  | Some vf, Some v => match nth_error vf v with Some s => Some (set_nth vf v (insert j s)) | None => None end
  | _, _ => None
  end.
Fixpoint face_map {N} (fs : list (face N)) (j : nat) (vf : option (list (list nat))) : option (list (list nat)) :=
  match fs with
  | [] => vf
  | f :: fs => face_map fs (S j) (register (i3 (f_vertex f)) j (register (i2 (f_vertex f)) j (register (i1 (f_vertex f)) j vf)))
  end.
(** 391-409: one corner after the other. *)
Definition swap_id (k i : nat) (v : option nat) : option nat := match v with Some v => if (v =? k)%nat then Some i else Some v | None => None end.
Definition uses (k : nat) (v : option nat) : bool := match v with Some v => (v =? k)%nat | None => false end.
Definition redirect {N} (k i : nat) (f : face N) : face N :=
  Face (Ids (swap_id k i (i1 (f_vertex f))) (swap_id k i (i2 (f_vertex f))) (swap_id k i (i3 (f_vertex f)))) (f_color f) (f_nid f) (f_normal f).
Definition mentions {N} (k : nat) (f : face N) : bool := uses k (i1 (f_vertex f)) || uses k (i2 (f_vertex f)) || uses k (i3 (f_vertex f)).
(** 387-412: the faces registered for vertex k go to vertex i. *)
Definition move_face {N} (k i : nat) (s : list (face N) * list (list nat)) (j : nat) : list (face N) * list (list nat) :=
  let '(fs, vf) := s in
  match nth_error fs j with
  | Some f => (set_nth fs j (redirect k i f), if mentions k f then match nth_error vf i with Some t => set_nth vf i (insert j t) | None => vf end else vf)
  | None => (fs, vf)
  end.
Definition move_vertex {N} (i : nat) (s : list (face N) * list (list nat)) (k : nat) : list (face N) * list (list nat) :=
  fold_left (move_face k i) (match nth_error (snd s) k with Some t => t | None => [] end) s.
(** removeUnusedVertices, 459-499: the mesh and the number of removed vertices. *)
Fixpoint kept {A B} (vs : list A) (vf : list (list B)) : list A :=
  match vs, vf with v :: vs, s :: vf => match s with [] => kept vs vf | _ => v :: kept vs vf end | _, _ => [] end.
Fixpoint new_index {B} (vf : list (list B)) (i : nat) : nat :=
  match vf, i with
  | s :: vf, S i => match s with [] => new_index vf i | _ => S (new_index vf i) end
  | _, _ => O
  end.
Definition renumber {N} (vf : list (list nat)) (f : face N) : face N :=
  let r := fun v => match v with Some v => Some (new_index vf v) | None => None end in
  Face (Ids (r (i1 (f_vertex f))) (r (i2 (f_vertex f))) (r (i3 (f_vertex f)))) (f_color f) (f_nid f) (f_normal f).
Definition remove_unused {N} (m : mesh N) : option (mesh N * nat) :=
  match face_map (m_faces m) 0 (Some (map (fun _ => []) (m_vertices m))) with
  | None => None
  | Some vf =>
      let vs := kept (m_vertices m) vf in
      Some (Mesh vs (m_normals m) (m_colors m) (map (renumber vf) (m_faces m)) (m_box m), (length (m_vertices m) - length vs)%nat)
  end.
(** mergeVertices, 341-457; near gives the vertices found by the radius search around a vertex, in any order. *)
Definition merge {N} (near : list vtx -> nat -> list nat) (removal : bool) (m : mesh N) : option (mesh N) :=
  match face_map (m_faces m) 0 (Some (map (fun _ => []) (m_vertices m))) with
  | None => None
  | Some vf =>
      let '(fs, _) := fold_left (fun s i => fold_left (move_vertex i) (near (m_vertices m) i) s) (seq 0 (length (m_vertices m))) (m_faces m, vf) in
      let m := Mesh (m_vertices m) (m_normals m) (m_colors m) fs (m_box m) in
      if removal then match remove_unused m with Some (m, _) => Some m | None => None end else Some m
  end.

(** ** Orientation *)
(** checkFacesHaveSameEdge, 665-731: the pairs of corners at the same point; the result is whether there are two. *)
Definition common {N} (vs : list vtx) (f g : face N) : option (list (nat * nat)) :=
  match at_ vs (i1 (f_vertex f)), at_ vs (i2 (f_vertex f)), at_ vs (i3 (f_vertex f)), at_ vs (i1 (f_vertex g)), at_ vs (i2 (f_vertex g)), at_ vs (i3 (f_vertex g)) with
  | Some a1, Some a2, Some a3, Some b1, Some b2, Some b3 =>
      let t := fun x y p => if vtx_eqb x y then [p] else [] in
      Some (t a1 b1 (1, 1)%nat ++ t a1 b2 (1, 2)%nat ++ t a1 b3 (1, 3)%nat ++ t a2 b1 (2, 1)%nat ++ t a2 b2 (2, 2)%nat ++ t a2 b3 (2, 3)%nat ++
            t a3 b1 (3, 1)%nat ++ t a3 b2 (3, 2)%nat ++ t a3 b3 (3, 3)%nat)
  | _, _, _, _, _, _ => None
  end.
(** 763-786: whether the second face is flipped; None: undefined behaviour. *)
Definition must_flip {N} (vs : list vtx) (inverted : bool) (f g : face N) : option bool :=
  match common vs f g with
  | None => None
  | Some [(a1, b1); (a2, b2)] =>
      let p := fun x y x' y' => ((x =? x') && (y =? y'))%nat in
      let aok := p a1 a2 1%nat 2%nat || p a1 a2 2%nat 3%nat || p a1 a2 3%nat 1%nat in
      let bok := p b1 b2 1%nat 3%nat || p b1 b2 3%nat 2%nat || p b1 b2 2%nat 1%nat in
      let aok := if inverted then negb aok else aok in
      Some ((aok && negb bok) || (negb aok && bok))
  | Some _ => Some false
  end.
(** checkAndCorrectNormals, 739-791: the faces and the number of flips. *)
Definition correct_one {N} (o : nops N) (vs : list vtx) (inverted : bool) (i : nat) (s : option (list (face N) * nat)) (j : nat) : option (list (face N) * nat) :=
  match s with
  | None => None
  | Some (fs, n) =>
      if (i =? j)%nat then s
      else match nth_error fs i, nth_error fs j with
           | Some f, Some g => match must_flip vs inverted f g with
                               | Some true => Some (set_nth fs j (flip o g), S n)
                               | Some false => s
                               | None => None
                               end
           | _, _ => None
           end
  end.
Definition correct_normals {N} (o : nops N) (inverted : bool) (m : mesh N) : option (mesh N * nat) :=
  let n := length (m_faces m) in
  match fold_left (fun s i => fold_left (correct_one o (m_vertices m) inverted i) (seq 0 n) s) (seq 0 n) (Some (m_faces m, O)) with
  | Some (fs, k) => Some (Mesh (m_vertices m) (m_normals m) (m_colors m) fs (m_box m), k)
  | None => None
  end.

(** ** Missing normals and colours *)
Definition missing (v : option nat) : bool := match v with None => true | Some _ => false end.
(** addMissingNormals, 232-274; faces given, faces done, normals, counter; false: std::out_of_range. *)
Fixpoint fill_normals {N} (o : nops N) (vs : list vtx) (fs : list (face N)) (ns : list N) (count : nat) : list (face N) * list N * nat * bool :=
  match fs with
  | [] => ([], ns, count, true)
  | f :: fs =>
      if negb (missing (i1 (f_nid f))) && negb (missing (i2 (f_nid f))) && negb (missing (i3 (f_nid f))) then
        let '(fs, ns, count, ok) := fill_normals o vs fs ns count in (f :: fs, ns, count, ok)
      else
        let normal := if n_tiny o (f_normal f) then
            match at_ vs (i1 (f_vertex f)), at_ vs (i2 (f_vertex f)), at_ vs (i3 (f_vertex f)) with
            | Some a, Some b, Some c => Some (n_create o (Some a) (Some b) (Some c)) | _, _, _ => None end
          else Some (f_normal f) in
        match normal with
        | None => (f :: fs, ns, count, false)
        | Some normal =>
            let '(id1, nid, ns, count) := if missing (i1 (f_nid f)) then (Some (length ns), Some (length ns), ns ++ [normal], S count) else (i1 (f_nid f), None, ns, count) in
            let '(id2, nid, ns, count) := if missing (i2 (f_nid f)) then
                if missing nid then (nid, nid, ns, count) else (Some (length ns), Some (length ns), ns ++ [normal], S count)
              else (i2 (f_nid f), nid, ns, count) in
            let '(id3, nid, ns, count) := if missing (i3 (f_nid f)) then
                if missing nid then (nid, nid, ns, count) else (Some (length ns), Some (length ns), ns ++ [normal], S count)
              else (i3 (f_nid f), nid, ns, count) in
            let '(fs, ns, count, ok) := fill_normals o vs fs ns count in (Face (f_vertex f) (f_color f) (Ids id1 id2 id3) normal :: fs, ns, count, ok)
        end
  end.
Definition add_missing_normals {N} (o : nops N) (m : mesh N) : mesh N * nat * bool :=
  let '(fs, ns, count, ok) := fill_normals o (m_vertices m) (m_faces m) (m_normals m) 0 in
  (Mesh (m_vertices m) ns (m_colors m) fs (m_box m), count, ok).
(** getColorId, 281-293: the first colour of a corner at the vertex. *)
Definition eq_id (a b : option nat) : bool := match a, b with Some a, Some b => (a =? b)%nat | None, None => true | _, _ => false end.
Fixpoint color_at {N} (fs : list (face N)) (v : option nat) : option nat :=
  match fs with
  | [] => None
  | f :: fs =>
      if eq_id (i1 (f_vertex f)) v && negb (missing (i1 (f_color f))) then i1 (f_color f)
      else if eq_id (i2 (f_vertex f)) v && negb (missing (i2 (f_color f))) then i2 (f_color f)
      else if eq_id (i3 (f_vertex f)) v && negb (missing (i3 (f_color f))) then i3 (f_color f)
      else color_at fs v
  end.
Definition get_color {N} (c : nat) (m : mesh N) (v : option nat) : mesh N * option nat :=
  match color_at (m_faces m) v with Some id => (m, Some id) | None => add_color m c end.
(** One corner of face j, 301-316. *)
Definition set_face {N} (m : mesh N) (j : nat) (f : face N) : mesh N := Mesh (m_vertices m) (m_normals m) (m_colors m) (set_nth (m_faces m) j f) (m_box m).
Definition put_color {N} (f : face N) (corner : nat) (id : option nat) : face N :=
  let c := f_color f in
  Face (f_vertex f) (match corner with O => Ids id (i2 c) (i3 c) | S O => Ids (i1 c) id (i3 c) | _ => Ids (i1 c) (i2 c) id end) (f_nid f) (f_normal f).
Definition corner (x : ids) (c : nat) : option nat := match c with O => i1 x | S O => i2 x | _ => i3 x end.
Definition fill_corner {N} (c : nat) (j : nat) (s : mesh N * nat) (k : nat) : mesh N * nat :=
  let '(m, count) := s in
  match nth_error (m_faces m) j with
  | Some f => if missing (corner (f_color f) k) then let '(m, id) := get_color c m (corner (f_vertex f) k) in (set_face m j (put_color f k id), S count) else s
  | None => s
  end.
(** addMissingColors, 276-319. *)
Definition add_missing_colors {N} (near : list vtx -> nat -> list nat) (c : nat) (m : mesh N) : option (mesh N * nat) :=
  match merge near true m with
  | None => None
  | Some m => Some (fold_left (fun s j => fold_left (fill_corner c j) [0; 1; 2]%nat s) (seq 0 (length (m_faces m))) (m, O))
  end.
