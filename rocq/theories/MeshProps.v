(** C76 (building triangle meshes), C77 (merging vertices), C78 (orienting the faces) and C79 (missing normals and colours). *)
From Coq Require Import List ZArith Bool Arith Lia.
From Verif Require Import MeshModel MeshSpec MeshProofs MeshMerge MeshOrient MeshFill.
Import ListNotations.
Open Scope Z_scope.

(** ** C76 *)
(** Adding a triangle adds one face with these points and colours, and changes no other face. *)
Theorem C76_triangle : forall N (o : nops N) m v1 v2 v3 n c1 c2 c3, sound m -> colored m -> boxed m ->
  let m' := add_triangle o m (Some v1) (Some v2) (Some v3) n c1 c2 c3 in
  sound m' /\ colored m' /\ boxed m' /\ triangles m' = triangles m ++ [(Some v1, Some v2, Some v3)] /\ colors m' = colors m ++ [(Some c1, Some c2, Some c3)] /\
  m_vertices m' = m_vertices m ++ [v1; v2; v3] /\
  exists f, m_faces m' = m_faces m ++ [f] /\ f_normal f = if n_tiny o n then n_create o (Some v1) (Some v2) (Some v3) else n_unit o n.
Proof.
  intros N o m v1 v2 v3 n c1 c2 c3 S C B m'. destruct (add_triangle_spec o m v1 v2 v3 n c1 c2 c3 S) as (S' & T & V & _ & K). destruct (K C) as [C' T'].
  split; [exact S'|]. split; [exact C'|]. split; [apply add_triangle_boxed, B|]. split; [exact T|]. split; [exact T'|]. split; [exact V|]. eexists. split; reflexivity.
Qed.
(** A mesh made of triangles has exactly these triangles as faces, in this order. *)
Theorem C76_of_triangles : forall N (o : nops N) ts, Forall three_points ts ->
  let m := of_triangles o ts in triangles m = ts /\ sound m /\ colored m /\ boxed m.
Proof.
  intros N o ts F m. destruct (@empty_sound N) as (A & B & C). destruct (of_triangles_spec o ts empty_mesh F A B C) as (S & K & X & T). split; [exact T|auto].
Qed.
(** Adding a mesh adds its faces with their colours, in order, up to the first one with a corner without vertex or colour, where an
    exception is thrown. *)
Theorem C76_add_mesh : forall N (o : nops N) m src, sound m -> colored m -> boxed m ->
  exists done rest, m_faces src = done ++ rest /\ Forall (face_ok src) done /\
  let '(m', ok) := add_mesh o m src in
  sound m' /\ colored m' /\ boxed m' /\ triangles m' = triangles m ++ map (points (m_vertices src)) done /\
  colors m' = colors m ++ map (fun f => (at_ (m_colors src) (i1 (f_color f)), at_ (m_colors src) (i2 (f_color f)), at_ (m_colors src) (i3 (f_color f)))) done /\
  (ok = true /\ rest = [] \/ ok = false /\ exists f rest', rest = f :: rest' /\ ~ face_ok src f).
Proof. intros N o m src S C B. apply add_faces_spec; assumption. Qed.
Corollary C76_add_mesh_all : forall N (o : nops N) m src, sound m -> colored m -> boxed m -> sound src -> colored src ->
  snd (add_mesh o m src) = true /\ triangles (fst (add_mesh o m src)) = triangles m ++ triangles src /\ colors (fst (add_mesh o m src)) = colors m ++ colors src.
Proof.
  intros N o m src S C B S' C'. destruct (C76_add_mesh N o m src S C B) as (dn & rest & E & _ & H). destruct (add_mesh o m src) as [m' ok]. cbn [fst snd]. destruct H as (_ & _ & _ & T & K & [[-> ->]|[_ (f & r & -> & BAD)]]).
  - rewrite app_nil_r in E. subst dn. auto.
  - exfalso. apply BAD. unfold sound, colored in *. rewrite E in S', C'. apply Forall_app in S'. apply Forall_app in C'. destruct S' as [_ S'], C' as [_ C']. inversion S'; inversion C'; subst. split; assumption.
Qed.
(** The stored bounding box is the smallest box around the vertices, and is what getSize gives. *)
Theorem C76_box : forall N (m : mesh N), boxed m -> get_size m = m_box m.
Proof.
  intros N m B. assert (G := get_size_spec m). unfold boxed in B. destruct (get_size m) as [[lo hi]|], (m_box m) as [[lo' hi']|].
  - destruct (box_unique _ _ _ _ _ G B) as [-> ->]. reflexivity.
  - rewrite B in G. destruct G as [_ (a & _ & _ & _ & _ & _ & [] & _)].
  - rewrite G in B. destruct B as [_ (a & _ & _ & _ & _ & _ & [] & _)].
  - reflexivity.
Qed.
(** Scaling scales all corners, and a copy is scaled like the mesh; with factors that are not negative the bounding box stays the smallest. *)
Theorem C76_scale : forall N (m : mesh N) a b c,
  m_faces (scale m (a, b, c)) = m_faces m /\ m_vertices (scale m (a, b, c)) = map (fun v => (vx v * a, vy v * b, vz v * c)) (m_vertices m) /\ clone m (a, b, c) = scale m (a, b, c) /\
  (0 <= a -> 0 <= b -> 0 <= c -> boxed m -> boxed (scale m (a, b, c))).
Proof.
  intros N m a b c. assert (CL : clone m (a, b, c) = scale m (a, b, c)) by (destruct m; reflexivity). unfold scale in *. destruct (vtx_eqb_spec (a, b, c) (1, 1, 1)) as [E|NE].
  - injection E as -> -> ->. split; [reflexivity|]. split; [|split; [exact CL|auto]]. rewrite <- (map_id (m_vertices m)) at 1. apply map_ext. intros [[x y] z]. unfold vx, vy, vz. cbn [fst snd]. rewrite !Z.mul_1_r. reflexivity.
  - split; [reflexivity|]. split; [apply map_ext; intros [[x y] z]; reflexivity|]. split; [exact CL|]. intros A B C BX. unfold boxed in *. cbn [m_box m_vertices]. destruct (m_box m) as [[lo hi]|]; [apply (scale_box (a, b, c)); auto|rewrite BX; reflexivity].
Qed.
(** The centre of mass of the vertices lies in the bounding box. *)
Theorem C76_com : forall N (m : mesh N) lo hi, m_vertices m <> [] -> smallest_box (m_vertices m) lo hi ->
  let '(s, n) := get_com m in Zpos n * vx lo <= vx s <= Zpos n * vx hi /\ Zpos n * vy lo <= vy s <= Zpos n * vy hi /\ Zpos n * vz lo <= vz s <= Zpos n * vz hi.
Proof.
  intros N m lo hi NE [B _]. unfold get_com. assert (Q := sum_bounds (m_vertices m) (0, 0, 0) lo hi 0 B ltac:(cbn; lia)). cbv zeta in Q.
  replace (Z.pos match length (m_vertices m) with O => 1%positive | S n => Pos.of_succ_nat n end) with (0 + Z.of_nat (length (m_vertices m))); [exact Q|]. destruct (m_vertices m); [congruence|]. reflexivity.
Qed.

(** A small set of normals for the examples. *)
Definition ops1 : nops bool := NOps bool (fun _ => false) (fun _ _ _ => true) (fun n => n) negb.
Definition square : mesh bool := of_triangles ops1 [(Some (0, 0, 0), Some (1, 0, 0), Some (0, 1, 0)); (Some (1, 0, 0), Some (1, 1, 0), Some (0, 1, 0))].
Example C76_triangle_example : sound square /\ colored square /\ boxed square /\ length (m_faces square) = 2%nat /\ length (m_vertices square) = 6%nat /\ m_box square = Some ((0, 0, 0), (1, 1, 0)) /\ get_com square = ((3, 3, 0), 6%positive).
Proof.
  destruct (C76_of_triangles bool ops1 [(Some (0, 0, 0), Some (1, 0, 0), Some (0, 1, 0)); (Some (1, 0, 0), Some (1, 1, 0), Some (0, 1, 0))]) as (_ & A & B & C); [repeat constructor; discriminate|].
  split; [exact A|]. split; [exact B|]. split; [exact C|]. repeat split.
Qed.
Example C76_add_mesh_example : snd (add_mesh ops1 square square) = true /\ length (m_faces (fst (add_mesh ops1 square square))) = 4%nat /\
  snd (add_mesh ops1 square (set_color (Mesh [(0, 0, 0)] [] [1%nat; 2%nat; 3%nat] (m_faces square) None) 7)) = false.
Proof. vm_compute. auto. Qed.
Example C76_scale_example : m_box (scale square (2, 3, 4)) = Some ((0, 0, 0), (2, 3, 0)).
Proof. reflexivity. Qed.
(** A triangle with a NaN corner is not left out: a face is added that refers to vertices of other triangles, or to none at all. *)
Theorem C76_nan_refuted :
  triangles (add_points ops1 square (Some (5, 5, 5)) None (Some (7, 7, 7))) = triangles square ++ [(Some (0, 1, 0), Some (5, 5, 5), Some (7, 7, 7))] /\
  ~ sound (add_points ops1 empty_mesh (Some (5, 5, 5)) None (Some (7, 7, 7))).
Proof.
  split; [vm_compute; reflexivity|]. intros F. vm_compute in F. inversion F as [|? ? R _]; subst. destruct (R 0%nat ltac:(lia)) as (i & I & _). discriminate I.
Qed.
(** A cleared mesh is not like a new one: it keeps its normals. *)
Theorem C76_clear_refuted : exists m : mesh bool, clear m <> empty_mesh /\ m_faces (clear m) = [] /\ m_normals (clear m) <> [].
Proof. exists (fst (add_normal square true)). repeat split; discriminate. Qed.
(** Adding a triangle with colours as vectors of four numbers always reads behind the end of these vectors. *)
Theorem C76_vector_colors_refuted : forall N (o : nops N) mk m v1 v2 v3 c1 c2 c3, length c1 = 4%nat -> length c2 = 4%nat -> length c3 = 4%nat -> add_colored o mk m v1 v2 v3 c1 c2 c3 = None.
Proof.
  intros N o mk m v1 v2 v3 c1 c2 c3 L _ _. unfold add_colored. replace (nth_error c1 4) with (@None Z) by (symmetry; apply nth_error_None; lia). destruct (nth_error c1 0), (nth_error c1 1), (nth_error c1 2); reflexivity.
Qed.
(** Mirroring a mesh by a negative factor swaps the corners of the stored bounding box, so that it contains no vertex. *)
Theorem C76_mirror_refuted : boxed square /\ ~ boxed (scale square (-1, 1, 1)) /\ get_size (scale square (-1, 1, 1)) = Some ((-1, 0, 0), (0, 1, 0)) /\ m_box (scale square (-1, 1, 1)) = Some ((0, 0, 0), (-1, 1, 0)).
Proof.
  split; [apply C76_triangle_example|]. split; [|split; reflexivity]. intros B. apply C76_box in B. discriminate B.
Qed.

(** ** C77 *)
Theorem C77_unused : forall N (m : mesh N), sound m -> exists m' n, remove_unused m = Some (m', n) /\
  sound m' /\ triangles m' = triangles m /\ Forall2 same_look (m_faces m) (m_faces m') /\ m_normals m' = m_normals m /\ m_colors m' = m_colors m /\
  (n + length (m_vertices m') = length (m_vertices m))%nat /\ (forall v, In v (m_vertices m') -> In v (m_vertices m)) /\ (forall i, (i < length (m_vertices m'))%nat -> used m' i).
Proof.
  intros N m S. destruct (remove_unused_spec m S) as (m' & n & E & A & B & C & D & F & _ & G & H & I & _). exists m', n. do 8 (split; [assumption|]). exact I.
Qed.
(** Both operations work, without undefined behaviour, on exactly the meshes whose faces are made of vertices of the mesh. *)
Theorem C77_defined : forall N (m : mesh N) near removal, (remove_unused m <> None <-> sound m) /\ (merge near removal m <> None <-> sound m).
Proof.
  intros N m near removal. split; split.
  - apply remove_unused_none.
  - intros S. destruct (C77_unused N m S) as (m' & n & -> & _). discriminate.
  - intros H. unfold merge in H. destruct (face_map (m_faces m) 0 (Some (map (fun _ => []) (m_vertices m)))) as [vf|] eqn:E; [|congruence]. assert (Q := face_map_sound (m_faces m) 0 (map (fun _ => []) (m_vertices m)) ltac:(congruence)). rewrite map_length in Q. exact Q.
  - intros S. destruct (merge_spec near m S) as (S1 & E1 & E2). destruct removal; [|rewrite E1; discriminate]. rewrite E2. destruct (remove_unused_spec _ S1) as (m' & n & -> & _). discriminate.
Qed.
(** Merging: every corner moves along a chain of vertices with distances below the threshold, at the end no two vertices of the mesh are
    closer than the threshold, corners at one vertex stay together, all vertices are used and nothing else of the faces changes. *)
Theorem C77_merge : forall N t near (m : mesh N), sound m -> exact t near (m_vertices m) ->
  exists m' mv, merge near true m = Some m' /\ sound m' /\ Forall2 same_look (m_faces m) (m_faces m') /\ m_colors m' = m_colors m /\ m_normals m' = m_normals m /\
  (forall j c i, corner_at m j c i -> exists p q, nth_error (m_vertices m) i = Some p /\ corner_at m' j c (mv i) /\ nth_error (m_vertices m') (mv i) = Some q /\ chain (m_vertices m) t p q) /\
  (forall i, (i < length (m_vertices m'))%nat -> used m' i) /\ (forall v, In v (m_vertices m') -> In v (m_vertices m)) /\
  (forall i k p q, nth_error (m_vertices m') i = Some p -> nth_error (m_vertices m') k = Some q -> i <> k -> ~ close t p q).
Proof.
  intros N t near m SO EX. destruct (merge_spec near m SO) as (S1 & _ & E2). set (final := fun v => fold_left (hop (near (m_vertices m))) (seq 0 (length (m_vertices m))) v) in *.
  set (m1 := Mesh (m_vertices m) (m_normals m) (m_colors m) (map (relabel final) (m_faces m)) (m_box m)) in *.
  destruct (remove_unused_spec m1 S1) as (m' & n & E & S' & T' & R' & CN & CC & _ & _ & IN & U & ren & RE & RO & RC). exists m', (fun v => ren (final v)).
  assert (IN1 : forall j c i, corner_at m j c i -> corner_at m1 j c (final i)).
  { intros j c i (C & f & F & I). split; [exact C|]. exists (relabel final f). cbn [m1 m_faces]. rewrite nth_error_map, F. split; [reflexivity|]. rewrite relabel_corner, I. reflexivity. }
  assert (LT : forall j c i, corner_at m j c i -> (i < length (m_vertices m))%nat).
  { intros j c i (C & f & F & I). unfold sound in SO. rewrite Forall_forall in SO. destruct (SO f (nth_error_In _ _ F) c C) as (k & K & L). congruence. }
  split; [rewrite E2, E; reflexivity|]. split; [exact S'|]. split; [|split; [exact CC|split; [exact CN|split; [|split; [exact U|split; [exact IN|]]]]]].
  - cbn [m1 m_faces] in R'. clear - R'. revert R'. generalize (m_faces m'). induction (m_faces m) as [|f fs IH]; intros gs R'; inversion R'; subst; constructor; [|apply IH; assumption].
    match goal with H : same_rest (relabel final f) _ |- _ => exact H end.
  - intros j c i CI. assert (L := LT j c i CI). destruct (nth_error (m_vertices m) i) as [p|] eqn:P; [|apply nth_error_None in P; lia].
    destruct (after_chain t near (m_vertices m) EX (length (m_vertices m)) i p (le_n _) P) as (q & Q & CH). exists p, q. split; [reflexivity|]. assert (C1 := IN1 j c i CI). split; [apply RC, C1|]. split; [|exact CH].
    destruct C1 as (C & f & F & K). rewrite (RE f c (final i) (nth_error_In _ _ F) C K). exact Q.
  - intros i k p q P Q NE CL.
    assert (FROM : forall i p, nth_error (m_vertices m') i = Some p -> exists x, (x < length (m_vertices m))%nat /\ ren (final x) = i /\ nth_error (m_vertices m) (final x) = Some p).
    { clear - RE RO U LT. intros i p P. assert (UI := U i ltac:(apply nth_error_Some; congruence)). apply RO in UI. destruct UI as (k & UK & K). assert (UK' := UK). destruct UK' as (f & c & F & C & KF).
      cbn [m1 m_faces] in F. apply in_map_iff in F. destruct F as (g & <- & G). rewrite relabel_corner in KF. destruct (corner (f_vertex g) c) as [x|] eqn:X; [|discriminate KF]. injection KF as <-.
      destruct (In_nth_error _ _ G) as (j & J). exists x. split; [apply (LT j c x); split; [exact C|]; exists g; auto|]. split; [exact K|]. rewrite <- P, <- K. symmetry.
      apply (RE (relabel final g) c (final x)); [cbn [m1 m_faces]; apply in_map, G|exact C|]. rewrite relabel_corner, X. reflexivity. }
    destruct (FROM i p P) as (x & LX & RX & PX). destruct (FROM k q Q) as (y & LY & RY & PY).
    apply (after_apart t near (m_vertices m) EX (length (m_vertices m)) x y (le_n _) LX LY); [apply (after_range t near (m_vertices m) EX); [apply le_n|exact LX]|intros EQ; apply NE; rewrite <- RX, <- RY; f_equal; exact EQ|].
    exists p, q. auto.
Qed.
(** If closeness is transitive on the vertices (they lie in clusters), corners move by less than the threshold, and exactly the
    corners at points of one cluster come to share a vertex. *)
Theorem C77_clusters : forall N t near (m : mesh N), 0 < t -> sound m -> exact t near (m_vertices m) ->
  (forall p q r, In p (m_vertices m) -> In q (m_vertices m) -> In r (m_vertices m) -> close t p q -> close t q r -> close t p r) ->
  exists m' mv, merge near true m = Some m' /\
  (forall j c i, corner_at m j c i -> exists p q, nth_error (m_vertices m) i = Some p /\ corner_at m' j c (mv i) /\ nth_error (m_vertices m') (mv i) = Some q /\ close t p q) /\
  (forall i k p q, used m i -> used m k -> nth_error (m_vertices m) i = Some p -> nth_error (m_vertices m) k = Some q -> (mv i = mv k <-> close t p q)).
Proof.
  intros N t near m T SO EX TR. destruct (C77_merge N t near m SO EX) as (m' & mv & E & S' & _ & _ & _ & M & _ & IN & AP). exists m', mv. split; [exact E|].
  assert (SH : forall p, close t p p) by (intros p; unfold close; rewrite sqdist_refl; exact T).
  assert (CIN : forall p q, chain (m_vertices m) t p q -> In p (m_vertices m) /\ In q (m_vertices m)) by (intros p q C; induction C as [|q r C IH Q CL]; [auto|tauto]).
  assert (CH : forall p q, chain (m_vertices m) t p q -> close t p q).
  { intros p q C. induction C as [H|q r C IH Q CL]; [apply SH|]. destruct (CIN p q C). apply (TR p q r); assumption. }
  assert (M' : forall j c i, corner_at m j c i -> exists p q, nth_error (m_vertices m) i = Some p /\ corner_at m' j c (mv i) /\ nth_error (m_vertices m') (mv i) = Some q /\ close t p q).
  { intros j c i CI. destruct (M j c i CI) as (p & q & P & A & Q & C). exists p, q. auto. }
  assert (SY : forall p q, close t p q -> close t q p) by (intros p q; unfold close; rewrite (sqdist_sym q p); auto).
  split; [exact M'|]. intros i k p q UI UK P Q.
  assert (X : forall i, used m i -> exists p q, nth_error (m_vertices m) i = Some p /\ nth_error (m_vertices m') (mv i) = Some q /\ close t p q).
  { intros x (f & c & F & C & K). destruct (In_nth_error _ _ F) as (j & J). destruct (M' j c x) as (p' & q' & H); [split; [exact C|]; exists f; auto|]. exists p', q'. tauto. }
  destruct (X i UI) as (p' & p1 & P' & P1 & CP). destruct (X k UK) as (q' & q1 & Q' & Q1 & CQ). rewrite P in P'. injection P' as <-. rewrite Q in Q'. injection Q' as <-.
  assert (A := nth_error_In _ _ P). assert (B := nth_error_In _ _ Q). assert (C := IN _ (nth_error_In _ _ P1)). assert (D := IN _ (nth_error_In _ _ Q1)). split.
  - intros EQ. rewrite EQ, Q1 in P1. injection P1 as <-. apply (TR p q1 q); auto.
  - intros CL. destruct (Nat.eq_dec (mv i) (mv k)) as [Y|NE]; [exact Y|]. exfalso. apply (AP _ _ _ _ P1 Q1 NE). apply (TR p1 p q1); auto. apply (TR p q q1); auto.
Qed.
(** A radius search by comparing with every vertex is exact. *)
Definition near_all (t : Z) (vs : list vtx) (i : nat) : list nat :=
  match nth_error vs i with None => [] | Some p => filter (fun k => match nth_error vs k with Some q => sqdist p q <? t | None => false end) (seq 0 (length vs)) end.
Lemma near_all_exact t vs : exact t (near_all t) vs.
Proof.
  intros i p P k. unfold near_all. rewrite P, filter_In, in_seq. destruct (nth_error vs k) as [q|] eqn:Q.
  - rewrite Z.ltb_lt. split; [intros [_ H]; exists q; auto|intros (q' & E & H)]. injection E as <-. split; [split; [lia|]; apply nth_error_Some; congruence|exact H].
  - split; [intros [_ H]; discriminate H|intros (q & E & _); discriminate E].
Qed.
Example C77_merge_example : exists m', merge (near_all 1) true square = Some m' /\ length (m_vertices m') = 4%nat /\ triangles m' = triangles square /\
  (forall p q r, In p (m_vertices square) -> In q (m_vertices square) -> In r (m_vertices square) -> close 1 p q -> close 1 q r -> close 1 p r).
Proof.
  eexists. split; [vm_compute; reflexivity|]. split; [reflexivity|]. split; [reflexivity|].
  assert (Z0 : forall p q, close 1 p q -> p = q).
  { intros [[a b] c] [[a' b'] c']. unfold close, sqdist, vx, vy, vz. cbn [fst snd]. intros H. assert (A := Z.square_nonneg (a - a')). assert (B := Z.square_nonneg (b - b')). assert (C := Z.square_nonneg (c - c')).
    assert (a - a' = 0) by nia. assert (b - b' = 0) by nia. assert (c - c' = 0) by nia. f_equal; [f_equal|]; lia. }
  intros p q r _ _ _ A B. apply Z0 in A. subst q. exact B.
Qed.
(** Vertices in a row, each closer than the threshold to the next, all become the last one: corners move far more than the threshold. *)
Definition row : mesh bool := of_triangles ops1 [(Some (0, 0, 0), Some (1, 0, 0), Some (2, 0, 0)); (Some (3, 0, 0), Some (4, 0, 0), Some (5, 0, 0))].
Theorem C77_chain_refuted : exists m', merge (near_all 2) true row = Some m' /\ triangles m' = [(Some (5, 0, 0), Some (5, 0, 0), Some (5, 0, 0)); (Some (5, 0, 0), Some (5, 0, 0), Some (5, 0, 0))] /\ ~ close 2 (0, 0, 0) (5, 0, 0).
Proof. eexists. split; [vm_compute; reflexivity|]. split; [reflexivity|]. vm_compute. discriminate. Qed.
(** Removing an unused vertex does not update the bounding box. *)
Theorem C77_box_refuted : let m := fst (add_vertex square (Some (9, 9, 9))) in
  boxed m /\ exists m' n, remove_unused m = Some (m', n) /\ n = 1%nat /\ ~ boxed m' /\ m_box m' = Some ((0, 0, 0), (9, 9, 9)) /\ get_size m' = Some ((0, 0, 0), (1, 1, 0)).
Proof.
  intros m. split; [apply (box_add_spec (m_vertices square) (m_box square) (9, 9, 9)); apply C76_triangle_example|]. eexists. eexists. split; [vm_compute; reflexivity|]. split; [reflexivity|]. split; [intros B; apply C76_box in B; discriminate B|]. split; reflexivity.
Qed.

(** ** C78 *)
(** Correcting only turns triangles; a mesh in which all neighbours fit stays as it is; a mesh that can be oriented and in which
    every triangle but the first has an earlier neighbour is oriented like its first triangle. *)
Theorem C78_correct : forall N (o : nops N) m ts, made_of m ts -> Forall proper ts ->
  exists m' us k, correct_normals o false m = Some (m', k) /\ m_vertices m' = m_vertices m /\ made_of m' us /\ some_turned ts us /\
    (all_consistent ts -> m' = m /\ k = 0%nat) /\ (orientable ts -> in_order ts -> all_consistent us /\ nth_error us 0 = nth_error ts 0).
Proof. intros N o m ts. apply correct_normals_spec. Qed.
Definition fan : list tri := [((0, 0, 0), (1, 0, 0), (0, 1, 0)); ((0, 1, 0), (1, 1, 0), (1, 0, 0)); ((1, 0, 0), (2, 0, 0), (1, 1, 0))].
Definition lift3 (t : tri) : option vtx * option vtx * option vtx := let '(a, b, c) := t in (Some a, Some b, Some c).
Definition fan_mesh : mesh bool := of_triangles ops1 (map lift3 fan).
Example C78_correct_example : made_of fan_mesh fan /\ Forall proper fan /\ ~ all_consistent fan /\ in_order fan /\ orientable fan /\
  exists m', correct_normals ops1 false fan_mesh = Some (m', 1%nat).
Proof.
  split; [reflexivity|]. split; [repeat constructor; discriminate|]. split; [|split; [|split]].
  - intros A. assert (AD : adjacent (nth 0 fan ((0,0,0),(0,0,0),(0,0,0))) (nth 1 fan ((0,0,0),(0,0,0),(0,0,0)))).
    { split; [exists (1, 0, 0), (0, 1, 0); cbn; split; [discriminate|]; auto 10|]. exists (0, 0, 0). cbn. split; [auto|]. intros [H|[H|H]]; discriminate H. }
    destruct (A 0%nat 1%nat _ _ eq_refl eq_refl ltac:(discriminate) AD) as (p & q & P & Q). cbn in P, Q. destruct P as [[-> ->]|[[-> ->]|[-> ->]]], Q as [[E F]|[[E F]|[E F]]]; discriminate.
  - intros [|[|[|j]]] u J U; [lia| | |destruct j; discriminate U]; injection U as <-.
    + exists 0%nat. eexists. split; [lia|]. split; [reflexivity|]. split; [exists (1, 0, 0), (0, 1, 0); cbn; split; [discriminate|]; auto 10|]. exists (0, 0, 0). cbn. split; [auto|]. intros [H|[H|H]]; discriminate H.
    + exists 1%nat. eexists. split; [lia|]. split; [reflexivity|]. split; [exists (1, 0, 0), (1, 1, 0); cbn; split; [discriminate|]; auto 10|]. exists (0, 1, 0). cbn. split; [auto|]. intros [H|[H|H]]; discriminate H.
  - exists [((0, 0, 0), (1, 0, 0), (0, 1, 0)); ((1, 0, 0), (1, 1, 0), (0, 1, 0)); ((1, 0, 0), (2, 0, 0), (1, 1, 0))]. split; [constructor; [left; reflexivity|]; constructor; [right; reflexivity|]; constructor; [left; reflexivity|]; constructor|].
    assert (NO : forall i j t u, nth_error [((0, 0, 0), (1, 0, 0), (0, 1, 0)); ((1, 0, 0), (1, 1, 0), (0, 1, 0)); ((1, 0, 0), (2, 0, 0), (1, 1, 0))] i = Some t -> nth_error [((0, 0, 0), (1, 0, 0), (0, 1, 0)); ((1, 0, 0), (1, 1, 0), (0, 1, 0)); ((1, 0, 0), (2, 0, 0), (1, 1, 0))] j = Some u -> i <> j -> consistent t u \/ forall p q, p <> q -> has_corner t p -> has_corner t q -> has_corner u p -> has_corner u q -> False).
    { intros [|[|[|i]]] [|[|[|j]]] t u T U NE; cbn [nth_error] in T, U; try congruence; try (destruct i; discriminate T); try (destruct j; discriminate U); injection T as <-; injection U as <-.
      - left. exists (1, 0, 0), (0, 1, 0). cbn. auto 10.
      - right. cbn. intros p q PQ [->|[->| ->]] [->|[->| ->]] A B; try congruence; try (destruct A as [A|[A|A]]; discriminate A); destruct B as [B|[B|B]]; discriminate B.
      - left. exists (0, 1, 0), (1, 0, 0). cbn. auto 10.
      - left. exists (1, 0, 0), (1, 1, 0). cbn. auto 10.
      - right. cbn. intros p q PQ [->|[->| ->]] [->|[->| ->]] A B; try congruence; try (destruct A as [A|[A|A]]; discriminate A); destruct B as [B|[B|B]]; discriminate B.
      - left. exists (1, 1, 0), (1, 0, 0). cbn. auto 10. }
    intros i j t u T U NE [(p & q & PQ & A & B & C & D) _]. destruct (NO i j t u T U NE) as [H|H]; [exact H|]. exfalso. apply (H p q PQ A B C D).
  - eexists. vm_compute. reflexivity.
Qed.
(** Deciding consistency, for the examples. *)
Definition corners3 (t : tri) : list vtx := let '(a, b, c) := t in [a; b; c].
Definition edges3 (t : tri) : list (vtx * vtx) := let '(a, b, c) := t in [(a, b); (b, c); (c, a)].
Definition sharesb (t u : tri) : bool := existsb (fun p => existsb (fun q => negb (vtx_eqb p q) && existsb (vtx_eqb p) (corners3 u) && existsb (vtx_eqb q) (corners3 u)) (corners3 t)) (corners3 t).
Definition consb (t u : tri) : bool := existsb (fun e => existsb (fun d => vtx_eqb (fst e) (snd d) && vtx_eqb (snd e) (fst d)) (edges3 u)) (edges3 t).
Lemma in_corners3 t p : has_corner t p -> In p (corners3 t).
Proof. destruct t as [[a b] c]. cbn. intuition. Qed.
Lemma in_edges3 t p q : In (p, q) (edges3 t) <-> edge t p q.
Proof. destruct t as [[a b] c]. cbn. split; [intros [E|[E|[E|[]]]]; injection E as <- <-; auto|intros [[-> ->]|[[-> ->]|[-> ->]]]; auto]. Qed.
Lemma existsb_vtx p l : In p l -> existsb (vtx_eqb p) l = true.
Proof. intros H. apply existsb_exists. exists p. split; [exact H|]. destruct (vtx_eqb_spec p p); [reflexivity|congruence]. Qed.
Lemma consb_spec t u : consb t u = true <-> consistent t u.
Proof.
  unfold consb. rewrite existsb_exists. split.
  - intros ([p q] & P & H). apply existsb_exists in H. destruct H as ([q' p'] & Q & H). cbn [fst snd] in H. destruct (vtx_eqb_spec p p'), (vtx_eqb_spec q q'); try discriminate H. subst. exists p', q'. split; apply in_edges3; assumption.
  - intros (p & q & P & Q). exists (p, q). split; [apply in_edges3, P|]. apply existsb_exists. exists (q, p). split; [apply in_edges3, Q|]. cbn [fst snd]. destruct (vtx_eqb_spec p p), (vtx_eqb_spec q q); (reflexivity || congruence).
Qed.
Lemma sharesb_spec t u : adjacent t u -> sharesb t u = true.
Proof.
  intros [(p & q & NE & A & B & C & D) _]. unfold sharesb. apply existsb_exists. exists p. split; [apply in_corners3, A|]. apply existsb_exists. exists q. split; [apply in_corners3, B|]. rewrite !existsb_vtx by (apply in_corners3; assumption).
  destruct (vtx_eqb_spec p q); [contradiction|reflexivity].
Qed.
Lemma all_consistentb ts : forallb (fun i => forallb (fun j => (i =? j)%nat || match nth_error ts i, nth_error ts j with Some t, Some u => negb (sharesb t u) || consb t u | _, _ => true end) (seq 0 (length ts))) (seq 0 (length ts)) = true -> all_consistent ts.
Proof.
  intros H i j t u T U NE A. rewrite forallb_forall in H. assert (LI : (i < length ts)%nat) by (apply nth_error_Some; congruence). assert (LJ : (j < length ts)%nat) by (apply nth_error_Some; congruence).
  specialize (H i ltac:(apply in_seq; lia)). rewrite forallb_forall in H. specialize (H j ltac:(apply in_seq; lia)). rewrite T, U, (sharesb_spec t u A) in H. destruct (Nat.eqb_spec i j); [contradiction|]. cbn [negb orb] in H. apply consb_spec, H.
Qed.
(** Flipping all faces reverses them all; doing so twice changes nothing. *)
Theorem C78_flip : forall N (o : nops N) (m : mesh N), (forall n, n_neg o (n_neg o n) = n) ->
  triangles (flip_all o m) = map (fun t => let '(a, b, c) := t in (c, b, a)) (triangles m) /\ flip_all o (flip_all o m) = m.
Proof.
  intros N o m NN. split; [unfold triangles, flip_all; cbn [m_faces m_vertices]; rewrite !map_map; reflexivity|]. destruct m as [vs ns cs fs b]. unfold flip_all. cbn [m_vertices m_normals m_colors m_faces m_box]. f_equal. rewrite map_map. rewrite <- (map_id fs) at 2. apply map_ext.
  intros [[x y z] fc fn nn]. unfold flip. cbn [f_vertex f_color f_nid f_normal i1 i2 i3]. rewrite NN. reflexivity.
Qed.
(** The order of the faces matters: here every face has a neighbour and the strip can be oriented, but it is not. *)
Definition strip : list tri := [((0, 0, 0), (1, 0, 0), (0, 1, 0)); ((1, 0, 0), (1, 1, 0), (0, 1, 0)); ((1, 1, 0), (2, 1, 0), (2, 0, 0)); ((1, 0, 0), (2, 0, 0), (1, 1, 0))].
Definition strip_mesh : mesh bool := of_triangles ops1 (map lift3 strip).
Theorem C78_order_refuted : made_of strip_mesh strip /\ Forall proper strip /\ orientable strip /\
  exists m' us k, correct_normals ops1 false strip_mesh = Some (m', k) /\ made_of m' us /\ ~ all_consistent us.
Proof.
  split; [vm_compute; reflexivity|]. split; [repeat constructor; discriminate|]. split.
  - exists [((0, 0, 0), (1, 0, 0), (0, 1, 0)); ((1, 0, 0), (1, 1, 0), (0, 1, 0)); ((2, 0, 0), (2, 1, 0), (1, 1, 0)); ((1, 0, 0), (2, 0, 0), (1, 1, 0))].
    split; [constructor; [left; reflexivity|]; constructor; [left; reflexivity|]; constructor; [right; reflexivity|]; constructor; [left; reflexivity|]; constructor|]. apply all_consistentb. vm_compute. reflexivity.
  - eexists. exists [((0, 0, 0), (1, 0, 0), (0, 1, 0)); ((0, 1, 0), (1, 1, 0), (1, 0, 0)); ((1, 1, 0), (2, 1, 0), (2, 0, 0)); ((1, 1, 0), (2, 0, 0), (1, 0, 0))]. eexists. split; [vm_compute; reflexivity|]. split; [vm_compute; reflexivity|].
    intros A. assert (AD : adjacent ((0, 0, 0), (1, 0, 0), (0, 1, 0)) ((0, 1, 0), (1, 1, 0), (1, 0, 0))).
    { split; [exists (1, 0, 0), (0, 1, 0); cbn; split; [discriminate|]; auto 10|]. exists (0, 0, 0). cbn. split; [auto|]. intros [H|[H|H]]; discriminate H. }
    assert (Q := A 0%nat 1%nat _ _ eq_refl eq_refl ltac:(discriminate) AD). apply consb_spec in Q. vm_compute in Q. discriminate Q.
Qed.
(** With the option "inverted" neighbours that fit are made not to fit. *)
Theorem C78_inverted_refuted : exists ts m' us k, made_of square ts /\ Forall proper ts /\ all_consistent ts /\ correct_normals ops1 true square = Some (m', k) /\ made_of m' us /\ ~ all_consistent us.
Proof.
  exists [((0, 0, 0), (1, 0, 0), (0, 1, 0)); ((1, 0, 0), (1, 1, 0), (0, 1, 0))]. eexists. exists [((0, 0, 0), (1, 0, 0), (0, 1, 0)); ((0, 1, 0), (1, 1, 0), (1, 0, 0))]. eexists.
  split; [vm_compute; reflexivity|]. split; [repeat constructor; discriminate|]. split; [apply all_consistentb; vm_compute; reflexivity|]. split; [vm_compute; reflexivity|]. split; [vm_compute; reflexivity|].
  intros A. assert (AD : adjacent ((0, 0, 0), (1, 0, 0), (0, 1, 0)) ((0, 1, 0), (1, 1, 0), (1, 0, 0))).
  { split; [exists (1, 0, 0), (0, 1, 0); cbn; split; [discriminate|]; auto 10|]. exists (0, 0, 0). cbn. split; [auto|]. intros [H|[H|H]]; discriminate H. }
  assert (Q := A 0%nat 1%nat _ _ eq_refl eq_refl ltac:(discriminate) AD). apply consb_spec in Q. vm_compute in Q. discriminate Q.
Qed.
(** Turning a face swaps its points but not their colours: the corners change their colours. *)
Theorem C78_colors_refuted : let m := add_triangle ops1 empty_mesh (Some (0, 0, 0)) (Some (1, 0, 0)) (Some (0, 1, 0)) true 1 2 3 in
  triangles m = [(Some (0, 0, 0), Some (1, 0, 0), Some (0, 1, 0))] /\ colors m = [(Some 1%nat, Some 2%nat, Some 3%nat)] /\
  triangles (flip_all ops1 m) = [(Some (0, 1, 0), Some (1, 0, 0), Some (0, 0, 0))] /\ colors (flip_all ops1 m) = [(Some 1%nat, Some 2%nat, Some 3%nat)].
Proof. vm_compute. auto. Qed.

(** ** C79 *)
(** Missing normals: indices there are are kept, those of a face whose first one is missing are set, to the normal of the face;
    the number returned is that of the normals added, and nothing else changes. *)
Theorem C79_normals : forall N (o : nops N) m, sound m -> let '(m', k, ok) := add_missing_normals o m in
  ok = true /\ m_vertices m' = m_vertices m /\ m_colors m' = m_colors m /\ m_box m' = m_box m /\
  exists added, m_normals m' = m_normals m ++ added /\ k = length added /\ Forall2 (filled (m_normals m')) (m_faces m) (m_faces m') /\ Forall2 (renewed o (m_vertices m)) (m_faces m) (m_faces m').
Proof.
  intros N o m S. unfold add_missing_normals. assert (R := fill_renewed o (m_vertices m) (m_faces m) (m_normals m) 0). destruct (fill_normals_spec o (m_vertices m) (m_faces m) (m_normals m) 0 S) as (gs & added & E & F). rewrite E in *. cbn [m_vertices m_colors m_box m_normals m_faces].
  do 4 (split; [reflexivity|]). exists added. auto.
Qed.
Example C79_normals_example : let '(m', k, ok) := add_missing_normals ops1 square in k = 6%nat /\ ok = true /\ map (@f_nid bool) (m_faces m') = [Ids (Some 0%nat) (Some 1%nat) (Some 2%nat); Ids (Some 3%nat) (Some 4%nat) (Some 5%nat)].
Proof. vm_compute. auto. Qed.
(** A face that lacks only its second or third normal still lacks it afterwards. *)
Theorem C79_normals_refuted : exists m : mesh bool, sound m /\ exists f, m_faces m = [f] /\ i1 (f_nid f) = Some 0%nat /\ i2 (f_nid f) = None /\ add_missing_normals ops1 m = (m, 0%nat, true).
Proof.
  exists (Mesh [(0, 0, 0); (1, 0, 0); (0, 1, 0)] [true] [] [Face (Ids (Some 0%nat) (Some 1%nat) (Some 2%nat)) no_ids (Ids (Some 0%nat) None (Some 0%nat)) true] None). split.
  - constructor; [|constructor]. intros [|[|[|c]]] C; [exists 0%nat|exists 1%nat|exists 2%nat|lia]; cbn; split; (reflexivity || lia).
  - eexists. split; [reflexivity|]. repeat split.
Qed.
(** Missing colours: after merging every corner has a colour; those there were are kept, a new one is that of a corner at the same
    vertex or the given colour, and new ones at one vertex are the same. *)
Theorem C79_colors : forall N near c (m m1 : mesh N), merge near true m = Some m1 ->
  exists m' k, add_missing_colors near c m = Some (m', k) /\ m_vertices m' = m_vertices m1 /\ m_normals m' = m_normals m1 /\ length (m_faces m') = length (m_faces m1) /\ (exists n, m_colors m' = m_colors m1 ++ repeat c n) /\
  (forall j f f', nth_error (m_faces m1) j = Some f -> nth_error (m_faces m') j = Some f' -> f_vertex f' = f_vertex f /\ f_nid f' = f_nid f /\ f_normal f' = f_normal f) /\
  (forall j k, (j < length (m_faces m1))%nat -> (k < 3)%nat -> exists x, color_id m' j k = Some x /\
     (color_id m1 j k = Some x \/ color_id m1 j k = None /\
        ((exists i j' k', corner_at m1 j k i /\ corner_at m1 j' k' i /\ color_id m1 j' k' = Some x) \/ (length (m_colors m1) <= x)%nat /\ nth_error (m_colors m') x = Some c))) /\
  (forall j k j' k' i, corner_at m1 j k i -> corner_at m1 j' k' i -> color_id m1 j k = None -> color_id m1 j' k' = None -> color_id m' j k = color_id m' j' k').
Proof.
  intros N near c m m1 E. unfold add_missing_colors. rewrite E. assert (SM : sound m1).
  { assert (S : sound m) by (apply (C77_defined N m near true); congruence). destruct (merge_spec near m S) as (S1 & _ & E2). rewrite E in E2. destruct (remove_unused_spec _ S1) as (m2 & n & E3 & S2 & _). rewrite E3 in E2. injection E2 as ->. exact S2. }
  assert (Q := fill_all m1 c (seq 0 (length (m_faces m1))) m1 0%nat (stage_start m1 c)).
  destruct (fold_left (fun s j => fold_left (fill_corner c j) [0; 1; 2]%nat s) (seq 0 (length (m_faces m1))) (m1, 0%nat)) as [m' k]. destruct Q as ((V & NO & BX & L & (n & CO) & CA & ST) & FULL & _). exists m', k.
  split; [reflexivity|]. split; [exact V|]. split; [exact NO|]. split; [exact L|]. split; [exists n; exact CO|].
  assert (COR : forall j f k, nth_error (m_faces m1) j = Some f -> (k < 3)%nat -> exists i, corner_at m1 j k i /\ corner (f_vertex f) k = Some i).
  { intros j f x F X. unfold sound in SM. rewrite Forall_forall in SM. destruct (SM f (nth_error_In _ _ F) x X) as (i & I & _). exists i. split; [|exact I]. split; [exact X|]. exists f. auto. }
  split; [intros j f f' F F'; destruct (ST j f f' F F') as (A & B & C & _); auto|]. split.
  - intros j x LJ X. destruct (nth_error (m_faces m1) j) as [f|] eqn:F; [|apply nth_error_None in F; lia]. destruct (FULL j ltac:(apply in_seq; lia) LJ x X) as (f' & F' & NN). destruct (ST j f f' F F') as (A & _ & _ & H). specialize (H x X).
    destruct (corner (f_color f') x) as [y|] eqn:Y; [|congruence]. exists y. unfold color_id at 1 2 3. rewrite F, F'. split; [exact Y|]. destruct (corner (f_color f) x) as [z|] eqn:Z0; [left; congruence|]. right. split; [reflexivity|].
    destruct H as [H|[_ H]]; [discriminate H|]. symmetry in H. destruct (CA _ _ H) as [(g & c' & G & C' & GV & GC)|R].
    + left. destruct (COR j f x F X) as (i & CI & FI). destruct (In_nth_error _ _ G) as (j' & J'). exists i, j', c'. split; [exact CI|]. split; [split; [exact C'|]; exists g; split; [exact J'|]; rewrite GV, A, FI; reflexivity|]. unfold color_id. rewrite J'. exact GC.
    + right. split; [lia|]. rewrite CO in *. rewrite app_length, repeat_length in R. rewrite nth_error_app2 by lia. apply nth_error_repeat. lia.
  - intros j x j' x' i (X & f & F & I) (X' & g & G & I') M M'. unfold color_id in *. rewrite F in M. rewrite G in M'.
    assert (W : forall j f x, nth_error (m_faces m1) j = Some f -> (x < 3)%nat -> corner (f_color f) x = None -> corner (f_vertex f) x = Some i -> match nth_error (m_faces m') j with Some f' => corner (f_color f') x | None => None end = color_at (m_faces m') (Some i)).
    { clear - ST FULL. intros j f x F X M I. assert (LJ : (j < length (m_faces m1))%nat) by (apply nth_error_Some; congruence). destruct (FULL j ltac:(apply in_seq; lia) LJ x X) as (f' & F' & NN). rewrite F'. destruct (ST j f f' F F') as (A & _ & _ & H). specialize (H x X). rewrite M in H. destruct H as [H|[_ H]]; [congruence|].
      rewrite H, A, I. reflexivity. }
    rewrite (W j f x F X M I), (W j' g x' G X' M' I'). reflexivity.
Qed.
Example C79_colors_example : let m := Mesh (m_vertices square) [] [7%nat] [Face (Ids (Some 0%nat) (Some 1%nat) (Some 2%nat)) (Ids (Some 0%nat) None None) no_ids true; Face (Ids (Some 3%nat) (Some 4%nat) (Some 5%nat)) no_ids no_ids true] None in
  exists m1 m', merge (near_all 1) true m = Some m1 /\ add_missing_colors (near_all 1) 9 m = Some (m', 5%nat) /\
  map (@f_color bool) (m_faces m') = [Ids (Some 0%nat) (Some 1%nat) (Some 2%nat); Ids (Some 1%nat) (Some 3%nat) (Some 2%nat)] /\ m_colors m' = [7%nat; 9%nat; 9%nat; 9%nat].
Proof. intros m. eexists. eexists. split; [vm_compute; reflexivity|]. split; [vm_compute; reflexivity|]. split; reflexivity. Qed.
(** Setting the colour: every corner with the index of a colour below the number of vertices has this colour, as in a mesh made of triangles. *)
Theorem C79_set_color : forall N (m : mesh N) c j k i, color_id m j k = Some i -> (i < length (m_vertices m))%nat ->
  color_id (set_color m c) j k = Some i /\ nth_error (m_colors (set_color m c)) i = Some c /\ triangles (set_color m c) = triangles m.
Proof.
  intros N m c j k i E L. split; [exact E|]. split; [|reflexivity]. cbn [set_color m_colors]. rewrite nth_error_map. destruct (nth_error (m_vertices m) i) eqn:V; [reflexivity|]. apply nth_error_None in V. lia.
Qed.
Example C79_set_color_example : colors (set_color square 5) = [(Some 5%nat, Some 5%nat, Some 5%nat); (Some 5%nat, Some 5%nat, Some 5%nat)].
Proof. reflexivity. Qed.
(** After merging, setting the colour leaves corners without colour, and such a mesh cannot be added to another. *)
Theorem C79_set_color_refuted : exists m1, merge (near_all 1) true square = Some m1 /\ colored m1 /\ ~ colored (set_color m1 5) /\ snd (add_mesh ops1 empty_mesh m1) = true /\ snd (add_mesh ops1 empty_mesh (set_color m1 5)) = false.
Proof.
  eexists. split; [vm_compute; reflexivity|]. split; [|split; [|split; vm_compute; reflexivity]].
  - repeat constructor; intros [|[|[|c]]] C; try lia; cbn; (eexists; split; [reflexivity|lia]).
  - intros F. inversion F as [|? ? _ F']; subst. inversion F' as [|? ? R _]; subst. destruct (R 2%nat ltac:(lia)) as (i & I & LI). cbn in I. injection I as <-. cbn in LI. lia.
Qed.
Print Assumptions C76_triangle. Print Assumptions C76_of_triangles. Print Assumptions C76_add_mesh. Print Assumptions C76_box. Print Assumptions C76_scale. Print Assumptions C76_com.
Print Assumptions C76_nan_refuted. Print Assumptions C76_clear_refuted. Print Assumptions C76_vector_colors_refuted. Print Assumptions C76_mirror_refuted.
Print Assumptions C77_unused. Print Assumptions C77_defined. Print Assumptions C77_merge. Print Assumptions C77_clusters. Print Assumptions C77_chain_refuted. Print Assumptions C77_box_refuted.
Print Assumptions C78_correct. Print Assumptions C78_flip. Print Assumptions C78_order_refuted. Print Assumptions C78_inverted_refuted. Print Assumptions C78_colors_refuted.
Print Assumptions C79_normals. Print Assumptions C79_normals_refuted. Print Assumptions C79_colors. Print Assumptions C79_set_color. Print Assumptions C79_set_color_refuted.
