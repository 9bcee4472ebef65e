(** Proofs for C76 to C79. *)
From Coq Require Import List ZArith Bool Arith Lia.
From Verif Require Import MeshModel MeshSpec.
Import ListNotations.
Open Scope Z_scope.

Lemma vtx_eqb_spec a b : reflect (a = b) (vtx_eqb a b).
Proof.
  destruct a as [[x y] z], b as [[x' y'] z']. cbn [vtx_eqb]. destruct (Z.eqb_spec x x'), (Z.eqb_spec y y'), (Z.eqb_spec z z'); cbn [andb]; constructor; congruence.
Qed.
(** ** Building *)
Lemma in_range_intro n x : (exists a b c, x = Ids (Some a) (Some b) (Some c) /\ (a < n)%nat /\ (b < n)%nat /\ (c < n)%nat) <-> in_range n x.
Proof.
  split.
  - intros (a & b & c & -> & A & B & C) k K. destruct k as [|[|[|k]]]; cbn [corner i1 i2 i3]; [exists a|exists b|exists c|lia]; auto.
  - intros H. destruct x as [x1 x2 x3]. destruct (H 0%nat) as (a & A & LA); [lia|]. destruct (H 1%nat) as (b & B & LB); [lia|]. destruct (H 2%nat) as (c & C & LC); [lia|].
    cbn [corner i1 i2 i3] in *. subst. exists a, b, c. auto.
Qed.
Lemma in_range_mono n n' x : (n <= n')%nat -> in_range n x -> in_range n' x.
Proof. intros L H c C. destruct (H c C) as (i & E & I). exists i. split; [exact E|lia]. Qed.
Lemma at_app {A} (l l' : list A) i : (exists k, i = Some k /\ (k < length l)%nat) -> at_ (l ++ l') i = at_ l i.
Proof. intros (k & -> & K). cbn [at_]. apply nth_error_app1, K. Qed.
Lemma points_app {N} vs vs' (f : face N) : in_range (length vs) (f_vertex f) -> points (vs ++ vs') f = points vs f.
Proof.
  intros H. unfold points. rewrite !at_app; [reflexivity| | |]; [apply (H 2%nat)|apply (H 1%nat)|apply (H 0%nat)]; lia.
Qed.
Lemma add3 {N} (o : nops N) (m : mesh N) v1 v2 v3 n c1 c2 c3 : exists n' b,
  add_triangle o m (Some v1) (Some v2) (Some v3) n c1 c2 c3 =
  Mesh (m_vertices m ++ [v1; v2; v3]) (m_normals m) (m_colors m ++ [c1; c2; c3])
    (m_faces m ++ [Face (Ids (Some (length (m_vertices m))) (Some (length (m_vertices m) + 1)%nat) (Some (length (m_vertices m) + 2)%nat))
                        (Ids (Some (length (m_colors m))) (Some (length (m_colors m) + 1)%nat) (Some (length (m_colors m) + 2)%nat)) no_ids n']) b
  /\ b = box_add (box_add (box_add (m_box m) v1) v2) v3 /\ n' = (if n_tiny o n then n_create o (Some v1) (Some v2) (Some v3) else n_unit o n).
Proof.
  eexists. eexists. split; [|split; reflexivity]. unfold add_triangle. cbn [add_vertex add_color add_face fst m_vertices m_colors m_faces m_normals m_box]. rewrite <- !app_assoc. cbn [app]. rewrite !app_length. cbn [length].
  assert (B : forall n k, (k <= n)%nat -> back n k = Some (n - k)%nat) by (intros a b L; unfold back; destruct (Nat.ltb_spec a b); [lia|reflexivity]).
  rewrite !B by lia. unfold add_face. cbn [m_vertices m_normals m_colors m_faces m_box]. f_equal. f_equal. f_equal. f_equal; f_equal; f_equal; lia.
Qed.
Lemma sound_app {N} (m : mesh N) vs : sound m -> map (points (m_vertices m ++ vs)) (m_faces m) = triangles m.
Proof. intros S. unfold triangles. apply map_ext_in. intros f F. apply points_app. unfold sound in S. rewrite Forall_forall in S. apply S, F. Qed.
Lemma three {A} (l : list A) a b c : at_ (l ++ [a; b; c]) (Some (length l)) = Some a /\ at_ (l ++ [a; b; c]) (Some (length l + 1)%nat) = Some b /\ at_ (l ++ [a; b; c]) (Some (length l + 2)%nat) = Some c.
Proof.
  cbn [at_]. repeat split; rewrite nth_error_app2 by lia.
  - rewrite Nat.sub_diag. reflexivity.
  - replace (length l + 1 - length l)%nat with 1%nat by lia. reflexivity.
  - replace (length l + 2 - length l)%nat with 2%nat by lia. reflexivity.
Qed.
Lemma colors_app {N} (m : mesh N) cs : colored m ->
  map (fun f : face N => (at_ (m_colors m ++ cs) (i1 (f_color f)), at_ (m_colors m ++ cs) (i2 (f_color f)), at_ (m_colors m ++ cs) (i3 (f_color f)))) (m_faces m) = colors m.
Proof.
  intros S. unfold colors. apply map_ext_in. intros f F. unfold colored in S. rewrite Forall_forall in S. assert (H := S f F).
  rewrite !at_app; [reflexivity| | |]; [apply (H 2%nat)|apply (H 1%nat)|apply (H 0%nat)]; lia.
Qed.
Lemma add_triangle_spec {N} (o : nops N) (m : mesh N) v1 v2 v3 n c1 c2 c3 : sound m ->
  let m' := add_triangle o m (Some v1) (Some v2) (Some v3) n c1 c2 c3 in
  sound m' /\ triangles m' = triangles m ++ [(Some v1, Some v2, Some v3)] /\ m_vertices m' = m_vertices m ++ [v1; v2; v3] /\ length (m_faces m') = S (length (m_faces m)) /\
  (colored m -> colored m' /\ colors m' = colors m ++ [(Some c1, Some c2, Some c3)]).
Proof.
  intros S m'. destruct (add3 o m v1 v2 v3 n c1 c2 c3) as (n' & b & E & _). subst m'. rewrite E. destruct (three (m_vertices m) v1 v2 v3) as (A & B & C). destruct (three (m_colors m) c1 c2 c3) as (A' & B' & C').
  split; [|split; [|split; [|split]]].
  - unfold sound in *. cbn [m_vertices m_faces]. apply Forall_app. split.
    + eapply Forall_impl; [|exact S]. intros f. apply in_range_mono. rewrite app_length. lia.
    + constructor; [|constructor]. apply in_range_intro. cbn [f_vertex]. do 3 eexists. split; [reflexivity|]. rewrite app_length. cbn [length]. lia.
  - unfold triangles at 1. cbn [m_vertices m_faces]. rewrite map_app. cbn [map]. rewrite (sound_app m _ S). unfold points. cbn [f_vertex i1 i2 i3]. rewrite A, B, C. reflexivity.
  - reflexivity.
  - cbn [m_faces]. rewrite app_length. cbn [length]. lia.
  - intros SC. split.
    + unfold colored in *. cbn [m_colors m_faces]. apply Forall_app. split.
      * eapply Forall_impl; [|exact SC]. intros f. apply in_range_mono. rewrite app_length. lia.
      * constructor; [|constructor]. apply in_range_intro. cbn [f_color]. do 3 eexists. split; [reflexivity|]. rewrite app_length. cbn [length]. lia.
    + unfold colors at 1. cbn [m_colors m_faces]. rewrite map_app. cbn [map]. rewrite (colors_app m _ SC). cbn [f_color i1 i2 i3]. rewrite A', B', C'. reflexivity.
Qed.
(** *** Boxes *)
Lemma min_le a b : vx (vmin a b) <= vx a /\ vx (vmin a b) <= vx b /\ vy (vmin a b) <= vy a /\ vy (vmin a b) <= vy b /\ vz (vmin a b) <= vz a /\ vz (vmin a b) <= vz b /\
  (vx (vmin a b) = vx a \/ vx (vmin a b) = vx b) /\ (vy (vmin a b) = vy a \/ vy (vmin a b) = vy b) /\ (vz (vmin a b) = vz a \/ vz (vmin a b) = vz b).
Proof. destruct a as [[x y] z], b as [[x' y'] z']. cbn. destruct (Z.ltb_spec x' x), (Z.ltb_spec y' y), (Z.ltb_spec z' z); lia. Qed.
Lemma max_ge a b : vx a <= vx (vmax a b) /\ vx b <= vx (vmax a b) /\ vy a <= vy (vmax a b) /\ vy b <= vy (vmax a b) /\ vz a <= vz (vmax a b) /\ vz b <= vz (vmax a b) /\
  (vx (vmax a b) = vx a \/ vx (vmax a b) = vx b) /\ (vy (vmax a b) = vy a \/ vy (vmax a b) = vy b) /\ (vz (vmax a b) = vz a \/ vz (vmax a b) = vz b).
Proof. destruct a as [[x y] z], b as [[x' y'] z']. cbn. destruct (Z.ltb_spec x x'), (Z.ltb_spec y y'), (Z.ltb_spec z z'); lia. Qed.
Lemma box_step vs lo hi v : smallest_box vs lo hi -> smallest_box (vs ++ [v]) (vmin lo v) (vmax hi v).
Proof.
  intros [B (a & b & c & d & e & f & A1 & A2 & A3 & A4 & A5 & A6 & E1 & E2 & E3 & E4 & E5 & E6)]. assert (L := min_le lo v). assert (H := max_ge hi v). split.
  - intros u U. apply in_app_iff in U. destruct U as [U|[<-|[]]]; [specialize (B u U); lia|lia].
  - assert (X : forall g (P : g (vmin lo v) = g lo \/ g (vmin lo v) = g v) y, In y vs -> g y = g lo -> exists y' : vtx, In y' (vs ++ [v]) /\ (g y' : Z) = g (vmin lo v)).
    { intros g [P|P] y Y G; [exists y|exists v]; rewrite in_app_iff; [split; [auto|congruence]|split; [right; left; reflexivity|congruence]]. }
    assert (X' : forall g (P : g (vmax hi v) = g hi \/ g (vmax hi v) = g v) y, In y vs -> g y = g hi -> exists y' : vtx, In y' (vs ++ [v]) /\ (g y' : Z) = g (vmax hi v)).
    { intros g [P|P] y Y G; [exists y|exists v]; rewrite in_app_iff; [split; [auto|congruence]|split; [right; left; reflexivity|congruence]]. }
    destruct L as (_ & _ & _ & _ & _ & _ & L1 & L2 & L3). destruct H as (_ & _ & _ & _ & _ & _ & H1 & H2 & H3).
    destruct (X vx L1 a A1 E1) as (a' & ? & ?). destruct (X' vx H1 b A2 E2) as (b' & ? & ?). destruct (X vy L2 c A3 E3) as (c' & ? & ?). destruct (X' vy H2 d A4 E4) as (d' & ? & ?).
    destruct (X vz L3 e A5 E5) as (e' & ? & ?). destruct (X' vz H3 f A6 E6) as (f' & ? & ?). exists a', b', c', d', e', f'. repeat (split; [assumption|]). assumption.
Qed.
Lemma box_one v : smallest_box [v] v v.
Proof. split; [intros u [<-|[]]; lia|]. exists v, v, v, v, v, v. cbn. intuition. Qed.
Definition box_of (vs : list vtx) (b : option (vtx * vtx)) : Prop := match b with None => vs = [] | Some (lo, hi) => smallest_box vs lo hi end.
Lemma box_add_spec vs b v : box_of vs b -> box_of (vs ++ [v]) (box_add b v).
Proof. destruct b as [[lo hi]|]; cbn [box_of box_add]; [apply box_step|]. intros ->. apply box_one. Qed.
Lemma add_triangle_boxed {N} (o : nops N) (m : mesh N) v1 v2 v3 n c1 c2 c3 : boxed m -> boxed (add_triangle o m v1 v2 v3 n c1 c2 c3).
Proof.
  assert (V : forall (m : mesh N) v, boxed m -> boxed (fst (add_vertex m v))) by (intros x [v|] B; [apply (box_add_spec _ _ v) in B; exact B|exact B]).
  intros B. unfold add_triangle, boxed. cbn [add_color add_face fst m_box m_vertices]. apply (V _ v3), V, V, B.
Qed.
Lemma box_unique vs lo hi lo' hi' : smallest_box vs lo hi -> smallest_box vs lo' hi' -> lo = lo' /\ hi = hi'.
Proof.
  intros [B (a & b & c & d & e & f & A1 & A2 & A3 & A4 & A5 & A6 & E1 & E2 & E3 & E4 & E5 & E6)] [B' (a' & b' & c' & d' & e' & f' & A1' & A2' & A3' & A4' & A5' & A6' & E1' & E2' & E3' & E4' & E5' & E6')].
  assert (Q := B' a A1). assert (Q0 := B' b A2). assert (Q1 := B' c A3). assert (Q2 := B' d A4). assert (Q3 := B' e A5). assert (Q4 := B' f A6).
  assert (R := B a' A1'). assert (R0 := B b' A2'). assert (R1 := B c' A3'). assert (R2 := B d' A4'). assert (R3 := B e' A5'). assert (R4 := B f' A6').
  destruct lo as [[l1 l2] l3], lo' as [[l1' l2'] l3'], hi as [[h1 h2] h3], hi' as [[h1' h2'] h3']. unfold vx, vy, vz in *. cbn [fst snd] in *. split; repeat f_equal; lia.
Qed.
Lemma get_size_spec {N} (m : mesh N) : match get_size m with None => m_vertices m = [] | Some (lo, hi) => smallest_box (m_vertices m) lo hi end.
Proof.
  unfold get_size. destruct (m_vertices m) as [|v vs]; [reflexivity|]. set (g := fun (b : vtx * vtx) u => (vmin (fst b) u, vmax (snd b) u)).
  assert (G : forall l pre b, smallest_box pre (fst b) (snd b) -> smallest_box (pre ++ l) (fst (fold_left g l b)) (snd (fold_left g l b))).
  { induction l as [|u l IH]; intros pre b B; cbn [fold_left]; [rewrite app_nil_r; exact B|]. replace (pre ++ u :: l) with ((pre ++ [u]) ++ l) by (rewrite <- app_assoc; reflexivity). apply IH. unfold g. cbn [fst snd]. apply box_step, B. }
  assert (Q := G (v :: vs) [v] (v, v) (box_one v)). destruct (fold_left g (v :: vs) (v, v)) as [lo hi]. cbn [fst snd app] in Q. destruct Q as [B (a & b & c & d & e & f & H)].
  split; [intros u U; apply B; right; exact U|]. exists a, b, c, d, e, f. assert (I : forall x, In x (v :: v :: vs) -> In x (v :: vs)) by (intros x [<-|X]; [left; reflexivity|exact X]).
  destruct H as (H1 & H2 & H3 & H4 & H5 & H6 & H). do 6 (split; [apply I; assumption|]). exact H.
Qed.
(** *** Several triangles *)
Lemma empty_sound {N} : sound (@empty_mesh N) /\ colored (@empty_mesh N) /\ boxed (@empty_mesh N).
Proof. repeat split; constructor. Qed.
Lemma of_triangles_spec {N} (o : nops N) : forall ts m, Forall three_points ts -> sound m -> colored m -> boxed m ->
  let m' := fold_left (fun m t => let '(a, b, c) := t in add_points o m a b c) ts m in
  sound m' /\ colored m' /\ boxed m' /\ triangles m' = triangles m ++ ts.
Proof.
  induction ts as [|[[a b] c] ts IH]; intros m F S C B; cbn [fold_left]; cbv zeta; [rewrite app_nil_r; auto|]. inversion F as [|? ? A0 F']; subst. cbn [three_points] in A0. destruct A0 as (A1 & A2 & A3).
  destruct a as [a|]; [|congruence]. destruct b as [b|]; [|congruence]. destruct c as [c|]; [|congruence].   destruct (add_triangle_spec o m a b c (n_create o (Some a) (Some b) (Some c)) gray gray gray S) as (S' & T' & _ & _ & K). destruct (K C) as [C' _].
  destruct (IH (add_points o m (Some a) (Some b) (Some c)) F' S' C' (add_triangle_boxed o m _ _ _ _ _ _ _ B)) as (H1 & H2 & H3 & H4). split; [exact H1|]. split; [exact H2|]. split; [exact H3|]. rewrite H4. unfold add_points at 1. rewrite T', <- app_assoc. reflexivity.
Qed.
Lemma at_some {A} (l : list A) i : at_ l (Some i) <> None <-> (i < length l)%nat.
Proof. cbn [at_]. apply nth_error_Some. Qed.
Lemma face_ok_at {N} (src : mesh N) (f : face N) : face_ok src f <->
  at_ (m_vertices src) (i1 (f_vertex f)) <> None /\ at_ (m_vertices src) (i2 (f_vertex f)) <> None /\ at_ (m_vertices src) (i3 (f_vertex f)) <> None /\
  at_ (m_colors src) (i1 (f_color f)) <> None /\ at_ (m_colors src) (i2 (f_color f)) <> None /\ at_ (m_colors src) (i3 (f_color f)) <> None.
Proof.
  unfold face_ok. rewrite <- !in_range_intro. destruct (f_vertex f) as [a b c], (f_color f) as [a' b' c']. cbn [i1 i2 i3]. split.
  - intros [(x & y & z & E & ? & ? & ?) (x' & y' & z' & E' & ? & ? & ?)]. injection E as -> -> ->. injection E' as -> -> ->. rewrite !at_some. auto 10.
  - intros (A & B & C & A' & B' & C'). destruct a as [a|]; [|cbn in A; congruence]. destruct b as [b|]; [|cbn in B; congruence]. destruct c as [c|]; [|cbn in C; congruence].
    destruct a' as [a'|]; [|cbn in A'; congruence]. destruct b' as [b'|]; [|cbn in B'; congruence]. destruct c' as [c'|]; [|cbn in C'; congruence]. rewrite !at_some in *.
    split; do 3 eexists; (split; [reflexivity|auto]).
Qed.
Lemma add_faces_spec {N} (o : nops N) src : forall fs m, sound m -> colored m -> boxed m ->
  exists done rest, fs = done ++ rest /\ Forall (face_ok src) done /\
  let '(m', ok) := add_faces o m src fs in
  sound m' /\ colored m' /\ boxed m' /\ triangles m' = triangles m ++ map (points (m_vertices src)) done /\
  colors m' = colors m ++ map (fun f => (at_ (m_colors src) (i1 (f_color f)), at_ (m_colors src) (i2 (f_color f)), at_ (m_colors src) (i3 (f_color f)))) done /\
  (ok = true /\ rest = [] \/ ok = false /\ exists f rest', rest = f :: rest' /\ ~ face_ok src f).
Proof.
  induction fs as [|f fs IH]; intros m S C B.
  - exists [], []. split; [reflexivity|]. split; [constructor|]. cbn [add_faces map]. rewrite !app_nil_r. auto 10.
  - assert (OK := face_ok_at src f). cbn [add_faces].
    assert (BAD : ~ face_ok src f -> exists done rest, f :: fs = done ++ rest /\ Forall (face_ok src) done /\
      (sound m /\ colored m /\ boxed m /\ triangles m = triangles m ++ map (points (m_vertices src)) done /\
       colors m = colors m ++ map (fun f => (at_ (m_colors src) (i1 (f_color f)), at_ (m_colors src) (i2 (f_color f)), at_ (m_colors src) (i3 (f_color f)))) done /\
       (false = true /\ rest = [] \/ false = false /\ exists f rest', rest = f :: rest' /\ ~ face_ok src f))).
    { intros NO. exists [], (f :: fs). split; [reflexivity|]. split; [constructor|]. cbn [map]. rewrite !app_nil_r. repeat (split; [assumption|]). split; [reflexivity|]. split; [reflexivity|]. right. split; [reflexivity|]. exists f, fs. auto. }
    destruct (at_ (m_vertices src) (i1 (f_vertex f))) as [v1|] eqn:E1; [|apply BAD; tauto]. destruct (at_ (m_vertices src) (i2 (f_vertex f))) as [v2|] eqn:E2; [|apply BAD; tauto].
    destruct (at_ (m_vertices src) (i3 (f_vertex f))) as [v3|] eqn:E3; [|apply BAD; tauto]. destruct (at_ (m_colors src) (i1 (f_color f))) as [c1|] eqn:E4; [|apply BAD; tauto].
    destruct (at_ (m_colors src) (i2 (f_color f))) as [c2|] eqn:E5; [|apply BAD; tauto]. destruct (at_ (m_colors src) (i3 (f_color f))) as [c3|] eqn:E6; [|apply BAD; tauto].
    assert (GOOD : face_ok src f) by (apply OK; repeat split; discriminate).
    destruct (add_triangle_spec o m v1 v2 v3 (f_normal f) c1 c2 c3 S) as (S' & T' & _ & _ & K). destruct (K C) as [C' CT].
    destruct (IH _ S' C' (add_triangle_boxed o m _ _ _ _ _ _ _ B)) as (dn & rest & E & FD & H). exists (f :: dn), rest. split; [rewrite E; reflexivity|]. split; [constructor; assumption|].
    destruct (add_faces o (add_triangle o m (Some v1) (Some v2) (Some v3) (f_normal f) c1 c2 c3) src fs) as [m' ok]. destruct H as (H1 & H2 & H3 & H4 & H5 & H6).
    split; [exact H1|]. split; [exact H2|]. split; [exact H3|]. split; [|split; [|exact H6]].
    + rewrite H4, T', <- app_assoc. cbn [map app]. replace (points (m_vertices src) f) with (Some v1, Some v2, Some v3) by (unfold points; rewrite E1, E2, E3; reflexivity). reflexivity.
    + rewrite H5, CT, <- app_assoc. cbn [map app]. rewrite E4, E5, E6. reflexivity.
Qed.
Lemma scale_box s vs lo hi : (let '(a, b, c) := s in 0 <= a /\ 0 <= b /\ 0 <= c) -> smallest_box vs lo hi -> smallest_box (map (vscale s) vs) (vscale s lo) (vscale s hi).
Proof.
  destruct s as [[a b] c]. intros (A & B & C) [BB (p1 & p2 & p3 & p4 & p5 & p6 & A1 & A2 & A3 & A4 & A5 & A6 & E1 & E2 & E3 & E4 & E5 & E6)].
  assert (X : forall v, vx (vscale (a, b, c) v) = vx v * a /\ vy (vscale (a, b, c) v) = vy v * b /\ vz (vscale (a, b, c) v) = vz v * c) by (intros [[x y] z]; cbn; auto). split.
  - intros u U. apply in_map_iff in U. destruct U as (v & <- & V). destruct (X v) as (-> & -> & ->). destruct (X lo) as (-> & -> & ->). destruct (X hi) as (-> & -> & ->). specialize (BB v V). nia.
  - exists (vscale (a, b, c) p1), (vscale (a, b, c) p2), (vscale (a, b, c) p3), (vscale (a, b, c) p4), (vscale (a, b, c) p5), (vscale (a, b, c) p6).
    do 6 (split; [apply in_map; assumption|]). destruct (X lo) as (-> & -> & ->). destruct (X hi) as (-> & -> & ->).
    destruct (X p1) as (-> & _ & _). destruct (X p2) as (-> & _ & _). destruct (X p3) as (_ & -> & _). destruct (X p4) as (_ & -> & _). destruct (X p5) as (_ & _ & ->). destruct (X p6) as (_ & _ & ->).
    rewrite E1, E2, E3, E4, E5, E6. auto 10.
Qed.
Lemma sum_bounds : forall vs acc lo hi (k : Z), (forall v, In v vs -> vx lo <= vx v <= vx hi /\ vy lo <= vy v <= vy hi /\ vz lo <= vz v <= vz hi) ->
  (k * vx lo <= vx acc <= k * vx hi /\ k * vy lo <= vy acc <= k * vy hi /\ k * vz lo <= vz acc <= k * vz hi) ->
  let s := fold_left vplus vs acc in let n := k + Z.of_nat (length vs) in
  n * vx lo <= vx s <= n * vx hi /\ n * vy lo <= vy s <= n * vy hi /\ n * vz lo <= vz s <= n * vz hi.
Proof.
  induction vs as [|v vs IH]; intros acc lo hi k B A; cbn [fold_left length]; cbv zeta; [rewrite Z.add_0_r; exact A|].
  assert (V := B v (or_introl eq_refl)). assert (Q := IH (vplus acc v) lo hi (k + 1) (fun u U => B u (or_intror U))). cbv zeta in Q.
  replace (k + Z.of_nat (S (length vs))) with (k + 1 + Z.of_nat (length vs)) by lia. apply Q. destruct acc as [[x y] z], v as [[x' y'] z']. unfold vx, vy, vz in *. cbn [vplus fst snd] in *. lia.
Qed.
