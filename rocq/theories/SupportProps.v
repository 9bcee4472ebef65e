(** C72 (contacts of an object with a plane) and C73 (support polygon and stability index). *)
From Coq Require Import Reals Lra Lia List Bool ZArith Arith.
From Verif Require Import QuatModel QuatSpec RpyModel KinModel BBoxModel BBoxSpec PlaneModel PlaneProofs SupportModel SupportSpec SupportProofs.
From Verif Require HullModel HullSpec HullProps.
Import ListNotations.
Open Scope R_scope.

(** getContacts appends vertices of the object, none of them further than the bound above the plane, with the normal of the plane. If a
    vertex is closer to the plane than the bound, then every vertex that is not further than the bound above the plane is appended. *)
Theorem C72_contacts : forall q n m store d, n <> Vec 0 0 0 -> rotation (prot (cm_pose m)) -> fits m -> 0 <= d ->
  let pl := mk_plane q n in
  exists cs, get_contacts pl (Some m) store d = Done (store ++ cs) /\
    (forall c, In c cs -> ct_n c = pl_n pl /\ world_vertex m (ct_p c) /\ plane_dist (ct_p c) pl <= d) /\
    (cs = [] \/ forall x, world_vertex m x -> plane_dist x pl <= d -> In (Contact x (pl_n pl)) cs) /\
    ((exists x, world_vertex m x /\ Rabs (plane_dist x pl) < d) -> forall x, world_vertex m x -> plane_dist x pl <= d -> In (Contact x (pl_n pl)) cs).
Proof.
  intros q n m store d N R F D. cbv zeta. destruct (mk_plane_normal q n N) as (k & u & K & U & _ & ->). cbn [pl_n].
  destruct (contacts_ok q u m store d R U F D) as (cs & E & A & B & C). exists cs. split; [exact E|].
  split; [intros c I; rewrite plane_dist_side; apply A, I|]. split.
  - destruct B as [B|B]; [left; exact B|right]. intros x X. rewrite plane_dist_side. apply B, X.
  - intros (x & X & Y). rewrite plane_dist_side in Y. intros y W. rewrite plane_dist_side. apply C; [exists x; auto|exact W].
Qed.
Theorem C72_null : forall pl store d, get_contacts pl None store d = Throws.
Proof. reflexivity. Qed.
(** For an object that is nowhere deeper than the bound below the plane: exactly the vertices near the plane (up to those at exactly that distance). *)
Theorem C72_resting : forall q n m store d, n <> Vec 0 0 0 -> rotation (prot (cm_pose m)) -> fits m -> 0 <= d ->
  let pl := mk_plane q n in (forall x, world_vertex m x -> - d <= plane_dist x pl) ->
  exists cs, get_contacts pl (Some m) store d = Done (store ++ cs) /\
    (forall c, In c cs -> world_vertex m (ct_p c) /\ Rabs (plane_dist (ct_p c) pl) <= d) /\
    (forall x, world_vertex m x -> Rabs (plane_dist x pl) < d -> exists c, In c cs /\ ct_p c = x).
Proof.
  intros q n m store d N R F D. cbv zeta. intros H. destruct (C72_contacts q n m store d N R F D) as (cs & E & A & _ & C). exists cs. split; [exact E|]. split.
  - intros c I. destruct (A c I) as (_ & W & L). split; [exact W|]. specialize (H _ W). apply Rabs_le. lra.
  - intros x X Y. exists (Contact x (pl_n (mk_plane q n))). split; [|reflexivity]. apply C; [exists x; auto|exact X|]. apply Rabs_def2 in Y. lra.
Qed.
(** getContacts: a vertex far below the plane is reported as a contact (the distance is signed), here one at depth 10 for the bound 1. *)
Theorem C72_depth_refuted : exists m d x, rotation (prot (cm_pose m)) /\ fits m /\ world_vertex m x /\
  exists cs, get_contacts floor_plane (Some m) [] d = Done cs /\ In (Contact x (pl_n floor_plane)) cs /\ 0 < d /\ d < Rabs (plane_dist x floor_plane).
Proof.
  set (x := Vec 0 0 (-10)). set (m := ColModel (Box (point 0 0 (-10)) (point 0 0 0)) pid [Vec 0 0 0; x]). exists m, 1, x.
  assert (R : rotation (prot (cm_pose m))) by (cbn; unfold rotation, mmul, mtrans, mid, mdet; cbn; split; [f_equal; ring|]; split; [f_equal; ring|ring]). split; [exact R|].
  assert (F : fits m).
  { exists x, (Vec 0 0 0). split; [split; reflexivity|]. split; [unfold ordered, x; cbn; lra|]. intros v [<-|[<-|[]]]; unfold within, x; cbn; lra. }
  split; [exact F|]. assert (I : forall v, image pid v = v) by (intros [a b c]; unfold image, pid, mid; cbn; f_equal; ring).
  assert (W : forall v, In v [Vec 0 0 0; x] -> world_vertex m v) by (intros v V; exists v; split; [exact V|cbn [cm_pose m]; rewrite I; reflexivity]).
  split; [apply W; cbn; auto|]. rewrite floor_plane_eq. destruct (contacts_ok (Vec 0 0 0) ez m [] 1 R ez_unit F ltac:(lra)) as (cs & E & _ & _ & C).
  exists cs. split; [exact E|]. rewrite !plane_dist_side, floor_side. cbn [vz x]. cbn [pl_n]. split; [|rewrite Rabs_left; lra].
  apply C; [|apply W; cbn; auto|rewrite floor_side; cbn [vz x]; lra]. exists (Vec 0 0 0). split; [apply W; cbn; auto|]. rewrite floor_side. cbn [vz]. rewrite Rabs_R0. lra.
Qed.
(** getContacts: a vertex at exactly the given distance need not be reported, although the comparison lets it pass. *)
Theorem C72_touching_refuted : exists m d x, rotation (prot (cm_pose m)) /\ fits m /\ world_vertex m x /\ plane_dist x floor_plane = d /\ 0 < d /\
  get_contacts floor_plane (Some m) [] d = Done [].
Proof.
  set (x := Vec 0 0 1). set (m := ColModel (Box (point 0 0 1) (point 0 0 1)) pid [x]). exists m, 1, x.
  assert (R : rotation (prot (cm_pose m))) by (cbn; unfold rotation, mmul, mtrans, mid, mdet; cbn; split; [f_equal; ring|]; split; [f_equal; ring|ring]). split; [exact R|].
  assert (S : span (cm_box m) x x) by (split; reflexivity).
  assert (F : fits m). { exists x, x. split; [exact S|]. split; [unfold ordered; lra|]. intros v [<-|[]]; unfold within; lra. }
  split; [exact F|]. assert (I : forall v, image pid v = v) by (intros [a b c]; unfold image, pid, mid; cbn; f_equal; ring).
  split; [exists x; split; [left; reflexivity|cbn [cm_pose m]; rewrite I; reflexivity]|]. rewrite floor_plane_eq, plane_dist_side, floor_side. split; [reflexivity|]. split; [lra|].
  unfold get_contacts. cbn [pl_p pl_n]. change (vec_of (Vec 0 0 0)) with (BBoxSpec.pt (Vec 0 0 0)). change (vec_of ez) with (BBoxSpec.pt ez).
  assert (S' := enlarge_span _ _ _ 1 S). set (l := Vec (vx x - 1) (vy x - 1) (vz x - 1)) in *. set (h := Vec (vx x + 1) (vy x + 1) (vz x + 1)) in *.
  assert (G : of_points (map (move (cm_pose m)) (get_points (enlarge (cm_box m) 1))) = of_points (map BBoxSpec.pt (BBoxProofs.corners l h))).
  { f_equal. rewrite (BBoxProofs.get_points_corners _ _ _ S'), map_map. apply map_ext. intros p. rewrite BBoxProofs.move_pt. cbn [cm_pose m]. rewrite I. reflexivity. }
  rewrite G. assert (C : exists k r, BBoxProofs.corners l h = k :: r) by (do 2 eexists; reflexivity). destruct C as (k & r & C). rewrite C.
  destruct (proj2 BBoxProps.C37_smallest k r) as (l' & h' & S2 & O2 & _ & MIN). destruct (BBoxProofs.plane_spec _ l' h' (Vec 0 0 0) ez S2 O2) as (b & E & IFF). rewrite E.
  destruct b; [|reflexivity]. exfalso. destruct (proj1 IFF eq_refl) as (_ & c & _ & K & _ & N). rewrite floor_side in N.
  assert (Q := MIN l h). rewrite <- C in Q. specialize (Q (fun q I => BBoxProofs.corners_within l h q ltac:(unfold ordered, l, h, x; cbn; lra) I) c K).
  destruct Q as (_ & _ & Q). unfold l, x in Q; cbn [vx vy vz] in Q. lra.
Qed.
(** getContacts for a model without a bounding box (no vertices) reads outside a vector. *)
Theorem C72_empty_refuted : forall pl g vs store d, get_contacts pl (Some (ColModel empty g vs)) store d = Outside.
Proof. intros pl g vs store d. reflexivity. Qed.

(** The support polygon: the models with a collision model; the constructor throws if there is none. *)
Theorem C73_models : forall objects, match support_models objects with
  | None => forall o, In o objects -> o = None
  | Some ms => ms <> [] /\ forall m, In m ms <-> In (Some m) objects
  end.
Proof.
  intros objects. unfold support_models. set (f := fun o : option colmodel => match o with Some m => [m] | None => [] end).
  assert (IN : forall m, In m (flat_map f objects) <-> In (Some m) objects).
  { intros m. rewrite in_flat_map. split; [intros ([k|] & I & H); [destruct H as [->|[]]; exact I|destruct H]|]. intros I. exists (Some m). split; [exact I|left; reflexivity]. }
  destruct (flat_map f objects) as [|m ms] eqn:E.
  - intros [m|] I; [|reflexivity]. apply IN in I. destruct I.
  - split; [discriminate|exact IN].
Qed.
(** updateSupportPolygon: the contact points are vertices of the models not higher than the bound, among them all that are closer to the
    floor than it; the reported points are their ground positions without doubles; the polygon is spanned by reported points and holds
    all of them, and there is none exactly if fewer than three are reported. *)
Theorem C73_polygon : forall eps grid ms d, (0 < eps)%Z -> 0 <= d -> (forall m, In m ms -> rotation (prot (cm_pose m)) /\ fits m) ->
  exists xs pts poly, update_polygon eps grid ms d = Done (pts, poly) /\
    (forall x, In x xs -> vz x <= d /\ exists m, In m ms /\ world_vertex m x) /\
    (forall m x, In m ms -> world_vertex m x -> Rabs (vz x) < d -> In x xs) /\
    HullSpec.distinct_points eps (map (fun x => grid (vx x, vy x)) xs) pts /\
    match poly with
    | None => (length pts < 3)%nat
    | Some vs => (3 <= length pts)%nat /\ incl vs pts /\ forall q, In q pts -> HullSpec.in_polygon vs q
    end.
Proof.
  intros eps grid ms d E D OK. destruct (all_contacts_ok ms [] d D OK) as (cs & H & A & B). cbn [app] in H. unfold update_polygon. rewrite H.
  exists (map ct_p cs). do 2 eexists. split; [reflexivity|]. split; [intros x X; apply in_map_iff in X; destruct X as (c & <- & C); apply A, C|]. split.
  { intros m x M W X. destruct (B m x M W X) as (c & C & <-). apply in_map, C. }
  rewrite map_map. rewrite (map_ext (fun c => grid (project2 (ct_p c) floor_plane)) (fun c => grid (vx (ct_p c), vy (ct_p c)))) by (intros c; rewrite project2_floor; reflexivity).
  apply (polygon_of_sorted eps _ E).
Qed.

(** The index is a number between 0 and 1; it is 0 without a node set, without a polygon, for a polygon without area and if the centre
    of mass is not over the polygon. *)
Theorem C73_range : forall tol big eps points com, 0 <= tol -> 0 <= big -> (0 < eps)%Z ->
  exists r, stability_index tol big com (HullModel.hull_vertices eps points) = Some r /\ 0 <= r <= 1 /\
    (com = None -> r = 0) /\ (HullModel.hull_vertices eps points = None -> r = 0) /\
    (forall vs, HullModel.hull_vertices eps points = Some vs -> HullSpec.collinear vs -> r = 0) /\
    (forall vs c, HullModel.hull_vertices eps points = Some vs -> com = Some c -> ~ HullSpec.in_polygon vs c -> r = 0).
Proof.
  intros tol big eps points com T B E.
  assert (Z4 : exists r, Some 0 = Some r /\ 0 <= r <= 1 /\ (com = None -> r = 0) /\ (HullModel.hull_vertices eps points = None -> r = 0) /\
    (forall vs, HullModel.hull_vertices eps points = Some vs -> HullSpec.collinear vs -> r = 0) /\
    (forall vs c, HullModel.hull_vertices eps points = Some vs -> com = Some c -> ~ HullSpec.in_polygon vs c -> r = 0)) by (exists 0; repeat split; auto; lra).
  unfold stability_index. destruct com as [com|]; [|exact Z4]. destruct (HullModel.hull_vertices eps points) as [vs|] eqn:H; [|exact Z4].
  destruct (length vs <? 2)%nat; [exact Z4|].
  destruct (HullProps.C27_inside eps points vs com E H) as [[IN P]|[IN P]]; rewrite IN; [|exact Z4]. clear Z4.
  eexists. split; [reflexivity|]. set (dc := sqrt _). set (dm := sqrt _). assert (C0 : 0 <= dc) by apply sqrt_pos. assert (M0 : 0 <= dm) by apply sqrt_pos.
  split; [|split; [discriminate|]; split; [discriminate|]; split].
  - destruct (Rlt_dec tol (Rabs dc)) as [L|L].
    + rewrite Rabs_right in L by lra. assert (Q : 0 <= dm / dc) by (apply Rle_mult_inv_pos; lra). destruct (Rlt_dec 1 (dm / dc)); lra.
    + destruct (Rlt_dec 1 0); lra.
  - intros k [= <-] COL. assert (Z : dc = 0).
    { unfold dc. destruct (hull_shape eps points vs E H) as [(_ & S)|(S & _)]; [|contradiction]. rewrite (flat_center big vs B S). apply sqrt_0. }
    rewrite Z, Rabs_R0. destruct (Rlt_dec tol 0); [lra|]. destruct (Rlt_dec 1 0); lra.
  - intros k c [= <-] [= <-] N. contradiction.
Qed.
(** Otherwise it is the distance of the centre of mass to the border, in parts of the distance of the centre of the surrounding rectangle to the border, at most 1. *)
Theorem C73_value : forall tol big B eps points vs com, 0 <= tol -> (0 < eps)%Z -> 8 * (B * B) <= big ->
  HullModel.hull_vertices eps points = Some vs -> ~ HullSpec.collinear vs -> HullSpec.in_polygon vs com ->
  (forall v, In v (com :: vs) -> Rabs (IZR (fst v)) <= B /\ Rabs (IZR (snd v)) <= B) ->
  exists c D Dc, rectangle_center vs c /\ border_distance vs (IZR (fst com), IZR (snd com)) D /\ border_distance vs c Dc /\
    stability_index tol big (Some com) (HullModel.hull_vertices eps points) = Some (if Rle_dec Dc tol then 0 else Rmin 1 (D / Dc)).
Proof.
  intros tol big B eps points vs com T E BB H NC IN BD. destruct (hull_shape eps points vs E H) as [(S & _)|(_ & C & L)]; [contradiction|].
  assert (NE : vs <> []) by (intros ->; cbn in L; lia). assert (RC := hull_center_ok vs NE).
  assert (BP : 0 <= B) by (destruct (BD com (or_introl eq_refl)) as [X _]; assert (Y := Rabs_pos (IZR (fst com))); lra).
  assert (FAR : forall x y v, In v vs -> - B <= x <= B -> - B <= y <= B -> rsq (x, y) (real_point v) <= big).
  { intros x y v V X Y. destruct (BD v (or_intror V)) as [V0 V1]. apply rabs_between in V0, V1. unfold rsq, real_point; cbn [fst snd]. apply Rle_trans with (2 := BB). nra. }
  assert (D1 : border_distance vs (IZR (fst com), IZR (snd com)) (sqrt (min_dist big vs (real_point com)))).
  { apply (min_border vs (real_point com) big C L); [apply inside_left; assumption|]. destruct vs as [|v vs]; [contradiction|]. exists v. split; [left; reflexivity|].
    destruct (BD com (or_introl eq_refl)) as [X Y]. apply rabs_between in X, Y. apply FAR; [left; reflexivity| |]; assumption. }
  assert (D2 : border_distance vs (hull_center vs) (sqrt (min_dist big vs (hull_center vs)))).
  { apply (min_border vs _ big C L); [apply center_left; assumption|]. destruct RC as (l & r & d & u & IL & IR & ID & IU & _ & ->). exists l. split; [exact IL|].
    apply FAR; [exact IL| |]; [destruct (BD l (or_intror IL)) as [X1 _], (BD r (or_intror IR)) as [X2 _]|destruct (BD d (or_intror ID)) as [_ X1], (BD u (or_intror IU)) as [_ X2]]; apply rabs_between in X1, X2; lra. }
  exists (hull_center vs), (sqrt (min_dist big vs (real_point com))), (sqrt (min_dist big vs (hull_center vs))).
  split; [exact RC|]. split; [exact D1|]. split; [exact D2|]. unfold stability_index. rewrite H. destruct (Nat.ltb_spec (length vs) 2); [lia|].
  destruct (HullProps.C27_inside eps points vs com E H) as [[I _]|[_ N]]; [|contradiction]. rewrite I. f_equal.
  set (dc := sqrt (min_dist big vs (hull_center vs))). set (dm := sqrt (min_dist big vs (real_point com))). assert (C0 : 0 <= dc) by apply sqrt_pos.
  rewrite (Rabs_right dc) by lra. destruct (Rlt_dec tol dc) as [G|G], (Rle_dec dc tol) as [G'|G']; try lra.
  - unfold Rmin. destruct (Rlt_dec 1 (dm / dc)), (Rle_dec 1 (dm / dc)); lra.
  - destruct (Rlt_dec 1 0); lra.
Qed.
(** So, if that rectangle's centre is not too close to the border, the index is positive exactly if the centre of mass is over the inner of the polygon. *)
Theorem C73_positive : forall tol big B eps points vs com, 0 <= tol -> (0 < eps)%Z -> 8 * (B * B) <= big ->
  HullModel.hull_vertices eps points = Some vs -> ~ HullSpec.collinear vs -> HullSpec.in_polygon vs com ->
  (forall v, In v (com :: vs) -> Rabs (IZR (fst v)) <= B /\ Rabs (IZR (snd v)) <= B) ->
  (forall c b, rectangle_center vs c -> on_border vs b -> tol < plane_dist2 c b) ->
  exists r, stability_index tol big (Some com) (HullModel.hull_vertices eps points) = Some r /\
    (0 < r <-> ~ on_border vs (IZR (fst com), IZR (snd com))).
Proof.
  intros tol big B eps points vs com T E BB H NC IN BD FAR. destruct (C73_value tol big B eps points vs com T E BB H NC IN BD) as (c & D & Dc & RC & [(b & ON & EB) LB] & [(b' & ON' & EB') _] & V).
  eexists. split; [exact V|]. assert (G := FAR c b' RC ON'). rewrite EB' in G. destruct (Rle_dec Dc tol); [lra|].
  assert (POS : 0 < Rmin 1 (D / Dc) <-> 0 < D).
  { assert (DD : D = D / Dc * Dc) by (field; lra). unfold Rmin. split.
    - intros X. destruct (Rle_dec 1 (D / Dc)); rewrite DD; apply Rmult_lt_0_compat; lra.
    - intros X. destruct (Rle_dec 1 (D / Dc)); [lra|]. apply Rdiv_lt_0_compat; lra. }
  rewrite POS. split.
  - intros X Y. specialize (LB _ Y). unfold plane_dist2 in LB. cbn [fst snd] in LB. rewrite !Rminus_diag_eq, Rmult_0_l, Rplus_0_l, sqrt_0 in LB by reflexivity. lra.
  - intros N. assert (D0 : 0 <= D) by (rewrite <- EB; apply sqrt_pos). destruct D0 as [D0|D0]; [exact D0|exfalso]. apply N. rewrite <- D0 in EB. unfold plane_dist2 in EB.
    assert (X := Rle_0_sqr (IZR (fst com) - fst b)). assert (Y := Rle_0_sqr (IZR (snd com) - snd b)). unfold Rsqr in *. apply sqrt_eq_0 in EB; [|cbn [fst snd]; lra]. cbn [fst snd] in EB.
    assert (X0 : IZR (fst com) - fst b = 0) by (apply Rsqr_0_uniq; unfold Rsqr; lra). assert (Y0 : IZR (snd com) - snd b = 0) by (apply Rsqr_0_uniq; unfold Rsqr; lra).
    replace (IZR (fst com), IZR (snd com)) with b; [exact ON|]. destruct b; cbn [fst snd] in *. f_equal; lra.
Qed.
(** getStabilityIndex: the index is 0 although the centre of mass is well inside the polygon: for a right triangle the centre of the surrounding rectangle lies on the border. *)
Theorem C73_index_refuted : exists (eps : Z) (points vs : list HullModel.pt) (com : HullModel.pt), (0 < eps)%Z /\ HullModel.hull_vertices eps points = Some vs /\
  HullSpec.in_polygon vs com /\ ~ on_border vs (IZR (fst com), IZR (snd com)) /\
  forall tol big, 0 <= tol -> 0 <= big -> stability_index tol big (Some com) (HullModel.hull_vertices eps points) = Some 0.
Proof.
  exists 1%Z, [(0, 0); (4, 0); (0, 4)]%Z, [(0, 0); (4, 0); (0, 4)]%Z, (1, 1)%Z.
  assert (H : HullModel.hull_vertices 1 [(0, 0); (4, 0); (0, 4)]%Z = Some [(0, 0); (4, 0); (0, 4)]%Z) by (vm_compute; reflexivity).
  split; [lia|]. split; [exact H|]. split; [|split].
  - exists [2; 1; 1]%Z. split; [reflexivity|]. split; [repeat constructor; lia|]. vm_compute. auto.
  - intros (i & a & c & t & A & C & T & E). cbn [fst snd] in E. destruct i as [|[|[|i]]]; cbn in A, C; try discriminate; try (destruct i; discriminate);
      injection A as <-; injection C as <-; cbn [fst snd] in E; injection E as E1 E2; lra.
  - intros tol big T B. unfold stability_index. rewrite H. cbn [length Nat.ltb Nat.leb]. assert (I : HullModel.is_inside (1, 1)%Z [(0, 0); (4, 0); (0, 4)]%Z = Some true) by (vm_compute; reflexivity). rewrite I.
    assert (Z : min_dist big [(0, 0); (4, 0); (0, 4)]%Z (hull_center [(0, 0); (4, 0); (0, 4)]%Z) = 0).
    { apply (min_dist_zero _ _ _ 2%nat B); [cbn; lia|]. replace (hull_center _) with (((fst (real_point (4, 0)%Z)) + fst (real_point (0, 4)%Z)) / 2, (snd (real_point (4, 0)%Z) + snd (real_point (0, 4)%Z)) / 2).
      - apply (middle_on_line (real_point (4, 0)%Z) (real_point (0, 4)%Z)).
      - unfold hull_center, real_point. cbn. f_equal; lra. }
    rewrite Z, sqrt_0, Rabs_R0. destruct (Rlt_dec tol 0); [lra|]. destruct (Rlt_dec 1 0); [lra|reflexivity].
Qed.

(** ** Cases that meet the hypotheses *)
(** A square of size 4 with the centre of mass at distance 1 from its left side: the index is 1/2. *)
Notation square := [(0, 0); (4, 0); (4, 4); (0, 4)]%Z.
Lemma border_unique vs p D D' : border_distance vs p D -> border_distance vs p D' -> D = D'.
Proof. intros [(b & B & E) L] [(b' & B' & E') L']. specialize (L b' B'). specialize (L' b B). lra. Qed.
Lemma square_border x y : 0 <= x <= 2 -> x <= y <= 4 - x -> border_distance square (x, y) x.
Proof.
  intros X Y. split.
  - exists (0, y). split.
    + exists 3%nat, (0, 4)%Z, (0, 0)%Z, (1 - y / 4). split; [reflexivity|]. split; [reflexivity|]. split; [lra|]. cbn [fst snd]. f_equal; lra.
    + unfold plane_dist2; cbn [fst snd]. replace ((x - 0) * (x - 0) + (y - y) * (y - y)) with (x * x) by ring. apply sqrt_square; lra.
  - intros b (i & a & c & t & A & C & T & ->). unfold plane_dist2. rewrite <- (sqrt_square x) at 1 by lra. apply sqrt_le_1_alt.
    destruct i as [|[|[|[|i]]]]; cbn in A, C; try discriminate; try (destruct i; discriminate); injection A as <-; injection C as <-; cbn [fst snd].
    + assert (Q := Rle_0_sqr (x - (0 + t * (4 - 0)))). unfold Rsqr in Q. nra.
    + assert (Q := Rle_0_sqr (y - (0 + t * (4 - 0)))). unfold Rsqr in Q. nra.
    + assert (Q := Rle_0_sqr (x - (4 + t * (0 - 4)))). unfold Rsqr in Q. nra.
    + assert (Q := Rle_0_sqr (y - (4 + t * (0 - 4)))). unfold Rsqr in Q. nra.
Qed.
Example C73_case : HullModel.hull_vertices 1 ((2, 2) :: square)%Z = Some square /\ ~ HullSpec.collinear square /\ HullSpec.in_polygon square (1, 2)%Z /\
  stability_index (/ 100) 1000 (Some (1, 2)%Z) (HullModel.hull_vertices 1 ((2, 2) :: square)%Z) = Some (1 / 2).
Proof.
  assert (H : HullModel.hull_vertices 1 ((2, 2) :: square)%Z = Some square) by (vm_compute; reflexivity). split; [exact H|].
  assert (NC : ~ HullSpec.collinear square) by (intros C; assert (T := C (0, 0)%Z (4, 0)%Z (4, 4)%Z ltac:(cbn; auto) ltac:(cbn; auto) ltac:(cbn; auto)); discriminate T). split; [exact NC|].
  assert (IN : HullSpec.in_polygon square (1, 2)%Z) by (exists [3; 1; 1; 3]%Z; split; [reflexivity|]; split; [repeat constructor; lia|]; vm_compute; auto). split; [exact IN|].
  destruct (C73_value (/ 100) 1000 4 1 _ square (1, 2)%Z ltac:(lra) ltac:(lia) ltac:(lra) H NC IN) as (c & D & Dc & (l & r & d & u & IL & IR & ID & IU & BD & ->) & D1 & D2 & ->).
  - intros v V. cbn [In] in V. destruct V as [<-|[<-|[<-|[<-|[<-|[]]]]]]; cbn [fst snd]; split; rewrite Rabs_right; lra.
  - assert (EL : fst l = 0%Z) by (destruct (BD (0, 0)%Z ltac:(cbn; auto)) as [? _]; cbn [In] in IL; destruct IL as [<-|[<-|[<-|[<-|[]]]]]; cbn [fst snd] in *; lia).
    assert (ER : fst r = 4%Z) by (destruct (BD (4, 0)%Z ltac:(cbn; auto)) as [? _]; cbn [In] in IR; destruct IR as [<-|[<-|[<-|[<-|[]]]]]; cbn [fst snd] in *; lia).
    assert (EDn : snd d = 0%Z) by (destruct (BD (0, 0)%Z ltac:(cbn; auto)) as [_ ?]; cbn [In] in ID; destruct ID as [<-|[<-|[<-|[<-|[]]]]]; cbn [fst snd] in *; lia).
    assert (EU : snd u = 4%Z) by (destruct (BD (4, 4)%Z ltac:(cbn; auto)) as [_ ?]; cbn [In] in IU; destruct IU as [<-|[<-|[<-|[<-|[]]]]]; cbn [fst snd] in *; lia).
    rewrite EL, ER, EDn, EU in D2. cbn [fst snd] in D1. replace ((0 + 4) / 2) with 2 in D2 by lra.
    rewrite (border_unique _ _ _ _ D1 (square_border 1 2 ltac:(lra) ltac:(lra))), (border_unique _ _ _ _ D2 (square_border 2 2 ltac:(lra) ltac:(lra))).
    destruct (Rle_dec 2 (/ 100)); [lra|]. unfold Rmin. destruct (Rle_dec 1 (1 / 2)); [lra|reflexivity].
Qed.
(** A turned and lifted foot with one vertex near the floor. *)
Example C72_case : exists m, fits m /\ rotation (prot (cm_pose m)) /\ (exists x, world_vertex m x /\ Rabs (plane_dist x floor_plane) < 5) /\
  exists cs c, get_contacts floor_plane (Some m) [] 5 = Done cs /\ In c cs /\ ct_p c = Vec 0 0 1.
Proof.
  set (g := Pose (Mat 0 (-1) 0 1 0 0 0 0 1) (Vec 0 0 1)). set (m := ColModel (Box (point 0 0 0) (point 10 20 30)) g [Vec 0 0 0; Vec 10 20 30]). exists m.
  assert (F : fits m) by (exists (Vec 0 0 0), (Vec 10 20 30); split; [split; reflexivity|]; split; [unfold ordered; cbn; lra|]; intros v [<-|[<-|[]]]; unfold within; cbn; lra).
  assert (R : rotation (prot (cm_pose m))) by (cbn; unfold rotation, mmul, mtrans, mid, mdet; cbn; split; [f_equal; ring|]; split; [f_equal; ring|ring]).
  assert (W : world_vertex m (Vec 0 0 1)) by (exists (Vec 0 0 0); split; [left; reflexivity|]; unfold image; cbn; f_equal; ring).
  assert (N : Rabs (plane_dist (Vec 0 0 1) floor_plane) < 5) by (rewrite floor_plane_eq, plane_dist_side, floor_side; cbn [vz]; rewrite Rabs_right; lra).
  split; [exact F|]. split; [exact R|]. split; [exists (Vec 0 0 1); auto|].
  destruct (C72_contacts (Vec 0 0 0) (Vec 0 0 1) m [] 5 ltac:(intros E; injection E; lra) R F ltac:(lra)) as (cs & E & _ & _ & C). exists cs. eexists. split; [exact E|].
  split; [apply C; [exists (Vec 0 0 1); auto|exact W|apply Rabs_def2 in N; change (mk_plane (Vec 0 0 0) (Vec 0 0 1)) with floor_plane; lra]|reflexivity].
Qed.

Print Assumptions C72_contacts.
Print Assumptions C72_null.
Print Assumptions C72_resting.
Print Assumptions C72_depth_refuted.
Print Assumptions C72_touching_refuted.
Print Assumptions C72_empty_refuted.
Print Assumptions C73_models.
Print Assumptions C73_polygon.
Print Assumptions C73_range.
Print Assumptions C73_value.
Print Assumptions C73_positive.
Print Assumptions C73_index_refuted.
