(** Proofs for C72 and C73. *)
From Coq Require Import Reals Lra Lia List Bool ZArith Arith.
From Verif Require Import QuatModel QuatSpec QuatProofs RpyModel RpyProofs KinModel KinProofs BBoxModel BBoxSpec BBoxProofs PlaneModel PlaneProofs SupportModel SupportSpec.
From Verif Require HullModel HullSpec HullProofs HullProps BBoxProps.
Import ListNotations.
Open Scope R_scope.

(** ** Contacts *)
Lemma vertices_loop_map : forall vs g t, vertices_loop g t vs = map (image g) vs.
Proof. induction vs as [|v vs IH]; intros g t; cbn [vertices_loop map]; [reflexivity|]. f_equal. apply IH. Qed.
Lemma vertices_global_in m x : In x (vertices_global m) <-> world_vertex m x.
Proof.
  unfold vertices_global, world_vertex. rewrite vertices_loop_map, in_map_iff. split; intros (v & A & B); exists v; auto.
Qed.
Lemma enlarge_span b l h d : span b l h -> span (enlarge b d) (Vec (vx l - d) (vy l - d) (vz l - d)) (Vec (vx h + d) (vy h + d) (vz h + d)).
Proof. intros [A B]. unfold span, enlarge. rewrite A, B. split; reflexivity. Qed.
(** The box around the moved corners holds the moved points. *)
Lemma moved_box b l h g : span b l h -> exists l' h', span (of_points (map (move g) (get_points b))) l' h' /\ ordered l' h' /\
  (forall p, within l h p -> within l' h' (image g p)).
Proof.
  intros S. rewrite (get_points_corners b l h S), map_map, (map_ext _ (fun p => pt (image g p)) (move_pt g)), <- map_map with (f := image g) (g := pt).
  assert (C : exists k r, corners l h = k :: r) by (do 2 eexists; reflexivity). destruct C as (k & r & C).
  destruct (proj2 BBoxProps.C37_smallest (image g k) (map (image g) r)) as (l' & h' & S' & O & W & _). exists l', h'.
  change (image g k :: map (image g) r) with (map (image g) (k :: r)) in S', W. rewrite <- C in S', W. split; [exact S'|]. split; [exact O|].
  intros p P. assert (Q : forall q, In q (corners l h) -> within l' h' (image g q)) by (intros q I; apply W, in_map, I).
  assert (LO : forall a b' c t v, (forall q, In q (corners l h) -> v <= form a b' c t q) -> v <= form a b' c t p).
  { intros a b' c t v H. destruct (form_low a b' c t l h p P) as (q & I & L). specialize (H q I). lra. }
  assert (HI : forall a b' c t v, (forall q, In q (corners l h) -> form a b' c t q <= v) -> form a b' c t p <= v).
  { intros a b' c t v H. destruct (form_high a b' c t l h p P) as (q & I & L). specialize (H q I). lra. }
  destruct g as [[m00 m01 m02 m10 m11 m12 m20 m21 m22] [tx ty tz]]. unfold within, image in *; cbn [prot ppos vx vy vz QuatModel.m00 QuatModel.m01 QuatModel.m02 QuatModel.m10 QuatModel.m11 QuatModel.m12 QuatModel.m20 QuatModel.m21 QuatModel.m22] in *.
  repeat split; first [apply LO | apply HI]; intros q I; apply (Q q I).
Qed.
Lemma unit_entry u : vdot u u = 1 -> -1 <= vx u <= 1 /\ -1 <= vy u <= 1 /\ -1 <= vz u <= 1.
Proof.
  destruct u as [x y z]. unfold vdot; cbn [vx vy vz]. intros U. assert (A := Rle_0_sqr x). assert (B := Rle_0_sqr y). assert (C := Rle_0_sqr z). unfold Rsqr in *.
  assert (X : x * x <= 1) by lra. assert (Y : y * y <= 1) by lra. assert (Z : z * z <= 1) by lra. repeat split; nra.
Qed.
Lemma scaled_entry s d e : - d <= s <= d -> -1 <= e <= 1 -> - d <= s * e <= d.
Proof. intros A B. split; nra. Qed.
(** The plane goes through the enlarged box of an object with a vertex near the plane. *)
Lemma near_goes_through m q u d v : rotation (prot (cm_pose m)) -> vdot u u = 1 ->
  (exists l h, span (cm_box m) l h /\ ordered l h /\ within l h v) -> - d < side q u (image (cm_pose m) v) < d ->
  plane_goes_through (of_points (map (move (cm_pose m)) (get_points (enlarge (cm_box m) d)))) (pt q) (pt u) = Some true.
Proof.
  intros R U (l & h & S & O & W) D. set (g := cm_pose m) in *. set (s := side q u (image g v)) in *.
  assert (S' := enlarge_span (cm_box m) l h d S). destruct (moved_box _ _ _ g S') as (l' & h' & S2 & O2 & W2).
  destruct (plane_spec _ l' h' q u S2 O2) as (r & E & IFF). rewrite E. f_equal. apply IFF.
  set (w := mapply (mtrans (prot g)) u).
  assert (WU : vdot w w = 1) by (unfold w; rewrite mapply_dot, mtrans_twice, (proj2 (mapply_inverse _ u R)); exact U).
  assert (IM : forall k, image g (vsub v (vscale k w)) = vsub (image g v) (vscale k u)).
  { intros k. assert (E2 := proj2 (mapply_inverse _ u R)). fold w in E2. clearbody w. subst u. destruct (prot g) as [a0 a1 a2 a3 a4 a5 a6 a7 a8] eqn:PG. unfold image. rewrite PG.
    clear. destruct v as [v0 v1 v2], w as [w0 w1 w2]. unfold mapply, vsub, vscale; cbn [vx vy vz m00 m01 m02 m10 m11 m12 m20 m21 m22]. f_equal; ring. }
  assert (SD : forall k, side q u (image g (vsub v (vscale k w))) = s - k).
  { intros k. rewrite IM. unfold s. generalize (image g v). intros y. transitivity (side q u y - k * vdot u u); [clear; vs; ring|rewrite U; ring]. }
  assert (IN : forall k, - d <= k <= d -> within (Vec (vx l - d) (vy l - d) (vz l - d)) (Vec (vx h + d) (vy h + d) (vz h + d)) (vsub v (vscale k w))).
  { intros k K. destruct (unit_entry w WU) as (A & B & C). assert (A' := scaled_entry k d _ K A). assert (B' := scaled_entry k d _ K B). assert (C' := scaled_entry k d _ K C).
    clear - A' B' C' W. unfold within, vsub, vscale in *; cbn [vx vy vz] in *. lra. }
  exists (image g (vsub v (vscale s w))), (image g (vsub v (vscale ((s + d) / 2) w))).
  split; [apply W2, IN; lra|]. split; [apply W2, IN; lra|]. rewrite !SD. split; lra.
Qed.
Lemma plane_goes_through_total m q u d : (exists l h, span (cm_box m) l h /\ ordered l h) -> 0 <= d ->
  exists r, plane_goes_through (of_points (map (move (cm_pose m)) (get_points (enlarge (cm_box m) d)))) (pt q) (pt u) = Some r.
Proof.
  intros (l & h & S & O) D. assert (S' := enlarge_span (cm_box m) l h d S). destruct (moved_box _ _ _ (cm_pose m) S') as (l' & h' & S2 & O2 & _).
  destruct (plane_spec _ l' h' q u S2 O2) as (r & E & _). exists r. exact E.
Qed.
Lemma contacts_ok q u m store d : rotation (prot (cm_pose m)) -> vdot u u = 1 -> fits m -> 0 <= d ->
  exists cs, get_contacts (Plane q u) (Some m) store d = Done (store ++ cs) /\
    (forall c, In c cs -> ct_n c = u /\ world_vertex m (ct_p c) /\ side q u (ct_p c) <= d) /\
    (cs = [] \/ forall x, world_vertex m x -> side q u x <= d -> In (Contact x u) cs) /\
    ((exists x, world_vertex m x /\ Rabs (side q u x) < d) -> forall x, world_vertex m x -> side q u x <= d -> In (Contact x u) cs).
Proof.
  intros R U (l & h & S & O & W) D. unfold get_contacts. cbn [pl_p pl_n]. change (vec_of q) with (pt q). change (vec_of u) with (pt u).
  set (f := fun x => if Rle_dec (plane_dist x (Plane q u)) d then true else false).
  assert (F : forall x, f x = true <-> side q u x <= d).
  { intros x. unfold f. rewrite plane_dist_side. destruct (Rle_dec (side q u x) d); split; auto; discriminate || contradiction. }
  destruct (plane_goes_through_total m q u d (ex_intro _ l (ex_intro _ h (Logic.conj S O))) D) as (r & E).
  assert (ALL : forall x, world_vertex m x -> side q u x <= d -> In (Contact x u) (map (fun x0 => Contact x0 u) (filter f (vertices_global m)))).
  { intros x X Y. apply in_map_iff. exists x. split; [reflexivity|]. apply filter_In. split; [apply vertices_global_in, X|apply F, Y]. }
  assert (G : (exists x, world_vertex m x /\ Rabs (side q u x) < d) -> r = true).
  { intros (x & (v & V & ->) & A). apply Rabs_def2 in A. assert (E2 := near_goes_through m q u d v R U ltac:(exists l, h; auto) ltac:(lra)). congruence. }
  rewrite E. destruct r.
  - eexists. split; [reflexivity|]. split; [|split; [right|intros _]; exact ALL].
    intros c C. apply in_map_iff in C. destruct C as (x & <- & C). cbn [ct_n ct_p]. apply filter_In in C. destruct C as [C1 C2].
    split; [reflexivity|]. split; [apply vertices_global_in, C1|apply F, C2].
  - exists []. rewrite app_nil_r. split; [reflexivity|]. split; [intros c []|]. split; [left; reflexivity|]. intros H. discriminate (G H).
Qed.
Lemma rabs_between x b : Rabs x <= b -> - b <= x <= b.
Proof. intros H. assert (A := Rle_abs x). assert (C := Rle_abs (- x)). rewrite Rabs_Ropp in C. lra. Qed.
(** ** The floor *)
Lemma floor_plane_eq : floor_plane = Plane (Vec 0 0 0) ez.
Proof. unfold floor_plane, mk_plane. change (Vec 0 0 1) with ez. rewrite (vnormalize_of_unit ez ez_unit). reflexivity. Qed.
Lemma floor_side x : side (Vec 0 0 0) ez x = vz x.
Proof. unfold side, ez; cbn [vx vy vz]. ring. Qed.
Lemma project2_floor x : project2 x floor_plane = (vx x, vy x).
Proof.
  rewrite floor_plane_eq. unfold project2; cbn [pl_p pl_n]. change (Vec 0 0 1) with ez. assert (T := turn_up_id). unfold turn_up in T. rewrite T. unfold project. rewrite plane_dist_side, floor_side.
  clear. destruct x as [x y z]. unfold mid, mapply, vadd, vsub, vscale, ez; cbn [m00 m01 m02 m10 m11 m12 m20 m21 m22 vx vy vz pl_p pl_n]. f_equal; ring.
Qed.
Lemma all_contacts_ok : forall ms store d, 0 <= d -> (forall m, In m ms -> rotation (prot (cm_pose m)) /\ fits m) ->
  exists cs, all_contacts ms store d = Done (store ++ cs) /\
    (forall c, In c cs -> vz (ct_p c) <= d /\ exists m, In m ms /\ world_vertex m (ct_p c)) /\
    (forall m x, In m ms -> world_vertex m x -> Rabs (vz x) < d -> exists c, In c cs /\ ct_p c = x).
Proof.
  induction ms as [|m ms IH]; intros store d D OK; cbn [all_contacts].
  - exists []. rewrite app_nil_r. split; [reflexivity|]. split; [intros c []|intros m x []].
  - rewrite floor_plane_eq. destruct (OK m (or_introl eq_refl)) as [R F]. destruct (contacts_ok (Vec 0 0 0) ez m store d R ez_unit F D) as (cs & -> & A & _ & B).
    destruct (IH (store ++ cs) d D (fun k I => OK k (or_intror I))) as (cs' & E & A' & B'). exists (cs ++ cs'). rewrite E, app_assoc. split; [reflexivity|]. split.
    + intros c C. apply in_app_iff in C. destruct C as [C|C].
      * destruct (A c C) as (_ & W & S). rewrite floor_side in S. split; [exact S|]. exists m. split; [left; reflexivity|exact W].
      * destruct (A' c C) as (S & k & K & W). split; [exact S|]. exists k. split; [right; exact K|exact W].
    + intros k x [<-|K] W X.
      * exists (Contact x ez). split; [|reflexivity]. apply in_app_iff. left. apply B; [|exact W|].
        -- exists x. rewrite floor_side. auto.
        -- rewrite floor_side. apply Rabs_def2 in X. lra.
      * destruct (B' k x K W X) as (c & C & <-). exists c. split; [apply in_app_iff; right; exact C|reflexivity].
Qed.

(** ** The polygon *)
Section POLY.
Open Scope Z_scope.
Import HullModel HullSpec HullProofs HullProps.
Lemma separated_eq eps l p q : 0 < eps -> (forall i j p q, i <> j -> nth_error l i = Some p -> nth_error l j = Some q -> eps <= dist2 p q) ->
  In p l -> In q l -> dist2 q p < eps -> p = q.
Proof.
  intros E S P Q D. apply In_nth_error in P, Q. destruct P as (i & P), Q as (j & Q). destruct (Nat.eq_dec j i) as [->|N]; [congruence|].
  specialize (S j i q p N Q P). lia.
Qed.
Lemma dist2_self p : dist2 p p = 0.
Proof. unfold dist2. rewrite !Z.sub_diag. reflexivity. Qed.
Lemma separated_nodup eps l : 0 < eps -> (forall i j p q, i <> j -> nth_error l i = Some p -> nth_error l j = Some q -> eps <= dist2 p q) -> NoDup l.
Proof.
  intros E S. apply NoDup_nth_error. intros i j I EQ. destruct (Nat.eq_dec i j) as [H|N]; [exact H|]. exfalso.
  destruct (nth_error l i) as [p|] eqn:P; [|apply nth_error_None in P; lia]. assert (H := S i j p p N P (eq_sym EQ)). rewrite dist2_self in H. lia.
Qed.
Lemma polygon_of_sorted eps points : 0 < eps -> let pts := sort_points eps points in
  distinct_points eps points pts /\
  match (if (length pts <? 3)%nat then None else hull_vertices eps pts) with
  | None => (length pts < 3)%nat
  | Some vs => (3 <= length pts)%nat /\ incl vs pts /\ forall q, In q pts -> in_polygon vs q
  end.
Proof.
  intros E. cbv zeta. set (pts := sort_points eps points). assert (D : distinct_points eps points pts) by (apply distinct_sorted, E). split; [exact D|].
  destruct (Nat.ltb_spec (length pts) 3) as [L|L]; [exact L|]. destruct D as (_ & D & _). clearbody pts.
  destruct (C26_hull eps pts E) as (kept & (K1 & K2 & K3) & M).
  assert (INC : incl pts kept).
  { intros p P. destruct (K3 p P) as (q & Q & [->|Q2]); [exact Q|]. rewrite (separated_eq eps pts p q E D P (K1 q Q) Q2). exact Q. }
  destruct (hull_vertices eps pts) as [vs|].
  - destruct M as (_ & M1 & M2 & _). split; [exact L|]. split; [intros v V; apply K1, M1, V|]. intros q Q. apply M2, INC, Q.
  - assert (H := NoDup_incl_length (separated_nodup eps pts E D) INC). lia.
Qed.
End POLY.
(** ** Distances to lines *)
Definition rcross (a b p : R * R) : R := (fst b - fst a) * (snd p - snd b) - (snd b - snd a) * (fst p - fst b).
Definition rdot (a b p : R * R) : R := (fst b - fst a) * (fst p - fst a) + (snd b - snd a) * (snd p - snd a).
Definition rsq (a b : R * R) : R := (fst a - fst b) * (fst a - fst b) + (snd a - snd b) * (snd a - snd b).
Definition along (a b : R * R) (t : R) : R * R := (fst a + t * (fst b - fst a), snd a + t * (snd b - snd a)).
Lemma rsq_pos a b : 0 <= rsq a b.
Proof. unfold rsq. assert (A := Rle_0_sqr (fst a - fst b)). assert (B := Rle_0_sqr (snd a - snd b)). unfold Rsqr in *. lra. Qed.
Lemma line_foot p a b : 0 < rsq b a -> let t := rdot a b p / rsq b a in
  sq_dist_line p a b = rsq p (along a b t) /\ rcross a b p * rcross a b p = rsq b a * sq_dist_line p a b.
Proof.
  intros L. cbv zeta. unfold sq_dist_line, normalize2. cbn [fst snd].
  assert (LE : (fst b - fst a) * (fst b - fst a) + (snd b - snd a) * (snd b - snd a) = rsq b a) by (unfold rsq; ring).
  rewrite LE. destruct (Rlt_dec 0 (sqrt (rsq b a))) as [P|N]; [|exfalso; apply N, sqrt_lt_R0, L].
  assert (SQ : sqrt (rsq b a) * sqrt (rsq b a) = rsq b a) by (apply sqrt_sqrt; lra). set (s := sqrt (rsq b a)) in *. clearbody s. cbn [fst snd].
  assert (E : forall d e, (fst b - fst a) / s * d + (snd b - snd a) / s * e = ((fst b - fst a) * d + (snd b - snd a) * e) / s) by (intros d e; field; lra).
  rewrite E. change ((fst b - fst a) * (fst p - fst a) + (snd b - snd a) * (snd p - snd a)) with (rdot a b p).
  assert (Q : forall d, rdot a b p / s * (d / s) = rdot a b p / rsq b a * d) by (intros d; rewrite <- SQ; field; lra). rewrite !Q.
  split; [set (k := rdot a b p / rsq b a); clearbody k; unfold rsq, along; cbn [fst snd]; ring|].
  unfold rcross. unfold rdot. revert L. unfold rsq. destruct p as [p0 p1], a as [a0 a1], b as [b0 b1]; cbn [fst snd]. intros L. field. lra.
Qed.
(** Every point of the line is at least that far away. *)
Lemma line_far p a b t : 0 < rsq b a -> sq_dist_line p a b <= rsq p (along a b t).
Proof.
  intros L. destruct (line_foot p a b L) as (_ & X). apply Rmult_le_reg_l with (1 := L). rewrite <- X.
  assert (E : rsq b a * rsq p (along a b t) = rcross a b p * rcross a b p + (rdot a b p - t * rsq b a) * (rdot a b p - t * rsq b a)).
  { unfold rsq, rcross, rdot, along; cbn [fst snd]. ring. }
  rewrite E. assert (H := Rle_0_sqr (rdot a b p - t * rsq b a)). unfold Rsqr in H. lra.
Qed.
Lemma line_point p a : sq_dist_line p a a = rsq p a.
Proof.
  unfold sq_dist_line, normalize2. cbn [fst snd]. replace (fst a - fst a) with 0 by ring. replace (snd a - snd a) with 0 by ring. rewrite !Rmult_0_l, !Rplus_0_l, sqrt_0. destruct (Rlt_dec 0 0); [lra|]. cbn [fst snd]. unfold rsq. ring.
Qed.
Lemma sq_dist_line_pos p a b : 0 <= sq_dist_line p a b.
Proof. unfold sq_dist_line. cbv zeta. apply Rplus_le_le_0_compat; apply Rle_0_sqr. Qed.
(** Moving a point by at most its distance to a line keeps its side. *)
Lemma keep_side a b p f : 0 < rsq b a -> 0 <= rcross a b p -> rsq p f <= sq_dist_line p a b -> 0 <= rcross a b f.
Proof.
  intros L P D. destruct (line_foot p a b L) as (_ & X).
  set (x := (fst b - fst a) * (snd f - snd p) - (snd b - snd a) * (fst f - fst p)).
  assert (E : rcross a b f = rcross a b p + x) by (unfold rcross, x; ring).
  assert (CS : x * x <= rsq b a * rsq p f).
  { unfold x, rsq. assert (H := Rle_0_sqr ((fst b - fst a) * (fst f - fst p) + (snd b - snd a) * (snd f - snd p))). unfold Rsqr in H. nra. }
  assert (LE : x * x <= rcross a b p * rcross a b p) by (rewrite X; apply Rle_trans with (1 := CS), Rmult_le_compat_l; lra).
  rewrite E. set (c := rcross a b p) in *. clearbody x c. clear - P LE. destruct (Rle_dec 0 (c + x)) as [H|H]; [exact H|exfalso]. nra.
Qed.
(** The loop. *)
Lemma fold_min : forall (A : Type) (d : A -> R) es big,
  let m := fold_left (fun m e => if Rlt_dec (d e) m then d e else m) es big in
  m <= big /\ (forall e, In e es -> m <= d e) /\ (m = big \/ exists e, In e es /\ m = d e).
Proof.
  intros A d es. induction es as [|e es IH]; intros big; cbn [fold_left]; cbv zeta.
  - split; [lra|]. split; [intros e []|left; reflexivity].
  - destruct (IH (if Rlt_dec (d e) big then d e else big)) as (H1 & H2 & H3). set (m := fold_left _ _ _) in *. clearbody m.
    destruct (Rlt_dec (d e) big) as [L|L].
    + split; [lra|]. split; [intros k [<-|I]; [lra|apply H2, I]|]. right. destruct H3 as [->|(k & I & ->)]; [exists e; split; [left|]; reflexivity|exists k; split; [right; exact I|reflexivity]].
    + split; [lra|]. split; [intros k [<-|I]; [lra|apply H2, I]|]. destruct H3 as [->|(k & I & ->)]; [left; reflexivity|right; exists k; split; [right; exact I|reflexivity]].
Qed.
Lemma min_dist_spec big vs p : let m := min_dist big vs p in
  m <= big /\ (forall i, (i < length vs)%nat -> m <= sq_dist_line p (fst (edge vs i)) (snd (edge vs i))) /\
  (m = big \/ exists i, (i < length vs)%nat /\ m = sq_dist_line p (fst (edge vs i)) (snd (edge vs i))).
Proof.
  cbv zeta. destruct (fold_min _ (fun e => sq_dist_line p (fst e) (snd e)) (map (edge vs) (seq 0 (length vs))) big) as (A & B & C).
  fold (min_dist big vs p) in A, B, C. split; [exact A|]. split.
  - intros i I. apply B, in_map, in_seq. lia.
  - destruct C as [C|(e & E & C)]; [left; exact C|right]. apply in_map_iff in E. destruct E as (i & <- & E). apply in_seq in E. exists i. split; [lia|exact C].
Qed.

(** ** Convex polygons *)
Definition next (n i : nat) : nat := if Nat.eq_dec (S i) n then 0%nat else S i.
Definition prev (n i : nat) : nat := if (i =? 0)%nat then (n - 1)%nat else (i - 1)%nat.
Lemma next_prev n i : (i < n)%nat -> next n (prev n i) = i /\ prev n (next n i) = i /\ (next n i < n)%nat /\ (prev n i < n)%nat.
Proof.
  intros I. unfold next, prev. destruct (Nat.eq_dec (S i) n) as [E|E], (Nat.eqb_spec i 0) as [Z|Z];
    repeat split; try lia; repeat match goal with |- context [Nat.eq_dec ?x ?y] => destruct (Nat.eq_dec x y); try lia | |- context [(?x =? ?y)%nat] => destruct (Nat.eqb_spec x y); try lia end.
Qed.
Lemma edge_spec vs i a b : nth_error vs i = Some a -> nth_error vs (next (length vs) i) = Some b -> edge vs (next (length vs) i) = (real_point a, real_point b).
Proof.
  intros A B. assert (I : (i < length vs)%nat) by (apply nth_error_Some; congruence). unfold edge. fold (prev (length vs) (next (length vs) i)).
  destruct (next_prev _ _ I) as (_ & -> & _). rewrite (nth_error_nth _ _ _ A), (nth_error_nth _ _ _ B). reflexivity.
Qed.
Lemma edge_inv vs i : (i < length vs)%nat -> exists a b, nth_error vs (prev (length vs) i) = Some a /\ nth_error vs i = Some b /\ edge vs i = (real_point a, real_point b).
Proof.
  intros I. destruct (next_prev _ _ I) as (E & _ & _ & P). destruct (nth_error vs (prev (length vs) i)) as [a|] eqn:A; [|apply nth_error_None in A; lia].
  destruct (nth_error vs i) as [b|] eqn:B; [|apply nth_error_None in B; lia]. exists a, b. split; [reflexivity|]. split; [reflexivity|].
  assert (H := edge_spec vs (prev (length vs) i) a b A). rewrite E in H. apply H, B.
Qed.
Lemma turn_cycle a b c : HullSpec.turn b c a = HullSpec.turn a b c.
Proof. unfold HullSpec.turn. ring. Qed.
(** Three vertices that follow one another. *)
Lemma follow vs i a b c : HullSpec.convex_ccw vs -> (3 <= length vs)%nat -> nth_error vs i = Some a -> nth_error vs (next (length vs) i) = Some b ->
  nth_error vs (next (length vs) (next (length vs) i)) = Some c -> (0 < HullSpec.turn a b c)%Z.
Proof.
  intros C L A B D. assert (I : (i < length vs)%nat) by (apply nth_error_Some; congruence). unfold next in *.
  destruct (Nat.eq_dec (S i) (length vs)) as [E|E].
  - destruct (Nat.eq_dec 1 (length vs)); [lia|]. rewrite <- turn_cycle. apply (C 0%nat 1%nat i); auto; lia.
  - destruct (Nat.eq_dec (S (S i)) (length vs)) as [E2|E2].
    + rewrite <- turn_cycle, <- turn_cycle. apply (C 0%nat i (S i)); auto; lia.
    + apply (C i (S i) (S (S i))); auto; lia.
Qed.
Lemma real_turn a b c : rcross (real_point a) (real_point b) (real_point c) = IZR (HullSpec.turn a b c).
Proof. unfold rcross, real_point, HullSpec.turn; cbn [fst snd]. rewrite minus_IZR, !mult_IZR, !minus_IZR. ring. Qed.
Lemma turn_far a b c : (0 < HullSpec.turn a b c)%Z -> 0 < rsq (real_point b) (real_point a).
Proof.
  intros T. apply IZR_lt in T. rewrite <- real_turn in T. destruct (Rlt_le_dec 0 (rsq (real_point b) (real_point a))) as [H|H]; [exact H|exfalso].
  unfold rsq, rcross in *. set (x := fst (real_point b) - fst (real_point a)) in *. set (y := snd (real_point b) - snd (real_point a)) in *. clearbody x y.
  assert (X := Rle_0_sqr x). assert (Y := Rle_0_sqr y). unfold Rsqr in *. assert (X0 : x = 0) by (apply Rsqr_0_uniq; unfold Rsqr; lra). assert (Y0 : y = 0) by (apply Rsqr_0_uniq; unfold Rsqr; lra). subst. lra.
Qed.
(** A point of the closed polygon. *)
Definition all_left (vs : list HullModel.pt) (p : R * R) : Prop :=
  forall i a b, nth_error vs i = Some a -> nth_error vs (next (length vs) i) = Some b -> 0 <= rcross (real_point a) (real_point b) p.
Lemma min_border vs p big : HullSpec.convex_ccw vs -> (3 <= length vs)%nat -> all_left vs p -> (exists v, In v vs /\ rsq p (real_point v) <= big) ->
  border_distance vs p (sqrt (min_dist big vs p)).
Proof.
  intros C L P (v & V & VB). destruct (min_dist_spec big vs p) as (M1 & M2 & M3). set (m := min_dist big vs p) in *. clearbody m.
  assert (LEN : forall i a b, nth_error vs i = Some a -> nth_error vs (next (length vs) i) = Some b -> 0 < rsq (real_point b) (real_point a)).
  { intros i a b A B. assert (I : (next (length vs) i < length vs)%nat) by (apply nth_error_Some; congruence). destruct (next_prev _ _ I) as (_ & _ & N & _).
    destruct (nth_error vs (next (length vs) (next (length vs) i))) as [c|] eqn:D; [|apply nth_error_None in D; lia]. apply (turn_far a b c), (follow vs i); auto. }
  assert (ED : forall i a b, nth_error vs i = Some a -> nth_error vs (next (length vs) i) = Some b -> m <= sq_dist_line p (real_point a) (real_point b)).
  { intros i a b A B. assert (I : (next (length vs) i < length vs)%nat) by (apply nth_error_Some; congruence). assert (H := M2 _ I). rewrite (edge_spec vs i a b A B) in H. exact H. }
  assert (J : exists j a b, nth_error vs j = Some a /\ nth_error vs (next (length vs) j) = Some b /\ m = sq_dist_line p (real_point a) (real_point b)).
  { assert (J : exists j, (j < length vs)%nat /\ m = sq_dist_line p (fst (edge vs j)) (snd (edge vs j))).
    { destruct M3 as [->|J]; [|exact J]. apply In_nth_error in V. destruct V as (j & V). assert (I : (j < length vs)%nat) by (apply nth_error_Some; congruence).
      destruct (next_prev _ _ I) as (_ & _ & N & _). destruct (nth_error vs (next (length vs) j)) as [b|] eqn:B; [|apply nth_error_None in B; lia].
      exists (next (length vs) j). split; [exact N|]. apply Rle_antisym; [apply M2, N|]. rewrite (edge_spec vs j v b V B). cbn [fst snd].
      apply Rle_trans with (2 := VB). replace (real_point v) with (along (real_point v) (real_point b) 0) at 2; [apply line_far, (LEN j v b V B)|].
      unfold along. destruct (real_point v). cbn [fst snd]. f_equal; ring. }
    destruct J as (j & I & E). destruct (edge_inv vs j I) as (a & b & A & B & EE). exists (prev (length vs) j), a, b. destruct (next_prev _ _ I) as (-> & _). rewrite EE in E. auto. }
  destruct J as (j & a & b & A & B & E). assert (LB := LEN j a b A B). destruct (line_foot p _ _ LB) as (F & _). set (t := rdot _ _ p / _) in F. set (f := along (real_point a) (real_point b) t) in *.
  assert (FL : all_left vs f).
  { intros i k l K1 K2. apply (keep_side _ _ p); [apply (LEN i k l K1 K2)|apply (P i k l K1 K2)|]. rewrite <- F, <- E. apply (ED i k l K1 K2). }
  assert (JL : (j < length vs)%nat) by (apply nth_error_Some; congruence). destruct (next_prev _ _ JL) as (PN & _ & NL & PL).
  assert (T : 0 <= t <= 1).
  { split.
    - destruct (nth_error vs (prev (length vs) j)) as [z|] eqn:Z; [|apply nth_error_None in Z; lia].
      assert (Z2 : nth_error vs (next (length vs) (prev (length vs) j)) = Some a) by (rewrite PN; exact A). assert (H := FL _ z a Z Z2).
      assert (G : rcross (real_point z) (real_point a) f = t * rcross (real_point z) (real_point a) (real_point b)) by (unfold f, along, rcross; cbn [fst snd]; ring).
      rewrite G, real_turn in H. assert (FO := follow vs (prev (length vs) j) z a b C L Z Z2 ltac:(rewrite PN; exact B)). apply IZR_lt in FO. nra.
    - assert (NN := proj1 (proj2 (proj2 (next_prev _ _ NL)))). destruct (nth_error vs (next (length vs) (next (length vs) j))) as [c|] eqn:D; [|apply nth_error_None in D; lia].
      assert (H := FL _ b c B D). assert (G : rcross (real_point b) (real_point c) f = (1 - t) * rcross (real_point a) (real_point b) (real_point c)) by (unfold f, along, rcross; cbn [fst snd]; ring).
      rewrite G, real_turn in H. assert (FO := follow vs j a b c C L A B D). apply IZR_lt in FO. nra. }
  split.
  - exists f. split; [exists j, a, b, t; repeat split; auto; apply T|]. unfold plane_dist2. rewrite E, F. reflexivity.
  - intros w (i & k & l & u & K1 & K2 & U & ->). unfold plane_dist2. apply sqrt_le_1_alt. apply Rle_trans with (1 := ED i k l K1 K2). apply (line_far p (real_point k) (real_point l) u (LEN i k l K1 K2)).
Qed.
(** ** The centre *)
Lemma stretch_fold : forall vs seen l h,
  (exists a b c d, In a seen /\ In b seen /\ In c seen /\ In d seen /\ l = (fst a, snd b) /\ h = (fst c, snd d)) ->
  (forall v, In v seen -> (fst l <= fst v <= fst h /\ snd l <= snd v <= snd h)%Z) ->
  let (l', h') := fold_left stretch vs (l, h) in
  (exists a b c d, In a (seen ++ vs) /\ In b (seen ++ vs) /\ In c (seen ++ vs) /\ In d (seen ++ vs) /\ l' = (fst a, snd b) /\ h' = (fst c, snd d)) /\
  (forall v, In v (seen ++ vs) -> (fst l' <= fst v <= fst h' /\ snd l' <= snd v <= snd h')%Z).
Proof.
  induction vs as [|v vs IH]; intros seen l h A B; cbn [fold_left].
  - rewrite app_nil_r. split; assumption.
  - destruct (stretch (l, h) v) as [l1 h1] eqn:E. specialize (IH (seen ++ [v]) l1 h1). rewrite <- app_assoc in IH. cbn [app] in IH. apply IH.
    + destruct A as (a & b & c & d & A1 & A2 & A3 & A4 & -> & ->). unfold stretch in E; cbn [fst snd] in E. injection E as <- <-.
      exists (if (fst v <? fst a)%Z then v else a), (if (snd v <? snd b)%Z then v else b), (if (fst c <? fst v)%Z then v else c), (if (snd d <? snd v)%Z then v else d).
      assert (G : forall (x : bool) k, In k seen -> In (if x then v else k) (seen ++ [v])) by (intros x k K; destruct x; apply in_app_iff; [right; left; reflexivity|left; exact K]).
      split; [apply G, A1|]. split; [apply G, A2|]. split; [apply G, A3|]. split; [apply G, A4|]. split; f_equal; repeat match goal with |- context [(?x <? ?y)%Z] => destruct (x <? y)%Z end; reflexivity.
    + intros w W. apply in_app_iff in W. unfold stretch in E. injection E as <- <-. cbn [fst snd].
      destruct (Z.ltb_spec (fst v) (fst l)), (Z.ltb_spec (snd v) (snd l)), (Z.ltb_spec (fst h) (fst v)), (Z.ltb_spec (snd h) (snd v)); destruct W as [W|[<-|[]]]; try specialize (B w W); lia.
Qed.
Lemma hull_center_ok vs : vs <> [] -> rectangle_center vs (hull_center vs).
Proof.
  intros N. destruct vs as [|v vs]; [contradiction|]. unfold hull_center.
  assert (H := stretch_fold vs [v] v v ltac:(exists v, v, v, v; destruct v; cbn [In fst snd]; tauto) ltac:(intros w [<-|[]]; lia)).
  destruct (fold_left stretch vs (v, v)) as [l h]. destruct H as ((a & b & c & d & A & B & C & D & -> & ->) & H). cbn [app] in *. exists a, c, b, d.
  split; [exact A|]. split; [exact C|]. split; [exact B|]. split; [exact D|]. cbn [fst snd] in *. split; [intros w W; apply H, W|reflexivity].
Qed.
Lemma center_side x y k lx ly rx ry dx dy ux uy : lx <= rx -> dy <= uy -> dy <= ly <= uy -> dy <= ry <= uy -> lx <= dx <= rx -> lx <= ux <= rx ->
  0 <= x * lx + y * ly + k -> 0 <= x * rx + y * ry + k -> 0 <= x * dx + y * dy + k -> 0 <= x * ux + y * uy + k ->
  0 <= x * ((lx + rx) / 2) + y * ((dy + uy) / 2) + k.
Proof.
  intros W H L R D U TL TR TD TU. set (w := rx - lx). set (h := uy - dy).
  assert (HW : 0 <= w) by (unfold w; lra). assert (HH : 0 <= h) by (unfold h; lra).
  assert (Y : forall e, dy <= e <= uy -> - (Rabs y * h) <= 2 * (y * ((dy + uy) / 2 - e)) ).
  { intros e E. unfold h. destruct (Rcase_abs y) as [N|P]; [rewrite Rabs_left by exact N|rewrite Rabs_right by exact P]; nra. }
  assert (X : forall e, lx <= e <= rx -> - (Rabs x * w) <= 2 * (x * ((lx + rx) / 2 - e)) ).
  { intros e E. unfold w. destruct (Rcase_abs x) as [N|P]; [rewrite Rabs_left by exact N|rewrite Rabs_right by exact P]; nra. }
  destruct (Rle_dec (Rabs y * h) (Rabs x * w)) as [C|C].
  - destruct (Rcase_abs x) as [N|P]; [rewrite (Rabs_left x) in C by exact N|rewrite (Rabs_right x) in C by exact P].
    + assert (Q := Y ry R). unfold w in *. nra.
    + assert (Q := Y ly L). unfold w in *. nra.
  - apply Rnot_le_lt in C. destruct (Rcase_abs y) as [N|P]; [rewrite (Rabs_left y) in C by exact N|rewrite (Rabs_right y) in C by exact P].
    + assert (Q := X ux U). unfold h in *. nra.
    + assert (Q := X dx D). unfold h in *. nra.
Qed.
Lemma vertex_left vs v : HullSpec.convex_ccw vs -> (3 <= length vs)%nat -> In v vs -> all_left vs (real_point v).
Proof.
  intros C L V i a b A B. rewrite real_turn. apply IZR_le. apply In_nth_error in V. destruct V as (k & V).
  assert (I : (i < length vs)%nat) by (apply nth_error_Some; congruence). assert (K : (k < length vs)%nat) by (apply nth_error_Some; congruence).
  destruct (Nat.eq_dec k i) as [->|N1]; [replace v with a by congruence; unfold HullSpec.turn; lia|].
  destruct (Nat.eq_dec k (next (length vs) i)) as [->|N2]; [replace v with b by congruence; unfold HullSpec.turn; lia|].
  unfold next in *. apply Z.lt_le_incl. destruct (Nat.eq_dec (S i) (length vs)) as [E|E].
  - rewrite <- turn_cycle. apply (C 0%nat k i); auto; lia.
  - destruct (Nat.lt_ge_cases k i) as [G|G].
    + rewrite <- turn_cycle, <- turn_cycle. apply (C k i (S i)); auto; lia.
    + apply (C i (S i) k); auto; lia.
Qed.
Lemma inside_left vs p : HullSpec.convex_ccw vs -> (3 <= length vs)%nat -> HullSpec.in_polygon vs p -> all_left vs (real_point p).
Proof.
  intros C L V i a b A B. rewrite real_turn. apply IZR_le. apply (proj1 (HullProps.C27_half_planes vs p C L) V i a b A B).
Qed.
Lemma center_left vs c : HullSpec.convex_ccw vs -> (3 <= length vs)%nat -> rectangle_center vs c -> all_left vs c.
Proof.
  intros C L (l & r & d & u & IL & IR & ID & IU & BD & ->) i a b A B.
  assert (F : forall p, rcross (real_point a) (real_point b) p = - (IZR (snd b) - IZR (snd a)) * fst p + (IZR (fst b) - IZR (fst a)) * snd p +
    ((IZR (snd b) - IZR (snd a)) * IZR (fst b) - (IZR (fst b) - IZR (fst a)) * IZR (snd b))) by (intros p; unfold rcross, real_point; cbn [fst snd]; ring).
  rewrite F. cbn [fst snd].
  assert (BL := BD l IL). assert (BR := BD r IR). assert (BDn := BD d ID). assert (BU := BD u IU).
  apply center_side with (ly := IZR (snd l)) (ry := IZR (snd r)) (dx := IZR (fst d)) (ux := IZR (fst u));
    try (split; apply IZR_le; lia); try (apply IZR_le; lia).
  - assert (H := vertex_left vs l C L IL i a b A B). rewrite F in H. exact H.
  - assert (H := vertex_left vs r C L IR i a b A B). rewrite F in H. exact H.
  - assert (H := vertex_left vs d C L ID i a b A B). rewrite F in H. exact H.
  - assert (H := vertex_left vs u C L IU i a b A B). rewrite F in H. exact H.
Qed.
(** ** The stability index *)
Lemma min_dist_pos big vs p : 0 <= big -> 0 <= min_dist big vs p.
Proof.
  intros B. destruct (min_dist_spec big vs p) as (_ & _ & [->|(i & _ & ->)]); [exact B|apply sq_dist_line_pos].
Qed.
Lemma min_dist_zero big vs p i : 0 <= big -> (i < length vs)%nat -> sq_dist_line p (fst (edge vs i)) (snd (edge vs i)) = 0 -> min_dist big vs p = 0.
Proof.
  intros B I Z. destruct (min_dist_spec big vs p) as (_ & M & _). specialize (M i I). rewrite Z in M. apply Rle_antisym; [exact M|apply min_dist_pos, B].
Qed.
Lemma middle_on_line a b : sq_dist_line ((fst a + fst b) / 2, (snd a + snd b) / 2) a b = 0.
Proof.
  destruct (Req_EM_T (rsq b a) 0) as [E|N].
  - unfold rsq in E. assert (X := Rle_0_sqr (fst b - fst a)). assert (Y := Rle_0_sqr (snd b - snd a)). unfold Rsqr in *.
    assert (X0 : fst b - fst a = 0) by (apply Rsqr_0_uniq; unfold Rsqr; lra). assert (Y0 : snd b - snd a = 0) by (apply Rsqr_0_uniq; unfold Rsqr; lra).
    assert (b = a) by (destruct a, b; cbn [fst snd] in *; f_equal; lra). subst b. rewrite line_point. unfold rsq; cbn [fst snd]. field.
  - assert (L : 0 < rsq b a) by (assert (H := rsq_pos b a); lra). apply Rle_antisym; [|apply sq_dist_line_pos].
    eapply Rle_trans; [apply (line_far _ a b (/ 2) L)|]. right. unfold rsq, along; cbn [fst snd]. field.
Qed.
Lemma pair_center a b : hull_center [a; b] = ((IZR (fst a) + IZR (fst b)) / 2, (IZR (snd a) + IZR (snd b)) / 2).
Proof.
  unfold hull_center. cbn [fold_left]. unfold stretch.
  destruct (Z.ltb_spec (fst b) (fst a)), (Z.ltb_spec (snd b) (snd a)), (Z.ltb_spec (fst a) (fst b)), (Z.ltb_spec (snd a) (snd b)); try lia; cbn [fst snd]; unfold Rdiv; f_equal; f_equal;
    first [reflexivity | apply Rplus_comm | (assert (fst a = fst b) as -> by lia; reflexivity) | (assert (snd a = snd b) as -> by lia; reflexivity)].
Qed.
Lemma stretch_again a b w : stretch (stretch (a, a) b) a = w -> w = stretch (a, a) b.
Proof.
  intros <-. unfold stretch. destruct a as [a0 a1], b as [b0 b1]; cbn [fst snd].
  repeat match goal with |- context [(?x <? ?y)%Z] => destruct (Z.ltb_spec x y); cbn [fst snd] end; repeat f_equal; lia.
Qed.
Lemma triple_center a b : hull_center [a; b; a] = hull_center [a; b].
Proof. unfold hull_center. cbn [fold_left]. rewrite (stretch_again a b _ eq_refl). reflexivity. Qed.
Lemma flat_center big vs : 0 <= big -> (exists a b, vs = [a; b] \/ vs = [a; b; a]) -> min_dist big vs (hull_center vs) = 0.
Proof.
  intros B (a & b & [->| ->]).
  - rewrite pair_center. apply (min_dist_zero _ _ _ 1%nat B); [cbn; lia|]. apply (middle_on_line (real_point a) (real_point b)).
  - rewrite triple_center, pair_center. apply (min_dist_zero _ _ _ 1%nat B); [cbn; lia|]. apply (middle_on_line (real_point a) (real_point b)).
Qed.
Lemma turn_two a b c : (a = b \/ b = c \/ a = c) -> HullSpec.turn a b c = 0%Z.
Proof. intros [->|[->| ->]]; unfold HullSpec.turn; ring. Qed.
Lemma classic_vertical l : HullSpec.vertical l \/ ~ HullSpec.vertical l.
Proof.
  destruct l as [|p l]; [left; intros a b []|]. destruct (Forall_dec (fun q => fst q = fst p) (fun q => Z.eq_dec (fst q) (fst p)) (p :: l)) as [F|F].
  - left. rewrite Forall_forall in F. intros a b A B. rewrite (F a A), (F b B). reflexivity.
  - right. intros V. apply F, Forall_forall. intros q Q. apply V; [exact Q|left; reflexivity].
Qed.
(** The shapes of a hull. *)
Lemma hull_shape eps points vs : (0 < eps)%Z -> HullModel.hull_vertices eps points = Some vs ->
  (HullSpec.collinear vs /\ exists a b, vs = [a; b] \/ vs = [a; b; a]) \/ (~ HullSpec.collinear vs /\ HullSpec.convex_ccw vs /\ (3 <= length vs)%nat).
Proof.
  intros E H. destruct (HullProps.C26_hull eps points E) as (kept & _ & M). rewrite H in M. destruct M as (_ & INC & _ & NV & VT).
  destruct (classic_vertical kept) as [V|V].
  - destruct (VT V) as (lo & hi & -> & _). left. split; [|exists lo, hi; auto].
    intros a b c A B C. assert (X : forall p q, In p [lo; hi; lo] -> In q [lo; hi; lo] -> fst p = fst q) by (intros p q P Q; apply V; apply INC; assumption).
    unfold HullSpec.turn. rewrite (X b a B A), (X c a C A). ring.
  - destruct (NV V) as (C & ND & L & _). destruct vs as [|a [|b [|c vs]]]; cbn [length] in L; try lia.
    + left. split; [|exists a, b; auto]. intros x y z X Y Z. apply turn_two. cbn [In] in X, Y, Z. intuition congruence.
    + right. split; [|split; [exact C|cbn [length]; lia]]. intros K. assert (T := C 0%nat 1%nat 2%nat a b c ltac:(lia) eq_refl eq_refl eq_refl). rewrite (K a b c) in T; cbn [In]; auto. lia.
Qed.
