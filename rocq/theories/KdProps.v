(** C80 and C81: searching points in a kd-tree. *)
From Coq Require Import List ZArith Bool Arith Lia Permutation Sorted.
From Verif Require Import KdModel KdSpec KdProofs KdKnn MeshModel MeshSpec MeshProps.
Import ListNotations.
Open Scope Z_scope.

Lemma metric_l1 : metric l1.
Proof. unfold metric, l1. split; [lia|]. split; intros; lia. Qed.
Lemma metric_l2 : metric l2.
Proof.
  unfold metric, l2. split; [intros a b; apply Z.square_nonneg|]. split; intros a b c H; [|apply Z.mul_le_mono_nonneg; lia].
  replace ((a - b) * (a - b)) with ((b - a) * (b - a)) by ring. replace ((a - c) * (a - c)) with ((c - a) * (c - a)) by ring. apply Z.mul_le_mono_nonneg; lia.
Qed.

(** The tree is built whatever the points are, also if many coincide, and holds every point exactly once. *)
Theorem C80_build : forall D fuel, indexable D -> (d_count D <= fuel)%nat ->
  exists index, build fuel D = Some index /\ match index with None => d_count D = O | Some (t, _) => Permutation (leaves t) (seq 0 (d_count D)) end.
Proof. intros D fuel ID F. destruct (build_spec D fuel ID F) as (index & E & H). exists index. split; [exact E|]. destruct index as [[t b]|]; [tauto|exact H]. Qed.
(** The search finds the points nearer than the radius, each once, with their distances. *)
Theorem C80_radius : forall sort D acc fuel index q radius sorted, sorts sort -> metric acc -> indexable D -> (d_count D <= fuel)%nat -> build fuel D = Some index ->
  Permutation (radius_search sort D acc 1 1 sorted index q radius) (map (fun i => (i, dist D acc q i)) (filter (fun i => dist D acc q i <? radius) (seq 0 (d_count D)))) /\
  (sorted = true -> Sorted (fun a b => snd a <= snd b) (radius_search sort D acc 1 1 sorted index q radius)).
Proof.
  intros sort D acc fuel index q radius sorted SO MT ID F E. unfold radius_search. destruct (within_find D acc MT q 1 1 radius ltac:(lia) fuel index ID F E) as (hit & missed & EQ & PM & M).
  assert (NIL : missed = []). { destruct missed as [|i missed]; [reflexivity|]. exfalso. specialize (M i (or_introl eq_refl)). assert (I : In i (hit ++ i :: missed)) by (apply in_or_app; right; left; reflexivity). apply (Permutation_in _ (Permutation_sym PM)) in I. apply filter_In in I. destruct I as [_ I]. apply Z.ltb_lt in I. lia. }
  subst missed. rewrite app_nil_r in PM. rewrite EQ. split.
  - assert (Q : Permutation (map (fun i => (i, dist D acc q i)) hit) (map (fun i => (i, dist D acc q i)) (filter (fun i => dist D acc q i <? radius) (seq 0 (d_count D))))) by (apply Permutation_map, Permutation_sym, PM). destruct sorted; [rewrite (proj1 (SO _)); exact Q|exact Q].
  - intros ->. apply SO.
Qed.
(** With a tolerance the search may miss points, but none within the radius divided by 1 + eps. *)
Theorem C80_eps : forall sort D acc fuel index q radius sorted en ed, sorts sort -> metric acc -> indexable D -> (d_count D <= fuel)%nat -> build fuel D = Some index -> 0 < ed <= en ->
  let found := radius_search sort D acc en ed sorted index q radius in NoDup (map fst found) /\ (forall i d, In (i, d) found -> (i < d_count D)%nat /\ d = dist D acc q i /\ d < radius) /\
  forall i, (i < d_count D)%nat -> dist D acc q i < radius -> dist D acc q i * en <= radius * ed -> In (i, dist D acc q i) found.
Proof.
  intros sort D acc fuel index q radius sorted en ed SO MT ID F E EN. cbv zeta. destruct (within_find D acc MT q en ed radius ltac:(lia) fuel index ID F E) as (hit & missed & EQ & PM & M). set (found := radius_search sort D acc en ed sorted index q radius).
  assert (PF : Permutation found (map (fun i => (i, dist D acc q i)) hit)) by (unfold found, radius_search; rewrite EQ; destruct sorted; [apply SO|apply Permutation_refl]).
  assert (ND : NoDup (hit ++ missed)) by (apply (Permutation_NoDup PM), NoDup_filter, seq_NoDup). split; [|split].
  - apply (Permutation_NoDup (Permutation_sym (Permutation_map fst PF))). rewrite map_map, map_id. clear - ND. induction hit as [|i hit IH]; [constructor|]. cbn [app] in ND. inversion ND; subst. constructor; [rewrite in_app_iff in *; tauto|auto].
  - intros i d I. apply (Permutation_in _ PF) in I. apply in_map_iff in I. destruct I as (k & EK & K). injection EK as -> <-. assert (Q : In i (hit ++ missed)) by (apply in_or_app; auto). apply (Permutation_in _ (Permutation_sym PM)) in Q. apply filter_In in Q. destruct Q as [Q1 Q2]. apply in_seq in Q1. apply Z.ltb_lt in Q2. split; [lia|]. auto.
  - intros i I DI DE. apply (Permutation_in _ (Permutation_sym PF)). apply in_map_iff. exists i. split; [reflexivity|]. assert (Q : In i (hit ++ missed)) by (apply (Permutation_in _ PM), filter_In; split; [apply in_seq; lia|apply Z.ltb_lt, DI]). apply in_app_or in Q. destruct Q as [Q|Q]; [exact Q|]. specialize (M i Q). lia.
Qed.
(** Leaves for no point: the first point is divided for ever. *)
Theorem C80_leaf_refuted : forall fuel, build fuel (Data (fun _ _ => 0) 1 3 0 (fun _ _ => true) (fun a b => (a + b) / 2)) = None.
Proof.
  intros fuel. unfold build. cbn [d_count]. set (D := Data _ _ _ _ _ _). assert (G : forall f b, divide f D [O] b = None).
  { induction f as [|f IH]; intros b; [reflexivity|]. cbn [divide]. change (length [O] <=? d_leaf D)%nat with false. cbv iota.
    assert (MS : exists c v, middle_split D [O] b = Some ([O], O, c, v)).
    { unfold middle_split. set (c := cut_feature D [O] b). set (v := d_mid D _ _). change (min_max D c [O]) with (0, 0). cbn [fst snd]. assert (CV : (if v <? 0 then 0 else if 0 <? v then 0 else v) = 0) by (destruct (Z.ltb_spec v 0); [reflexivity|]; destruct (Z.ltb_spec 0 v); lia). rewrite CV. exists c, 0. reflexivity. }
    destruct MS as (c & v & ->). cbn [firstn skipn]. rewrite IH. destruct (divide f D [] _) as [[? ?]|]; reflexivity. }
  rewrite G. reflexivity.
Qed.
(** The vertices that mergeVertices works with: the contract of C77 holds. *)
Theorem C80_merge : forall wide mid t vs, exact t (cloud_near wide mid t) vs.
Proof.
  intros wide mid t vs i p P k. unfold vtx in *. unfold cloud_near. set (D := cloud wide mid vs). assert (ID : indexable D) by (split; cbn; lia). destruct (build_spec D (length vs) ID (le_n _)) as (index & E & _). rewrite E.
  destruct (within_find D l2 metric_l2 (component (List.nth i vs (0, 0, 0))) 1 1 t ltac:(lia) (length vs) index ID (le_n _) E) as (hit & missed & EQ & PM & M). unfold radius_search. rewrite EQ, map_map, map_id.
  assert (DI : forall j q, nth_error vs j = Some q -> dist D l2 (component (List.nth i vs (0, 0, 0))) j = sqdist p q). { intros j q Q. rewrite (nth_error_nth _ _ _ P). unfold dist. cbn [d_dim D cloud seq fold_left pt]. rewrite (nth_error_nth _ _ _ Q). destruct p as [[px py] pz], q as [[qx qy] qz]. unfold l2, sqdist, vx, vy, vz. cbn [component fst snd]. ring. }
  split.
  - intros K. assert (Q : In k (hit ++ missed)) by (apply in_or_app; auto). apply (Permutation_in _ (Permutation_sym PM)), filter_In in Q. destruct Q as [Q1 Q2]. apply in_seq in Q1. cbn [d_count D cloud] in Q1. destruct (nth_error vs k) as [q|] eqn:NK; [|apply nth_error_None in NK; lia]. exists q. split; [reflexivity|]. rewrite (DI k q NK) in Q2. apply Z.ltb_lt in Q2. exact Q2.
  - intros (q & NK & CL). assert (Q : In k (hit ++ missed)). { apply (Permutation_in _ PM), filter_In. split; [apply in_seq; cbn [d_count D cloud]; assert (k < length vs)%nat by (apply nth_error_Some; congruence); lia|]. rewrite (DI k q NK). apply Z.ltb_lt, CL. }
    apply in_app_or in Q. destruct Q as [Q|Q]; [exact Q|]. specialize (M k Q). rewrite (DI k q NK) in M. unfold close in CL. lia.
Qed.
(** The search for k neighbours. *)
Theorem C81_knn : forall D acc fuel index q arrays, metric acc -> indexable D -> (d_count D <= fuel)%nat -> build fuel D = Some index -> (1 <= length arrays)%nat ->
  exists res, snd (knn_search D acc index q arrays) = length res /\ firstn (length res) (fst (knn_search D acc index q arrays)) = map (fun p => (Some (fst p), snd p)) res /\ nearest (length arrays) (all_points D acc q) res.
Proof. intros D acc fuel index q arrays MT ID F E L. apply (knn_nearest D acc MT q (length arrays) L fuel); auto. Qed.
(** Each of the points found is another one. *)
Theorem C81_distinct : forall D acc fuel index q arrays, metric acc -> indexable D -> (d_count D <= fuel)%nat -> build fuel D = Some index -> (1 <= length arrays)%nat ->
  let r := knn_search D acc index q arrays in NoDup (map snd (firstn (snd r) (fst r))) /\ forall k d i, (k < snd r)%nat -> nth_error (fst r) k = Some (d, i) -> (i < d_count D)%nat /\ d = Some (dist D acc q i).
Proof.
  intros D acc fuel index q arrays MT ID F E L. cbv zeta. destruct (C81_knn D acc fuel index q arrays MT ID F E L) as (res & C & N & LN & SS & others & PM & _). rewrite C, N. split.
  - rewrite map_map. cbn [snd]. assert (Q := Permutation_map snd PM). unfold all_points in Q. rewrite map_map in Q. cbn [snd] in Q. rewrite map_id, map_app in Q. apply (Permutation_NoDup) in Q; [|apply seq_NoDup]. clear - Q. revert Q. generalize (map snd others). intros o. induction res as [|x res IH]; intros Q; [constructor|]. cbn [map app] in *. inversion Q; subst. constructor; [rewrite in_app_iff in *; tauto|auto].
  - intros k d i K EK. assert (I : In (d, i) (firstn (length res) (fst (knn_search D acc index q arrays)))). { rewrite <- (firstn_skipn (length res) (fst (knn_search D acc index q arrays))) in EK. assert (LK : (k < length (firstn (length res) (fst (knn_search D acc index q arrays))))%nat) by (rewrite N, map_length; exact K). rewrite nth_error_app1 in EK by exact LK. apply nth_error_In in EK. exact EK. }
    rewrite N in I. apply in_map_iff in I. destruct I as ([d' i'] & EI & I). injection EI as <- <-. assert (Q : In (d', i') (res ++ others)) by (apply in_or_app; auto). apply (Permutation_in _ (Permutation_sym PM)) in Q. apply in_map_iff in Q. destruct Q as (j & EJ & J). injection EJ as <- <-. apply in_seq in J. split; [lia|reflexivity].
Qed.

(** ** A case of each. *)
(** Insertion: a way of sorting. *)
Fixpoint put (x : nat * Z) (l : list (nat * Z)) : list (nat * Z) := match l with [] => [x] | y :: l => if snd x <=? snd y then x :: y :: l else y :: put x l end.
Definition isort (l : list (nat * Z)) : list (nat * Z) := fold_right put [] l.
Lemma isort_sorts : sorts isort.
Proof.
  intros l. assert (PP : forall x l, Permutation (put x l) (x :: l)). { intros x. induction l0 as [|y l0 IH]; [apply Permutation_refl|]. cbn [put]. destruct (_ <=? _); [apply Permutation_refl|]. rewrite IH. apply perm_swap. }
  induction l as [|x l [IH1 IH2]]; [split; [constructor|constructor]|]. cbn [isort fold_right]. fold (isort l). split; [rewrite PP, IH1; reflexivity|]. generalize (isort l) IH2. clear. induction 1 as [|y l S IH HD]; [repeat constructor|]. cbn [put]. destruct (Z.leb_spec (snd x) (snd y)); [repeat constructor; auto|].
  constructor; [exact IH|]. destruct l as [|z l]; cbn [put]; [constructor; lia|]. inversion HD; subst. destruct (_ <=? _); constructor; lia.
Qed.
(** Twelve points in the plane, three of them the same, leaves of at most two points. *)
Definition some_points : list (Z * Z) := [(0, 0); (5, 1); (9, 9); (5, 1); (2, 7); (8, 3); (5, 1); (1, 1); (4, 6); (7, 7); (3, 3); (6, 0)].
Definition some_data : data := Data (fun i c => let '(x, y) := List.nth i some_points (0, 0) in match c with O => x | _ => y end) 12 2 2 (fun s m => m * 99 <? s * 100) (fun a b => (a + b) / 2).
Definition query (c : nat) : Z := match c with O => 5 | _ => 2 end.
Example C80_example : indexable some_data /\ metric l2 /\ sorts isort /\ exists index, build 12 some_data = Some index /\
  radius_search isort some_data l2 1 1 true index query 6 = [(6%nat, 1); (3%nat, 1); (1%nat, 1); (11%nat, 5); (10%nat, 5)] /\
  knn_search some_data l2 index query (repeat (None, 77%nat) 4) = ([(Some 1, 6%nat); (Some 1, 3%nat); (Some 1, 1%nat); (Some 5, 11%nat)], 4%nat).
Proof.
  split; [split; cbn; lia|]. split; [apply metric_l2|]. split; [apply isort_sorts|]. eexists. split; [vm_compute; reflexivity|]. split; vm_compute; reflexivity.
Qed.
(** With eps = 1 a point inside the radius is missed, as C80_eps permits. *)
Example C80_eps_example : exists index, build 12 some_data = Some index /\ length (radius_search isort some_data l2 2 1 true index query 30) = 6%nat /\ length (radius_search isort some_data l2 1 1 true index query 30) = 10%nat.
Proof. eexists. split; [vm_compute; reflexivity|]. split; vm_compute; reflexivity. Qed.
(** Fewer points than asked for. *)
Example C81_example : exists index, build 12 some_data = Some index /\ snd (knn_search some_data l1 index query (repeat (Some 3, 5%nat) 20)) = 12%nat /\ build 0 (Data (fun _ _ => 0) 0 2 10 (fun _ _ => true) (fun a _ => a)) = Some None.
Proof. eexists. split; [vm_compute; reflexivity|]. split; vm_compute; reflexivity. Qed.
Example C80_merge_example : (exists m', merge (cloud_near (fun s m => m <=? s) (fun a b => (a + b) / 2) 1) true square = Some m' /\ length (m_vertices m') = 4%nat) /\
  cloud_near (fun s m => m <=? s) (fun a b => (a + b) / 2) 3 (map (fun i => (Z.of_nat i, 0, 0)) (seq 0 15)) 7 = [7; 8; 6]%nat.
Proof. split; [eexists; split; vm_compute; reflexivity|vm_compute; reflexivity]. Qed.

Print Assumptions C80_build.
Print Assumptions C80_radius.
Print Assumptions C80_eps.
Print Assumptions C80_leaf_refuted.
Print Assumptions C80_merge.
Print Assumptions C81_knn.
Print Assumptions C81_distinct.
