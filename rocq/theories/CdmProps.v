(** C40: the collision detection manager. *)
From Coq Require Import List Bool Arith QArith Lqa Lia.
From Verif Require Import CdmModel CdmSpec CdmProofs.
Import ListNotations.
Open Scope nat_scope.

(** addCollisionModelPair registers exactly that pair; both sets (or one alike) are known afterwards, and nothing else is. *)
Theorem C40_add_pair : forall s a b, let s' := add_pair s (Some a) (Some b) in
  (forall x y, registered s' x y <-> registered s x y \/ x = a /\ y = b) /\
  (forall x, In x (col_models s) -> In x (col_models s')) /\ (forall x, In x (col_models s') -> In x (col_models s) \/ x = a \/ x = b) /\
  (exists x, In x (col_models s') /\ alike (content s) a x) /\ (exists x, In x (col_models s') /\ alike (content s) b x) /\
  add_pair s None (Some b) = s /\ add_pair s (Some a) None = s.
Proof.
  intros s a b s'. destruct (add_pair_frame s a b) as (C & N & M). fold s' in C, N, M. split; [apply add_pair_registered|]. rewrite M.
  split; [intros x I; apply note_models, note_models, I|]. split; [intros x I; apply note_only in I; destruct I as [I| ->]; [apply note_only in I; tauto|auto]|]. split; [|split].
  - assert (H := note_mono (note s a) b a (note_has s a)). apply has_set_spec in H. destruct H as (x & I & A). exists x. split; [exact I|].
    rewrite (proj1 (proj2 (note_pairs _ _))), (proj1 (proj2 (note_pairs _ _))) in A. exact A.
  - assert (H := note_has (note s a) b). apply has_set_spec in H. destruct H as (x & I & A). exists x. split; [exact I|]. rewrite (proj1 (proj2 (note_pairs _ _))), (proj1 (proj2 (note_pairs _ _))) in A. exact A.
  - split; reflexivity.
Qed.
(** addCollisionModel, if the vector of sets has room (or need not grow): the set is registered against all other sets known before. *)
Theorem C40_add_model : forall s m, (exists s', add_model true s (Some m) = Some s') /\ forall room s', add_model room s (Some m) = Some s' ->
  (forall x y, registered s' x y <-> registered s x y \/ In x (col_models s) /\ x <> m /\ y = m) /\
  (forall x, In x (col_models s) -> In x (col_models s')) /\ (forall x, In x (col_models s') -> In x (col_models s) \/ x = m) /\
  (exists x, In x (col_models s') /\ alike (content s) m x).
Proof.
  intros s m. split; [apply add_model_room|]. intros room s' H. destruct (add_model_spec room s m s' H) as (C & N & K1 & K2 & R & HM & _). split; [exact R|]. split; [exact K1|]. split; [exact K2|].
  apply has_set_spec in HM. destruct HM as (x & I & A). exists x. split; [exact I|]. rewrite <- C. exact A.
Qed.
(** Without room the behaviour is undefined: a set that is not yet known is appended to the vector while the loop goes over it. *)
Theorem C40_add_model_refuted : forall s m x, In x (col_models s) -> (forall y, In y (col_models s) -> ~ alike (content s) m y) -> add_model false s (Some m) = None.
Proof.
  intros s m x I N. unfold add_model.
  assert (H : has_set s m = false) by (destruct (has_set s m) eqn:H; [|reflexivity]; apply has_set_spec in H; destruct H as (y & J & A); exfalso; apply (N y); auto).
  rewrite H. assert (O : In x (filter (fun y => negb (m =? y)) (col_models s))).
  { apply filter_In. split; [exact I|]. apply negb_true_iff, Nat.eqb_neq. intros ->. apply (N x I). left. reflexivity. }
  destruct (filter (fun y => negb (m =? y)) (col_models s)); [destruct O|reflexivity].
Qed.
(** Sets added one after the other (with room) are all checked against each other and against the sets known before; no set is checked
    against itself. *)
Theorem C40_all_pairs : forall room content next ms, (forall n, room n = true) -> NoDup ms -> (forall a b, In a ms -> In b ms -> alike content a b -> a = b) ->
  exists s, add_models room (new_cdm content next) ms = Some s /\ (forall m, In m ms -> In m (col_models s)) /\
  (forall a b, In a ms -> In b ms -> a <> b -> registered s a b \/ registered s b a) /\ (forall x y, registered s x y -> x <> y).
Proof.
  intros room cont nx ms RM ND AL. destruct (add_models_some room ms (new_cdm cont nx) RM) as (s & H). exists s. split; [exact H|].
  destruct (add_models_all room ms (new_cdm cont nx) s H ND) as (R1 & R2 & R3 & R4 & R5 & R6); [reflexivity|exact AL|]. split; [exact R3|]. split.
  - intros a b IA IB N. apply In_nth_error in IA, IB. destruct IA as (i & A), IB as (j & B). destruct (lt_eq_lt_dec i j) as [[L|E]|L].
    + left. apply (R5 i j); assumption.
    + subst. congruence.
    + right. apply (R5 j i); assumption.
  - intros x y G. apply R6 in G. destruct G as [(l & [] & _)|G]; exact G.
Qed.
(** A single object added twice is registered against itself, as each call wraps it in a new set. *)
Theorem C40_twice_refuted : forall content o next, exists s1 s2, add_object (fun _ => true) true (new_cdm content next) (Some o) = Some s1 /\ add_object (fun _ => true) true s1 (Some o) = Some s2 /\
  exists a b, registered s2 a b /\ CdmModel.content s2 a = [o] /\ CdmModel.content s2 b = [o].
Proof.
  intros cont o nx. unfold add_object. cbn [wrap new_cdm]. set (u := {| content := _ |}). destruct (add_model_room u (next (new_cdm cont nx))) as (s1 & H1). exists s1.
  destruct (add_model_spec true u _ s1 H1) as (C & N & K1 & K2 & R & HM & _). cbn [new_cdm next] in *.
  assert (I : In nx (col_models s1)) by (apply has_set_spec in HM; destruct HM as (x & I & _); destruct (K2 x I) as [[]| ->]; exact I).
  assert (N1 : next s1 = S nx) by (rewrite N; reflexivity).
  set (v := {| col_models := col_models s1 |}). destruct (add_model_room v (next s1)) as (s2 & H2). exists s2. split; [exact H1|]. split; [exact H2|].
  destruct (add_model_spec true v _ s2 H2) as (C' & _ & _ & _ & R' & _ & _). exists nx, (S nx). rewrite C'. unfold v. cbn [content]. rewrite C, N1. unfold u. cbn [content].
  rewrite !Nat.eqb_refl. destruct (Nat.eqb_spec nx (S nx)); [lia|]. split; [|split; reflexivity].
  apply R'. right. split; [exact I|]. split; [lia|congruence].
Qed.
(** isInCollision is true exactly if a registered pair collides; for a given set, exactly if it collides with another known set. *)
Theorem C40_collision : forall collide s,
  (is_in_collision collide s = true <-> exists a b, registered s a b /\ collide a b = true) /\
  (forall m, is_in_collision_with collide s m = true <-> exists x, In x (col_models s) /\ x <> m /\ collide x m = true).
Proof. intros collide s. split; [apply is_in_collision_spec|apply is_in_collision_with_spec]. Qed.
(** getDistance is the least distance of the registered pairs, and for a given set the least distance to the other known sets. *)
Theorem C40_distance : forall dist s,
  minimum (fun d => exists a b, registered s a b /\ d = dist a b) (get_distance dist s) /\
  (forall m, minimum (fun d => exists x, In x (col_models s) /\ x <> m /\ d = dist x m) (get_distance_with dist s m)).
Proof. intros dist s. split; [apply get_distance_spec|apply get_distance_with_spec]. Qed.
(** With points: the least distance, with the data of a pair that has it; the data are only left as they were if no pair is nearer than FLT_MAX. *)
Theorem C40_points : forall D (dist : nat -> nat -> Q * D) junk s old, let r := get_points dist junk s old in
  (fst r <= flt_max)%Q /\ (forall a b, registered s a b -> (fst r <= fst (dist a b))%Q) /\ (r = (flt_max, old) \/ (fst r < flt_max)%Q /\ exists a b, registered s a b /\ r = dist a b).
Proof. exact get_points_spec. Qed.
(** With points for a given set: over all known sets, the given set itself among them.  So for a known set it is at most its distance to
    itself, while getDistance without points leaves it out. *)
Theorem C40_points_with : forall D (dist : nat -> nat -> Q * D) s m old, let r := get_points_with dist s m old in
  (fst r <= flt_max)%Q /\ (forall x, In x (col_models s) -> (fst r <= fst (dist m x))%Q) /\ (r = (flt_max, old) \/ (fst r < flt_max)%Q /\ exists x, In x (col_models s) /\ r = dist m x).
Proof. intros D dist s m old. exact (points_to_spec D dist m (col_models s) old). Qed.
(** So for a known set the two functions disagree. *)
Theorem C40_points_with_refuted : exists s m (dist : nat -> nat -> Q), In m (col_models s) /\ (forall a b, dist a b = dist b a) /\
  ~ (fst (get_points_with (fun a b => (dist a b, tt)) s m tt) == get_distance_with dist s m)%Q.
Proof.
  exists (add_pair (new_cdm (fun x => [x; x]) 9) (Some 1) (Some 2)), 1, (fun a b => if a =? b then 0%Q else 5%Q). split; [left; reflexivity|]. split.
  - intros a b. rewrite Nat.eqb_sym. reflexivity.
  - vm_compute. discriminate.
Qed.
(** Whether a set or an object is known. *)
Theorem C40_has : forall s, (forall m, has_scene_object_set s m = true <-> In m (col_models s)) /\ (forall o, has_scene_object s o = true <-> exists x, In x (col_models s) /\ content s x = [o]).
Proof.
  intros s. split.
  - intros m. unfold has_scene_object_set. rewrite existsb_exists. split; [intros (x & I & E); apply Nat.eqb_eq in E; subst; exact I|intros I; exists m; split; [exact I|apply Nat.eqb_refl]].
  - intros o. unfold has_scene_object. rewrite existsb_exists. split; intros (x & I & E); exists x; (split; [exact I|]).
    + destruct (content s x) as [|b [|c l]]; try discriminate. apply Nat.eqb_eq in E. subst. reflexivity.
    + rewrite E. apply Nat.eqb_refl.
Qed.
(** Pairs of single objects: new sets that hold just them. *)
Theorem C40_object_pair : forall fits s o1 o2, fits o1 = true -> fits o2 = true -> exists a b, let s' := add_object_pair fits s (Some o1) (Some o2) in
  content s' a = [o1] /\ content s' b = [o2] /\ forall x y, registered s' x y <-> registered s x y \/ x = a /\ y = b.
Proof.
  intros fits s o1 o2 F1 F2. exists (next s), (S (next s)). intros s'. unfold s', add_object_pair. cbn [wrap next content]. 
  match goal with |- context [add_pair ?t (Some ?a) (Some ?b)] => set (u := t); destruct (add_pair_frame u a b) as (C & _ & _) end. rewrite C. unfold u. cbn [content].
  rewrite Nat.eqb_refl, F1, F2. destruct (Nat.eqb_spec (next s) (S (next s))); [lia|]. rewrite Nat.eqb_refl. split; [reflexivity|]. split; [reflexivity|].
  intros x y. fold u. rewrite add_pair_registered. reflexivity.
Qed.

Print Assumptions C40_add_pair.
Print Assumptions C40_add_model.
Print Assumptions C40_add_model_refuted.
Print Assumptions C40_all_pairs.
Print Assumptions C40_twice_refuted.
Print Assumptions C40_collision.
Print Assumptions C40_distance.
Print Assumptions C40_points.
Print Assumptions C40_points_with.
Print Assumptions C40_points_with_refuted.
Print Assumptions C40_has.
Print Assumptions C40_object_pair.

(** Three sets of several objects: all hypotheses of C40_all_pairs are met, and the distance is that of the nearest pair. *)
Definition three : option cdm := add_models (fun _ => true) (new_cdm (fun x => [x; S x]) 9) [1; 2; 3].
Example three_alike : NoDup [1; 2; 3] /\ forall a b, In a [1; 2; 3] -> In b [1; 2; 3] -> alike (fun x => [x; S x]) a b -> a = b.
Proof. split; [repeat constructor; cbn; intuition congruence|]. intros a b _ _ [->|(o & E & _)]; [reflexivity|discriminate]. Qed.
Example three_pairs : option_map (fun s => (col_models s, col_pairs s)) three = Some ([1; 2; 3], [(1, [2; 3]); (2, [3])]).
Proof. reflexivity. Qed.
Example three_distance : option_map (get_distance (fun a b => inject_Z (10 * Z.of_nat a - Z.of_nat b))) three = Some (inject_Z 7).
Proof. vm_compute. reflexivity. Qed.
Example undefined : exists s, add_model false (new_cdm (fun x => [x; S x]) 9) (Some 1) = Some s /\ add_model false s (Some 2) = None.
Proof. eexists. split; reflexivity. Qed.
