(** C65 and C66: collision and distance queries on objects, robots and sets. *)
From Coq Require Import List Bool Arith ZArith QArith Lia.
From Verif Require Import ObjSetModel CheckModel CheckSpec CheckProofs.
Import ListNotations.

(** C65.  Two objects, each with a collision model of its own or a robot whose nodes belong to the checker: they collide exactly if
    a collision model of the one touches a collision model of the other. *)
Theorem C65_objects : forall hit touch s this a b, right_hits hit touch ->
  belongs s this a -> belongs s this b -> (no_robot s a -> model s a <> None) -> (no_robot s b -> model s b <> None) ->
  exists r, hit_objects hit s this a b = Some r /\ (r = true <-> exists m n, body s a m /\ body s b n /\ touch m n).
Proof.
  intros hit touch s this a b [H S] Ba Bb Ma Mb. unfold hit_objects, hit_object_set. destruct (nodes s a) as [ns|] eqn:Na.
  - destruct (nodes s b) as [ms|] eqn:Nb.
    + eexists. split; [reflexivity|]. rewrite hit_set_set_ok. split; intros (m & n & I & J & T); exists m, n.
      * rewrite (robot_body s this a ns Na Ba) in I. rewrite (robot_body s this b ms Nb Bb) in J. apply H in T. auto.
      * rewrite (robot_body s this a ns Na Ba), (robot_body s this b ms Nb Bb), H. auto.
    + destruct (model s b) as [k|] eqn:K; [|exfalso; apply (Mb Nb eq_refl)]. eexists. split; [reflexivity|]. rewrite hit_model_set_ok. split.
      * intros (y & J & T). exists y, k. apply (robot_body s this a ns Na Ba) in J. apply H in T. split; [exact J|]. split; [|apply S, T]. unfold body. rewrite Nb. exact K.
      * intros (m & n & I & J & T). exists m. rewrite (robot_body s this a ns Na Ba). split; [exact I|]. apply H. unfold body in J. rewrite Nb in J. replace k with n by congruence. apply S, T.
  - destruct (model s a) as [k|] eqn:K; [|exfalso; apply (Ma Na eq_refl)]. destruct (nodes s b) as [ms|] eqn:Nb.
    + eexists. split; [reflexivity|]. rewrite hit_model_set_ok. split.
      * intros (y & J & T). exists k, y. apply (robot_body s this b ms Nb Bb) in J. apply H in T. split; [|tauto]. unfold body. rewrite Na. exact K.
      * intros (m & n & I & J & T). exists n. rewrite (robot_body s this b ms Nb Bb). split; [exact J|]. apply H. unfold body in I. rewrite Na in I. replace k with m by congruence. exact T.
    + destruct (model s b) as [l|] eqn:L; [|exfalso; apply (Mb Nb eq_refl)]. eexists. split; [reflexivity|]. rewrite H. unfold body. rewrite Na, Nb. split.
      * intros T. exists k, l. auto.
      * intros (m & n & I & J & T). replace k with m by congruence. replace l with n by congruence. exact T.
Qed.
Print Assumptions C65_objects.

(** An object or robot against a set of objects that are no robots. *)
Theorem C65_object_set : forall hit touch s this a t, right_hits hit touch ->
  belongs s this a -> (no_robot s a -> model s a <> None) -> (forall o, In o (objs t) -> no_robot s o) ->
  exists r, hit_object_set hit s this a t = Some r /\ (r = true <-> exists m n, body s a m /\ set_body s t n /\ touch m n).
Proof.
  intros hit touch s this a t [H S] Ba Ma Rt. pose proof (plain_set_body s t Rt) as E. unfold hit_object_set. destruct (nodes s a) as [ns|] eqn:Na.
  - eexists. split; [reflexivity|]. rewrite hit_set_set_ok. split; intros (m & n & I & J & T); exists m, n.
    + rewrite (robot_body s this a ns Na Ba) in I. rewrite E in J. apply H in T. auto.
    + rewrite (robot_body s this a ns Na Ba), E, H. auto.
  - destruct (model s a) as [k|] eqn:K; [|exfalso; apply (Ma Na eq_refl)]. eexists. split; [reflexivity|]. rewrite hit_model_set_ok. split.
    + intros (y & J & T). exists k, y. apply E in J. apply H in T. split; [|tauto]. unfold body. rewrite Na. exact K.
    + intros (m & n & I & J & T). exists n. rewrite E. split; [exact J|]. apply H. unfold body in I. rewrite Na in I. replace k with m by congruence. exact T.
Qed.
Print Assumptions C65_object_set.

(** Two sets, a collision model and a set, several collision models and one; sets may be empty: no collision. *)
Theorem C65_sets : forall hit touch s t u, right_hits hit touch ->
  (forall o, In o (objs t) -> no_robot s o) -> (forall o, In o (objs u) -> no_robot s o) ->
  (hit_set_set hit s t u = true <-> exists m n, set_body s t m /\ set_body s u n /\ touch m n) /\
  (forall m, hit_model_set hit s m u = true <-> exists n, set_body s u n /\ touch m n) /\
  (forall ms m, hit_list hit ms m = true <-> exists x, In x ms /\ touch x m).
Proof.
  intros hit touch s t u [H S] Rt Ru. pose proof (plain_set_body s t Rt) as Et. pose proof (plain_set_body s u Ru) as Eu. split; [|split].
  - rewrite hit_set_set_ok. split; intros (m & n & I & J & T); exists m, n; rewrite ?Et, ?Eu, ?H in *; auto.
  - intros m. rewrite hit_model_set_ok. split; intros (n & I & T); exists n; rewrite ?Eu, ?H in *; auto.
  - intros ms m. rewrite hit_list_ok. split; intros (n & I & T); exists n; rewrite ?H in *; auto.
Qed.
Print Assumptions C65_sets.

(** The order of the two objects does not matter. *)
Theorem C65_symmetric : forall hit touch s this a b, right_hits hit touch -> hit_objects hit s this a b = hit_objects hit s this b a.
Proof.
  intros hit touch s this a b [H S].
  assert (C : forall m n, hit m n = hit n m) by (intros m n; apply eq_true_iff_eq; rewrite !H; split; apply S).
  unfold hit_objects, hit_object_set. destruct (nodes s a) as [ns|] eqn:Na, (nodes s b) as [ms|] eqn:Nb; try reflexivity.
  - f_equal. apply eq_true_iff_eq. rewrite !hit_set_set_ok. split; intros (m & n & I & J & T); exists n, m; rewrite C; auto.
  - destruct (model s a) as [k|], (model s b) as [l|]; try reflexivity. rewrite C. reflexivity.
Qed.
Print Assumptions C65_symmetric.

(** A scene: objects 0, 1 and 4 with models 10, 11 and 14, robot 2 with the nodes 3 (model 13) and 5 (none); only the models 10 and
    13 touch.  [w] is the collision checker of the nodes. *)
Definition scene1 (w : nat) : scene :=
  Scene (fun o => if orb (o =? 3) (o =? 5) then w else 0)%nat
        (fun o => if orb (o =? 2) (o =? 5) then None else Some (10 + o))%nat
        (fun o => if o =? 2 then Some [5; 3] else None)%nat.
Definition hit1 (m n : nat) : bool := (m =? n)%nat || ((m =? 10) && (n =? 13))%nat || ((m =? 13) && (n =? 10))%nat.
Lemma right_hits1 : right_hits hit1 (fun m n => hit1 m n = true).
Proof.
  split; [reflexivity|]. intros m n H. unfold hit1 in *. rewrite !orb_true_iff, !andb_true_iff, !Nat.eqb_eq in *. intuition congruence.
Qed.
Lemma belongs1 o : belongs (scene1 0) 0 o.
Proof. intros ns _ n _ _. cbn. destruct ((n =? 3) || (n =? 5))%nat; reflexivity. Qed.
Example C65_witness : (no_robot (scene1 0) 0 -> model (scene1 0) 0 <> None) /\ hit_objects hit1 (scene1 0) 0 2 0 = Some true /\ hit_objects hit1 (scene1 0) 0 1 2 = Some false /\
  hit_object_set hit1 (scene1 0) 0 2 (OSet 0 [1; 0]%nat) = Some true /\ hit_set_set hit1 (scene1 0) (OSet 0 [1; 4]%nat) (OSet 0 [3]%nat) = false.
Proof. repeat split; intros; discriminate. Qed.

(** A robot that belongs to another collision checker is taken for a robot without collision models: no collision is reported. *)
Theorem C65_foreign_refuted : exists hit touch s this a b, right_hits hit touch /\ (no_robot s b -> model s b <> None) /\
  (exists m n, body s a m /\ body s b n /\ touch m n) /\ hit_objects hit s this a b = Some false.
Proof.
  exists hit1, (fun m n => hit1 m n = true), (scene1 1), 0%nat, 2%nat, 0%nat. split; [exact right_hits1|]. split; [discriminate|]. split; [|reflexivity].
  exists 13%nat, 10%nat. split; [exists 3%nat; split; [right; left; reflexivity|reflexivity]|]. split; reflexivity.
Qed.
(** A robot in a set is accepted but not looked at: no collision is reported. *)
Theorem C65_robot_in_set_refuted : exists hit touch s this a r, right_hits hit touch /\ belongs s this a /\ belongs s this r /\ (no_robot s a -> model s a <> None) /\
  snd (add (chk s) (OSet this []) (Some r)) = true /\
  let t := fst (add (chk s) (OSet this []) (Some r)) in
  (exists m n, body s a m /\ set_body s t n /\ touch m n) /\ hit_object_set hit s this a t = Some false.
Proof.
  exists hit1, (fun m n => hit1 m n = true), (scene1 0), 0%nat, 0%nat, 2%nat. split; [exact right_hits1|]. split; [apply belongs1|]. split; [apply belongs1|]. split; [discriminate|]. split; [reflexivity|].
  cbv zeta. split; [|reflexivity]. exists 10%nat, 13%nat. split; [reflexivity|]. split; [|reflexivity]. exists 2%nat. split; [left; reflexivity|]. exists 3%nat. split; [right; left; reflexivity|reflexivity].
Qed.
(** An object without a collision model: a null pointer is followed. *)
Theorem C65_no_model_refuted : exists hit touch s this a b, right_hits hit touch /\ belongs s this a /\ belongs s this b /\ hit_objects hit s this a b = None.
Proof. exists hit1, (fun m n => hit1 m n = true), (scene1 0), 0%nat, 5%nat, 0%nat. split; [exact right_hits1|]. split; [apply belongs1|]. split; [apply belongs1|reflexivity]. Qed.

(** A set and a point, tolerance 0: exactly if the point touches a collision model of the set. *)
Theorem C65_point : forall P inside within (close : nat -> P -> Q -> Prop) s t p,
  (forall m, inside m p = true <-> close m p 0) -> (forall m e, within m p e = true <-> close m p e) -> (forall o, In o (objs t) -> no_robot s o) ->
  (hit_set_point inside within s t p 0 = true <-> exists m, set_body s t m /\ close m p 0) /\
  (hit_set_point inside within s t p 50 = true <-> exists m, set_body s t m /\ close m p 50).
Proof.
  intros P inside within close s t p HI HW R. pose proof (plain_set_body s t R) as E. unfold hit_set_point. split; rewrite existsb_exists; split; intros (m & I & H); exists m; rewrite ?E in *; unfold hit_point in *; cbn in *; rewrite ?HI, ?HW in *; auto.
Qed.
Print Assumptions C65_point.
(** Every other tolerance is taken for 50: a point 30 away from the only model is within a tolerance of 1. *)
Theorem C65_tolerance_refuted : exists (inside : nat -> Q -> bool) within (far : nat -> Q -> Q) s t p e,
  (forall m p, inside m p = true <-> (far m p <= 0)%Q) /\ (forall m p e, within m p e = true <-> (far m p <= e)%Q) /\ (forall o, In o (objs t) -> no_robot s o) /\
  (0 < e)%Q /\ (forall m, set_body s t m -> (far m p > e)%Q) /\ hit_set_point inside within s t p e = true.
Proof.
  exists (fun _ p => Qle_bool p 0), (fun _ p e => Qle_bool p e), (fun _ p => p), (scene1 0), (OSet 0 [0%nat]), 30%Q, 1%Q.
  split; [intros; apply Qle_bool_iff|]. split; [intros; apply Qle_bool_iff|]. split; [intros o [<-|[]]; reflexivity|]. split; [reflexivity|]. split; [intros; reflexivity|reflexivity].
Qed.

(** C66.  The distance of two objects with their nearest points: the answer for a pair of their collision models, and no pair is
    closer.  The first point belongs to the first object, whichever of the two is a robot. *)
Theorem C66_objects : forall P (dist : nat -> nat -> near P) big s this a b r m0 n0, fair dist big ->
  belongs s this a -> belongs s this b -> body s a m0 -> body s b n0 ->
  exists r', dist_objects dist big s this a b r = Some r' /\ nearest dist (body s a) (body s b) r'.
Proof.
  intros P dist big s this a b r m0 n0 [F Sw] Ba Bb A B. unfold dist_objects, dist_object_set. destruct (nodes s a) as [ns|] eqn:Na.
  - pose proof (robot_body s this a ns Na Ba) as EA. destruct (nodes s b) as [ms|] eqn:Nb.
    + eexists. split; [reflexivity|]. eapply set_set_nearest; eauto using robot_body.
    + assert (K : model s b = Some n0) by (unfold body in B; rewrite Nb in B; exact B). rewrite K. cbn [option_map]. eexists. split; [reflexivity|].
      apply nearest_swap; [exact Sw|]. apply (nearest_ext P dist (eq n0) (body s a)); [|reflexivity|eapply model_set_nearest; eauto].
      intros m. unfold body. rewrite Nb, K. split; [intros ->; reflexivity|congruence].
  - assert (K : model s a = Some m0) by (unfold body in A; rewrite Na in A; exact A). rewrite K.
    assert (EA : forall m, m0 = m <-> body s a m) by (intros m; unfold body; rewrite Na, K; split; [intros ->; reflexivity|congruence]).
    destruct (nodes s b) as [ms|] eqn:Nb.
    + eexists. split; [reflexivity|]. apply (nearest_ext P dist (eq m0) (body s b)); [exact EA|reflexivity|]. eapply model_set_nearest; eauto using robot_body.
    + assert (L : model s b = Some n0) by (unfold body in B; rewrite Nb in B; exact B). rewrite L. eexists. split; [reflexivity|]. split.
      * exists m0, n0. auto.
      * intros m n HA HB. apply EA in HA. unfold body in HB. rewrite Nb in HB. rewrite <- HA. replace n with n0 by congruence. apply Qle_refl.
Qed.
Print Assumptions C66_objects.

(** An object or robot and a set, two sets, a collision model and a set. *)
Theorem C66_sets : forall P (dist : nat -> nat -> near P) big s this t r n0, fair dist big ->
  (forall o, In o (objs t) -> no_robot s o) -> set_body s t n0 ->
  (forall a m0, belongs s this a -> body s a m0 -> exists r', dist_object_set dist big s this a t r = Some r' /\ nearest dist (body s a) (set_body s t) r') /\
  (forall u m0, (forall o, In o (objs u) -> no_robot s o) -> set_body s u m0 -> nearest dist (set_body s u) (set_body s t) (dist_set_set dist big s u t r)) /\
  (forall m, nearest dist (eq m) (set_body s t) (dist_model_set dist big s m t r)).
Proof.
  intros P dist big s this t r n0 [F Sw] R B. pose proof (plain_set_body s t R) as E. split; [|split].
  - intros a m0 Ba A. unfold dist_object_set. destruct (nodes s a) as [ns|] eqn:Na.
    + eexists. split; [reflexivity|]. eapply set_set_nearest; eauto using robot_body.
    + assert (K : model s a = Some m0) by (unfold body in A; rewrite Na in A; exact A). rewrite K. eexists. split; [reflexivity|].
      apply (nearest_ext P dist (eq m0) (set_body s t)); [|reflexivity|eapply model_set_nearest; eauto]. intros m. unfold body. rewrite Na, K. split; [intros ->; reflexivity|congruence].
  - intros u m0 Ru A. eapply set_set_nearest; eauto using plain_set_body.
  - intros m. eapply model_set_nearest; eauto.
Qed.
Print Assumptions C66_sets.

(** With no collision model on one side the result is -1, and the caller's points are untouched. *)
Theorem C66_empty : forall P (dist : nat -> nat -> near P) big s t u r, (forall m, ~ (exists o, In o (objs u) /\ model s o = Some m)) ->
  dist_set_set dist big s t u r = Near (-1) (pt1 r) (pt2 r) (id1 r) (id2 r) /\ dist_set_set dist big s u t r = Near (-1) (pt1 r) (pt2 r) (id1 r) (id2 r) /\
  forall m, dist_model_set dist big s m u r = Near (-1) (pt1 r) (pt2 r) (id1 r) (id2 r).
Proof.
  intros P dist big s t u r H. assert (E : models (model s) u = []).
  { destruct (models (model s) u) as [|m l] eqn:D; [reflexivity|]. exfalso. apply (H m). apply models_in. rewrite D. left. reflexivity. }
  unfold dist_set_set, dist_model_set. rewrite E. split; [destruct (models (model s) t); reflexivity|]. split; [|intros m]; reflexivity.
Qed.
Print Assumptions C66_empty.

(** Models on a line, the model m at m times 3: robot 2 (at 39) and object 0 (at 30). *)
Definition dist1 (m n : nat) : near Q :=
  Near (if (m <=? n)%nat then inject_Z (Z.of_nat (n - m) * 3) else inject_Z (Z.of_nat (m - n) * 3)) (inject_Z (Z.of_nat m * 3)) (inject_Z (Z.of_nat n * 3)) 0 0.
Definition small (m : nat) : nat := Nat.min m 100.
Example C66_witness : fair (fun m n => dist1 (small m) (small n)) 1000 /\ body (scene1 0) 2 13 /\ body (scene1 0) 0 10 /\
  dist_objects (fun m n => dist1 (small m) (small n)) 1000 (scene1 0) 0 2 0 (Near 0 0 0 7 7) = Some (Near 9 39 30 0 0)%Q /\
  dist_set_set (fun m n => dist1 (small m) (small n)) 1000 (scene1 0) (OSet 0 [0; 1]%nat) (OSet 0 [4; 3]%nat) (Near 0 0 0 7 7) = Near 6 33 39 0 0.
Proof.
  split; [split|].
  - intros m n. unfold dist1. cbn [gap]. assert (small m <= 100 /\ small n <= 100)%nat as [A B] by (unfold small; lia). destruct (Nat.leb_spec (small m) (small n)); change 1000%Q with (inject_Z 1000); rewrite <- Zle_Qle; lia.
  - intros m n. unfold dist1, swap. cbn [gap pt1 pt2 id1 id2]. f_equal. destruct (Nat.leb_spec (small m) (small n)), (Nat.leb_spec (small n) (small m)); try reflexivity; try lia. replace (small m) with (small n) by lia. reflexivity.
  - split; [exists 3%nat; split; [right; left; reflexivity|reflexivity]|]. split; [reflexivity|]. split; reflexivity.
Qed.
(** The distance to a set with a robot in it ignores the robot. *)
Theorem C66_robot_in_set_refuted : exists P (dist : nat -> nat -> near P) big s this t a r r' m n, fair dist big /\ belongs s this a /\ (forall o, In o (objs t) -> belongs s this o) /\
  body s a m /\ set_body s t n /\ dist_object_set dist big s this a t r = Some r' /\ (gap r' > gap (dist m n))%Q.
Proof.
  exists Q, (fun m n => dist1 (small m) (small n)), 1000%Q, (scene1 0), 0%nat, (OSet 0 [2; 0]%nat), 4%nat, (Near 0 0 0 7%Z 7%Z). eexists. exists 14%nat, 13%nat.
  split; [apply C66_witness|]. split; [apply belongs1|]. split; [intros; apply belongs1|]. split; [reflexivity|]. split; [exists 2%nat; split; [left; reflexivity|]; exists 3%nat; split; [right; left; reflexivity|reflexivity]|].
  split; [reflexivity|]. reflexivity.
Qed.
