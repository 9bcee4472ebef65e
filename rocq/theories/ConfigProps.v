(** C39: stored robot configurations. *)
From Coq Require Import Reals List Bool Arith Lra Lia.
From Verif Require Import QuatModel QuatSpec RpyModel JointModel KinModel KinSpec KinProofs KinProps ConfigModel ConfigSpec ConfigProofs.
Import ListNotations.
Open Scope R_scope.

(** After any history of requests getConfig returns the last value stored for the name, or 0 if there is none, and hasConfig tells
    whether there is one; the nodes of the configuration are nodes of the robot. *)
Theorem C39_last_set : forall nm r h, named nm r -> let c := fold_left (store nm r) h [] in
  (forall n, has_config nm c n = true <-> wanted nm r h n <> None) /\
  (forall n, get_config nm (Some r) c n = Some (match wanted nm r h n with Some v => v | None => 0 end)) /\
  NoDup (map fst c) /\ (forall x, In x (map fst c) -> has_node nm r x = true).
Proof.
  intros nm r h NM c. destruct (store_inv nm r h NM) as (ND & K & L & W). fold c in ND, K, L.
  assert (H : forall n, has_config nm c n = true <-> wanted nm r h n <> None).
  { intros n. rewrite has_config_spec. split.
    - intros (x & I & <-). rewrite <- (L (nm x) x (K x I)). intros E. apply lookup_none in E. contradiction.
    - intros N. destruct (lookup n (reg r)) as [x|] eqn:LN; [|rewrite (W n LN) in N; congruence]. exists x. split; [|apply (named_lookup nm r n x NM LN)].
      destruct (in_dec Nat.eq_dec x (map fst c)) as [I|I]; [exact I|]. apply lookup_none in I. rewrite (L n x LN) in I. contradiction. }
  split; [exact H|]. split; [|split; [exact ND|intros x I; apply has_node_spec, K, I]].
  intros n. unfold get_config. destruct (has_config nm c n) eqn:HC.
  - apply H in HC. destruct (lookup n (reg r)) as [x|] eqn:LN; [|rewrite (W n LN) in HC; congruence]. rewrite (L n x LN). destruct (wanted nm r h n); [reflexivity|congruence].
  - destruct (wanted nm r h n) eqn:WN; [|reflexivity]. exfalso. assert (has_config nm c n = true) by (apply H; congruence). congruence.
Qed.
(** setConfig by name succeeds exactly for the names of nodes; by node it throws for a node of another robot. *)
Theorem C39_set : forall nm r c n x v,
  (snd (set_name (Some r) c n v) = true <-> exists y, lookup n (reg r) = Some y) /\
  (set_node nm (Some r) c (Some x) v = None <-> lookup (nm x) (reg r) <> Some x) /\
  set_name None c n v = (c, false) /\ set_node nm None c (Some x) v = Some (c, false) /\ set_node nm (Some r) c None v = None.
Proof.
  intros nm r c n x v. split; [|split; [|auto]].
  - unfold set_name. destruct (lookup n (reg r)) as [y|]; cbn [snd]; [split; [intros _; exists y; reflexivity|reflexivity]|split; [discriminate|intros (y & E); discriminate]].
  - unfold set_node. destruct (has_node nm r x) eqn:H; [apply has_node_spec in H; split; [discriminate|congruence]|]. split; [|reflexivity]. intros _ E. apply has_node_spec in E. congruence.
Qed.
(** Applying a configuration to its robot sets exactly the stored joints, each as setJointValue does, and leaves all poses as forward
    kinematics has them. *)
Theorem C39_apply : forall depth r c, (length (nodes (body r)) < depth)%nat -> tree (body r) -> NoDup (map fst c) ->
  exists r', apply depth (Some r) c = Some (Some r', true) /\ reg r' = reg r /\ same_nodes but_joint (body r) (body r') /\ posed (body r') /\
    forall x n n', node_at (body r) x = Some n -> node_at (body r') x = Some n' ->
      (forall v, In (x, v) c -> set_value (n_joint n) v = Some (n_joint n')) /\ (~ In x (map fst c) -> n_joint n' = n_joint n).
Proof.
  intros depth r c D T ND. destruct (C35_robot_set_joint_values depth (body r) c D T) as (b & E & S & R & P & J). exists (Rob b (reg r)). unfold apply. rewrite E. split; [reflexivity|]. split; [reflexivity|]. split; [exact S|]. split; [exact P|].
  intros x n n' En En'. apply (joint_after_distinct (body r) c x (n_joint n') n ND); [apply J, En'|exact En].
Qed.
(** Applying a configuration to another robot: all or nothing.  If that robot has nodes of all the stored names, these nodes and no
    others get the values; otherwise nothing changes and the call returns false. *)
Theorem C39_apply_to : forall nm nm' depth r c, (length (nodes (body r)) < depth)%nat -> tree (body r) -> named nm' r -> NoDup (map fst c) ->
  (forall x y, In x (map fst c) -> In y (map fst c) -> nm x = nm y -> x = y) ->
  ((exists x, In x (map fst c) /\ lookup (nm x) (reg r) = None) -> apply_to nm depth (Some r) c = Some (Some r, false)) /\
  ((forall x, In x (map fst c) -> lookup (nm x) (reg r) <> None) ->
   exists r', apply_to nm depth (Some r) c = Some (Some r', true) /\ reg r' = reg r /\ same_nodes but_joint (body r) (body r') /\ posed (body r') /\
    forall y n n', node_at (body r) y = Some n -> node_at (body r') y = Some n' ->
      (forall x v, In (x, v) c -> lookup (nm x) (reg r) = Some y -> set_value (n_joint n) v = Some (n_joint n')) /\
      ((forall x, In x (map fst c) -> lookup (nm x) (reg r) <> Some y) -> n_joint n' = n_joint n)).
Proof.
  intros nm nm' depth r c D T NM ND INJ. destruct (name_map_spec nm c INJ ND) as [MD MI]. unfold apply_to. split.
  - intros (x & I & L). apply in_map_iff in I. destruct I as ([x' v] & <- & I). cbn [fst] in L.
    destruct (forallb (fun nv => match lookup (fst nv) (reg r) with Some _ => true | None => false end) (name_map nm c)) eqn:F; [|reflexivity].
    exfalso. rewrite forallb_forall in F. specialize (F (nm x', v) (proj2 (MI (nm x') v) (ex_intro _ x' (Logic.conj eq_refl I)))). cbn [fst] in F. rewrite L in F. discriminate.
  - intros ALL. assert (F : forallb (fun nv => match lookup (fst nv) (reg r) with Some _ => true | None => false end) (name_map nm c) = true).
    { apply forallb_forall. intros [n v] I. apply MI in I. destruct I as (x & <- & I). cbn [fst]. apply (in_map fst) in I. cbn [fst] in I. destruct (lookup (nm x) (reg r)) eqn:L; [reflexivity|]. exfalso. apply (ALL x I), L. }
    rewrite F. set (l := flat_map _ _). change l with (moved_to (fun n => n) r (name_map nm c)) in *. clear l.
    destruct (C35_robot_set_joint_values depth (body r) (moved_to (fun n => n) r (name_map nm c)) D T) as (b & E & S & R & P & J). rewrite E. exists (Rob b (reg r)). split; [reflexivity|]. split; [reflexivity|]. split; [exact S|]. split; [exact P|].
    intros y n n' En En'. destruct (joint_after_distinct (body r) (moved_to (fun n => n) r (name_map nm c)) y (n_joint n') n) as [A B]; [apply (moved_to_nodup _ nm'); auto|apply J, En'|exact En|].
    split.
    + intros x v I L. apply A, moved_to_in. exists (nm x). split; [apply MI; exists x; auto|exact L].
    + intros N. apply B. intros I. apply in_map_iff in I. destruct I as ([y' v] & EY & I). cbn [fst] in EY. subst y'. apply moved_to_in in I. destruct I as (k & I & L). apply MI in I. destruct I as (x & <- & I).
      apply (N x); [apply (in_map fst) in I; exact I|exact L].
Qed.
(** A clone for another robot holds the values of exactly those names the other robot has. *)
Theorem C39_clone : forall nm nm' r c, named nm' r -> NoDup (map fst c) -> (forall x y, In x (map fst c) -> In y (map fst c) -> nm x = nm y -> x = y) ->
  exists c', clone_config nm nm' r c = Some c' /\ NoDup (map fst c') /\ forall y v, In (y, v) c' <-> exists x, In (x, v) c /\ lookup (nm x) (reg r) = Some y.
Proof.
  intros nm nm' r c NM ND INJ. exists (moved_to nm r c). assert (MD := moved_to_nodup nm nm' r c NM ND INJ). split; [|split; [exact MD|intros y v; apply moved_to_in]].
  unfold clone_config, of_nodes. rewrite (fold_put_new nm r c []) by exact MD. cbn [app]. apply (of_nodes_new nm' r (moved_to nm r c) []); [exact MD|].
  intros y I. apply in_map_iff in I. destruct I as ([y' v] & <- & I). apply moved_to_in in I. destruct I as (x & I & L). cbn [fst]. apply has_node_spec. rewrite (named_lookup nm' r _ _ NM L). exact L.
Qed.
(** The robot may be gone: nothing is set. *)
Theorem C39_gone : forall nm depth c n, apply depth None c = Some (None, false) /\ apply_to nm depth None c = Some (None, false) /\ get_config nm None c n = Some 0.
Proof. intros nm depth c n. split; [reflexivity|]. split; [reflexivity|]. unfold get_config. destruct (has_config nm c n); reflexivity. Qed.
(** If a node is taken from the robot, getConfig throws for its name; if another node is registered under the name it returns 0, while hasConfig is true. *)
Theorem C39_last_set_refuted : exists nm r1 r2 r3 c, named nm r1 /\ named nm r2 /\ named nm r3 /\ c = fold_left (store nm r1) [ByName 7 5] [] /\
  get_config nm (Some r1) c 7 = Some 5 /\ has_config nm c 7 = true /\ get_config nm (Some r2) c 7 = None /\ get_config nm (Some r3) c 7 = Some 0.
Proof.
  exists (fun _ => 7%nat). exists (Rob (arm [] []) [(7%nat, 0%nat)]), (Rob (arm [] []) []), (Rob (arm [] []) [(7%nat, 1%nat)]). eexists.
  split; [split; [repeat constructor; intros []|intros n x [[= <- <-]|[]]; reflexivity]|]. split; [split; [constructor|intros n x []]|]. split; [split; [repeat constructor; intros []|intros n x [[= <- <-]|[]]; reflexivity]|].
  split; [reflexivity|]. repeat split.
Qed.
(** The constructor from names leaves out the names the robot does not have. *)
Theorem C39_of_names : forall nm r ns vs, (length ns <> length vs -> of_names (Some r) ns vs = None) /\
  (length ns = length vs -> of_names (Some r) ns vs = Some (fold_left (store nm r) (map (fun nv => ByName (fst nv) (snd nv)) (combine ns vs)) [])).
Proof.
  intros nm r ns vs. unfold of_names. split; intros E.
  - apply Nat.eqb_neq in E. rewrite E. reflexivity.
  - rewrite E, Nat.eqb_refl. f_equal. generalize (combine ns vs) ([] : config). clear. induction l as [|[n v] l IH]; intros c; cbn [fold_left map fst snd store]; [reflexivity|]. apply IH.
Qed.

Print Assumptions C39_last_set.
Print Assumptions C39_set.
Print Assumptions C39_apply.
Print Assumptions C39_apply_to.
Print Assumptions C39_clone.
Print Assumptions C39_gone.
Print Assumptions C39_last_set_refuted.
Print Assumptions C39_of_names.

(** A robot with two named nodes meets the hypotheses: values by name and by node. *)
Definition nm0 (x : nat) : nat := (10 + x)%nat.
Definition r0 : rob := Rob (arm [] []) [(10%nat, 0%nat); (11%nat, 1%nat)].
Example r0_named : named nm0 r0.
Proof. split; [repeat constructor; cbn; intuition congruence|]. intros n x [[= <- <-]|[[= <- <-]|[]]]; reflexivity. Qed.
Example r0_tree : tree (body r0) /\ (length (nodes (body r0)) < 3)%nat.
Proof. split; [apply arm_tree|cbn; lia]. Qed.
Definition asked : list req := [ByName 10 1; ByNode 1 2; ByName 12 9; ByNode 0 3; ByNode 5 4].
Example asked_stored : fold_left (store nm0 r0) asked [] = [(0%nat, 3); (1%nat, 2)] /\ wanted nm0 r0 asked 10 = Some 3 /\ wanted nm0 r0 asked 12 = None.
Proof. repeat split. Qed.
