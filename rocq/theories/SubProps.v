(** C110-C112: robots made of a set of nodes. *)
From Coq Require Import Reals List Bool Arith Lia Lra Permutation.
From Verif Require Import QuatModel QuatSpec RpyModel JointModel KinModel KinSpec KinProofs JacSpec JacProofs AprProofs FacModel FacSpec FacProofs SubModel SubSpec SubProofs.
Import ListNotations.
Open Scope R_scope.

Lemma made_of r ms k l c : tree r -> top r k l -> clone_subset r ms k l = Some c ->
  exists l' trafo, descends r (k :: l') /\ (if mem k l then l else k :: l) = k :: l' /\ (forall y, In y (k :: l') <-> y = k \/ In y l) /\
    trafo = match node_at r k with Some n => match n_parent n with Some p => pose_at r p | None => pid end | None => pid end /\
    c = Subset (unite r ms (initial_nodes r k (k :: l')) None (flat_map (fun y => filter (is_sensor r) (kids r y)) (initial_nodes r k (k :: l')))) (pieces r ms trafo (k :: l')) (rpose r).
Proof.
  intros T TP H. unfold clone_subset in H. destruct l as [|h t] eqn:EL; [discriminate|]. rewrite <- EL in *. assert (NE : l <> []) by (rewrite EL; discriminate). clear EL.
  cbv zeta in H. destruct (chain r (if mem k l then l else k :: l)) eqn:CH; [|discriminate]. apply (chain_descends r T) in CH.
  destruct (head_is_root r T k l NE TP CH) as (l' & E & A & B). rewrite E in *. injection H as <-. eexists l', _. split; [exact CH|]. split; [reflexivity|]. split; [|split; reflexivity].
  destruct (mem k l) eqn:M; intros y.
  - rewrite (A eq_refl). cbn. intuition auto.
  - rewrite (B eq_refl). cbn. intuition auto.
Qed.

(** ** C110: the nodes of the clone *)
(** There is a clone exactly if the set is not empty and every node, the kinematic root first, is above the next one.  Its nodes are those of the set, in order. *)
Theorem C110_when_there_is_a_clone : forall r ms k l, tree r -> top r k l ->
  (clone_subset r ms k l <> None <-> l <> [] /\ (descends r l \/ ~ In k l) /\ (In k l \/ descends r (k :: l))) /\
  forall c, clone_subset r ms k l = Some c -> map p_node (s_pieces c) = (if in_dec Nat.eq_dec k l then l else k :: l).
Proof.
  intros r ms k l T TP. split.
  - unfold clone_subset. destruct l as [|h t] eqn:EL; [split; [intros H; congruence|tauto]|]. rewrite <- EL in TP |- *. assert (NE : l <> []) by (rewrite EL; discriminate). clear EL h t. cbv zeta.
    pose proof (chain_descends r T (if mem k l then l else k :: l)) as CH. destruct (mem k l) eqn:M.
    + apply mem_spec in M. destruct (chain r l); split; intros H; try congruence; try (split; [exact NE|]; split; [left; now apply CH|now left]).
      exfalso. destruct H as (_ & [H|H] & _); [|contradiction]. apply CH in H. discriminate.
    + assert (N : ~ In k l) by (intros I; apply mem_spec in I; congruence). destruct (chain r (k :: l)); split; intros H; try congruence; try (split; [exact NE|]; split; [now right|right; now apply CH]).
      exfalso. destruct H as (_ & _ & [H|H]); [contradiction|]. apply CH in H. discriminate.
  - intros c H. destruct (made_of r ms k l c T TP H) as (l' & t & D & E & _ & _ & ->). cbn [s_pieces]. rewrite pieces_nodes, <- E.
    destruct (in_dec Nat.eq_dec k l) as [I|I]; [apply mem_spec in I; rewrite I; reflexivity|]. destruct (mem k l) eqn:M; [apply mem_spec in M; contradiction|reflexivity].
Qed.
Print Assumptions C110_when_there_is_a_clone.

Lemma clone_fits r ms k l c q : tree r -> whole r -> rigid r -> posed r -> top r k l -> (forall y, y = k \/ In y l -> part r y) -> clone_subset r ms k l = Some c ->
  rpose r = pid \/ k = root r -> all_close r (map p_node (s_pieces c)) -> moves r (map p_node (s_pieces c)) q -> Forall (fits r q) (poses r q (s_pose c) (s_pieces c)).
Proof.
  intros T W RG PO TP PL H RP CL M. destruct (made_of r ms k l c T TP H) as (l' & t & D & _ & IN & Et & ->). cbn [s_pieces s_pose] in *. rewrite pieces_nodes in CL, M.
  assert (PA : forall y, In y (k :: l') -> part r y) by (intros y I; apply PL, IN, I).
  assert (KY : forall y, In y (k :: l') -> desc r k y).
  { intros y I. apply IN in I. destruct I as [->|I]; [constructor|apply TP, I]. }
  pose proof (PA k ltac:(now left)) as (DK & nk & Ek & Pk).
  assert (B : exists base, (exists n, node_at (with_q q r) k = Some n /\ fk (with_q q r) k (pmul base (transform n))) /\ pmul (rpose r) t = base).
  { destruct (t_root r T) as (n0 & E0 & P0). subst t. rewrite Ek. destruct (n_parent nk) as [p|] eqn:EP.
    - assert (I : In k (kids r p)) by (apply (t_links r T); exists nk; now split). inversion DK as [EQ|p' z DP J]; [congruence|]. subst z. rewrite (one_parent r p' p k T J I) in DP.
      destruct (JacProofs.fk_exists r p T DP) as (gp & Fp). rewrite (pose_at_fk r PO p gp Fp). destruct RP as [RP|RP]; [|congruence]. rewrite RP, pmul_pid_l. exists gp. split; [|reflexivity].
      eexists. split; [rewrite node_with_q, Ek; reflexivity|]. apply (fk_child (with_q q r) p k); [|rewrite kids_with_q; exact I|rewrite node_with_q, Ek; reflexivity].
      apply (still r (k :: l') q M); [|exact Fp]. intros y DY IY. apply (t_acyclic r T p k I). exact (desc_trans _ _ _ _ (KY y IY) DY).
    - assert (k = root r).
      { inversion DK as [EQ|p' z DP J]; [reflexivity|]. subst z. apply (t_links r T) in J. destruct J as (m & Em & Pm). congruence. }
      subst k. rewrite pmul_pid_r. exists (rpose r). split; [|reflexivity]. eexists. split; [rewrite node_with_q, Ek; reflexivity|]. apply (fk_root (with_q q r)). change (root (with_q q r)) with (root r). rewrite node_with_q, Ek. reflexivity. }
  destruct B as (base & FB & EB).
  apply (pieces_fit r T W RG PO (k :: l') PA q M ms l' k t (rpose r) base D); try assumption. intros y [->|I]; [left; constructor|now right].
Qed.

(** ** C111: places *)
(** At joint values that differ from those at the time of the call for the nodes of the clone only, the nodes of the clone are where those of the robot are, if the pose of the robot
    is the identity or the clone starts with its root, and each node is the parent of the next or what lies between them commutes with the pose of the first. *)
Theorem C111_nodes_keep_their_place : forall r ms k l c q p g, tree r -> whole r -> rigid r -> posed r -> top r k l -> (forall y, y = k \/ In y l -> part r y) -> clone_subset r ms k l = Some c ->
  rpose r = pid \/ k = root r -> all_close r (map p_node (s_pieces c)) -> moves r (map p_node (s_pieces c)) q ->
  In (p, g) (poses r q (s_pose c) (s_pieces c)) -> fk (with_q q r) (p_node p) g.
Proof.
  intros r ms k l c q p g T W RG PO TP PL H RP CL M I. pose proof (clone_fits r ms k l c q T W RG PO TP PL H RP CL M) as F.
  rewrite Forall_forall in F. apply (F (p, g) I).
Qed.
Print Assumptions C111_nodes_keep_their_place.
(** So are the models of the nodes which were united, and the sensors of the united nodes. *)
Theorem C111_united_models_and_sensors_keep_their_place : forall r ms k l c q p g u, tree r -> whole r -> rigid r -> posed r -> top r k l -> (forall y, y = k \/ In y l -> part r y) -> clone_subset r ms k l = Some c ->
  rpose r = pid \/ k = root r -> all_close r (map p_node (s_pieces c)) -> moves r (map p_node (s_pieces c)) q ->
  In (p, g) (poses r q (s_pose c) (s_pieces c)) -> p_united p = Some u ->
  (forall z gz, In z (u_nodes u) -> fk r z gz -> fk (with_q q r) z (pmul g (pmul (u_shift u) gz))) /\
  (forall s t, In (s, t) (u_sensors u) -> fk (with_q q r) s (pmul g t)).
Proof.
  intros r ms k l c q p g u T W RG PO TP PL H RP CL M I U. pose proof (clone_fits r ms k l c q T W RG PO TP PL H RP CL M) as F.
  rewrite Forall_forall in F. destruct (F (p, g) I) as (_ & FU). destruct (FU u U) as (A & B). split; [|exact B]. intros z gz IZ FZ. rewrite <- (pose_at_fk r PO z gz FZ). apply A, IZ.
Qed.
Print Assumptions C111_united_models_and_sensors_keep_their_place.
(** The models united in the root of the clone are where they were, if the pose of the robot is the identity; only the start of the clone can be shown there as well. *)
Theorem C111_models_of_the_root : forall r ms k l c q z g, tree r -> whole r -> rigid r -> posed r -> top r k l -> (forall y, y = k \/ In y l -> part r y) -> clone_subset r ms k l = Some c ->
  rpose r = pid -> moves r (map p_node (s_pieces c)) q -> In z (u_nodes (s_root c)) -> z <> k -> fk r z g -> fk (with_q q r) z (pmul (s_pose c) (pmul (u_shift (s_root c)) g)).
Proof.
  intros r ms k l c q z g T W RG PO TP PL H RP M I N F. destruct (made_of r ms k l c T TP H) as (l' & t & D & _ & IN & Et & ->). cbn [s_root s_pose s_pieces] in *. rewrite pieces_nodes in M.
  rewrite (proj2 (unite_mass r ms _ None _)) in I. rewrite RP, pmul_pid_l.
  assert (SH : u_shift (unite r ms (initial_nodes r k (k :: l')) None (flat_map (fun y => filter (is_sensor r) (kids r y)) (initial_nodes r k (k :: l')))) = pid) by (destruct (initial_nodes r k (k :: l')); reflexivity).
  rewrite SH, pmul_pid_l. apply (still r (k :: l') q M z g); [|exact F]. intros y DY IY. apply (initial_apart r T k l' z I N). apply desc_trans with y; [|exact DY].
  apply IN in IY. destruct IY as [->|IY]; [constructor|apply TP, IY].
Qed.
Print Assumptions C111_models_of_the_root.

(** ** C112: nothing is lost, and nothing is doubled *)
(** A clone of at least two nodes has every node of the robot exactly once: as a node of its own, or united. *)
Theorem C112_every_node_once : forall r ms k l c, tree r -> whole r -> connected r -> top r k l -> (forall y, y = k \/ In y l -> part r y) -> clone_subset r ms k l = Some c ->
  (2 <= length (s_pieces c))%nat -> NoDup (all_nodes c) /\ forall y, In y (all_nodes c) <-> part r y.
Proof.
  intros r ms k l c T W CN TP PL H L2. destruct (made_of r ms k l c T TP H) as (l' & t & D & _ & IN & Et & ->). cbn [s_root s_pieces] in *.
  rewrite <- (map_length p_node), pieces_nodes in L2. destruct l' as [|b l']; [cbn in L2; lia|].
  unfold all_nodes. cbn [s_root s_pieces]. rewrite (proj2 (unite_mass r ms _ None _)).
  destruct (blocks r T W ms (b :: l') t k D) as (N & S').
  { intros y I. apply rn_at_proper. apply (PL y). apply IN, I. }
  split.
  - apply NoDup_app_ok; [apply (initial_once r)|exact N|]. intros z I J. apply S' in J. apply (initial_rest r T k b l' z D) in I. tauto.
  - intros y. rewrite in_app_iff, S', (initial_rest r T k b l' y D). split.
    + intros K. assert (RN : rn_at r y = true) by tauto. apply rn_at_proper in RN. destruct RN as (n & E & P). split; [exact (CN y n E P)|]. exists n. now split.
    + intros (DY & n & E & P). assert (RN : rn_at r y = true) by (apply rn_at_proper; exists n; now split). destruct (desc_or r y k T DY) as [K|K]; tauto.
Qed.
Print Assumptions C112_every_node_once.
Lemma mass_all r ms k l c : tree r -> top r k l -> clone_subset r ms k l = Some c -> mass_of c = total ms (all_nodes c).
Proof.
  intros T TP H. destruct (made_of r ms k l c T TP H) as (l' & t & D & _ & IN & Et & ->). unfold mass_of, all_nodes. cbn [s_root s_pieces].
  rewrite total_app, (pieces_mass r ms). destruct (unite_mass r ms (initial_nodes r k (k :: l')) None (flat_map (fun y => filter (is_sensor r) (kids r y)) (initial_nodes r k (k :: l')))) as (-> & ->). reflexivity.
Qed.
(** Its mass is that of the robot. *)
Theorem C112_mass_is_kept : forall r ms k l c a, tree r -> whole r -> connected r -> top r k l -> (forall y, y = k \/ In y l -> part r y) -> clone_subset r ms k l = Some c ->
  (2 <= length (s_pieces c))%nat -> NoDup a -> (forall y, In y a <-> part r y) -> mass_of c = total ms a.
Proof.
  intros r ms k l c a T W CN TP PL H L2 NA IA. destruct (C112_every_node_once r ms k l c T W CN TP PL H L2) as (N & IN').
  assert (PE : Permutation (all_nodes c) a) by (apply NoDup_Permutation; [exact N|exact NA|]; intros y; rewrite IN', IA; reflexivity).
  rewrite <- (total_perm ms _ _ PE). apply (mass_all r ms k l c T TP H).
Qed.
Print Assumptions C112_mass_is_kept.

(** *** An example: a base, a lift turned by a right angle, an arm on it with a second lift and a lamp, and a sensor on the second lift. *)
Definition v_joint : joint := Joint (-10) 10 false false 0.
Definition quarter : mat3 := Mat 0 (-1) 0 1 0 0 0 0 1.
Definition v_lift : pose := Pose quarter (Vec 1 0 0).
Definition v_arm : pose := Pose quarter (Vec 1 1 0).
Definition v_robot : robot := Robot
  [Node None [1]%nat Fixed pid 0 v_joint pid [];
   Node (Some 0%nat) [2]%nat (Prismatic (Vec 0 0 1)) v_lift 0 v_joint v_lift [];
   Node (Some 1%nat) [3; 4]%nat Fixed (Pose mid (Vec 1 0 0)) 0 v_joint v_arm [];
   Node (Some 2%nat) [5]%nat (Prismatic (Vec 0 0 1)) (Pose mid (Vec 0 0 1)) 0 v_joint (Pose quarter (Vec 1 1 1)) [];
   Node (Some 2%nat) [] Fixed (Pose mid (Vec 0 1 0)) 0 v_joint (Pose quarter (Vec 0 1 0)) [];
   Node (Some 3%nat) [] Sensor pid 0 v_joint (Pose quarter (Vec 1 1 1)) []] 0 pid.
Definition v_q (a b : R) : nat -> R := fun y => if Nat.eqb y 1 then a else if Nat.eqb y 3 then b else 0.
Lemma v_kids p c : In c (kids v_robot p) -> ((p = 0 /\ c = 1) \/ (p = 1 /\ c = 2) \/ (p = 2 /\ (c = 3 \/ c = 4)) \/ (p = 3 /\ c = 5))%nat.
Proof. unfold kids, node_at, v_robot. cbn [nodes]. destruct p as [|[|[|[|[|[|p]]]]]]; cbn; try (destruct p); cbn; lia. Qed.
Lemma low_desc r : (forall p c, In c (kids r p) -> (p < c)%nat) -> forall x z, desc r x z -> (x <= z)%nat.
Proof. intros H x z D. induction D as [|p z D IH I]; [lia|]. apply H in I. lia. Qed.
Lemma v_up p c : In c (kids v_robot p) -> (p < c)%nat.
Proof. intros I. apply v_kids in I. lia. Qed.
Lemma v_tree : tree v_robot.
Proof.
  constructor.
  - intros p c. split.
    + intros I. apply v_kids in I. destruct I as [(-> & ->)|[(-> & ->)|[(-> & [-> | ->])|(-> & ->)]]]; eexists; split; reflexivity.
    + intros (n & E & P). destruct c as [|[|[|[|[|[|c]]]]]]; try (destruct c; discriminate); injection E as <-; cbn in P; try discriminate; injection P as <-; cbn; auto.
  - intros p. destruct p as [|[|[|[|[|[|p]]]]]]; try (destruct p); cbn; repeat constructor; cbn; intros H; repeat destruct H as [H|H]; try discriminate; exact H.
  - eexists. split; reflexivity.
  - intros x c I D. apply v_up in I. apply (low_desc _ v_up) in D. lia.
Qed.
Lemma v_at y : (y < 5)%nat -> desc v_robot 0 y.
Proof.
  intros L. assert (D1 : desc v_robot 0 1) by (apply d_step with 0%nat; [constructor|cbn; auto]). assert (D2 : desc v_robot 0 2) by (apply d_step with 1%nat; [exact D1|cbn; auto]).
  destruct y as [|[|[|[|[|y]]]]]; [constructor|exact D1|exact D2|apply d_step with 2%nat; [exact D2|cbn; auto]|apply d_step with 2%nat; [exact D2|cbn; auto]|lia].
Qed.
Lemma v_part y : (y < 5)%nat -> part v_robot y.
Proof. intros L. split; [exact (v_at y L)|]. destruct y as [|[|[|[|[|y]]]]]; try lia; eexists; (split; [reflexivity|split; discriminate]). Qed.
Lemma v_whole : whole v_robot.
Proof.
  split; [eexists; split; [reflexivity|split; discriminate]|]. intros p c n m I En Em P. apply v_kids in I.
  destruct p as [|[|[|[|p]]]]; try lia; injection Em as <-; split; discriminate.
Qed.
Lemma v_connected : connected v_robot.
Proof. intros y n E P. destruct y as [|[|[|[|[|[|y]]]]]]; try (apply v_at; lia); [injection E as <-; destruct P as (P & _); cbn in P; congruence|]. destruct y; discriminate. Qed.
Lemma quarter_rotation : rotation quarter.
Proof. unfold rotation, quarter, mmul, mtrans, mid, mdet. cbn [m00 m01 m02 m10 m11 m12 m20 m21 m22]. repeat split; try (f_equal; ring); ring. Qed.
Lemma v_rigid : rigid v_robot.
Proof.
  split; [exact mid_rotation|]. intros x n E. destruct x as [|[|[|[|[|[|x]]]]]]; try (destruct x; discriminate); injection E as <-; (split; [|exact I]);
    first [exact quarter_rotation|exact mid_rotation].
Qed.
Lemma pose_eq a b : prot a = prot b -> ppos a = ppos b -> a = b.
Proof. destruct a, b. cbn. now intros -> ->. Qed.
Ltac pose_ring := unfold pmul, inverted, pid, v_lift, v_arm, quarter, mid, mtrans, mmul, mapply, vadd, vscale; cbn [prot ppos vx vy vz m00 m01 m02 m10 m11 m12 m20 m21 m22]; apply pose_eq; cbn [prot ppos]; f_equal; ring.
Lemma v_step q p c n g h : fk (with_q q v_robot) p g -> In c (kids v_robot p) -> node_at v_robot c = Some n -> pmul g (transform (with_joint (with_value (n_joint n) (q c)) n)) = h -> fk (with_q q v_robot) c h.
Proof. intros F I E <-. apply (fk_child (with_q q v_robot) p c); [exact F|rewrite kids_with_q; exact I|rewrite node_with_q, E; reflexivity]. Qed.
Ltac v_calc H := unfold transform in H; cbn [with_joint with_value n_kind n_joint n_local n_offset value v_joint] in H; specialize (H ltac:(repeat match goal with |- context [v_q ?a ?b 1%nat] => change (v_q a b 1%nat) with a | |- context [v_q ?a ?b 3%nat] => change (v_q a b 3%nat) with b end; pose_ring)).
Lemma v_fk a b : fk (with_q (v_q a b) v_robot) 0 pid /\ fk (with_q (v_q a b) v_robot) 1 (Pose quarter (Vec 1 0 a)) /\ fk (with_q (v_q a b) v_robot) 2 (Pose quarter (Vec 1 1 a)) /\
  fk (with_q (v_q a b) v_robot) 3 (Pose quarter (Vec 1 1 (1 + a + b))) /\ fk (with_q (v_q a b) v_robot) 4 (Pose quarter (Vec 0 1 a)) /\ fk (with_q (v_q a b) v_robot) 5 (Pose quarter (Vec 1 1 (1 + a + b))).
Proof.
  assert (F0 : fk (with_q (v_q a b) v_robot) 0 pid).
  { rewrite <- (pmul_pid_l pid). apply (fk_root (with_q (v_q a b) v_robot) (with_joint (with_value v_joint 0) (Node None [1]%nat Fixed pid 0 v_joint pid []))); reflexivity. }
  pose proof (v_step (v_q a b) 0 1 _ _ (Pose quarter (Vec 1 0 a)) F0 ltac:(left; reflexivity) eq_refl) as F1. v_calc F1.
  pose proof (v_step (v_q a b) 1 2 _ _ (Pose quarter (Vec 1 1 a)) F1 ltac:(left; reflexivity) eq_refl) as F2. v_calc F2.
  pose proof (v_step (v_q a b) 2 3 _ _ (Pose quarter (Vec 1 1 (1 + a + b))) F2 ltac:(left; reflexivity) eq_refl) as F3. v_calc F3.
  pose proof (v_step (v_q a b) 2 4 _ _ (Pose quarter (Vec 0 1 a)) F2 ltac:(right; left; reflexivity) eq_refl) as F4. v_calc F4.
  pose proof (v_step (v_q a b) 3 5 _ _ (Pose quarter (Vec 1 1 (1 + a + b))) F3 ltac:(left; reflexivity) eq_refl) as F5. v_calc F5.
  tauto.
Qed.
Lemma v_now : with_q (v_q 0 0) v_robot = v_robot.
Proof. reflexivity. Qed.
Lemma v_posed : posed v_robot.
Proof.
  pose proof (v_fk 0 0) as H. rewrite v_now in H. destruct H as (F0 & F1 & F2 & F3 & F4 & F5). intros x g F.
  assert (E : exists n, node_at v_robot x = Some n) by (inversion F; subst; eexists; eassumption). destruct E as (n & E). exists n. split; [exact E|].
  destruct x as [|[|[|[|[|[|x]]]]]]; try (destruct x; discriminate); injection E as <-; cbn [n_pose].
  - apply (fk_fun _ _ _ _ v_tree F0 F).
  - apply (fk_fun _ _ _ _ v_tree F1 F).
  - apply (fk_fun _ _ _ _ v_tree F2 F).
  - rewrite (fk_fun _ _ _ _ v_tree F F3). f_equal. f_equal. ring.
  - apply (fk_fun _ _ _ _ v_tree F4 F).
  - rewrite (fk_fun _ _ _ _ v_tree F F5). f_equal. f_equal. ring.
Qed.
Lemma v_moves a b l : (In 1 l -> In 3 l -> moves v_robot l (v_q a b))%nat.
Proof.
  intros I J y n E N. destruct y as [|[|[|[|[|[|y]]]]]]; try (destruct y; discriminate); try contradiction; injection E as <-; reflexivity.
Qed.
Lemma v_top l : (forall y, In y l -> (y < 5)%nat) -> top v_robot 0 l.
Proof. intros H y I. apply v_at, H, I. Qed.
Lemma v_top3 : top v_robot 0 [1; 2; 3]%nat.
Proof. apply v_top. intros y J. cbn in J. lia. Qed.
(** The set of the two lifts and the arm: the clone starts at the base, the lamp is united below the arm, and both lifts can be moved. *)
Definition v_mass (y : nat) : R := 1.
Example C110_case : exists c, clone_subset v_robot v_mass 0 [1; 2; 3]%nat = Some c /\ map p_node (s_pieces c) = [0; 1; 2; 3]%nat /\ map below (s_pieces c) = [[]; []; [4]; []]%nat /\ u_nodes (s_root c) = [].
Proof. eexists. split; [reflexivity|]. split; [reflexivity|]. split; reflexivity. Qed.
Lemma v_close c : clone_subset v_robot v_mass 0 [1; 2; 3]%nat = Some c -> all_close v_robot (map p_node (s_pieces c)).
Proof. intros H. rewrite (proj2 (C110_when_there_is_a_clone v_robot v_mass 0 [1; 2; 3]%nat v_tree v_top3) c H). cbn. repeat split; left; cbn; auto. Qed.
Example C111_nodes_keep_their_place_case : forall a b, exists c p g, clone_subset v_robot v_mass 0 [1; 2; 3]%nat = Some c /\ In (p, g) (poses v_robot (v_q a b) (s_pose c) (s_pieces c)) /\ p_node p = 3%nat /\
  g = Pose quarter (Vec 1 1 (1 + a + b)).
Proof.
  intros a b. destruct C110_case as (c & H & N & _). exists c.
  assert (EX : exists p g, In (p, g) (poses v_robot (v_q a b) (s_pose c) (s_pieces c)) /\ p_node p = 3%nat).
  { generalize (s_pose c). destruct (s_pieces c) as [|p0 [|p1 [|p2 [|p3 [|p4 l]]]]]; try discriminate. injection N as E0 E1 E2 E3. intros h. exists p3. eexists. split; [cbn; right; right; right; left; reflexivity|exact E3]. }
  destruct EX as (p & g & I & E). exists p, g. split; [exact H|]. split; [exact I|]. split; [exact E|].
  assert (M : moves v_robot (map p_node (s_pieces c)) (v_q a b)) by (rewrite N; apply v_moves; cbn; auto).
  pose proof (C111_nodes_keep_their_place v_robot v_mass 0 [1; 2; 3]%nat c (v_q a b) p g v_tree v_whole v_rigid v_posed v_top3 ltac:(intros y [->|J]; apply v_part; [lia|cbn in J; lia]) H ltac:(now left) (v_close c H) M I) as F.
  rewrite E in F. apply (fk_fun _ _ _ _ (tree_with_q _ _ v_tree) F). apply v_fk.
Qed.
Example C111_united_models_case : exists c p u, clone_subset v_robot v_mass 0 [1; 2; 3]%nat = Some c /\ In p (s_pieces c) /\ p_united p = Some u /\ In 4%nat (u_nodes u).
Proof.
  destruct C110_case as (c & H & N & B & _). exists c. destruct (s_pieces c) as [|p0 [|p1 [|p2 [|p3 [|p4 l]]]]]; try discriminate. injection B as _ _ B2 _. exists p2. unfold below in B2.
  destruct (p_united p2) as [u|] eqn:E; [|discriminate]. exists u. split; [exact H|]. split; [cbn; auto|]. split; [reflexivity|]. rewrite B2. cbn. auto.
Qed.
(** A clone that starts with the lift: the base is united in its root. *)
Example C111_models_of_the_root_case : exists c, top v_robot 1 [2; 3]%nat /\ clone_subset v_robot v_mass 1 [2; 3]%nat = Some c /\ In 0%nat (u_nodes (s_root c)) /\ rpose v_robot = pid /\ 0%nat <> 1%nat.
Proof.
  assert (D2 : desc v_robot 1 2) by (apply d_step with 1%nat; [constructor|cbn; auto]).
  eexists. split; [intros y [<-|[<-|[]]]; [exact D2|apply d_step with 2%nat; [exact D2|cbn; auto]]|]. split; [reflexivity|]. split; [cbn; auto|]. split; [reflexivity|lia].
Qed.
(** With the arm left out of the set, what lies between the lifts is wrong. *)
Theorem C111_nodes_further_down_keep_their_place_refuted : exists r ms k l c q p g, tree r /\ whole r /\ rigid r /\ posed r /\ top r k l /\ (forall y, y = k \/ In y l -> part r y) /\
  clone_subset r ms k l = Some c /\ rpose r = pid /\ moves r (map p_node (s_pieces c)) q /\ In (p, g) (poses r q (s_pose c) (s_pieces c)) /\ ~ fk (with_q q r) (p_node p) g.
Proof.
  set (next := pmul v_arm (inverted v_lift)). assert (EN : next = Pose mid (Vec 0 1 0)) by (unfold next; pose_ring).
  assert (J0 : joint_at v_robot (v_q 0 0) 0 = pid) by reflexivity.
  assert (J1 : joint_at v_robot (v_q 0 0) 1 = pid) by (change (joint_at v_robot (v_q 0 0) 1) with (Pose mid (vscale (0 + 0) (Vec 0 0 1))); pose_ring).
  assert (J3 : joint_at v_robot (v_q 0 0) 3 = pid) by (change (joint_at v_robot (v_q 0 0) 3) with (Pose mid (vscale (0 + 0) (Vec 0 0 1))); pose_ring).
  destruct (clone_subset v_robot v_mass 0 [1; 3]%nat) as [c|] eqn:H; [|discriminate].
  assert (ND : map p_node (s_pieces c) = [0; 1; 3]%nat) by (injection H as <-; reflexivity).
  assert (LC : map p_local (s_pieces c) = [pmul pid pid; pmul pid v_lift; pmul next (Pose mid (Vec 0 0 1))]) by (injection H as <-; reflexivity).
  assert (SP : s_pose c = pid) by (injection H as <-; reflexivity).
  assert (M : moves v_robot (map p_node (s_pieces c)) (v_q 0 0)) by (rewrite ND; apply v_moves; cbn; auto).
  exists v_robot, v_mass, 0%nat, [1; 3]%nat, c, (v_q 0 0). destruct (s_pieces c) as [|p0 [|p1 [|p2 [|p3 l]]]] eqn:EP; try discriminate. injection ND as N0 N1 N2. injection LC as L0 L1 L2.
  exists p2. eexists. split; [exact v_tree|]. split; [exact v_whole|]. split; [exact v_rigid|]. split; [exact v_posed|].
  split; [apply v_top; intros y J; cbn in J; lia|]. split; [intros y [->|J]; apply v_part; [lia|cbn in J; lia]|]. split; [exact H|]. split; [reflexivity|].
  split; [exact M|]. split; [cbn [poses]; right; right; left; reflexivity|].
  rewrite SP, N0, N1, N2, L0, L1, L2, J0, J1, J3, !pmul_pid_l, !pmul_pid_r, EN. intros F.
  pose proof (fk_fun _ _ _ _ (tree_with_q _ _ v_tree) F (proj1 (proj2 (proj2 (proj2 (v_fk 0 0)))))) as EQ. apply (f_equal (fun g => vx (ppos g))) in EQ. revert EQ. clear.
  unfold pmul, v_lift, quarter, mid, mmul, mapply, vadd; cbn [prot ppos vx vy vz m00 m01 m02 m10 m11 m12 m20 m21 m22]. lra.
Qed.
Print Assumptions C111_nodes_further_down_keep_their_place_refuted.

(** *** A robot of two fixed nodes, away from the origin *)
Definition u_robot : robot := Robot
  [Node None [1]%nat Fixed pid 0 v_joint (Pose mid (Vec 1 0 0)) []; Node (Some 0%nat) [] Fixed pid 0 v_joint (Pose mid (Vec 1 0 0)) []] 0 (Pose mid (Vec 1 0 0)).
Lemma u_kids p c : In c (kids u_robot p) -> (p = 0 /\ c = 1)%nat.
Proof. unfold kids, node_at, u_robot. cbn [nodes]. destruct p as [|[|p]]; cbn; try (destruct p); cbn; lia. Qed.
Lemma u_up p c : In c (kids u_robot p) -> (p < c)%nat.
Proof. intros I. apply u_kids in I. lia. Qed.
Lemma u_tree : tree u_robot.
Proof.
  constructor.
  - intros p c. split.
    + intros I. apply u_kids in I. destruct I as (-> & ->). eexists. split; reflexivity.
    + intros (n & E & P). destruct c as [|[|c]]; try (destruct c; discriminate); injection E as <-; cbn in P; try discriminate. injection P as <-. cbn. auto.
  - intros p. destruct p as [|[|p]]; try (destruct p); cbn; repeat constructor; cbn; intros H; repeat destruct H as [H|H]; exact H.
  - eexists. split; reflexivity.
  - intros x c I D. apply u_up in I. apply (low_desc _ u_up) in D. lia.
Qed.
Lemma u_part y : (y < 2)%nat -> part u_robot y.
Proof.
  intros L. split.
  - destruct y as [|[|y]]; [constructor|apply d_step with 0%nat; [constructor|cbn; auto]|lia].
  - destruct y as [|[|y]]; try lia; eexists; (split; [reflexivity|split; discriminate]).
Qed.
Lemma u_whole : whole u_robot.
Proof. split; [eexists; split; [reflexivity|split; discriminate]|]. intros p c n m I En Em P. apply u_kids in I. destruct I as (-> & ->). injection Em as <-. split; discriminate. Qed.
Lemma u_connected : connected u_robot.
Proof. intros y n E P. destruct y as [|[|y]]; [apply (u_part 0); lia|apply (u_part 1); lia|destruct y; discriminate]. Qed.
Lemma u_rigid : rigid u_robot.
Proof. split; [exact mid_rotation|]. intros x n E. destruct x as [|[|x]]; try (destruct x; discriminate); injection E as <-; (split; [exact mid_rotation|exact I]). Qed.
Lemma u_fk : fk u_robot 0 (Pose mid (Vec 1 0 0)) /\ fk u_robot 1 (Pose mid (Vec 1 0 0)).
Proof.
  assert (F0 : fk u_robot 0 (pmul (Pose mid (Vec 1 0 0)) pid)) by (apply (fk_root u_robot (Node None [1]%nat Fixed pid 0 v_joint (Pose mid (Vec 1 0 0)) [])); reflexivity).
  rewrite pmul_pid_r in F0. split; [exact F0|]. rewrite <- (pmul_pid_r (Pose mid (Vec 1 0 0))).
  apply (fk_child u_robot 0 1 (Node (Some 0%nat) [] Fixed pid 0 v_joint (Pose mid (Vec 1 0 0)) [])); [exact F0|cbn; auto|reflexivity].
Qed.
Lemma u_posed : posed u_robot.
Proof.
  destruct u_fk as (F0 & F1). intros x g F. assert (E : exists n, node_at u_robot x = Some n) by (inversion F; subst; eexists; eassumption). destruct E as (n & E). exists n. split; [exact E|].
  destruct x as [|[|x]]; try (destruct x; discriminate); injection E as <-; cbn [n_pose]; [apply (fk_fun _ _ _ _ u_tree F0 F)|apply (fk_fun _ _ _ _ u_tree F1 F)].
Qed.
(** The pose of the robot is applied twice if the clone does not start with the root of the robot. *)
Theorem C111_pose_of_the_robot_refuted : exists r ms k l c q p g, tree r /\ whole r /\ rigid r /\ posed r /\ top r k l /\ (forall y, y = k \/ In y l -> part r y) /\
  clone_subset r ms k l = Some c /\ all_close r (map p_node (s_pieces c)) /\ moves r (map p_node (s_pieces c)) q /\ In (p, g) (poses r q (s_pose c) (s_pieces c)) /\ ~ fk (with_q q r) (p_node p) g.
Proof.
  destruct (clone_subset u_robot v_mass 1 [1]%nat) as [c|] eqn:H; [|discriminate].
  assert (ND : map p_node (s_pieces c) = [1]%nat) by (injection H as <-; reflexivity).
  assert (LC : map p_local (s_pieces c) = [pmul (Pose mid (Vec 1 0 0)) pid]) by (injection H as <-; reflexivity).
  assert (SP : s_pose c = Pose mid (Vec 1 0 0)) by (injection H as <-; reflexivity).
  exists u_robot, v_mass, 1%nat, [1]%nat, c, (fun _ => 0). destruct (s_pieces c) as [|p0 [|p1 l]] eqn:EP; try discriminate. injection ND as N0. injection LC as L0.
  exists p0. eexists. split; [exact u_tree|]. split; [exact u_whole|]. split; [exact u_rigid|]. split; [exact u_posed|].
  split; [intros y [<-|[]]; constructor|]. split; [intros y [->|[<-|[]]]; apply u_part; lia|]. split; [exact H|]. split; [cbn; exact I|].
  split; [intros y n E _; destruct y as [|[|y]]; try (destruct y; discriminate); injection E as <-; reflexivity|]. split; [cbn [poses]; left; reflexivity|].
  rewrite SP, N0, L0, pmul_pid_r. change (joint_at u_robot (fun _ => 0) 1) with pid. rewrite pmul_pid_r. intros F.
  pose proof (fk_fun _ _ _ _ u_tree F (proj2 u_fk)) as EQ. apply (f_equal (fun g => vx (ppos g))) in EQ. revert EQ. clear.
  unfold pmul, mid, mmul, mapply, vadd; cbn [prot ppos vx vy vz m00 m01 m02 m10 m11 m12 m20 m21 m22]. lra.
Qed.
Print Assumptions C111_pose_of_the_robot_refuted.
Example C112_every_node_once_case : exists c, clone_subset v_robot v_mass 0 [1; 2; 3]%nat = Some c /\ (2 <= length (s_pieces c))%nat /\ all_nodes c = [0; 1; 2; 4; 3]%nat /\ mass_of c = 5.
Proof.
  destruct (clone_subset v_robot v_mass 0 [1; 2; 3]%nat) as [c|] eqn:H; [|discriminate]. exists c. split; [reflexivity|].
  assert (L : length (s_pieces c) = 4%nat) by (injection H as <-; reflexivity). split; [lia|]. assert (A : all_nodes c = [0; 1; 2; 4; 3]%nat) by (injection H as <-; reflexivity). split; [exact A|].
  destruct (C112_every_node_once v_robot v_mass 0 [1; 2; 3]%nat c v_tree v_whole v_connected v_top3 ltac:(intros y [->|J]; apply v_part; [lia|cbn in J; lia]) H ltac:(lia)) as (N & IN').
  rewrite (C112_mass_is_kept v_robot v_mass 0 [1; 2; 3]%nat c (all_nodes c) v_tree v_whole v_connected v_top3 ltac:(intros y [->|J]; apply v_part; [lia|cbn in J; lia]) H ltac:(lia) N IN').
  rewrite A. unfold total, v_mass. cbn [map fold_right]. lra.
Qed.
(** A set with a single node, which is its kinematic root: the node is in the root of the clone as well, and its mass counts twice. *)
Theorem C112_mass_of_a_single_node_refuted : exists r ms k l c a, tree r /\ whole r /\ connected r /\ top r k l /\ (forall y, y = k \/ In y l -> part r y) /\ clone_subset r ms k l = Some c /\
  NoDup a /\ (forall y, In y a <-> part r y) /\ total ms a = 2 /\ mass_of c = 3.
Proof.
  destruct (clone_subset u_robot v_mass 0 [0]%nat) as [c|] eqn:H; [|discriminate]. exists u_robot, v_mass, 0%nat, [0]%nat, c, [0; 1]%nat.
  split; [exact u_tree|]. split; [exact u_whole|]. split; [exact u_connected|]. split; [intros y [<-|[]]; constructor|]. split; [intros y [->|[<-|[]]]; apply u_part; lia|]. split; [exact H|].
  split; [repeat constructor; cbn; intros K; repeat destruct K as [K|K]; try discriminate; exact K|].
  split; [intros y; split; [intros J; apply u_part; cbn in J; lia|intros (_ & n & E & _); destruct y as [|[|y]]; [cbn; auto|cbn; auto|destruct y; discriminate]]|].
  split; [unfold total, v_mass; cbn [map fold_right]; lra|]. assert (TP : top u_robot 0 [0%nat]) by (intros y [<-|[]]; constructor).
  rewrite (mass_all u_robot v_mass 0 [0]%nat c u_tree TP H). assert (A : all_nodes c = [0; 0; 1]%nat) by (injection H as <-; reflexivity). rewrite A. unfold total, v_mass. cbn [map fold_right]. lra.
Qed.
Print Assumptions C112_mass_of_a_single_node_refuted.
(** The sensors of a node of the set without united nodes below it are lost. *)
Theorem C112_sensors_are_kept_refuted : exists r ms k l c s n, tree r /\ whole r /\ connected r /\ top r k l /\ (forall y, y = k \/ In y l -> part r y) /\ clone_subset r ms k l = Some c /\
  (2 <= length (s_pieces c))%nat /\ desc r (root r) s /\ node_at r s = Some n /\ n_kind n = Sensor /\ ~ In s (all_sensors c).
Proof.
  destruct (clone_subset v_robot v_mass 0 [1; 2; 3]%nat) as [c|] eqn:H; [|discriminate]. exists v_robot, v_mass, 0%nat, [1; 2; 3]%nat, c, 5%nat. eexists.
  split; [exact v_tree|]. split; [exact v_whole|]. split; [exact v_connected|]. split; [apply v_top; intros y J; cbn in J; lia|]. split; [intros y [->|J]; apply v_part; [lia|cbn in J; lia]|]. split; [exact H|].
  assert (L : length (s_pieces c) = 4%nat) by (injection H as <-; reflexivity). split; [lia|]. split; [apply d_step with 3%nat; [apply v_at; lia|cbn; auto]|]. split; [reflexivity|]. split; [reflexivity|].
  assert (E : all_sensors c = []) by (injection H as <-; reflexivity). rewrite E. intros [].
Qed.
Print Assumptions C112_sensors_are_kept_refuted.
