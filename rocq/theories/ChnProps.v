(** Theorems about linked coordinates, chains and node sets. *)
From Coq Require Import Reals List Bool Arith Lra Lia.
From Verif Require Import QuatModel QuatSpec RpyModel JointModel KinModel KinSpec JacSpec FacSpec ChnModel ChnSpec.
From Verif Require Import KinProofs AprProofs JacProofs FacProofs ChnProofs KinProps JacProps.
Import ListNotations.
Open Scope R_scope.

(** *** C116: linked coordinates *)
(** Changing the frame, any number of times and also with calls that throw, does not move the coordinate. *)
Theorem C116_changing_frames_moves_nothing : forall r c l g, upright r -> stands_at r c g -> stands_at r (change_frames r c l) g.
Proof. intros. now apply changes_stand. Qed.
(** A successful change of frame gives the coordinate that frame; it succeeds exactly for a member of the robot. *)
Theorem C116_change_of_frame : forall r c f g d n, upright r -> stands_at r c g -> node_at r d = Some n ->
  (exists c', change_frame r c (Some d) = Done c' /\ c_frame c' = Some d /\ stands_at r c' g) /\
  (node_at r f = None -> change_frame r c (Some f) = Thrown) /\ change_frame r c None = Thrown.
Proof.
  intros r c f g d n U S0 N. split; [|split; [intros F; unfold change_frame, member; now rewrite F|reflexivity]].
  destruct (change_ends r c (Some d)) as [E|(c' & E)].
  - exfalso. destruct S0 as (x & m & X & M & _). unfold change_frame, coordinate_transformation in E. rewrite X, (member_node _ _ _ N), (member_node _ _ _ N), (member_node _ _ _ M) in E. discriminate.
  - exists c'. destruct (change_stands r c (Some d) c' g U S0 E). auto.
Qed.
(** Asking for the pose in a frame gives the pose which, seen from that frame, is where the coordinate is; whichever frames it had been put in before. *)
Theorem C116_in_frame : forall r c l g d n p, upright r -> stands_at r c g -> node_at r d = Some n ->
  get_in_frame r (change_frames r c l) (Some d) = Done p <-> pmul (n_pose n) p = g.
Proof.
  intros r c l g d n p U S0 N. destruct (changes_stand r l c g U S0) as (f & m & F & M & ->). set (c' := change_frames r c l) in *.
  assert (E : get_in_frame r c' (Some d) = Done (pmul (inverted (n_pose n)) (pmul (n_pose m) (c_pose c')))).
  { unfold get_in_frame, coordinate_transformation. rewrite F, !(member_node _ _ _ N), (member_node _ _ _ M), (node_pose_at _ _ _ N), (node_pose_at _ _ _ M), pmul_assoc. reflexivity. }
  rewrite E. split.
  - intros H. injection H as <-. rewrite <- pmul_assoc, (inverted_right _ (U _ _ N)), pmul_pid_l. reflexivity.
  - intros H. rewrite <- H, <- pmul_assoc, (inverted_left _ (U _ _ N)), pmul_pid_l. reflexivity.
Qed.
(** A coordinate is attached to its frame: it keeps its pose there when the robot moves. *)
Theorem C116_moves_with_the_frame : forall r r' f p c n n', set_coord r fresh (Some f) p = Done c -> node_at r f = Some n -> node_at r' f = Some n' ->
  stands_at r c (pmul (n_pose n) p) /\ stands_at r' c (pmul (n_pose n') p).
Proof.
  intros r r' f p c n n' E N N'. unfold set_coord in E. rewrite (member_node _ _ _ N) in E. injection E as <-. split; [exists f, n|exists f, n']; auto.
Qed.
(** A coordinate that was never set is the identity when its frame is first chosen. *)
Theorem C116_first_frame : forall r d n, node_at r d = Some n -> exists c, change_frame r fresh (Some d) = Done c /\ stands_at r c (n_pose n).
Proof.
  intros r d n N. unfold change_frame. rewrite (member_node _ _ _ N). eexists. split; [reflexivity|]. exists d, n. cbn. rewrite pmul_pid_r. auto.
Qed.
(** As the documentation has it, getInFrame gives a pose also if set was not called before: it throws. *)
Theorem C116_in_frame_before_set_refuted : ~ (forall r d n, node_at r d = Some n -> exists p, get_in_frame r fresh (Some d) = Done p).
Proof. intros H. destruct (H (arm [] []) 0%nat _ eq_refl) as (p & E). discriminate. Qed.
Print Assumptions C116_changing_frames_moves_nothing. Print Assumptions C116_change_of_frame. Print Assumptions C116_in_frame. Print Assumptions C116_moves_with_the_frame. Print Assumptions C116_first_frame. Print Assumptions C116_in_frame_before_set_refuted.
Example C116_witness : upright (arm [] []) /\ stands_at (arm [] []) (Coord (Some 1%nat) (px 2)) (px 3) /\ get_in_frame (arm [] []) (Coord (Some 1%nat) (px 2)) (Some 0%nat) = Done (px 3).
Proof.
  assert (U : upright (arm [] [])) by (intros x n E; destruct x as [|[|x]]; [| |destruct x; discriminate]; injection E as <-; apply mid_rotation). split; [exact U|].
  assert (S0 : stands_at (arm [] []) (Coord (Some 1%nat) (px 2)) (px 3)) by (exists 1%nat; eexists; split; [reflexivity|]; split; [reflexivity|]; cbn [n_pose c_pose]; rewrite px_mul; f_equal; ring).
  split; [exact S0|]. apply (C116_in_frame _ _ [] (px 3) 0%nat _ (px 3) U S0 eq_refl). cbn [n_pose]. rewrite px_mul. f_equal. ring.
Qed.

(** *** C117: kinematic chains *)
(** A chain can be made exactly of nodes each of which is above the next. *)
Theorem C117_when_there_is_a_chain : forall depth r l tcp given, tree r -> (length (nodes r) < depth)%nat ->
  (l <> [] /\ chained r l -> exists k t, make_chain depth r l tcp given = Done (NodeSet l k t) /\
     (t = match tcp with Some t => t | None => last l 0%nat end) /\
     (forall g, given = Some g -> (forall x, In x l -> desc r g x) -> k = g) /\
     ((forall x, In x l -> desc r (root r) x) -> forall x, In x l -> desc r k x)) /\
  (l = [] \/ ~ chained r l -> make_chain depth r l tcp given = Thrown).
Proof.
  intros depth r l tcp given T D. destruct l as [|x l]; [split; [intros (N & _); contradiction|reflexivity]|]. unfold make_chain, choose_root.
  set (k := match given with Some k => k | None => root r end). destruct (is_kinematic_root_ok r k (x :: l) depth T D) as (b & -> & B). destruct (chain_loop_ok depth r l T D x) as (b' & E & B').
  split.
  - intros (_ & C). apply B' in C. subst b'. exists (if b then k else root r), (match tcp with Some t => t | None => last (x :: l) 0%nat end). split; [|split; [reflexivity|]].
    + destruct b; rewrite E; (destruct tcp; [reflexivity|]; rewrite (last_default l x x 0%nat); reflexivity).
    + split.
      * intros g -> H. subst k. cbn in B. rewrite (proj2 B H). reflexivity.
      * intros H y I. destruct b; [apply B; [reflexivity|exact I]|apply H, I].
  - intros [N|N]; [discriminate|]. destruct b'; [exfalso; apply N, B'; reflexivity|]. destruct b; rewrite E; reflexivity.
Qed.
(** In a chain no node occurs twice, and each is above all that come later. *)
Theorem C117_order_of_a_chain : forall r l, tree r -> chained r l -> NoDup l /\ forall a x b y c, l = a ++ x :: b ++ y :: c -> above r x y.
Proof. intros r l T C. split; [now apply (chained_nodup r)|]. intros a x b y c E. exact (chained_order r l a x b y c T C E). Qed.
(** The test of a node set for being a chain is exact, for sets with a node. *)
Theorem C117_test_for_a_chain : forall depth r l, tree r -> (length (nodes r) < depth)%nat -> l <> [] -> exists b, is_kinematic_chain depth r l = Done b /\ (b = true <-> chained r l).
Proof. intros depth r l T D N. destruct l as [|x l]; [contradiction|]. apply chain_loop_ok; assumption. Qed.
(** The test always has an answer: for a set without nodes its loop runs out of the list. *)
Theorem C117_test_of_an_empty_set_refuted : ~ (forall depth r l, tree r -> (length (nodes r) < depth)%nat -> exists b, is_kinematic_chain depth r l = Done b).
Proof. intros H. destruct (H 3%nat (arm [] []) [] (arm_tree [] []) ltac:(cbn; lia)) as (b & E). discriminate. Qed.
(** The tcp of a chain is one of its nodes or below: any node is taken. *)
Theorem C117_tcp_of_a_chain_refuted : ~ (forall depth r l tcp given k t, tree r -> (length (nodes r) < depth)%nat -> make_chain depth r l tcp given = Done (NodeSet l k t) -> exists x, In x l /\ desc r x t).
Proof.
  intros H. destruct (C117_when_there_is_a_chain 3 (arm [] []) [1%nat] (Some 0%nat) (Some 0%nat) (arm_tree [] []) ltac:(cbn; lia)) as (M & _).
  destruct M as (k & t & M & E & _); [split; [discriminate|apply chained_one]|]. cbn in E. subst t. destruct (H 3%nat (arm [] []) [1%nat] (Some 0%nat) (Some 0%nat) k 0%nat (arm_tree [] []) ltac:(cbn; lia) M) as (x & [<-|[]] & DS).
  assert (X := FacProofs.desc_anti _ _ _ (arm_tree [] []) DS (arm_desc [] [])). discriminate.
Qed.
Print Assumptions C117_when_there_is_a_chain. Print Assumptions C117_order_of_a_chain. Print Assumptions C117_test_for_a_chain. Print Assumptions C117_test_of_an_empty_set_refuted. Print Assumptions C117_tcp_of_a_chain_refuted.
Example C117_witness : chained (arm [] []) [0%nat; 1%nat] /\ ~ chained (arm [] []) [1%nat; 0%nat].
Proof.
  split.
  - apply chained_cons. split; [split; [discriminate|apply arm_desc]|apply chained_one].
  - intros C. apply chained_cons in C. destruct C as ((N & DS) & _). apply N. apply (FacProofs.desc_anti _ _ _ (arm_tree [] []) DS (arm_desc [] [])).
Qed.

(** *** C118: the extension of a chain *)
(** Whatever values the joints of the chain take: as long as none of them is prismatic, the tcp is never further from the kinematic root than the maximum extension, which was computed at the values the joints have now. *)
Theorem C118_extension_is_a_bound : forall r x l k t e q g h, tree r -> rigid r -> posed r -> chained r (x :: l) -> no_slides r (x :: l) ->
  desc r (root r) k -> desc r k x -> desc r (last (x :: l) x) t -> maximum_extension r (Some k) (Some t) (x :: l) = Done e ->
  differs_in r (x :: l) q -> fk (with_q q r) k g -> fk (with_q q r) t h -> far (ppos g) (ppos h) <= e.
Proof. intros r x l k t e q g h T R P C N DK KX LT E DF F1 F2. exact (extension_bound r (x :: l) q T R P C DF N x l k t e g h eq_refl DK KX LT E F1 F2). Qed.
(** There is always a value for a set with a node, and it is no less than zero. *)
Theorem C118_extension_of_a_set : forall r k t x l, exists e, maximum_extension r k t (x :: l) = Done e /\ 0 <= e.
Proof.
  intros r k t x l. unfold maximum_extension. eexists. split; [reflexivity|]. assert (RP : forall a b, 0 <= reach r a b) by (intros a b; apply sqrt_pos).
  rewrite sum_reach_walk. assert (W : forall l x, 0 <= walk r x l) by (clear l x; induction l as [|y l IH]; intros x; cbn [walk]; [lra|]; specialize (IH y); specialize (RP x y); lra). specialize (W l x).
  destruct k as [k|], t as [t|]; try (pose proof (RP k x)); try (pose proof (RP t (last (x :: l) x))); lra.
Qed.
(** The bound holds for all chains: with a prismatic joint the tcp can be further away. *)
Theorem C118_extension_with_slides_refuted : ~ (forall r x l k t e q g h, tree r -> rigid r -> posed r -> chained r (x :: l) ->
  desc r (root r) k -> desc r k x -> desc r (last (x :: l) x) t -> maximum_extension r (Some k) (Some t) (x :: l) = Done e ->
  differs_in r (x :: l) q -> fk (with_q q r) k g -> fk (with_q q r) t h -> far (ppos g) (ppos h) <= e).
Proof.
  intros H. set (q := fun y : nat => if Nat.eqb y 1 then 5 else 0). set (r := arm [] []).
  assert (F0 : fk (with_q q r) 0 (px 0)).
  { assert (F0 := fk_root (with_q q r) (Node None [1%nat] (Prismatic (Vec 1 0 0)) pid 0 (free 0) (px 0) []) eq_refl). change (root (with_q q r)) with 0%nat in F0. change (rpose (with_q q r)) with pid in F0.
    cbn [transform n_kind n_local n_joint n_offset value free] in F0. rewrite px_slide, !pmul_pid_l, Rplus_0_r in F0. exact F0. }
  assert (F1 : fk (with_q q r) 1 (px 6)).
  { assert (F1 := fk_child (with_q q r) 0 1 (Node (Some 0%nat) [] (Prismatic (Vec 1 0 0)) (px 1) 0 (free 5) (px 1) []) _ F0 (or_introl eq_refl) eq_refl).
    cbn [transform n_kind n_local n_joint n_offset value free] in F1. rewrite px_slide, !px_mul in F1. replace (px 6) with (px (0 + (1 + (5 + 0)))) by (f_equal; ring). exact F1. }
  assert (E : maximum_extension r (Some 0%nat) (Some 1%nat) [0%nat; 1%nat] = Done (0 + reach r 0 0 + reach r 0 1 + reach r 1 1)) by reflexivity.
  assert (U : forall x n, node_at r x = Some n -> rotation (prot (n_pose n))) by (intros x n Q; destruct x as [|[|x]]; [| |destruct x; discriminate]; injection Q as <-; apply mid_rotation).
  rewrite (reach_far r 0 0 _ _ eq_refl eq_refl (U 0%nat _ eq_refl)), (reach_far r 0 1 _ _ eq_refl eq_refl (U 0%nat _ eq_refl)), (reach_far r 1 1 _ _ eq_refl eq_refl (U 1%nat _ eq_refl)), !far_self in E.
  specialize (H r 0%nat [1%nat] 0%nat 1%nat _ q (px 0) (px 6) (arm_tree [] []) (arm_rigid [] []) (arm_posed [] []) (proj1 C117_witness) (d_self _ _) (d_self _ _) (d_self _ _) E).
  assert (DF : differs_in r [0%nat; 1%nat] q) by (intros x n Q I; destruct x as [|[|x]]; [exfalso; apply I; now left|exfalso; apply I; right; now left|destruct x; discriminate]).
  specialize (H DF F0 F1). cbn [n_pose px ppos] in H. unfold far in H. cbn [vx vy vz] in H.
  replace ((0 - 6) * (0 - 6) + (0 - 0) * (0 - 0) + (0 - 0) * (0 - 0)) with (6 * 6) in H by ring. replace ((0 - 1) * (0 - 1) + (0 - 0) * (0 - 0) + (0 - 0) * (0 - 0)) with (1 * 1) in H by ring.
  rewrite !sqrt_square in H by lra. lra.
Qed.
(** Every set has an extension: for a set without nodes the loop runs out of the list. *)
Theorem C118_extension_of_an_empty_set_refuted : ~ (forall r k t l, exists e, maximum_extension r k t l = Done e).
Proof. intros H. destruct (H (arm [] []) None None []) as (e & E). discriminate. Qed.
Print Assumptions C118_extension_is_a_bound. Print Assumptions C118_extension_of_a_set. Print Assumptions C118_extension_with_slides_refuted. Print Assumptions C118_extension_of_an_empty_set_refuted.
(** A turning joint with a sensor one away: it stays within one, at every angle. *)
Example C118_witness : forall a h, fk (with_q (fun y => if Nat.eqb y 0 then a else 0) arm2) 1 h -> far (Vec 0 0 0) (ppos h) <= 1.
Proof.
  intros a h F. set (q := fun y => if Nat.eqb y 0 then a else 0) in *.
  assert (E : maximum_extension arm2 (Some 0%nat) (Some 1%nat) [0%nat] = Done (0 + reach arm2 0 0 + reach arm2 1 0)) by reflexivity.
  assert (U : forall x n, node_at arm2 x = Some n -> rotation (prot (n_pose n))) by (intros x n Q; destruct x as [|[|x]]; [| |destruct x; discriminate]; injection Q as <-; apply mid_rotation).
  rewrite (reach_far arm2 0 0 _ _ eq_refl eq_refl (U 0%nat _ eq_refl)), (reach_far arm2 1 0 _ _ eq_refl eq_refl (U 1%nat _ eq_refl)), far_self in E.
  assert (F0 := fk_root (with_q q arm2) (Node None [1%nat] (Revolute (Vec 0 0 1)) pid 0 (free a) pid []) eq_refl).
  pose proof (fun e g => C118_extension_is_a_bound arm2 0%nat [] 0%nat 1%nat e q g h arm2_tree arm2_rigid arm2_posed (chained_one arm2 0%nat)) as H.
  assert (NS : no_slides arm2 [0%nat]) by (intros x n d [<-|[]] Q; injection Q as <-; discriminate).
  assert (DF : differs_in arm2 [0%nat] q) by (intros x n Q I; destruct x as [|[|x]]; [exfalso; apply I; now left|injection Q as <-; reflexivity|destruct x; discriminate]).
  specialize (H _ _ NS (d_self _ _) (d_self _ _) (d_step arm2 0%nat 0%nat 1%nat (d_self arm2 0%nat) (or_introl eq_refl)) E DF F0 F).
  match type of H with far ?p _ <= ?e => replace p with (Vec 0 0 0) in H; [replace e with 1 in H; [exact H|]|] end.
  - cbn [n_pose px pid ppos]. unfold far. cbn [vx vy vz]. replace ((1 - 0) * (1 - 0) + (0 - 0) * (0 - 0) + (0 - 0) * (0 - 0)) with (1 * 1) by ring. rewrite sqrt_square; lra.
  - change (rpose (with_q q arm2)) with pid. cbn [transform n_kind n_local n_joint n_offset value free]. rewrite !pmul_pid_l. reflexivity.
Qed.

(** *** C119: masses, names and limits of a set *)
(** The mass is the sum of the masses; times the centre of mass it is the sum of the moments. *)
Theorem C119_center_of_mass : forall r mass com l, set_mass mass l = total mass l /\
  (0 < total mass l -> let c := set_com r mass com l in
     total mass l * vx c = total (fun x => mass x * vx (com_global r com x)) l /\ total mass l * vy c = total (fun x => mass x * vy (com_global r com x)) l /\
     total mass l * vz c = total (fun x => mass x * vz (com_global r com x)) l) /\
  (total mass l <= 0 -> set_com r mass com l = Vec 0 0 0) /\
  (forall x n, node_at r x = Some n -> com_global r com x = point_of n (com x)).
Proof.
  intros r mass com l. assert (M : set_mass mass l = total mass l) by (unfold set_mass; rewrite fold_sum; ring). split; [exact M|]. split; [|split].
  - intros P. cbv zeta. unfold set_com. rewrite M. destruct (Rle_dec (total mass l) 0) as [N|_]; [lra|].
    destruct (fold_vec (fun x => mass x / total mass l) (com_global r com) l (Vec 0 0 0)) as (A & B & C). rewrite A, B, C. cbn [vx vy vz]. rewrite !total_scale by lra. repeat split; field; lra.
  - intros P. unfold set_com. rewrite M. destruct (Rle_dec (total mass l) 0) as [_|N]; [reflexivity|contradiction].
  - intros x n N. unfold com_global, point_of. rewrite (node_pose_at _ _ _ N). reflexivity.
Qed.
(** With masses that are not negative it lies in every half space that has the centres of mass of all nodes. *)
Theorem C119_center_of_mass_is_among_the_nodes : forall r mass com l u v w b, 0 < total mass l -> (forall x, In x l -> 0 <= mass x) ->
  (forall x, In x l -> let p := com_global r com x in u * vx p + v * vy p + w * vz p <= b) ->
  let c := set_com r mass com l in u * vx c + v * vy c + w * vz c <= b.
Proof.
  intros r mass com l u v w b P NN H c. destruct (C119_center_of_mass r mass com l) as (_ & A & _). destruct (A P) as (X & Y & Z). fold c in X, Y, Z.
  apply Rmult_le_reg_l with (total mass l); [exact P|]. replace (total mass l * (u * vx c + v * vy c + w * vz c)) with (u * (total mass l * vx c) + v * (total mass l * vy c) + w * (total mass l * vz c)) by ring.
  rewrite X, Y, Z, <- total_lin, (Rmult_comm (total mass l)), <- total_factor. apply total_le. intros x I. specialize (H x I). cbv zeta in H. specialize (NN x I). nra.
Qed.
(** nodesSufficient: the names have those of the tcp, of the kinematic root and of all nodes of the set. *)
Theorem C119_nodes_sufficient : forall tcp root set_names names, nodes_sufficient tcp root set_names names = true <->
  (forall t, tcp = Some t -> In t names) /\ (forall k, root = Some k -> In k names) /\ incl set_names names.
Proof.
  intros tcp root set_names names. unfold nodes_sufficient. rewrite suff_fold.
  assert (A : (match tcp with None => true | Some _ => false end || match tcp with Some t' => existsb (Nat.eqb t') names | None => false end) = true <-> forall t, tcp = Some t -> In t names).
  { destruct tcp as [t|]; cbn; [rewrite exists_in; split; [intros I t' E; injection E as <-; exact I|intros H; now apply H]|split; [discriminate|reflexivity]]. }
  assert (B : (match root with None => true | Some _ => false end || match root with Some t' => existsb (Nat.eqb t') names | None => false end) = true <-> forall t, root = Some t -> In t names).
  { destruct root as [t|]; cbn; [rewrite exists_in; split; [intros I t' E; injection E as <-; exact I|intros H; now apply H]|split; [discriminate|reflexivity]]. }
  rewrite <- A, <- B. clear A B. match goal with |- context [negb ?x || negb ?y] => set (a := x); set (b := y) end. clearbody a b. destruct a, b; cbn [negb orb]; try (split; [discriminate|intros (? & ? & ?); discriminate]).
  rewrite forallb_forall. split; [intros H; split; [reflexivity|]; split; [reflexivity|]; intros x I; apply exists_in, H, I|intros (_ & _ & H) x I; apply exists_in, H, I].
Qed.
(** checkJointLimits is true exactly if every value is within the limits of its joint; with another number of values it throws. *)
Theorem C119_check_limits : forall js qs, (length qs = length js -> exists b, check_limits js qs = Done b /\ (b = true <-> Forall2 within js qs)) /\ (length qs <> length js -> check_limits js qs = Thrown).
Proof.
  intros js qs. unfold check_limits. split; intros L; [|apply Nat.eqb_neq in L; now rewrite L]. rewrite (proj2 (Nat.eqb_eq _ _) L). eexists. split; [reflexivity|]. rewrite fold_and. cbn [andb].
  revert qs L. induction js as [|j js IH]; intros [|q qs] L; try discriminate; cbn [combine forallb]; [split; [constructor|reflexivity]|].
  rewrite andb_true_iff, IH by (injection L as L; exact L). cbn [fst snd]. unfold check_limit. split.
  - intros (A & B). constructor; [|exact B]. unfold within. destruct (Rlt_dec (limit_hi j) q); [discriminate|]. destruct (Rlt_dec q (limit_lo j)); [discriminate|]. lra.
  - intros H. inversion H as [|? ? ? ? W F]; subst. unfold within in W. split; [|exact F]. destruct (Rlt_dec (limit_hi j) q); [lra|]. destruct (Rlt_dec q (limit_lo j)); [lra|reflexivity].
Qed.
(** respectJointLimits gives the nearest values within the limits; those that are within stay as they are. *)
Theorem C119_respect_limits : forall js qs, length qs = length js -> Forall (fun j => limit_lo j <= limit_hi j) js -> exists qs', respect_limits js qs = Done qs' /\ Forall2 within js qs' /\
  Forall2 (fun jq q' => forall p, within (fst jq) p -> Rabs (snd jq - q') <= Rabs (snd jq - p)) (combine js qs) qs'.
Proof.
  intros js qs L W. unfold respect_limits. rewrite (proj2 (Nat.eqb_eq _ _) L). eexists. split; [reflexivity|]. revert qs L W. induction js as [|j js IH]; intros [|q qs] L W; try discriminate; cbn [combine map]; [split; constructor|].
  inversion W as [|? ? W1 W2]; subst. destruct (IH qs ltac:(injection L as L; exact L) W2) as (A & B). cbn [fst snd]. split; (constructor; [|assumption]); unfold respect_limit, within; cbn [fst snd].
  - destruct (Rlt_dec q (limit_lo j)); [destruct (Rlt_dec (limit_hi j) (limit_lo j)); lra|]. destruct (Rlt_dec (limit_hi j) q); lra.
  - intros p P. destruct (Rlt_dec q (limit_lo j)).
    + destruct (Rlt_dec (limit_hi j) (limit_lo j)); [lra|]. rewrite !Rabs_left1 by lra. lra.
    + destruct (Rlt_dec (limit_hi j) q); [rewrite !Rabs_right by lra; lra|]. replace (q - q) with 0 by ring. rewrite Rabs_R0. apply Rabs_pos.
Qed.
Print Assumptions C119_center_of_mass. Print Assumptions C119_center_of_mass_is_among_the_nodes. Print Assumptions C119_nodes_sufficient. Print Assumptions C119_check_limits. Print Assumptions C119_respect_limits.
Example C119_witness : nodes_sufficient (Some 1%nat) None [1%nat; 2%nat] [2%nat; 3%nat; 1%nat] = true /\ nodes_sufficient (Some 4%nat) None [1%nat; 2%nat] [2%nat; 3%nat; 1%nat] = false /\ 0 < total (fun x => INR x) [1%nat; 2%nat].
Proof. split; [reflexivity|]. split; [reflexivity|]. unfold total. cbn. lra. Qed.
