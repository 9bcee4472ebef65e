(** Proofs about the IK loops. *)
From Coq Require Import Reals List Bool Arith ZArith Lia Lra Nsatz.
From Verif Require Import QuatModel QuatSpec RpyModel JointModel JointSpec JointProofs JointProps KinModel KinSpec KinProofs JacModel JacSpec JacProofs GraspModel GraspSpec IkModel IkSpec.
Import ListNotations.
Open Scope R_scope.

(** Setting joint values. *)
Lemma set_value_limits : forall j j' q, limits_same j j' -> set_value j q = set_value j' q.
Proof.
  intros [lo hi ll en v] [lo' hi' ll' en' v'] q (A & B & C & D). cbn in *. subst. reflexivity.
Qed.
Lemma set_value_good : forall j q j', good_joint j -> set_value j q = Some j' -> good_joint j' /\ limits_same j j' /\ set_value j (value j') = Some j' /\
  (limitless j = true \/ enforce j = true -> within j (value j')).
Proof.
  intros j q j' (L1 & L2 & L3) E. destruct (C33_set_value j q) as (j1 & E1 & (O1 & O2 & O3 & O4) & W & A & B & C). rewrite E in E1. injection E1 as <-.
  assert (LS : limits_same j j') by (repeat split; congruence).
  assert (WI : limitless j = true \/ enforce j = true -> within j (value j')).
  { intros H. destruct (limitless j) eqn:LL; [apply C; auto; apply L2; reflexivity|]. destruct H as [H|H]; [discriminate|]. apply A; auto. }
  split; [|split; [exact LS|split; [|exact WI]]].
  - unfold good_joint. destruct LS as (-> & -> & -> & ->). split; [exact L1|]. split; [exact L2|].
    destruct (limitless j) eqn:LL; [left; unfold within; rewrite O1, O2; apply WI; auto|]. destruct (enforce j) eqn:EN; [left; unfold within; rewrite O1, O2; apply WI; auto|right; auto].
  - destruct (C33_set_value j (value j')) as (j2 & E2 & (P1 & P2 & P3 & P4) & W' & A' & B' & C'). rewrite E2. f_equal.
    assert (V : value j2 = value j').
    { destruct (limitless j) eqn:LL; [apply W', WI; auto|]. destruct (enforce j) eqn:EN; [apply W', WI; auto|]. apply B'; reflexivity. }
    destruct j2, j'. cbn in *. subst. congruence.
Qed.
Lemma good_settled : forall j, good_joint j -> set_value j (value j) = Some j.
Proof.
  intros j (L1 & L2 & L3). destruct (C33_set_value j (value j)) as (j2 & E2 & (P1 & P2 & P3 & P4) & W & A & B & C). rewrite E2. f_equal.
  assert (V : value j2 = value j) by (destruct L3 as [L3|(L3 & L4)]; auto). destruct j2, j. cbn in *. subst. congruence.
Qed.
Definition put_rel (s : node_set) (r : robot) (vs : list R) (r' : robot) : Prop :=
  same_shape r r' /\ posed r' /\ forall x n n', node_at r x = Some n -> node_at r' x = Some n' ->
    (~ In x (s_nodes s) -> n_joint n' = n_joint n) /\
    forall i v, nth_error (s_nodes s) i = Some x -> nth_error vs i = Some v -> set_value (n_joint n) v = Some (n_joint n').
Lemma combine_fst : forall (A B : Type) (l : list A) (l' : list B), length l' = length l -> map fst (combine l l') = l.
Proof. induction l as [|a l IH]; intros [|b l'] L; try discriminate; [reflexivity|]. cbn. f_equal. apply IH. cbn in L. lia. Qed.
Lemma nth_combine : forall (A B : Type) (l : list A) (l' : list B) i a b, nth_error l i = Some a -> nth_error l' i = Some b -> nth_error (combine l l') i = Some (a, b).
Proof. induction l as [|x l IH]; intros [|y l'] [|i] a b; cbn; try discriminate; [congruence|]. intros. now apply IH. Qed.
Lemma put_ok : forall depth fuel s r vs, ready depth fuel s r -> length vs = length (s_nodes s) -> exists r', put depth fuel r s vs = Some r' /\ put_rel s r vs r'.
Proof.
  intros depth fuel s r vs Y L. assert (MF := combine_fst _ _ (s_nodes s) vs L).
  assert (exists r', put depth fuel r s vs = Some r' /\ same_shape r r' /\ posed r' /\ forall x n, node_at r' x = Some n -> joint_after r (combine (s_nodes s) vs) x (n_joint n)) as (r' & E & S & P & J).
  { unfold put, set_joint_values. destruct (set_values_ok (combine (s_nodes s) vs) r) as (r1 & E1 & S1 & O1). rewrite E1.
    assert (D1 : (length (nodes r1) < depth)%nat) by (rewrite (shape_length r r1 S1); apply Y). assert (T1 := shape_tree r r1 S1 (y_tree _ _ _ _ Y)).
    assert (YR := y_root _ _ _ _ Y). destruct (s_root s) as [k|] eqn:KR.
    - destruct YR as (DK & BK & NP). assert (PB : posed_but r1 k) by (apply (set_values_posed r r1 (combine (s_nodes s) vs) k); [apply Y|apply Y|exact E1|rewrite MF; exact BK]).
      assert (F := y_fuel _ _ _ _ Y). destruct fuel as [|fuel]; [lia|]. rewrite update_pose_S.
      destruct (node_at r1 k) as [m|] eqn:Em.
      2:{ exfalso. destruct (fk_exists r k (y_tree _ _ _ _ Y) DK) as (g & Fk). destruct (y_posed _ _ _ _ Y k g Fk) as (n & En & _). destruct (shape_node r r1 k n S1 En) as (n' & En' & _). congruence. }
      destruct (shape_node r1 r k m (shape_sym _ _ S1) Em) as (m0 & Em0 & B). apply but_joint_fields in B. destruct B as (_ & _ & B). rewrite (NP m0 Em0) in B. rewrite <- B. cbn [fold_left].
      destruct (down_top depth r1 k (base_pose r1 k m) m D1 T1 Em) as (r2 & E2 & S2 & RP2 & _). rewrite E2. exists r2. split; [reflexivity|].
      split; [apply (shape_trans r r1 r2 S1), shape_of_same; assumption|]. split.
      + apply (down_posed depth r1 k m r2); auto. rewrite (shape_root r r1 S1). now apply (shape_desc r r1 _ _ S1).
      + intros x n En. destruct (same_node r2 r1 x n (same_sym _ _ S2) En) as (n1 & En1 & B1). apply but_pose_fields in B1. destruct B1 as (_ & _ & <- & _). apply (set_values_joints _ r r1 x n1 E1 En1).
    - destruct (apply_ok depth r1 D1 T1) as (r2 & E2 & S2 & RP2 & P2). exists r2. split; [exact E2|]. split; [apply (shape_trans r r1 r2 S1), shape_of_same; assumption|]. split; [exact P2|].
      intros x n En. destruct (same_node r2 r1 x n (same_sym _ _ S2) En) as (n1 & En1 & B1). apply but_pose_fields in B1. destruct B1 as (_ & _ & <- & _). apply (set_values_joints _ r r1 x n1 E1 En1). }
  exists r'. split; [exact E|]. split; [exact S|]. split; [exact P|]. intros x n n' En En'. destruct (J x n' En') as (m & Em & H). rewrite En in Em. injection Em as <-. rewrite MF in H.
  split.
  - intros NI. destruct H as [(_ & H)|(l1 & l2 & q & j0 & EQ & _)]; [exact H|]. exfalso. apply NI. rewrite <- MF, EQ, map_app. apply in_or_app. right. left. reflexivity.
  - intros i v X V. destruct H as [(NI & _)|(l1 & l2 & q & j0 & EQ & _ & SV & LS)]; [exfalso; apply NI, (nth_error_In _ i X)|].
    assert (C1 := nth_combine _ _ _ _ _ _ _ X V). rewrite EQ in C1.
    assert (X' : nth_error (s_nodes s) (length l1) = Some x) by (rewrite <- MF, EQ, map_app, nth_error_app2; rewrite map_length; [rewrite Nat.sub_diag; reflexivity|lia]).
    assert (i = length l1) by (apply (proj1 (NoDup_nth_error (s_nodes s)) (y_once _ _ _ _ Y)); [apply nth_error_Some; congruence|congruence]). subst i.
    rewrite nth_error_app2, Nat.sub_diag in C1 by lia. cbn in C1. injection C1 as ->. rewrite <- SV. apply set_value_limits. unfold limits_same. tauto.
Qed.
Lemma nodes_value : forall s (vs : list R) x, length vs = length (s_nodes s) -> In x (s_nodes s) -> exists i v, nth_error (s_nodes s) i = Some x /\ nth_error vs i = Some v.
Proof.
  intros s vs x L I. apply In_nth_error in I. destruct I as (i & I). exists i. assert (LT : (i < length vs)%nat) by (rewrite L; apply nth_error_Some; congruence).
  destruct (nth_error vs i) as [v|] eqn:V; [eauto|]. apply nth_error_None in V. lia.
Qed.
Lemma ready_shape : forall depth fuel s r r', ready depth fuel s r -> same_shape r r' -> posed r' ->
  (forall x n, In x (s_nodes s) -> node_at r' x = Some n -> good_joint (n_joint n)) -> ready depth fuel s r'.
Proof.
  intros depth fuel s r r' Y S P G. split; try apply Y; auto.
  - rewrite (shape_length r r' S). apply Y.
  - apply (shape_tree r r' S), Y.
  - intros x I. rewrite (shape_root r r' S). apply (shape_desc r r' _ _ S). apply Y, I.
  - assert (R := y_root _ _ _ _ Y). destruct (s_root s) as [k|]; [|exact I]. destruct R as (A & B & C). split; [rewrite (shape_root r r' S); apply (shape_desc r r' _ _ S), A|].
    split; [intros x I; apply (shape_desc r r' _ _ S), B, I|]. intros n E. destruct (shape_node r' r k n (shape_sym _ _ S) E) as (n0 & E0 & B0). apply but_joint_fields in B0. destruct B0 as (_ & _ & <-). auto.
Qed.
Lemma ready_put : forall depth fuel s r vs r', ready depth fuel s r -> length vs = length (s_nodes s) -> put_rel s r vs r' -> ready depth fuel s r'.
Proof.
  intros depth fuel s r vs r' Y L (S & P & J). apply (ready_shape depth fuel s r); auto. intros x n' I E'.
  destruct (shape_node r' r x n' (shape_sym _ _ S) E') as (n & E & _). destruct (nodes_value s vs x L I) as (i & v & X & V).
  destruct (J x n n' E E') as (_ & J2). apply (set_value_good (n_joint n) v); [apply (y_joints _ _ _ _ Y x n I E)|apply (J2 i v X V)].
Qed.
(** Robots of the same shape, posed, with the same joints are the same. *)
Lemma same_joints : forall r a b, tree r -> same_shape r a -> same_shape r b -> posed a -> posed b ->
  (forall x n m, node_at a x = Some n -> node_at b x = Some m -> n_joint n = n_joint m) -> same_robot a b.
Proof.
  intros r a b T SA SB PA PB J. assert (S : same_shape a b) by (apply (shape_trans a r b (shape_sym _ _ SA) SB)).
  split; [apply (shape_root a b S)|]. split; [apply S|]. intros x D. assert (TA := shape_tree r a SA T). assert (TB := shape_tree r b SB T).
  destruct (fk_exists a x TA D) as (g & F). destruct (PA x g F) as (n & En & Pn). destruct (shape_node a b x n S En) as (m & Em & B). rewrite En, Em. f_equal.
  assert (TR : forall y n m, node_at a y = Some n -> node_at b y = Some m -> with_pose pid m = with_pose pid n).
  { intros y n1 m1 E1 E2. destruct (shape_node a b y n1 S E1) as (m2 & E3 & B2). rewrite E2 in E3. injection E3 as <-. assert (JJ := J y n1 m1 E1 E2).
    destruct n1, m1. unfold but_joint, with_joint, with_pose in *. cbn in *. injection B2 as -> -> -> -> -> ->. rewrite JJ. reflexivity. }
  assert (TF : forall y n m, node_at a y = Some n -> node_at b y = Some m -> transform m = transform n).
  { intros y n1 m1 E1 E2. specialize (TR y n1 m1 E1 E2). destruct n1, m1. unfold with_pose in TR. cbn in TR. injection TR as -> -> -> -> -> -> ->. reflexivity. }
  assert (FB : fk b x g).
  { clear - F S TF. destruct S as [[R H] RP]. induction F as [n E|p c n g F IH I E].
    - rewrite <- R, <- RP. specialize (H (root a)). rewrite E in H. destruct (node_at b (root a)) as [m|] eqn:Em; [|contradiction]. rewrite <- (TF (root a) n m E Em). apply fk_root. now rewrite R.
    - assert (H' := H c). rewrite E in H'. destruct (node_at b c) as [m|] eqn:Em; [|contradiction]. rewrite <- (TF c n m E Em). apply fk_child with p; [exact IH| |exact Em].
      rewrite (shape_kids a b p); [exact I|]. split; [split; assumption|assumption]. }
  destruct (PB x g FB) as (m' & Em' & Pm'). rewrite Em in Em'. injection Em' as <-. specialize (TR x n m En Em).
  destruct n, m. cbn in *. subst. unfold with_pose in TR. cbn in TR. injection TR as -> -> -> -> -> -> ->. reflexivity.
Qed.
(** Setting values again after other values leads to the same robot. *)
Lemma put_again : forall s r v1 r1 v2 r2 r2', tree r -> length v1 = length (s_nodes s) -> length v2 = length (s_nodes s) ->
  (forall x n, In x (s_nodes s) -> node_at r x = Some n -> good_joint (n_joint n)) ->
  put_rel s r v1 r1 -> put_rel s r1 v2 r2 -> put_rel s r v2 r2' -> same_robot r2' r2.
Proof.
  intros s r v1 r1 v2 r2 r2' T L1 L2 G (S1 & P1 & J1) (S2 & P2 & J2) (S3 & P3 & J3).
  apply (same_joints r r2' r2 T S3 (shape_trans _ _ _ S1 S2) P3 P2). intros x n m En Em.
  destruct (shape_node r2' r x n (shape_sym _ _ S3) En) as (n0 & E0 & _). destruct (shape_node r r1 x n0 S1 E0) as (n1 & E1 & _).
  destruct (J1 x n0 n1 E0 E1) as (A1 & B1). destruct (J2 x n1 m E1 Em) as (A2 & B2). destruct (J3 x n0 n E0 En) as (A3 & B3).
  destruct (in_dec Nat.eq_dec x (s_nodes s)) as [I|NI].
  - destruct (nodes_value s v2 x L2 I) as (i & v & X & V). destruct (nodes_value s v1 x L1 I) as (i' & v' & X' & V').
    specialize (B2 i v X V). specialize (B3 i v X V). specialize (B1 i' v' X' V'). destruct (set_value_good _ _ _ (G x n0 I E0) B1) as (_ & LS & _).
    rewrite <- (set_value_limits _ _ v LS) in B2. congruence.
  - rewrite A3, A2, A1 by exact NI. reflexivity.
Qed.
Lemma values_length : forall r s, length (values r s) = length (s_nodes s).
Proof. intros. apply map_length. Qed.
Lemma values_nth : forall r s i x n, nth_error (s_nodes s) i = Some x -> node_at r x = Some n -> nth_error (values r s) i = Some (value (n_joint n)).
Proof. intros r s i x n X E. unfold values. rewrite (map_nth_error _ i (s_nodes s) X). now rewrite E. Qed.
(** Setting the present values changes nothing. *)
Lemma put_rel_refl : forall depth fuel s r, ready depth fuel s r -> put_rel s r (values r s) r.
Proof.
  intros depth fuel s r Y. split; [apply shape_refl|]. split; [apply Y|]. intros x n n' E E'. rewrite E in E'. injection E' as <-. split; [reflexivity|].
  intros i v X V. rewrite (values_nth r s i x n X E) in V. injection V as <-. apply good_settled, (y_joints _ _ _ _ Y x n (nth_error_In _ i X) E).
Qed.
(** Setting the values of another robot of the same shape with the same other joints leads to that robot. *)
Lemma put_back : forall depth fuel s r0 v1 v2 r1 r2 r3, ready depth fuel s r0 -> length v1 = length (s_nodes s) -> length v2 = length (s_nodes s) ->
  put_rel s r0 v1 r1 -> put_rel s r0 v2 r2 -> put_rel s r2 (values r1 s) r3 -> same_robot r1 r3.
Proof.
  intros depth fuel s r0 v1 v2 r1 r2 r3 Y L1 L2 (S1 & P1 & J1) (S2 & P2 & J2) (S3 & P3 & J3).
  apply (same_joints r0 r1 r3 (y_tree _ _ _ _ Y) S1 (shape_trans _ _ _ S2 S3) P1 P3). intros x n m En Em.
  destruct (shape_node r1 r0 x n (shape_sym _ _ S1) En) as (n0 & E0 & _). destruct (shape_node r0 r2 x n0 S2 E0) as (n2 & E2 & _).
  destruct (J1 x n0 n E0 En) as (A1 & B1). destruct (J2 x n0 n2 E0 E2) as (A2 & B2). destruct (J3 x n2 m E2 Em) as (A3 & B3).
  destruct (in_dec Nat.eq_dec x (s_nodes s)) as [I|NI].
  - destruct (nodes_value s v1 x L1 I) as (i & v & X & V). destruct (nodes_value s v2 x L2 I) as (i' & v' & X' & V').
    assert (G0 := y_joints _ _ _ _ Y x n0 I E0). specialize (B1 i v X V). specialize (B2 i' v' X' V').
    destruct (set_value_good _ _ _ G0 B1) as (_ & LS1 & ST1 & _). destruct (set_value_good _ _ _ G0 B2) as (_ & LS2 & _).
    specialize (B3 i (value (n_joint n)) X (values_nth r1 s i x n X En)). rewrite <- (set_value_limits _ _ (value (n_joint n)) LS2) in B3. congruence.
  - rewrite A3, A2, A1 by exact NI. reflexivity.
Qed.

(** Every rotation turns about an axis. *)
Lemma rank_one : forall A B C D P Q S T U V, 0 < A -> A * B = P * P -> A * C = Q * Q -> A * D = S * S -> A * T = P * Q -> A * U = P * S -> A * V = Q * S ->
  exists w x y z, 4 * (w * w) = A /\ 4 * (x * x) = B /\ 4 * (y * y) = C /\ 4 * (z * z) = D /\ 4 * (w * x) = P /\ 4 * (w * y) = Q /\ 4 * (w * z) = S /\
    4 * (x * y) = T /\ 4 * (x * z) = U /\ 4 * (y * z) = V.
Proof.
  intros A B C D P Q S T U V HA E1 E2 E3 E4 E5 E6. set (w := sqrt A / 2). assert (W : 4 * (w * w) = A) by (unfold w; rewrite <- (sqrt_sqrt A) at 3 by lra; field).
  assert (W0 : 0 < w) by (unfold w; apply Rdiv_lt_0_compat; [apply sqrt_lt_R0, HA|lra]). clearbody w.
  exists w, (P / (4 * w)), (Q / (4 * w)), (S / (4 * w)). 
  assert (K : forall a b c, A * a = b * c -> 4 * (b / (4 * w) * (c / (4 * w))) = a).
  { intros a b c H. replace (4 * (b / (4 * w) * (c / (4 * w)))) with (b * c / (4 * (w * w))) by (field; lra). rewrite W, <- H. field. lra. }
  split; [exact W|]. split; [apply K, E1|]. split; [apply K, E2|]. split; [apply K, E3|]. split; [field; lra|]. split; [field; lra|]. split; [field; lra|].
  split; [apply K, E4|]. split; [apply K, E5|apply K, E6].
Qed.
Lemma rotation_quat : forall m, rotation m -> exists q, unit q /\ 0 <= qw q /\ m = to_mat q.
Proof.
  intros m H. assert (AD := rotation_adjugate m H). destruct H as (H1 & H2 & H3). destruct m as [a b c d e f g h i].
  unfold mmul, mtrans, mid in H1, H2; cbn [m00 m01 m02 m10 m11 m12 m20 m21 m22] in *. injection H1 as A1 A2 A3 A4 A5 A6 A7 A8 A9. injection H2 as B1 B2 B3 B4 B5 B6 B7 B8 B9.
  clear H3. unfold adjugate, mtrans in AD; cbn [m00 m01 m02 m10 m11 m12 m20 m21 m22] in AD. injection AD as C1 C2 C3 C4 C5 C6 C7 C8 C9.
  assert (X : exists w x y z, 4 * (w * w) = 1 + a + e + i /\ 4 * (x * x) = 1 + a - e - i /\ 4 * (y * y) = 1 - a + e - i /\ 4 * (z * z) = 1 - a - e + i /\
    4 * (w * x) = h - f /\ 4 * (w * y) = c - g /\ 4 * (w * z) = d - b /\ 4 * (x * y) = b + d /\ 4 * (x * z) = c + g /\ 4 * (y * z) = f + h).
  { destruct (Rlt_dec 0 (1 + a + e + i)) as [P|P]; [apply rank_one; try exact P; lra|].
    destruct (Rlt_dec 0 (1 + a - e - i)) as [P1|P1].
    { destruct (rank_one (1 + a - e - i) (1 + a + e + i) (1 - a + e - i) (1 - a - e + i) (h - f) (b + d) (c + g) (c - g) (d - b) (f + h)) as (x & w & y & z & K); [lra ..|].
      exists w, x, y, z. intuition lra. }
    destruct (Rlt_dec 0 (1 - a + e - i)) as [P2|P2].
    { destruct (rank_one (1 - a + e - i) (1 + a + e + i) (1 + a - e - i) (1 - a - e + i) (c - g) (b + d) (f + h) (h - f) (d - b) (c + g)) as (y & w & x & z & K); [lra ..|].
      exists w, x, y, z. intuition lra. }
    destruct (rank_one (1 - a - e + i) (1 + a + e + i) (1 + a - e - i) (1 - a + e - i) (d - b) (c + g) (f + h) (h - f) (c - g) (b + d)) as (z & w & x & y & K); [lra ..|].
    exists w, x, y, z. intuition lra. }
  destruct X as (w & x & y & z & K).
  assert (G : forall w x y z, (4 * (w * w) = 1 + a + e + i /\ 4 * (x * x) = 1 + a - e - i /\ 4 * (y * y) = 1 - a + e - i /\ 4 * (z * z) = 1 - a - e + i /\
    4 * (w * x) = h - f /\ 4 * (w * y) = c - g /\ 4 * (w * z) = d - b /\ 4 * (x * y) = b + d /\ 4 * (x * z) = c + g /\ 4 * (y * z) = f + h) ->
    unit (Quat x y z w) /\ Mat a b c d e f g h i = to_mat (Quat x y z w)).
  { clear. intros w x y z K. unfold unit, norm2, to_mat; cbn [qx qy qz qw]. split; [lra|]. f_equal; lra. }
  destruct (Rle_dec 0 w) as [W|W].
  - exists (Quat x y z w). destruct (G w x y z K). auto.
  - exists (Quat (- x) (- y) (- z) (- w)). destruct (G (- w) (- x) (- y) (- z)) as (? & ?); [lra|]. split; [assumption|]. split; [cbn; lra|assumption].
Qed.

Lemma axis_quat : forall a t, vdot a a = 1 -> axisangle2mat a t = to_mat (Quat (vx a * sin (t / 2)) (vy a * sin (t / 2)) (vz a * sin (t / 2)) (cos (t / 2))).
Proof.
  intros a t U. unfold vdot in U. unfold axisangle2mat. replace (cos t) with (cos (2 * (t / 2))) by (f_equal; field). replace (sin t) with (sin (2 * (t / 2))) by (f_equal; field).
  rewrite cos_2a, sin_2a. assert (SC := sin2_cos2 (t / 2)). unfold Rsqr in SC. destruct a as [x y z]; cbn [vx vy vz] in *.
  set (s := sin (t / 2)) in *. set (c := cos (t / 2)) in *. clearbody s c. unfold to_mat; cbn [qx qy qz qw]. f_equal; nsatz.
Qed.
Definition trace (m : mat3) : R := m00 m + m11 m + m22 m.
Lemma axis_trace : forall a t, vdot a a = 1 -> trace (axisangle2mat a t) = 1 + 2 * cos t.
Proof.
  intros a t U. unfold vdot in U. destruct a as [x y z]. unfold trace, axisangle2mat; cbn [vx vy vz m00 m11 m22] in *. nsatz.
Qed.
Definition angle_of (m : mat3) : R := acos ((trace m - 1) / 2).
Lemma angle_of_ok : is_least_angle angle_of.
Proof.
  split; [|intros m _; apply acos_bound].
  intros m H. split; [apply acos_bound|]. destruct (rotation_quat m H) as (q & U & W & E).
  destruct q as [x y z w]. unfold unit, norm2 in U; cbn [qx qy qz qw] in *.
  assert (W1 : w <= 1) by nra. set (t := 2 * acos w). assert (AB := acos_bound w). assert (CW : cos (acos w) = w) by (apply cos_acos; lra).
  assert (T : angle_of m = t).
  { unfold angle_of. replace ((trace m - 1) / 2) with (cos t).
    - apply acos_cos. unfold t. split; [lra|]. assert (acos w <= PI / 2); [|lra]. destruct (Rle_dec (acos w) (PI / 2)) as [|N]; [assumption|]. exfalso.
      assert (cos (acos w) < 0) by (apply cos_lt_0; assert (P := PI_RGT_0); lra). lra.
    - unfold t. rewrite cos_2a, CW. assert (SC := sin2_cos2 (acos w)). unfold Rsqr in SC. rewrite CW in SC. subst m. unfold trace, to_mat; cbn [qx qy qz qw m00 m11 m22]. nra. }
  rewrite T. assert (SW : sin (t / 2) * sin (t / 2) = x * x + y * y + z * z).
  { unfold t. replace (2 * acos w / 2) with (acos w) by field. assert (SC := sin2_cos2 (acos w)). unfold Rsqr in SC. rewrite CW in SC. lra. }
  assert (CW2 : cos (t / 2) = w) by (unfold t; replace (2 * acos w / 2) with (acos w) by field; exact CW).
  destruct (Req_dec (sin (t / 2)) 0) as [Z|Z].
  - exists (Vec 1 0 0). assert (U1 : vdot (Vec 1 0 0) (Vec 1 0 0) = 1) by (unfold vdot; cbn; ring). split; [exact U1|]. rewrite axis_quat by exact U1. rewrite Z, CW2. rewrite Z in SW. cbn [vx vy vz].
    rewrite E. f_equal. f_equal; nra.
  - assert (U1 : vdot (Vec (x / sin (t / 2)) (y / sin (t / 2)) (z / sin (t / 2))) (Vec (x / sin (t / 2)) (y / sin (t / 2)) (z / sin (t / 2))) = 1).
    { unfold vdot; cbn [vx vy vz]. transitivity ((x * x + y * y + z * z) / (sin (t / 2) * sin (t / 2))); [field; exact Z|]. rewrite <- SW. field. exact Z. }
    eexists. split; [exact U1|]. rewrite axis_quat by exact U1. rewrite CW2. cbn [vx vy vz]. rewrite E. f_equal. f_equal; field; exact Z.
Qed.
Lemma least : forall angle m a t, is_least_angle angle -> rotation m -> vdot a a = 1 -> 0 <= t -> m = axisangle2mat a t -> angle m <= t.
Proof.
  intros angle m a t (H & L) R U T E. destruct (H m R) as (P & b & UB & EB). specialize (L m R). assert (C : cos t = cos (angle m)).
  { assert (A1 := axis_trace a t U). assert (A2 := axis_trace b (angle m) UB). rewrite <- E in A1. rewrite <- EB in A2. lra. }
  destruct (Rle_dec t PI) as [TP|TP]; [|lra]. rewrite <- (acos_cos t), <- (acos_cos (angle m)), C by lra. lra.
Qed.

(** The tolerances. *)
Lemma place_error_ok : forall r g, error_position r g = place_error (g_mode g) (ppos (g_target g)) (ppos (node_pose r (g_tcp g))).
Proof.
  intros r g. unfold error_position, place_error. destruct (negb (s_position (g_mode g)) && s_orientation (g_mode g)) eqn:E.
  - apply andb_prop in E. destruct E as (E & _). apply negb_true_iff in E. unfold s_position in E. apply orb_false_elim in E. destruct E as (E & E3). apply orb_false_elim in E. destruct E as (E1 & E2).
    rewrite E1, E2, E3. rewrite !Rplus_0_l. now rewrite sqrt_0.
  - cbv zeta. f_equal. unfold vsub; cbn [vx vy vz]. destruct (s_x (g_mode g)), (s_y (g_mode g)), (s_z (g_mode g)); ring.
Qed.
Lemma mean_ok : forall r gs, mean_error r gs = mean_distance gs r.
Proof.
  intros r gs. unfold mean_error, mean_distance.
  assert (F : forall l a, fold_left (fun a g => a + error_position r g) l a = a + fold_right Rplus 0 (map (fun g => place_error (g_mode g) (ppos (g_target g)) (ppos (node_pose r (g_tcp g)))) l)).
  { induction l as [|g l IH]; intros a; cbn [fold_left map fold_right]; [ring|]. rewrite IH, place_error_ok. ring. }
  destruct gs as [|g gs]; [cbn; unfold Rdiv; ring|]. rewrite F. rewrite Rplus_0_l. reflexivity.
Qed.
Lemma mtrans_cancel : forall a b c, rotation b -> mmul a (mtrans b) = c -> a = mmul c b.
Proof. intros a b c (_ & R & _) <-. rewrite mmul_assoc, R. now rewrite mmul_mid_r. Qed.
Lemma goal_check : forall angle r g, is_angle angle -> rotation (prot (g_target g)) -> rotation (prot (node_pose r (g_tcp g))) ->
  error_position r g <= g_pos g -> error_rotation angle r g <= g_rot g -> reached g (node_pose r (g_tcp g)).
Proof.
  intros angle r g H T P E1 E2. rewrite place_error_ok in E1. split; [exact E1|]. intros O. unfold error_rotation in E2. rewrite O in E2. cbn [negb pmul inverted prot] in E2.
  destruct (H (mmul (prot (g_target g)) (mtrans (prot (node_pose r (g_tcp g)))))) as (A & a & U & E); [apply mmul_rotation; [exact T|now apply mtrans_rotation]|].
  exists a, (angle (mmul (prot (g_target g)) (mtrans (prot (node_pose r (g_tcp g)))))). split; [exact U|]. split; [split; assumption|]. now apply mtrans_cancel.
Qed.
Lemma goal_check_back : forall angle r g, is_least_angle angle -> rotation (prot (g_target g)) -> rotation (prot (node_pose r (g_tcp g))) -> 0 <= g_rot g ->
  reached g (node_pose r (g_tcp g)) -> error_position r g <= g_pos g /\ error_rotation angle r g <= g_rot g.
Proof.
  intros angle r g H T P G (E1 & E2). rewrite place_error_ok. split; [exact E1|]. unfold error_rotation. destruct (s_orientation (g_mode g)); cbn [negb]; [|exact G].
  destruct (E2 eq_refl) as (a & t & U & B & E). cbn [pmul inverted prot]. apply Rle_trans with t; [|apply B]. apply (least angle _ a); try assumption; [apply mmul_rotation; [exact T|now apply mtrans_rotation]|apply B|].
  rewrite E, mmul_assoc. destruct P as (P & _). now rewrite P, mmul_mid_r.
Qed.
Lemma rigid_shape : forall r r', same_shape r r' -> rigid r -> rigid r'.
Proof.
  intros r r' S (R1 & R2). split; [destruct S as (_ & ->); exact R1|]. intros x n' E'. destruct (shape_node r' r x n' (shape_sym _ _ S) E') as (n & E & B).
  specialize (R2 x n E). destruct n, n'. unfold but_joint, with_joint, with_pose in B. cbn in *. injection B as -> -> -> -> -> ->. exact R2.
Qed.
Lemma pose_rotation : forall r x, tree r -> posed r -> rigid r -> desc r (root r) x -> rotation (prot (node_pose r x)).
Proof. intros r x T P G D. destruct (fk_exists r x T D) as (g & F). rewrite (posed_pose r x g P F). apply (fk_rotation r x g G F). Qed.
Lemma tolerances_check : forall angle r g, (negb ((if Rlt_dec (g_pos g) (error_position r g) then true else false) ||
                          (if Rlt_dec (g_rot g) (error_rotation angle r g) then true else false)) = true) <-> error_position r g <= g_pos g /\ error_rotation angle r g <= g_rot g.
Proof.
  intros. destruct (Rlt_dec (g_pos g) (error_position r g)); destruct (Rlt_dec (g_rot g) (error_rotation angle r g)); cbn; split; intros; try discriminate; try reflexivity; try lra; split; lra.
Qed.
Lemma check_reached : forall angle r gs, is_angle angle -> tree r -> posed r -> rigid r -> (forall g, In g gs -> goal_ok r g) -> check_tolerances angle r gs = true -> all_reached gs r.
Proof.
  intros angle r gs H T P G O E g I. destruct (O g I) as (D & RT & _). unfold check_tolerances in E. rewrite forallb_forall in E. specialize (E g I).
  apply tolerances_check in E. apply (goal_check angle); try tauto. now apply pose_rotation.
Qed.
Lemma check_not_reached : forall angle r gs, is_least_angle angle -> tree r -> posed r -> rigid r -> (forall g, In g gs -> goal_ok r g) -> check_tolerances angle r gs = false -> ~ all_reached gs r.
Proof.
  intros angle r gs H T P G O E A. enough (check_tolerances angle r gs = true) by congruence. unfold check_tolerances. apply forallb_forall. intros g I. apply tolerances_check.
  destruct (O g I) as (D & RT & GR). apply goal_check_back; auto. now apply pose_rotation.
Qed.

(** Two settings in a row are the second one. *)
Lemma put_rel_comp : forall s r v1 r1 v2 r2, length v1 = length (s_nodes s) -> length v2 = length (s_nodes s) ->
  (forall x n, In x (s_nodes s) -> node_at r x = Some n -> good_joint (n_joint n)) ->
  put_rel s r v1 r1 -> put_rel s r1 v2 r2 -> put_rel s r v2 r2.
Proof.
  intros s r v1 r1 v2 r2 L1 L2 G (S1 & P1 & J1) (S2 & P2 & J2). split; [apply (shape_trans _ _ _ S1 S2)|]. split; [exact P2|].
  intros x n n2 E E2. destruct (shape_node r r1 x n S1 E) as (n1 & E1 & _). destruct (J1 x n n1 E E1) as (A1 & B1). destruct (J2 x n1 n2 E1 E2) as (A2 & B2). split.
  - intros NI. rewrite A2, A1 by exact NI. reflexivity.
  - intros i v X V. specialize (B2 i v X V). assert (I := nth_error_In _ i X). destruct (nodes_value s v1 x L1 I) as (i' & v' & X' & V').
    destruct (set_value_good _ _ _ (G x n I E) (B1 i' v' X' V')) as (_ & LS & _). now rewrite (set_value_limits _ _ v LS).
Qed.
Lemma put_rel_unique : forall s r v a b, tree r -> length v = length (s_nodes s) -> put_rel s r v a -> put_rel s r v b -> same_robot a b.
Proof.
  intros s r v a b T L (SA & PA & JA) (SB & PB & JB). apply (same_joints r a b T SA SB PA PB). intros x n m En Em.
  destruct (shape_node a r x n (shape_sym _ _ SA) En) as (n0 & E0 & _). destruct (JA x n0 n E0 En) as (A1 & A2). destruct (JB x n0 m E0 Em) as (B1 & B2).
  destruct (in_dec Nat.eq_dec x (s_nodes s)) as [I|NI]; [|rewrite A1, B1 by exact NI; reflexivity].
  destruct (nodes_value s v x L I) as (i & q & X & Q). specialize (A2 i q X Q). specialize (B2 i q X Q). congruence.
Qed.
Lemma put_moved : forall s r v r', length v = length (s_nodes s) -> (forall x n, In x (s_nodes s) -> node_at r x = Some n -> good_joint (n_joint n)) -> put_rel s r v r' -> moved_only s r r'.
Proof.
  intros s r v r' L G (S & P & J). split; [apply S|]. split; [apply S|]. split; [exact P|]. intros x n n' E E'. destruct (J x n n' E E') as (A & B). split; [exact A|].
  intros I H. destruct (nodes_value s v x L I) as (i & q & X & Q). apply (set_value_good _ _ _ (G x n I E) (B i q X Q)), H.
Qed.
Lemma finite_length : forall l d, finite l = Some d -> length d = length l.
Proof.
  induction l as [|[x|] l IH]; intros d; cbn; [intros [= <-]; reflexivity| |discriminate]. destruct (finite l) as [e|]; [|discriminate]. intros [= <-]. cbn. f_equal. auto.
Qed.
Lemma plus2_length : forall a b, length a = length b -> length (plus2 a b) = length b.
Proof. intros a b L. unfold plus2. rewrite map_length, combine_length. lia. Qed.
Lemma walk_fun : forall depth fuel theta s r n a b, walk depth fuel theta s r n a -> walk depth fuel theta s r n b -> a = b.
Proof.
  intros depth fuel theta s r n a b W. revert b. induction W as [|n r1 d r2 W IH F P]; intros b B; inversion B as [|n' r1' d' r2' W' F' P']; subst; [reflexivity|].
  specialize (IH _ W'). subst r1'. congruence.
Qed.
Lemma walk_back : forall depth fuel theta s r n a, walk depth fuel theta s r n a -> forall i, (i <= n)%nat -> exists b, walk depth fuel theta s r i b.
Proof.
  intros depth fuel theta s r n a W. induction W as [|n r1 d r2 W IH F P]; intros i L.
  - exists r. replace i with 0%nat by lia. constructor.
  - destruct (Nat.eq_dec i (S n)) as [->|N]; [exists r2; econstructor; eassumption|apply IH; lia].
Qed.

Section Loop.
  Variables (depth fuel : nat) (angle : mat3 -> R) (theta : nat -> robot -> list (option R)) (improve : bool) (min_change : R) (s : node_set) (gs : list goal) (r0 : robot).
  Hypothesis Y : ready depth fuel s r0.
  Hypothesis TL : forall k r, length (theta k r) = length (s_nodes s).
  Notation walk := (walk depth fuel theta s r0).
  Lemma walk_put : forall n r, walk n r -> exists v, length v = length (s_nodes s) /\ put_rel s r0 v r.
  Proof.
    intros n r W. induction W as [|n r1 d r2 W (v & L & P1) F P].
    - exists (values r0 s). split; [apply values_length|]. now apply (put_rel_refl depth fuel).
    - assert (L2 : length (plus2 (values r1 s) d) = length (s_nodes s)).
      { rewrite plus2_length; rewrite (finite_length _ _ F), TL; [reflexivity|apply values_length]. }
      exists (plus2 (values r1 s) d). split; [exact L2|]. assert (Y1 := ready_put depth fuel s r0 v r1 Y L P1).
      destruct (put_ok depth fuel s r1 _ Y1 L2) as (r2' & E2 & P2). rewrite P in E2. injection E2 as <-. apply (put_rel_comp s r0 v r1); auto. apply Y.
  Qed.
  (** What the loop does, in terms of the model's own checks. *)
  Definition stopped (max : nat) (o : outcome) : Prop :=
    (o_steps o <= max)%nat /\ (forall i ri, (1 <= i)%nat -> (i < o_steps o \/ i = o_steps o /\ o_ok o = false)%nat -> walk i ri -> check_tolerances angle ri gs = false) /\
    (exists v, length v = length (s_nodes s) /\ put_rel s r0 v (o_robot o)) /\
    if o_ok o then (1 <= o_steps o)%nat /\ walk (o_steps o) (o_robot o) /\ check_tolerances angle (o_robot o) gs = true
    else exists j rj, walk j rj /\ (j <= o_steps o <= S j)%nat /\ same_robot rj (o_robot o) /\
      (improve = true -> forall i ri ri', (1 <= i < j)%nat -> walk i ri -> walk (S i) ri' -> mean_error ri' gs <= mean_error ri gs) /\
      (j = max \/ (j < max)%nat /\ (finite (theta j rj) = None \/
        exists d r2, finite (theta j rj) = Some d /\ put depth fuel rj s (plus2 (values rj s) d) = Some r2 /\ check_tolerances angle r2 gs = false /\
          (norm d < min_change \/ improve = true /\ (1 <= j)%nat /\ mean_error rj gs < mean_error r2 gs))).
  Lemma loop_ok : forall n k r best last, walk k r -> length best = length (s_nodes s) -> put_rel s r0 best r ->
    (forall i ri, (1 <= i <= k)%nat -> walk i ri -> check_tolerances angle ri gs = false) ->
    last = match k with O => None | _ => Some (mean_error r gs) end ->
    (improve = true -> forall i ri ri', (1 <= i < k)%nat -> walk i ri -> walk (S i) ri' -> mean_error ri' gs <= mean_error ri gs) ->
    exists o, loop depth fuel angle theta improve min_change s gs n k r best last = Some o /\ stopped (k + n) o.
  Proof.
    assert (G := y_joints _ _ _ _ Y).
    assert (BACK : forall r v best, length v = length (s_nodes s) -> put_rel s r0 v r -> length best = length (s_nodes s) -> exists r', put depth fuel r s best = Some r' /\ put_rel s r0 best r').
    { intros r v best Lv Pv Lb. destruct (put_ok depth fuel s r best (ready_put depth fuel s r0 v r Y Lv Pv) Lb) as (r' & E & P). exists r'. split; [exact E|]. apply (put_rel_comp s r0 v r); auto. }
    induction n as [|n IH]; intros k r best last W LB PB CH LA IM; cbn [loop].
    - destruct (BACK r best best LB PB LB) as (r' & E & P). rewrite E. eexists. split; [reflexivity|]. rewrite Nat.add_0_r. split; cbn [o_steps o_ok o_robot]; [lia|].
      split; [intros i ri A B; apply CH; lia|]. split; [exists best; auto|]. exists k, r. split; [exact W|]. split; [lia|]. split; [apply (put_rel_unique s r0 best); auto; apply Y|]. split; [exact IM|]. left. lia.
    - destruct (finite (theta k r)) as [d|] eqn:F.
      2:{ eexists. split; [reflexivity|]. split; cbn [o_steps o_ok o_robot]; [lia|]. split; [intros i ri A B Wi; destruct (Nat.eq_dec i (S k)) as [->|]; [|apply (CH i ri); [lia|exact Wi]]|].
          { exfalso. inversion Wi as [|n' a d b W' F' P']; subst. rewrite (walk_fun _ _ _ _ _ _ _ _ W' W) in F'. congruence. }
          split; [exists best; auto|]. exists k, r. split; [exact W|]. split; [lia|]. split; [split; [reflexivity|split; reflexivity]|]. split; [exact IM|]. right. split; [lia|left; exact F]. }
      assert (LJ : length (plus2 (values r s) d) = length (s_nodes s)).
      { rewrite plus2_length; rewrite (finite_length _ _ F), TL; [reflexivity|apply values_length]. }
      destruct (put_ok depth fuel s r _ (ready_put depth fuel s r0 best r Y LB PB) LJ) as (r1 & E1 & P1). rewrite E1.
      assert (P01 := put_rel_comp s r0 best r _ r1 LB LJ G PB P1).
      assert (W1 : walk (S k) r1) by (econstructor; eassumption).
      destruct (check_tolerances angle r1 gs) eqn:C1.
      { eexists. split; [reflexivity|]. split; cbn [o_steps o_ok o_robot]; [lia|]. split; [intros i ri A B; apply CH; destruct B as [B|(_ & B)]; [lia|discriminate]|].
        split; [eauto|]. split; [lia|auto]. }
      assert (CH1 : forall i ri, (1 <= i <= S k)%nat -> walk i ri -> check_tolerances angle ri gs = false).
      { intros i ri A Wi. destruct (Nat.eq_dec i (S k)) as [->|]; [now rewrite (walk_fun _ _ _ _ _ _ _ _ Wi W1)|apply (CH i ri); [lia|exact Wi]]. }
      assert (FAIL : (norm d < min_change \/ improve = true /\ (1 <= k)%nat /\ mean_error r gs < mean_error r1 gs) -> exists o, failed (put depth fuel r1 s best) (S k) = Some o /\ stopped (k + S n) o).
      { intros RE. destruct (BACK r1 _ best LJ P01 LB) as (r' & E & P). rewrite E. eexists. split; [reflexivity|]. split; cbn [o_steps o_ok o_robot]; [lia|].
        split; [intros i ri A B; apply CH1; lia|]. split; [exists best; auto|]. exists k, r. split; [exact W|]. split; [lia|]. split; [apply (put_rel_unique s r0 best); auto; apply Y|]. split; [exact IM|].
        right. split; [lia|]. right. exists d, r1. auto. }
      destruct (Rlt_dec (norm d) min_change) as [M|M]; [apply FAIL; auto|].
      destruct (improve && match last with Some l => if Rlt_dec l (mean_error r1 gs) then true else false | None => false end) eqn:IE.
      { apply FAIL. right. apply andb_prop in IE. destruct IE as (-> & IE). split; [reflexivity|]. subst last. destruct k as [|k]; [discriminate|]. split; [lia|]. destruct (Rlt_dec (mean_error r gs) (mean_error r1 gs)); [assumption|discriminate]. }
      replace (k + S n)%nat with (S k + n)%nat by lia. apply IH; auto.
      intros I i ri ri' A Wi Wi'. destruct (Nat.eq_dec i k) as [->|]; [|apply (IM I i); auto; lia].
      rewrite (walk_fun _ _ _ _ _ _ _ _ Wi W), (walk_fun _ _ _ _ _ _ _ _ Wi' W1). subst last. rewrite I in IE. cbn [andb] in IE. destruct k as [|k]; [lia|]. destruct (Rlt_dec (mean_error r gs) (mean_error r1 gs)); [discriminate|lra].
  Qed.
  Lemma compute_steps_ok : forall max, exists o, compute_steps depth fuel angle theta improve min_change s gs max r0 = Some o /\ stopped (Z.to_nat max) o.
  Proof.
    intros max. unfold compute_steps. apply (loop_ok (Z.to_nat max) 0 r0).
    - constructor.
    - apply values_length.
    - now apply (put_rel_refl depth fuel).
    - lia.
    - reflexivity.
    - lia.
  Qed.
End Loop.

(** Setting one joint of the set is setting all of them, the others to what they are. *)
Lemma set_one : forall depth fuel s r x q, ready depth fuel s r -> In x (s_nodes s) -> (forall n, node_at r x = Some n -> n_prop n = []) ->
  exists r' vs, set_joint_value depth fuel r x q = Some r' /\ length vs = length (s_nodes s) /\ put_rel s r vs r'.
Proof.
  intros depth fuel s r x q Y I NP. set (s' := Set_ [x] (Some x)).
  assert (Y' : ready depth fuel s' r).
  { split; try apply Y; cbn [s_nodes s_root s'].
    - repeat constructor. intros [].
    - intros y [<-|[]]. apply Y, I.
    - split; [apply Y, I|]. split; [intros y [<-|[]]; constructor|exact NP].
    - intros y n [<-|[]] E. apply (y_joints _ _ _ _ Y x n I E). }
  destruct (put_ok depth fuel s' r [q] Y' eq_refl) as (r' & E & (S & P & J)). set (vs := map (fun y => if Nat.eqb y x then q else match node_at r y with Some n => value (n_joint n) | None => 0 end) (s_nodes s)).
  exists r', vs. split; [|split; [apply map_length|]].
  - rewrite <- E. unfold put, set_joint_values, set_joint_value; cbn [s_nodes s_root s' combine set_values]. unfold set_values; cbn [fold_left fst snd]. reflexivity.
  - split; [exact S|]. split; [exact P|]. intros y n n' En En'. destruct (J y n n' En En') as (A & B). split.
    + intros NI. apply A. intros [<-|[]]. exact (NI I).
    + intros i v X V. unfold vs in V. rewrite (map_nth_error _ i (s_nodes s) X) in V. injection V as <-. destruct (Nat.eqb_spec y x) as [->|N].
      * apply (B 0%nat q eq_refl eq_refl).
      * rewrite En. rewrite A by (intros [<-|[]]; exact (N eq_refl)). apply good_settled, (y_joints _ _ _ _ Y y n (nth_error_In _ i X) En).
Qed.
Lemma same_pose : forall r r' x, same_robot r r' -> desc r (root r) x -> node_pose r' x = node_pose r x.
Proof. intros r r' x (_ & _ & H) D. unfold node_pose. now rewrite (H x D). Qed.
Lemma same_sym_robot : forall r r', tree r -> tree r' -> (forall x, desc r (root r) x <-> desc r' (root r') x) -> same_robot r r' -> same_robot r' r.
Proof. intros r r' T T' D (A & B & C). split; [congruence|]. split; [congruence|]. intros x Dx. symmetry. apply C, D, Dx. Qed.
Lemma apply_same : forall depth fuel s r, ready depth fuel s r -> exists r', apply_joint_values depth r = Some r' /\ same_robot r r' /\ put_rel s r (values r s) r'.
Proof.
  intros depth fuel s r Y. destruct (apply_ok depth r (y_depth _ _ _ _ Y) (y_tree _ _ _ _ Y)) as (r' & E & S & RP & P). exists r'. split; [exact E|].
  assert (SH : same_shape r r') by (apply shape_of_same; assumption).
  assert (J : forall x n m, node_at r x = Some n -> node_at r' x = Some m -> n_joint n = n_joint m).
  { intros x n m En Em. destruct (same_node r r' x n S En) as (m' & Em' & B). rewrite Em in Em'. injection Em' as <-. apply but_pose_fields in B. now destruct B as (_ & _ & -> & _). }
  split; [apply (same_joints r r r'); auto using shape_refl; apply Y|]. split; [exact SH|]. split; [exact P|]. intros x n n' En En'. rewrite <- (J x n n' En En'). split; [reflexivity|].
  intros i v X V. rewrite (values_nth r s i x n X En) in V. injection V as <-. apply good_settled, (y_joints _ _ _ _ Y x n (nth_error_In _ i X) En).
Qed.
Definition led (s : node_set) (r0 r : robot) : Prop := exists v, length v = length (s_nodes s) /\ put_rel s r0 v r.
Lemma led_ready : forall depth fuel s r0 r, ready depth fuel s r0 -> led s r0 r -> ready depth fuel s r.
Proof. intros depth fuel s r0 r Y (v & L & P). apply (ready_put depth fuel s r0 v r Y L P). Qed.
Lemma led_step : forall depth fuel s r0 r v r', ready depth fuel s r0 -> led s r0 r -> length v = length (s_nodes s) -> put_rel s r v r' -> put_rel s r0 v r'.
Proof. intros depth fuel s r0 r v r' Y (v1 & L1 & P1) L P. apply (put_rel_comp s r0 v1 r); auto. apply Y. Qed.
Lemma led_put : forall depth fuel s r0 r v, ready depth fuel s r0 -> led s r0 r -> length v = length (s_nodes s) -> exists r', put depth fuel r s v = Some r' /\ put_rel s r0 v r'.
Proof.
  intros depth fuel s r0 r v Y H L. destruct (put_ok depth fuel s r v (led_ready _ _ _ _ _ Y H) L) as (r' & E & P). exists r'. split; [exact E|]. apply (led_step depth fuel s r0 r); auto.
Qed.
(** Setting the values a robot has been led to leads there again. *)
Lemma led_values : forall depth fuel s r0 r, ready depth fuel s r0 -> led s r0 r -> put_rel s r0 (values r s) r.
Proof.
  intros depth fuel s r0 r Y H. apply (led_step depth fuel s r0 r); auto using values_length. apply (put_rel_refl depth fuel), (led_ready _ _ _ _ _ Y H).
Qed.
Lemma led_refl : forall depth fuel s r, ready depth fuel s r -> led s r r.
Proof. intros depth fuel s r Y. exists (values r s). split; [apply values_length|]. now apply (put_rel_refl depth fuel). Qed.
Lemma led_trans : forall depth fuel s a b c, ready depth fuel s a -> led s a b -> led s b c -> led s a c.
Proof. intros depth fuel s a b c Y H (v & L & P). exists v. split; [exact L|]. apply (led_step depth fuel s a b); auto. Qed.

Section Generic.
  Variables (w : world) (r0 : robot).
  Hypothesis K : world_ok w r0.
  Notation led := (led (x_set w)).
  Lemma random_ok : forall i r, led r0 r -> exists r', joints_random w i r = Some r' /\ led r0 r'.
  Proof.
    intros i r H. assert (Y := k_ready _ _ K). unfold joints_random.
    assert (L : length (random_values r (x_set w) (x_random w i)) = length (s_nodes (x_set w))) by (unfold random_values; rewrite map_length, combine_length, (k_random _ _ K); lia).
    destruct (led_put _ _ _ r0 r _ Y H L) as (r1 & E1 & P1). rewrite E1. assert (H1 : led r0 r1) by (exists (random_values r (x_set w) (x_random w i)); auto).
    assert (KT := k_trans _ _ K). destruct (x_translational w) as [[x q]|]; [|eauto]. destruct KT as (I & NP).
    destruct (set_one (x_depth w) (x_fuel w) (x_set w) r1 x q) as (r2 & vs & E2 & L2 & P2).
    - apply (led_ready _ _ _ r0); assumption.
    - exact I.
    - intros n E. destruct P1 as (S & _). destruct (shape_node r1 r0 x n (shape_sym _ _ S) E) as (n0 & E0 & B). apply but_joint_fields in B. destruct B as (_ & _ & <-). auto.
    - exists r2. split; [exact E2|]. exists vs. split; [exact L2|]. apply (led_step (x_depth w) (x_fuel w) _ r0 r1); auto.
  Qed.
  Lemma try_ok : forall i p m r, rotation (prot p) -> 0 <= x_max_rot w -> led r0 r -> exists b r', try_solve w i (the_goal w p m) r = Some (b, r') /\ led r0 r' /\
    (b = true -> reached (the_goal w p m) (node_pose r' (x_tcp w)) /\ free_of_collision w r').
  Proof.
    intros i p m r RP MR H. assert (Y := k_ready _ _ K). assert (Y1 := led_ready _ _ _ _ _ Y H). unfold try_solve.
    destruct (compute_steps_ok (x_depth w) (x_fuel w) (x_angle w) (x_theta w i) true 0 (x_set w) [the_goal w p m] r Y1 (k_theta _ _ K i) (x_loops w)) as (o & E & (_ & _ & (v & L & P) & O)). rewrite E.
    assert (P0 := led_step _ _ _ r0 r v (o_robot o) Y H L P).
    do 2 eexists. split; [reflexivity|]. split; [exists v; auto|]. intros B. apply andb_prop in B. destruct B as (OK & CF). rewrite OK in O. destruct O as (_ & _ & CT).
    split; [|unfold free_of_collision; destruct (x_collide w) as [c|]; [now apply negb_true_iff in CF|exact I]].
    destruct P0 as (S & PO & _). apply (check_reached (x_angle w) (o_robot o) [the_goal w p m] (k_angle _ _ K) (shape_tree r0 _ S (y_tree _ _ _ _ Y)) PO (rigid_shape _ _ S (k_rigid _ _ K))); [|exact CT|left; reflexivity].
    intros g [<-|[]]. unfold goal_ok, the_goal; cbn. split; [|split; assumption]. rewrite (shape_root _ _ S). apply (shape_desc _ _ _ _ S), (k_tcp _ _ K).
  Qed.
  Lemma ended_led : forall p m i e, rotation (prot p) -> 0 <= x_max_rot w -> ended w (the_goal w p m) r0 i e -> led r0 e.
  Proof.
    intros p m i e RP MR H. induction H as [e E|i e r1 e' H IH J E].
    - destruct (try_ok 0 p m r0 RP MR (led_refl _ _ _ _ (k_ready _ _ K))) as (b & r' & E' & L & _). congruence.
    - destruct (random_ok (S i) e IH) as (r' & J' & L). rewrite J in J'. injection J' as <-. destruct (try_ok (S i) p m r1 RP MR L) as (b & r' & E' & L' & _). congruence.
  Qed.
  Lemma ended_fun : forall g i a b, ended w g r0 i a -> ended w g r0 i b -> a = b.
  Proof.
    intros g i a b H. revert b. induction H as [e E|i e r1 e' H IH J E]; intros b B; inversion B as [x X|i' f r2 f' B' J' X]; subst; [congruence|].
    specialize (IH _ B'). subst f. congruence.
  Qed.
  Lemma mean_one : forall r g, mean_error r [g] = distance g r.
  Proof. intros r g. rewrite mean_ok. unfold mean_distance, distance. cbn [map fold_right length INR]. field. Qed.
  (** The best so far. *)
  Definition best_of (g : goal) (i : nat) (best : list R) (best_error : R) : Prop :=
    exists k e, (k < i)%nat /\ ended w g r0 k e /\ best = values e (x_set w) /\
      (k = 0%nat /\ best_error = distance g r0 \/ (1 <= k)%nat /\ best_error = distance g e /\ distance g e < distance g r0) /\
      forall j ej, (1 <= j < i)%nat -> ended w g r0 j ej -> best_error <= distance g ej.
  Lemma restarts_ok : forall p m, rotation (prot p) -> 0 <= x_max_rot w -> let g := the_goal w p m in
    forall n i best best_error r, (1 <= i)%nat -> ended w g r0 (i - 1) r -> best_of g i best best_error ->
    exists b r', restarts w g n i best best_error r = Some (b, r') /\ led r0 r' /\
      (b = true -> reached g (node_pose r' (x_tcp w)) /\ free_of_collision w r') /\
      (b = false -> exists best best_error e, best_of g (i + n) best best_error /\ ended w g r0 (i + n - 1) e /\ put_rel (x_set w) r0 best r').
  Proof.
    intros p m RP MR g. assert (Y := k_ready _ _ K). induction n as [|n IH]; intros i best best_error r LI E B; cbn [restarts].
    - assert (LE := ended_led p m _ _ RP MR E). assert (B' := B). destruct B' as (k & e & LK & EK & -> & _).
      destruct (led_put _ _ _ r0 r (values e (x_set w)) Y LE (values_length _ _)) as (r' & E' & P'). rewrite E'. do 2 eexists. split; [reflexivity|]. split; [exists (values e (x_set w)); auto using values_length|].
      split; [discriminate|]. intros _. rewrite Nat.add_0_r. exists (values e (x_set w)), best_error, r. auto.
    - assert (LE := ended_led p m _ _ RP MR E). destruct (random_ok i r LE) as (r1 & J & L1). rewrite J. destruct (try_ok i p m r1 RP MR L1) as (b & r2 & T & L2 & OK). fold g in T. rewrite T.
      destruct b; [do 2 eexists; split; [reflexivity|]; split; [exact L2|]; split; [exact OK|discriminate]|].
      assert (E2 : ended w g r0 i r2) by (replace i with (S (i - 1)) by lia; apply e_next with r r1; [exact E| |]; replace (S (i - 1)) with i by lia; assumption).
      replace (i + S n)%nat with (S i + n)%nat by lia. rewrite mean_one. destruct B as (k & e & LK & EK & EB & CASE & MIN).
      destruct (Rlt_dec (distance g r2) best_error) as [LT|GE]; (apply IH; [lia|replace (S i - 1)%nat with i by lia; exact E2|]).
      + exists i, r2. split; [lia|]. split; [exact E2|]. split; [reflexivity|]. split.
        * right. split; [lia|]. split; [reflexivity|]. destruct CASE as [(_ & ->)|(_ & -> & C)]; lra.
        * intros j ej LJ EJ. destruct (Nat.eq_dec j i) as [->|N]; [rewrite (ended_fun g i _ _ EJ E2); lra|]. specialize (MIN j ej ltac:(lia) EJ). lra.
      + exists k, e. split; [lia|]. split; [exact EK|]. split; [exact EB|]. split; [exact CASE|]. intros j ej LJ EJ. destruct (Nat.eq_dec j i) as [->|N]; [rewrite (ended_fun g i _ _ EJ E2); lra|]. apply (MIN j ej); [lia|exact EJ].
  Qed.
  Lemma generic_ok : forall p m max r, rotation (prot p) -> 0 <= x_max_rot w -> r = r0 -> let g := the_goal w p m in
    exists b r', generic_solve w p m max r = Some (b, r') /\ led r0 r' /\
      (b = true -> reached g (node_pose r' (x_tcp w)) /\ free_of_collision w r') /\
      (x_reach w p = false -> b = false /\ r' = r0) /\
      (b = false -> x_reach w p = true -> exists best best_error e, let n := Z.to_nat (Z.max 1 max) in best_of g n best best_error /\ ended w g r0 (n - 1) e /\ put_rel (x_set w) r0 best r').
  Proof.
    intros p m max r RP MR -> g. assert (Y := k_ready _ _ K). unfold generic_solve. fold (the_goal w p m). fold g. destruct (x_reach w p) eqn:RE; cbn [negb].
    2:{ do 2 eexists. split; [reflexivity|]. split; [apply (led_refl _ _ _ _ Y)|]. split; [discriminate|]. split; [auto|]. discriminate. }
    destruct (try_ok 0 p m r0 RP MR (led_refl _ _ _ _ Y)) as (b & r1 & T & L & OK). fold g in T. rewrite T.
    destruct b; [do 2 eexists; split; [reflexivity|]; split; [exact L|]; split; [exact OK|]; split; discriminate|].
    assert (E0 : ended w g r0 0 r1) by (constructor; exact T).
    destruct (restarts_ok p m RP MR (Z.to_nat (max - 1)) 1 (values r1 (x_set w)) (mean_error r0 [g]) r1 ltac:(lia) E0) as (b & r' & E & L' & A & B).
    { exists 0%nat, r1. split; [lia|]. split; [exact E0|]. split; [reflexivity|]. split; [left; split; [reflexivity|apply mean_one]|]. lia. }
    exists b, r'. fold g in E. split; [exact E|]. split; [exact L'|]. split; [exact A|]. split; [discriminate|]. intros BF _. destruct (B BF) as (best & be & e & B1 & B2 & B3). exists best, be, e. cbv zeta.
    replace (Z.to_nat (Z.max 1 max)) with (1 + Z.to_nat (max - 1))%nat by lia. auto.
  Qed.
End Generic.

Lemma world_led : forall w r0 r, world_ok w r0 -> led (x_set w) r0 r -> world_ok w r.
Proof.
  intros w r0 r K (v & L & P). assert (Y := ready_put _ _ _ _ _ _ (k_ready _ _ K) L P). destruct P as (S & _). split; try apply K; [exact Y|apply (rigid_shape _ _ S (k_rigid _ _ K))| |].
  - rewrite (shape_root _ _ S). apply (shape_desc _ _ _ _ S), (k_tcp _ _ K).
  - assert (KT := k_trans _ _ K). destruct (x_translational w) as [[x q]|]; [|exact I]. destruct KT as (I & NP). split; [exact I|]. intros n E.
    destruct (shape_node r r0 x n (shape_sym _ _ S) E) as (n0 & E0 & B). apply but_joint_fields in B. destruct B as (_ & _ & <-). auto.
Qed.
Lemma call_ok : forall w depth fuel s r0 max i p m r, calls_ok w depth fuel s r0 -> led s r0 r -> rotation (prot p) ->
  exists b r', call w max i p m r = Some (b, r') /\ led s r0 r' /\ (b = true -> reached (the_goal (w i) p m) (node_pose r' (x_tcp (w i))) /\ free_of_collision (w i) r').
Proof.
  intros w depth fuel s r0 max i p m r C H RP. destruct (C i) as (K & D & F & SE & MR). assert (Y := k_ready _ _ K). subst depth fuel s.
  destruct (generic_ok (w i) r (world_led _ _ _ K H) p m max r RP MR eq_refl) as (b & r' & E & L & A & _). exists b, r'. split; [exact E|]. split; [|exact A].
  apply (led_trans _ _ _ r0 r r' Y H L).
Qed.
Lemma calls_ready : forall w depth fuel s r, calls_ok w depth fuel s r -> ready depth fuel s r.
Proof. intros w depth fuel s r C. destruct (C 0%nat) as (K & <- & <- & <- & _). apply (k_ready _ _ K). Qed.
Lemma restored : forall depth fuel s r0 r, ready depth fuel s r0 -> led s r0 r -> exists r', put depth fuel r s (values r0 s) = Some r' /\ same_robot r0 r' /\ put_rel s r0 (values r0 s) r'.
Proof.
  intros depth fuel s r0 r Y H. destruct (led_put _ _ _ r0 r (values r0 s) Y H (values_length _ _)) as (r' & E & P). exists r'. split; [exact E|]. split; [|exact P].
  apply (put_rel_unique s r0 (values r0 s)); auto using values_length; [apply Y|now apply (put_rel_refl depth fuel)].
Qed.
Lemma led_desc : forall s r0 r x, led s r0 r -> desc r0 (root r0) x <-> desc r (root r) x.
Proof. intros s r0 r x (v & _ & (S & _)). rewrite (shape_root _ _ S). symmetry. apply (shape_desc _ _ _ _ S). Qed.

(** Going through the grasps. *)
Lemma erase_spec : forall g l, NoDup l -> In g l -> NoDup (erase g l) /\ (forall x, In x (erase g l) <-> In x l /\ x <> g) /\ S (length (erase g l)) = length l.
Proof.
  intros g l ND. induction ND as [|y l NI ND IH]; intros I; [destruct I|]. cbn [erase]. destruct (Nat.eqb_spec y g) as [->|N].
  - split; [exact ND|]. split; [|reflexivity]. intros x. split; [intros X; split; [right; exact X|intros ->; exact (NI X)]|]. intros ([<-|X] & Q); [congruence|exact X].
  - destruct I as [->|I]; [congruence|]. destruct (IH I) as (A & B & C). split; [constructor; [rewrite B; tauto|exact A]|]. split; [|cbn; lia].
    intros x. cbn [In]. rewrite B. split; [intros [<-|(X & Q)]; auto|]. intros ([<-|X] & Q); auto.
Qed.
Section Grasps.
  Variables (w : nat -> world) (depth fuel : nat) (s : node_set) (r0 : robot) (max : Z) (target : grasp -> pose) (h : heap) (m : selection) (pick : nat -> nat).
  Hypothesis C : calls_ok w depth fuel s r0.
  Hypothesis RT : forall g, rotation (prot (target g)).
  Notation tried := (tried w max target h m r0).
  Lemma all_ok : forall n i gs r, NoDup (grasps gs) -> (length (grasps gs) <= n)%nat -> put_rel s r0 (values r0 s) r ->
    exists og r', solve_all depth fuel s (call w max) target h m pick n i gs r = Some (og, r') /\
      match og with
      | Some g => In g (grasps gs) /\ exists k r1, reached (the_goal (w k) (target (h g)) m) (node_pose r' (x_tcp (w k))) /\ same_robot r1 r' /\ free_of_collision (w k) r1 /\ led s r0 r'
      | None => same_robot r0 r' /\ forall g, In g (grasps gs) -> tried (i + length (grasps gs)) g
      end.
  Proof.
    assert (Y := calls_ready _ _ _ _ _ C). assert (T := y_tree _ _ _ _ Y).
    assert (SR : forall r, put_rel s r0 (values r0 s) r -> same_robot r0 r) by (intros r P; apply (put_rel_unique s r0 (values r0 s)); auto using values_length; now apply (put_rel_refl depth fuel)).
    assert (LD : forall r, put_rel s r0 (values r0 s) r -> led s r0 r) by (intros r P; exists (values r0 s); auto using values_length).
    induction n as [|n IH]; intros i gs r ND LN P; cbn [solve_all]; destruct (Nat.eqb_spec (length (grasps gs)) 0) as [Z|Z].
    - do 2 eexists. split; [reflexivity|]. split; [auto|]. intros g I. destruct (grasps gs); [destruct I|discriminate].
    - lia.
    - do 2 eexists. split; [reflexivity|]. split; [auto|]. intros g I. destruct (grasps gs); [destruct I|discriminate].
    - assert (LT : (pick i mod length (grasps gs) < length (grasps gs))%nat) by (apply Nat.mod_upper_bound, Z).
      unfold sample_solution. replace (length (grasps gs) =? 0)%nat with false by (symmetry; apply Nat.eqb_neq, Z).
      unfold get_at. replace (length (grasps gs) <=? pick i mod length (grasps gs))%nat with false by (symmetry; apply Nat.leb_gt, LT).
      destruct (nth_error (grasps gs) (pick i mod length (grasps gs))) as [g|] eqn:EG; [|apply nth_error_None in EG; lia].
      assert (IG := nth_error_In _ _ EG). destruct (call_ok w depth fuel s r0 max i (target (h g)) m r C (LD r P) (RT (h g))) as (b & r1 & E & L1 & OK). rewrite E. destruct b.
      + destruct (OK eq_refl) as (RE & CF). destruct (apply_same depth fuel s r1 (led_ready _ _ _ _ _ Y L1)) as (r2 & E2 & S2 & P2). rewrite E2. cbn [option_map]. do 2 eexists. split; [reflexivity|]. split; [exact IG|].
        exists i, r1. destruct (C i) as (K & _ & _ & SE & _). assert (D : desc r1 (root r1) (x_tcp (w i))) by (apply (led_desc s r0 r1 _ L1), (k_tcp _ _ K)).
        split; [rewrite (same_pose r1 r2 _ S2 D); exact RE|]. split; [exact S2|]. split; [exact CF|]. apply (led_trans depth fuel s r0 r1 r2 Y L1). exists (values r1 s). auto using values_length.
      + assert (V : values r s = values r0 s).
        { unfold values. apply map_ext_in. intros x I. destruct (SR r P) as (_ & _ & H). now rewrite (H x (y_inside _ _ _ _ Y x I)). }
        rewrite V. destruct (restored depth fuel s r0 r1 Y L1) as (r2 & E2 & S2 & P2). rewrite E2. unfold remove. replace (has_grasp gs g) with true by (symmetry; apply existsb_exists; exists g; split; [exact IG|apply Nat.eqb_refl]).
        cbn [fst]. destruct (erase_spec g (grasps gs) ND IG) as (ND' & IN & LE).
        destruct (IH (S i) (with_grasps gs (erase g (grasps gs))) r2) as (og & r' & E' & H); [exact ND'|cbn [grasps with_grasps]; lia|exact P2|]. exists og, r'. split; [exact E'|].
        cbn [grasps with_grasps] in H. destruct og as [g'|].
        * destruct H as (I' & H). split; [apply IN, I'|exact H].
        * destruct H as (SR' & TR). split; [exact SR'|]. intros g' I'. destruct (Nat.eq_dec g' g) as [->|N].
          -- exists i, r, r1. split; [lia|]. split; [auto|exact E].
          -- replace (i + length (grasps gs))%nat with (S i + length (erase g (grasps gs)))%nat by lia. apply TR, IN. auto.
  Qed.
End Grasps.
