(** Proofs for the kinematic tree. *)
From Coq Require Import Reals List Bool Arith Lia Lra.
From Verif Require Import QuatModel QuatSpec RpyModel JointModel JointSpec JointProofs KinModel KinSpec.
Import ListNotations.
Open Scope R_scope.

Lemma mmul_assoc : forall a b c, mmul (mmul a b) c = mmul a (mmul b c).
Proof. intros a b c. unfold mmul; cbn [m00 m01 m02 m10 m11 m12 m20 m21 m22]. f_equal; ring. Qed.
Lemma mapply_mmul : forall a b v, mapply (mmul a b) v = mapply a (mapply b v).
Proof. intros a b v. unfold mmul, mapply; cbn [m00 m01 m02 m10 m11 m12 m20 m21 m22 vx vy vz]. f_equal; ring. Qed.
Lemma mapply_vadd : forall a v w, mapply a (vadd v w) = vadd (mapply a v) (mapply a w).
Proof. intros a v w. unfold vadd, mapply; cbn [m00 m01 m02 m10 m11 m12 m20 m21 m22 vx vy vz]. f_equal; ring. Qed.
Lemma vadd_assoc : forall a b c, vadd (vadd a b) c = vadd a (vadd b c).
Proof. intros a b c. unfold vadd; cbn [vx vy vz]. f_equal; ring. Qed.
Lemma pmul_assoc : forall a b c, pmul (pmul a b) c = pmul a (pmul b c).
Proof.
  intros [ra ta] [rb tb] [rc tc]. unfold pmul; cbn [prot ppos]. f_equal; [apply mmul_assoc|].
  rewrite mapply_mmul, mapply_vadd, vadd_assoc. reflexivity.
Qed.
Lemma mmul_mid_r : forall a, mmul a mid = a.
Proof. intros [a00 a01 a02 a10 a11 a12 a20 a21 a22]. unfold mmul, mid; cbn [m00 m01 m02 m10 m11 m12 m20 m21 m22]. f_equal; ring. Qed.
Lemma mmul_mid_l : forall a, mmul mid a = a.
Proof. intros [a00 a01 a02 a10 a11 a12 a20 a21 a22]. unfold mmul, mid; cbn [m00 m01 m02 m10 m11 m12 m20 m21 m22]. f_equal; ring. Qed.
Lemma mapply_mid : forall v, mapply mid v = v.
Proof. intros [x y z]. unfold mapply, mid; cbn [m00 m01 m02 m10 m11 m12 m20 m21 m22 vx vy vz]. f_equal; ring. Qed.
Lemma pmul_pid_r : forall a, pmul a pid = a.
Proof.
  intros [ra [x y z]]. unfold pmul, pid; cbn [prot ppos]. rewrite mmul_mid_r. f_equal.
  unfold mapply, vadd; cbn [vx vy vz]. f_equal; ring.
Qed.
Lemma pmul_pid_l : forall a, pmul pid a = a.
Proof. intros [ra [x y z]]. unfold pmul, pid; cbn [prot ppos]. rewrite mmul_mid_l, mapply_mid. f_equal. unfold vadd; cbn [vx vy vz]. f_equal; ring. Qed.
Lemma place_transform : forall n p, place n p = pmul p (transform n).
Proof. intros n p. unfold place, transform. destruct (n_kind n); try rewrite pmul_assoc; try reflexivity. rewrite pmul_pid_r. reflexivity. Qed.

(** ** Updating lists of nodes *)
Lemma nth_update : forall (A : Type) (l : list A) x f y, nth_error (update l x f) y = if Nat.eqb x y then option_map f (nth_error l y) else nth_error l y.
Proof.
  intros A. induction l as [|a l IH]; intros x f y.
  - cbn [update]. destruct y; destruct (Nat.eqb x _); reflexivity.
  - destruct x as [|x], y as [|y]; cbn [update nth_error Nat.eqb]; try reflexivity. apply IH.
Qed.
Lemma update_length : forall (A : Type) (l : list A) x f, length (update l x f) = length l.
Proof. intros A. induction l as [|a l IH]; intros x f; [reflexivity|]. destruct x as [|x]; cbn [update length]; [reflexivity|]. rewrite IH. reflexivity. Qed.
Lemma node_set_pose : forall r x g y, node_at (set_pose r x g) y = if Nat.eqb x y then option_map (with_pose g) (node_at r y) else node_at r y.
Proof. intros r x g y. apply nth_update. Qed.
Lemma but_pose_refl : forall n, but_pose n n.
Proof. reflexivity. Qed.
Lemma same_refl : forall r, same_nodes but_pose r r.
Proof. intros r. split; [reflexivity|]. intros x. destruct (node_at r x); reflexivity. Qed.
Lemma same_trans : forall a b c, same_nodes but_pose a b -> same_nodes but_pose b c -> same_nodes but_pose a c.
Proof.
  intros a b c [R1 H1] [R2 H2]. split; [congruence|]. intros x. specialize (H1 x). specialize (H2 x). unfold but_pose in *.
  destruct (node_at a x), (node_at b x), (node_at c x); try contradiction; try exact I. congruence.
Qed.
Lemma same_set_pose : forall r x g, same_nodes but_pose r (set_pose r x g).
Proof. intros r x g. split; [reflexivity|]. intros y. rewrite node_set_pose. destruct (Nat.eqb x y), (node_at r y); reflexivity. Qed.
Lemma but_pose_fields : forall n n', but_pose n n' -> n_parent n' = n_parent n /\ n_children n' = n_children n /\ n_joint n' = n_joint n /\ n_prop n' = n_prop n /\ transform n' = transform n.
Proof. intros n n' E. unfold but_pose, with_pose in E. unfold transform. injection E as E1 E2 E3 E4 E5 E6 E7. rewrite E1, E2, E3, E4, E5, E6, E7. auto. Qed.
Lemma same_kids : forall r r' x, same_nodes but_pose r r' -> kids r' x = kids r x.
Proof.
  intros r r' x [_ H]. specialize (H x). unfold kids. destruct (node_at r x), (node_at r' x); try contradiction; [|reflexivity]. apply but_pose_fields in H. tauto.
Qed.
Lemma same_node : forall r r' x n, same_nodes but_pose r r' -> node_at r x = Some n -> exists n', node_at r' x = Some n' /\ but_pose n n'.
Proof. intros r r' x n [_ H] E. specialize (H x). rewrite E in H. destruct (node_at r' x) as [n'|]; [|contradiction]. exists n'. auto. Qed.
Lemma same_sym : forall r r', same_nodes but_pose r r' -> same_nodes but_pose r' r.
Proof.
  intros r r' [R H]. split; [congruence|]. intros x. specialize (H x). unfold but_pose in *. destruct (node_at r x), (node_at r' x); try contradiction; try exact I. congruence.
Qed.
Lemma same_length : forall r r', same_nodes but_pose r r' -> (length (nodes r') <= length (nodes r))%nat.
Proof.
  intros r r' [_ H]. destruct (le_lt_dec (length (nodes r')) (length (nodes r))) as [L|L]; [exact L|]. specialize (H (length (nodes r))). unfold node_at in H.
  assert (nth_error (nodes r) (length (nodes r)) = None) as E by (apply nth_error_None; lia). rewrite E in H.
  apply nth_error_Some in L. destruct (nth_error (nodes r') (length (nodes r))); [contradiction|congruence].
Qed.
(** Anything that depends on the lists of children only. *)
Lemma desc_kids : forall r r' x z, (forall y, kids r' y = kids r y) -> desc r x z -> desc r' x z.
Proof. intros r r' x z K D. induction D as [|p z D IH I]; [constructor|]. apply d_step with p; [exact IH|]. rewrite K. exact I. Qed.
Lemma same_desc : forall r r' x z, same_nodes but_pose r r' -> (desc r' x z <-> desc r x z).
Proof.
  intros r r' x z S. split; apply desc_kids; intros y; [apply same_kids, same_sym, S|apply same_kids, S].
Qed.
Lemma same_tree : forall r r', same_nodes but_pose r r' -> tree r -> tree r'.
Proof.
  intros r r' S T. split.
  - intros p c. rewrite (same_kids r r' p S), (t_links r T). split; intros (n & E & P).
    + destruct (same_node r r' c n S E) as (n' & E' & B). exists n'. apply but_pose_fields in B. split; [exact E'|]. destruct B as [-> _]. exact P.
    + destruct (same_node r' r c n (same_sym _ _ S) E) as (n' & E' & B). exists n'. apply but_pose_fields in B. split; [exact E'|]. destruct B as [-> _]. exact P.
  - intros p. rewrite (same_kids r r' p S). apply (t_once r T).
  - destruct (t_root r T) as (n & E & P). destruct (same_node r r' _ n S E) as (n' & E' & B). exists n'. destruct S as [-> _]. apply but_pose_fields in B. split; [exact E'|]. destruct B as [-> _]. exact P.
  - intros x c. rewrite (same_kids r r' x S), (same_desc r r' c x S). apply (t_acyclic r T).
Qed.

(** ** Descendants *)
Lemma desc_trans : forall r x y z, desc r x y -> desc r y z -> desc r x z.
Proof. intros r x y z A B. induction B as [|p z B IH I]; [exact A|]. apply d_step with p; assumption. Qed.
Lemma desc_first : forall r x z, desc r x z -> x = z \/ exists c, In c (kids r x) /\ desc r c z.
Proof.
  intros r x z D. induction D as [|p z D IH I]; [left; reflexivity|]. right. destruct IH as [<-|(c & J & E)].
  - exists z. split; [exact I|constructor].
  - exists c. split; [exact J|]. apply d_step with p; assumption.
Qed.
Lemma one_parent : forall r p q c, tree r -> In c (kids r p) -> In c (kids r q) -> p = q.
Proof. intros r p q c T I J. apply (t_links r T) in I, J. destruct I as (n & E & P), J as (m & F & Q). congruence. Qed.
(** Subtrees of different children do not meet. *)
Lemma desc_apart : forall r x c d z, tree r -> In c (kids r x) -> In d (kids r x) -> desc r c z -> desc r d z -> c = d.
Proof.
  intros r x c d z T I J D. induction D as [|p z D IH K]; intros E.
  - inversion E as [|q z' E' K']; [reflexivity|]. subst z'. assert (q = x) by (apply (one_parent r q x c T K' I)). subst q.
    exfalso. apply (t_acyclic r T x d J E').
  - inversion E as [|q z' E' K']; subst.
    + assert (p = x) by (apply (one_parent r p x z T K J)). subst p. exfalso. apply (t_acyclic r T x c I D).
    + assert (p = q) by (apply (one_parent r p q z T K K')). subst q. apply IH, E'.
Qed.
Lemma kid_node : forall r p c, tree r -> In c (kids r p) -> exists n, node_at r c = Some n.
Proof. intros r p c T I. apply (t_links r T) in I. destruct I as (n & E & _). exists n. exact E. Qed.
Lemma node_lt : forall r x n, node_at r x = Some n -> (x < length (nodes r))%nat.
Proof. intros r x n E. apply nth_error_Some. unfold node_at in E. congruence. Qed.

(** ** updatePose downwards *)
Definition sub_posed (r : robot) (x : nat) (p : pose) : Prop :=
  (exists n, node_at r x = Some n /\ n_pose n = pmul p (transform n)) /\
  forall y c n, desc r x y -> In c (kids r y) -> node_at r c = Some n -> n_pose n = pmul (node_pose r y) (transform n).
Lemma down_S : forall fuel r x p n, node_at r x = Some n -> update_down (S fuel) r x p =
  fold_left (fun o c => match o with Some r => update_down fuel r c (place n p) | None => None end) (n_children n) (Some (set_pose r x (place n p))).
Proof. intros fuel r x p n E. cbn [update_down]. rewrite E. reflexivity. Qed.
Lemma down_ok : forall fuel r x p path n, tree r -> node_at r x = Some n -> NoDup path ->
  (forall q, In q path -> (q < length (nodes r))%nat /\ exists k, In k (kids r q) /\ desc r k x) -> (length (nodes r) <= fuel + length path)%nat ->
  exists r', update_down (S fuel) r x p = Some r' /\ same_nodes but_pose r r' /\ rpose r' = rpose r /\
    (forall z, ~ desc r x z -> node_at r' z = node_at r z) /\ sub_posed r' x p.
Proof.
  induction fuel as [|fuel IH]; intros r x p path n T E ND LT LE; rewrite (down_S _ r x p n E); set (g := place n p).
  - assert (K : kids r x = []).
    { destruct (kids r x) as [|k l] eqn:EK; [reflexivity|]. exfalso.
      assert (L := node_lt r x n E). assert (NP : ~ In x path).
      { intros I. apply LT in I. destruct I as (_ & k' & I & D). apply (t_acyclic r T x k' I D). }
      assert (B := NoDup_incl_length (l := x :: path) (l' := seq 0 (length (nodes r))) ltac:(constructor; assumption)).
      rewrite seq_length in B. cbn [length] in B. assert (incl (x :: path) (seq 0 (length (nodes r)))); [|specialize (B H); lia].
      intros q [<-|I]; apply in_seq; [lia|]. apply LT in I. lia. }
    unfold kids in K. rewrite E in K. rewrite K. cbn [fold_left]. eexists. split; [reflexivity|]. split; [apply same_set_pose|]. split; [reflexivity|].
    assert (S := same_set_pose r x g). split.
    + intros z NZ. rewrite node_set_pose. destruct (Nat.eqb_spec x z) as [->|]; [exfalso; apply NZ; constructor|reflexivity].
    + split.
      * exists (with_pose g n). rewrite node_set_pose, Nat.eqb_refl, E. split; [reflexivity|]. apply (place_transform n p).
      * intros y c m D I. exfalso. apply (same_desc _ _ _ _ S) in D. rewrite (same_kids _ _ _ S) in I. assert (KX : kids r x = []) by (unfold kids; rewrite E; exact K).
        apply desc_first in D. destruct D as [<-|(k & J & _)]; [rewrite KX in I; destruct I|rewrite KX in J; destruct J].
  - assert (KX : n_children n = kids r x) by (unfold kids; rewrite E; reflexivity). rewrite KX.
    assert (L := node_lt r x n E).
    assert (LOOP : forall l r1, NoDup l -> incl l (kids r x) -> same_nodes but_pose r r1 -> rpose r1 = rpose r -> exists r2,
      fold_left (fun o c => match o with Some r => update_down (S fuel) r c g | None => None end) l (Some r1) = Some r2 /\ same_nodes but_pose r r2 /\ rpose r2 = rpose r /\
      (forall z, (forall c, In c l -> ~ desc r c z) -> node_at r2 z = node_at r1 z) /\ (forall c, In c l -> sub_posed r2 c g)).
    { induction l as [|c l IHl]; intros r1 NDl IN S1 RP1; cbn [fold_left].
      - exists r1. split; [reflexivity|]. split; [exact S1|]. split; [exact RP1|]. split; [reflexivity|intros c []].
      - inversion NDl as [|? ? NIc NDl']; subst. assert (Ic : In c (kids r x)) by (apply IN; left; reflexivity).
        assert (T1 : tree r1) by (apply (same_tree r r1 S1 T)).
        destruct (kid_node r x c T Ic) as (m & Em). destruct (same_node r r1 c m S1 Em) as (m1 & Em1 & _).
        assert (LEN : length (nodes r1) = length (nodes r)) by (apply Nat.le_antisymm; [apply same_length, S1|apply same_length, same_sym, S1]).
        destruct (IH r1 c g (x :: path) m1 T1 Em1) as (ra & Ea & Sa & Ra & Oa & Pa).
        + constructor; [|exact ND]. intros I. apply LT in I. destruct I as (_ & k' & I & D). apply (t_acyclic r T x k' I D).
        + intros q [<-|I]; rewrite LEN.
          * split; [exact L|]. exists c. rewrite (same_kids r r1 x S1). split; [exact Ic|constructor].
          * apply LT in I. destruct I as (I1 & k & I2 & I3). split; [exact I1|]. exists k. rewrite (same_kids r r1 q S1), (same_desc r r1 k c S1). split; [exact I2|]. apply d_step with x; assumption.
        + rewrite LEN. cbn [length]. lia.
        + rewrite Ea. assert (Sra : same_nodes but_pose r ra) by (apply (same_trans r r1 ra S1 Sa)).
          destruct (IHl ra NDl' (fun d I => IN d (or_intror I)) Sra (eq_trans Ra RP1)) as (r2 & E2 & S2 & R2 & O2 & P2).
          exists r2. split; [exact E2|]. split; [exact S2|]. split; [exact R2|]. split.
          * intros z NZ. rewrite O2 by (intros d I; apply NZ; right; exact I). apply Oa. rewrite (same_desc r r1 c z S1). apply NZ. left. reflexivity.
          * intros d [<-|I]; [|apply P2, I].
            (* the subtree of c is not touched again *)
            assert (KEEP : forall z, desc r c z -> node_at r2 z = node_at ra z).
            { intros z Dz. apply O2. intros d Id Dd. assert (c = d) by (apply (desc_apart r x c d z T Ic (IN d (or_intror Id)) Dz Dd)). subst d. contradiction. }
            destruct Pa as [(k & Ek & Pk) Q]. split.
            -- exists k. rewrite KEEP by constructor. split; assumption.
            -- intros y d k' Dy Id Ek'. rewrite (same_desc r r2 c y S2) in Dy. rewrite (same_kids r r2 y S2) in Id.
               unfold node_pose. rewrite (KEEP y Dy). rewrite KEEP in Ek' by (apply d_step with y; assumption).
               apply (Q y d k'); [apply (same_desc r ra c y Sra), Dy|rewrite (same_kids r ra y Sra); exact Id|exact Ek']. }
    destruct (LOOP (kids r x) (set_pose r x g) (t_once r T x) (fun z I => I) (same_set_pose r x g) eq_refl) as (r2 & E2 & S2 & R2 & O2 & P2).
    exists r2. split; [exact E2|]. split; [exact S2|]. split; [exact R2|].
    assert (OX : node_at r2 x = Some (with_pose g n)).
    { rewrite O2 by (intros c I; apply (t_acyclic r T x c I)). rewrite node_set_pose, Nat.eqb_refl, E. reflexivity. }
    split.
    + intros z NZ. rewrite O2.
      * rewrite node_set_pose. destruct (Nat.eqb_spec x z) as [->|]; [exfalso; apply NZ; constructor|reflexivity].
      * intros c I D. apply NZ. apply desc_trans with c; [apply d_step with x; [constructor|exact I]|exact D].
    + split; [exists (with_pose g n); split; [exact OX|apply (place_transform n p)]|].
      intros y c m D I Em. rewrite (same_desc r r2 x y S2) in D. rewrite (same_kids r r2 y S2) in I. apply desc_first in D. destruct D as [<-|(k & J & D)].
      * destruct (P2 c I) as [(m' & Em' & Pm) _]. rewrite Em in Em'. injection Em' as <-. unfold node_pose. rewrite OX. exact Pm.
      * destruct (P2 k J) as [_ Q]. apply (Q y c m); [apply (same_desc r r2 k y S2), D|rewrite (same_kids r r2 y S2); exact I|exact Em].
Qed.
Lemma down_top : forall depth r x p n, (length (nodes r) < depth)%nat -> tree r -> node_at r x = Some n ->
  exists r', update_down depth r x p = Some r' /\ same_nodes but_pose r r' /\ rpose r' = rpose r /\
    (forall z, ~ desc r x z -> node_at r' z = node_at r z) /\ sub_posed r' x p.
Proof.
  intros depth r x p n D T E. destruct depth as [|fuel]; [lia|]. apply (down_ok fuel r x p [] n T E); [constructor|intros q []|cbn; lia].
Qed.
Lemma fk_desc : forall r x g, fk r x g -> desc r (root r) x.
Proof. intros r x g F. induction F as [n E|p c n g F IH I E]; [constructor|]. apply d_step with p; assumption. Qed.
Lemma fk_fun : forall r x g g', tree r -> fk r x g -> fk r x g' -> g = g'.
Proof.
  intros r x g g' T F. revert g'. destruct (t_root r T) as (n0 & E0 & P0). induction F as [n E|p c n g F IH I E]; intros g' F'.
  - inversion F' as [m Em|p c m h H I E']; subst; [congruence|]. apply (t_links r T) in I. destruct I as (k & Ek & Pk). congruence.
  - inversion F' as [m Em|q c' m h H J E']; subst.
    + apply (t_links r T) in I. destruct I as (k & Ek & Pk). congruence.
    + assert (p = q) by (apply (one_parent r p q c T I J)). subst q. rewrite (IH h H). congruence.
Qed.
(** A tree that is posed below the root. *)
Lemma sub_posed_root : forall r, sub_posed r (root r) (rpose r) -> posed r.
Proof.
  intros r [(n & E & P) Q] x g F. induction F as [m Em|p c m g F IH I Em].
  - exists m. split; [exact Em|]. congruence.
  - destruct IH as (k & Ek & Pk). exists m. split; [exact Em|]. rewrite (Q p c m (fk_desc r p g F) I Em). unfold node_pose. rewrite Ek, Pk. reflexivity.
Qed.
Lemma apply_ok : forall depth r, (length (nodes r) < depth)%nat -> tree r ->
  exists r', apply_joint_values depth r = Some r' /\ same_nodes but_pose r r' /\ rpose r' = rpose r /\ posed r'.
Proof.
  intros depth r D T. destruct (t_root r T) as (n & E & _). destruct (down_top depth r (root r) (rpose r) n D T E) as (r' & E' & S & R & _ & P).
  exists r'. split; [exact E'|]. split; [exact S|]. split; [exact R|]. apply sub_posed_root. destruct S as [-> _]. rewrite R. exact P.
Qed.

(** ** Joint values *)
Lemma set_value_ends : forall j q, exists j', set_value j q = Some j' /\ only_value j j'.
Proof.
  intros j q. destruct (limitless j) eqn:LL.
  - destruct (set_value_limitless j q LL) as (j' & E & O & _). exists j'. auto.
  - unfold set_value. rewrite LL. destruct (enforce j); eexists; (split; [reflexivity|repeat split; reflexivity]).
Qed.
Definition same_shape (r r' : robot) : Prop := same_nodes but_joint r r' /\ rpose r' = rpose r.
Lemma but_pose_joint : forall n n', but_pose n n' -> but_joint n n'.
Proof. intros n n' E. unfold but_joint. rewrite E. reflexivity. Qed.
Lemma but_joint_fields : forall n n', but_joint n n' -> n_parent n' = n_parent n /\ n_children n' = n_children n /\ n_prop n' = n_prop n.
Proof. intros n n' E. unfold but_joint, with_pose, with_joint in E. cbn in E. injection E as E1 E2 E3 E4 E5 E6. auto. Qed.
Lemma shape_refl : forall r, same_shape r r.
Proof. intros r. split; [split; [reflexivity|]|reflexivity]. intros x. destruct (node_at r x); reflexivity. Qed.
Lemma shape_trans : forall a b c, same_shape a b -> same_shape b c -> same_shape a c.
Proof.
  intros a b c [[R1 H1] P1] [[R2 H2] P2]. split; [split; [congruence|]|congruence]. intros x. specialize (H1 x). specialize (H2 x). unfold but_joint in *.
  destruct (node_at a x), (node_at b x), (node_at c x); try contradiction; try exact I. congruence.
Qed.
Lemma shape_of_same : forall r r', same_nodes but_pose r r' -> rpose r' = rpose r -> same_shape r r'.
Proof.
  intros r r' [R H] P. split; [split; [exact R|]|exact P]. intros x. specialize (H x). destruct (node_at r x), (node_at r' x); try exact H. apply but_pose_joint, H.
Qed.
Lemma shape_kids : forall r r' x, same_shape r r' -> kids r' x = kids r x.
Proof. intros r r' x [[_ H] _]. specialize (H x). unfold kids. destruct (node_at r x), (node_at r' x); try contradiction; [|reflexivity]. apply but_joint_fields in H. tauto. Qed.
Lemma shape_node : forall r r' x n, same_shape r r' -> node_at r x = Some n -> exists n', node_at r' x = Some n' /\ but_joint n n'.
Proof. intros r r' x n [[_ H] _] E. specialize (H x). rewrite E in H. destruct (node_at r' x) as [n'|]; [|contradiction]. exists n'. auto. Qed.
Lemma shape_sym : forall r r', same_shape r r' -> same_shape r' r.
Proof.
  intros r r' [[R H] P]. split; [split; [congruence|]|congruence]. intros x. specialize (H x). unfold but_joint in *. destruct (node_at r x), (node_at r' x); try contradiction; try exact I. congruence.
Qed.
Lemma shape_desc : forall r r' x z, same_shape r r' -> (desc r' x z <-> desc r x z).
Proof. intros r r' x z S. split; apply desc_kids; intros y; [apply shape_kids, shape_sym, S|apply shape_kids, S]. Qed.
Lemma shape_tree : forall r r', same_shape r r' -> tree r -> tree r'.
Proof.
  intros r r' S T. split.
  - intros p c. rewrite (shape_kids r r' p S), (t_links r T). split; intros (n & E & P).
    + destruct (shape_node r r' c n S E) as (n' & E' & B). exists n'. apply but_joint_fields in B. split; [exact E'|]. destruct B as [-> _]. exact P.
    + destruct (shape_node r' r c n (shape_sym _ _ S) E) as (n' & E' & B). exists n'. apply but_joint_fields in B. split; [exact E'|]. destruct B as [-> _]. exact P.
  - intros p. rewrite (shape_kids r r' p S). apply (t_once r T).
  - destruct (t_root r T) as (n & E & P). destruct (shape_node r r' _ n S E) as (n' & E' & B). exists n'. destruct S as [[-> _] _]. apply but_joint_fields in B. split; [exact E'|]. destruct B as [-> _]. exact P.
  - intros x c. rewrite (shape_kids r r' x S), (shape_desc r r' c x S). apply (t_acyclic r T).
Qed.
Lemma shape_length : forall r r', same_shape r r' -> length (nodes r') = length (nodes r).
Proof.
  assert (H : forall r r', same_shape r r' -> (length (nodes r') <= length (nodes r))%nat).
  { intros r r' [[_ H] _]. destruct (le_lt_dec (length (nodes r')) (length (nodes r))) as [L|L]; [exact L|]. specialize (H (length (nodes r))). unfold node_at in H.
    assert (nth_error (nodes r) (length (nodes r)) = None) as E by (apply nth_error_None; lia). rewrite E in H.
    apply nth_error_Some in L. destruct (nth_error (nodes r') (length (nodes r))); [contradiction|congruence]. }
  intros r r' S. apply Nat.le_antisymm; [apply H, S|apply H, shape_sym, S].
Qed.
Lemma set_value_at_ok : forall r x q, exists r', set_value_at r x q = Some r' /\ same_shape r r' /\
  (forall z, z <> x -> node_at r' z = node_at r z) /\
  (forall n, node_at r x = Some n -> exists j, set_value (n_joint n) q = Some j /\ node_at r' x = Some (with_joint j n)).
Proof.
  intros r x q. unfold set_value_at. destruct (node_at r x) as [n|] eqn:E.
  - destruct (set_value_ends (n_joint n) q) as (j & Ej & _). rewrite Ej. eexists. split; [reflexivity|].
    assert (N : forall y, node_at (set_nodes r (update (nodes r) x (with_joint j))) y = if Nat.eqb x y then option_map (with_joint j) (node_at r y) else node_at r y) by (intros y; apply nth_update).
    split; [|split].
    + split; [split; [reflexivity|]|reflexivity]. intros y. rewrite N. destruct (Nat.eqb x y), (node_at r y); reflexivity.
    + intros z Z. rewrite N. destruct (Nat.eqb_spec x z); [congruence|reflexivity].
    + intros m [= <-]. exists j. split; [exact Ej|]. rewrite N, Nat.eqb_refl, E. reflexivity.
  - exists r. split; [reflexivity|]. split; [apply shape_refl|]. split; [reflexivity|discriminate].
Qed.
Definition values_step (o : option robot) (xq : nat * R) : option robot := match o with None => None | Some r => set_value_at r (fst xq) (snd xq) end.
Lemma set_values_ok : forall qs r, exists r', set_values r qs = Some r' /\ same_shape r r' /\
  (forall z, ~ In z (map fst qs) -> node_at r' z = node_at r z).
Proof.
  unfold set_values. induction qs as [|[x q] qs IH]; intros r; cbn [fold_left map fst snd].
  - exists r. split; [reflexivity|]. split; [apply shape_refl|]. reflexivity.
  - destruct (set_value_at_ok r x q) as (r1 & E1 & S1 & O1 & _). rewrite E1. destruct (IH r1) as (r2 & E2 & S2 & O2).
    exists r2. split; [exact E2|]. split; [apply (shape_trans r r1 r2 S1 S2)|]. intros z NZ. cbn [In] in NZ. rewrite O2 by tauto. apply O1. intros ->. tauto.
Qed.
Lemma set_values_app : forall qs qs' r r1, set_values r qs = Some r1 -> set_values r (qs ++ qs') = set_values r1 qs'.
Proof. intros qs qs' r r1 E. unfold set_values in *. rewrite fold_left_app, E. reflexivity. Qed.
Definition limits_same (j j' : joint) : Prop := limit_lo j' = limit_lo j /\ limit_hi j' = limit_hi j /\ limitless j' = limitless j /\ enforce j' = enforce j.
Lemma set_values_limits : forall qs r r', set_values r qs = Some r' -> forall x n, node_at r x = Some n -> exists n', node_at r' x = Some n' /\ limits_same (n_joint n) (n_joint n').
Proof.
  unfold set_values. induction qs as [|[y q] qs IH]; intros r r'; cbn [fold_left fst snd].
  - intros [= <-] x n E. exists n. split; [exact E|]. repeat split; reflexivity.
  - destruct (set_value_at_ok r y q) as (r1 & E1 & S1 & O1 & N1). rewrite E1. intros H x n E.
    assert (exists n1, node_at r1 x = Some n1 /\ limits_same (n_joint n) (n_joint n1)) as (n1 & En1 & L1).
    { destruct (Nat.eq_dec x y) as [->|N].
      - destruct (N1 n E) as (j & Ej & En). exists (with_joint j n). split; [exact En|]. destruct (set_value_ends (n_joint n) q) as (j' & Ej' & O). rewrite Ej in Ej'. injection Ej' as <-.
        cbn [with_joint n_joint]. unfold only_value in O. destruct O as (A & B & C & D). repeat split; assumption.
      - exists n. split; [rewrite O1 by exact N; exact E|]. repeat split; reflexivity. }
    destruct (IH r1 r' H x n1 En1) as (n2 & En2 & L2). exists n2. split; [exact En2|]. unfold limits_same in *. intuition congruence.
Qed.
Lemma set_values_joints : forall qs r r' x n', set_values r qs = Some r' -> node_at r' x = Some n' -> joint_after r qs x (n_joint n').
Proof.
  intros qs r r' x n' E En. destruct (set_values_ok qs r) as (r'' & E'' & S & O). rewrite E in E''. injection E'' as <-.
  destruct (shape_node r' r x n' (shape_sym _ _ S) En) as (n & Enr & _). exists n. split; [exact Enr|].
  destruct (in_dec Nat.eq_dec x (map fst qs)) as [I|NI].
  - right. assert (exists l1 l2 q, qs = l1 ++ (x, q) :: l2 /\ ~ In x (map fst l2)) as (l1 & l2 & q & -> & NI).
    { clear - I. induction qs as [|[y q] qs IH]; [destruct I|]. destruct (in_dec Nat.eq_dec x (map fst qs)) as [J|J].
      - destruct (IH J) as (l1 & l2 & q' & -> & NI). exists ((y, q) :: l1), l2, q'. split; [reflexivity|exact NI].
      - destruct I as [I|I]; [|contradiction]. cbn [fst] in I. subst y. exists [], qs, q. split; [reflexivity|exact J]. }
    destruct (set_values_ok l1 r) as (r1 & E1 & S1 & _). rewrite (set_values_app l1 _ r r1 E1) in E.
    destruct (set_values_limits l1 r r1 E1 x n Enr) as (n1 & En1 & L1).
    unfold set_values in E. cbn [fold_left fst snd] in E. destruct (set_value_at_ok r1 x q) as (r2 & E2 & S2 & _ & N2). rewrite E2 in E.
    destruct (N2 n1 En1) as (j & Ej & En2). destruct (set_values_ok l2 r2) as (r3 & E3 & _ & O3). unfold set_values in E3. rewrite E in E3. injection E3 as <-.
    rewrite O3, En2 in En by exact NI. injection En as <-. cbn [with_joint n_joint]. exists l1, l2, q, (n_joint n1). destruct L1 as (A & B & C & D). auto 10.
  - left. split; [exact NI|]. rewrite O in En by exact NI. congruence.
Qed.

(** ** updatePose with propagation *)
(** Posed outside the subtree of x. *)
Definition posed_but (r : robot) (x : nat) : Prop := forall z g, fk r z g -> ~ desc r x z -> exists n, node_at r z = Some n /\ n_pose n = g.
Lemma posed_posed_but : forall r x, posed r -> posed_but r x.
Proof. intros r x P z g F _. apply P, F. Qed.
(** Forward kinematics outside a subtree depends only on the nodes outside it. *)
Lemma fk_outside : forall r r' x z g, same_shape r r' -> (forall y, ~ desc r x y -> exists n n', node_at r y = Some n /\ node_at r' y = Some n' /\ transform n = transform n' \/ node_at r y = None) ->
  fk r' z g -> ~ desc r x z -> fk r z g.
Proof.
  intros r r' x z g S O F. induction F as [n E|p c n g F IH I E]; intros NZ.
  - destruct (O (root r')) as (m & m' & [(E1 & E2 & E3)|E1]).
    + exact NZ.
    + rewrite E in E2. injection E2 as <-. rewrite <- E3. assert (R := S). destruct R as [[-> _] ->]. apply fk_root. destruct S as [[<- _] _]. exact E1.
    + exfalso. destruct (shape_node r' r (root r') n (shape_sym _ _ S) E) as (k & Ek & _). congruence.
  - rewrite (shape_kids r r' p S) in I. assert (NP : ~ desc r x p) by (intros D; apply NZ; apply d_step with p; assumption).
    destruct (O c NZ) as (m & m' & [(E1 & E2 & E3)|E1]).
    + rewrite E in E2. injection E2 as <-. rewrite <- E3. apply fk_child with p; auto.
    + exfalso. destruct (shape_node r' r c n (shape_sym _ _ S) E) as (k & Ek & _). congruence.
Qed.
Lemma set_value_posed : forall r r' x q, tree r -> posed r -> set_value_at r x q = Some r' -> posed_but r' x.
Proof.
  intros r r' x q T P E. destruct (set_value_at_ok r x q) as (r1 & E1 & S & O & _). rewrite E in E1. injection E1 as <-.
  intros z g F NZ. rewrite (shape_desc r r' x z S) in NZ.
  assert (F0 : fk r z g).
  { apply (fk_outside r r' x z g S); [|exact F|exact NZ]. intros y NY. assert (y <> x) by (intros ->; apply NY; constructor).
    destruct (node_at r y) as [n|] eqn:En.
    - exists n, n. left. split; [reflexivity|]. rewrite O by assumption. auto.
    - exists (with_pose pid (Node None [] Plain pid 0 (Joint 0 0 false false 0) pid [])), (with_pose pid (Node None [] Plain pid 0 (Joint 0 0 false false 0) pid [])). right. reflexivity. }
  destruct (P z g F0) as (n & En & Pn). exists n. split; [|exact Pn]. rewrite O; [exact En|]. intros ->. apply NZ. constructor.
Qed.
(** Updating a node of the tree whose surroundings are posed poses everything. *)
Lemma down_posed : forall depth r x n r', (length (nodes r) < depth)%nat -> tree r -> node_at r x = Some n -> posed_but r x ->
  update_down depth r x (base_pose r x n) = Some r' -> desc r (root r) x -> posed r'.
Proof.
  intros depth r x n r' D T En PB E DX. destruct (down_top depth r x (base_pose r x n) n D T En) as (r1 & E1 & S & RP & O & SP). rewrite E in E1. injection E1 as <-.
  assert (SH : same_shape r r') by (apply shape_of_same; assumption).
  intros z g F. assert (F0 : fk r z g).
  { clear - F S RP. induction F as [n E|p c n g F IH I E].
    - destruct (same_node r' r _ n (same_sym _ _ S) E) as (m & Em & B). apply but_pose_fields in B. destruct B as (_ & _ & _ & _ & <-). rewrite RP. destruct S as [RT _]. rewrite RT in *. apply fk_root, Em.
    - destruct (same_node r' r _ n (same_sym _ _ S) E) as (m & Em & B). apply but_pose_fields in B. destruct B as (_ & _ & _ & _ & <-). apply fk_child with p; [exact IH|rewrite <- (same_kids r r' p S); exact I|exact Em]. }
  clear F. destruct SP as [(n' & En' & Pn') Q].
  induction F0 as [m Em|p c m g F IH I Em].
  - destruct (Nat.eq_dec x (root r)) as [->|NX].
    + exists n'. split; [exact En'|]. rewrite Pn'. destruct (same_node r r' _ n S En) as (n2 & En2 & B). rewrite En' in En2. injection En2 as <-. apply but_pose_fields in B. destruct B as (_ & _ & _ & _ & ->).
      assert (n = m) by congruence. subst m. f_equal. unfold base_pose. destruct (t_root r T) as (n0 & E0 & P0). rewrite En in E0. injection E0 as <-. rewrite P0, Nat.eqb_refl. reflexivity.
    + assert (NZ : ~ desc r x (root r)).
      { intros DD. apply desc_first in DX. destruct DX as [K|(c & I & K)]; [congruence|]. apply (t_acyclic r T (root r) c I). apply desc_trans with x; assumption. }
      destruct (PB _ _ (fk_root r m Em) NZ) as (k & Ek & Pk). exists k. rewrite O by exact NZ. auto.
  - destruct (same_node r r' c m S Em) as (m' & Em' & B). apply but_pose_fields in B. destruct B as (_ & _ & _ & _ & TM). exists m'. split; [exact Em'|].
    destruct IH as (k & Ek & Pk).
    destruct (Nat.eq_dec c x) as [->|NX].
    + assert (n = m) by congruence. subst m. rewrite En' in Em'. injection Em' as <-. rewrite Pn', TM. f_equal. unfold base_pose.
      assert (PN : n_parent n = Some p) by (apply (t_links r T) in I; destruct I as (y & Ey & Py); congruence). rewrite PN.
      assert (NP : ~ desc r x p) by (apply (t_acyclic r T p x I)). rewrite (O p NP) in Ek. rewrite Ek. exact Pk.
    + destruct (Nat.eq_dec 0 0) as [_|]; [|congruence]. 
      assert (DEC : desc r x p \/ ~ desc r x c).
      { destruct (in_dec Nat.eq_dec c [x]) as [J|_]; [destruct J as [->|[]]; congruence|].
        assert (DD : forall y, desc r x y \/ ~ desc r x y) by (intros y; apply Classical_Prop.classic).
        destruct (DD p) as [Dp|Dp]; [left; exact Dp|]. right. intros Dc. inversion Dc as [|q y Dq Jq]; subst; [congruence|]. assert (q = p) by (apply (one_parent r q p c T Jq I)). subst q. contradiction. }
      destruct DEC as [Dp|NC].
      * rewrite <- TM. rewrite (Q p c m'); [unfold node_pose; rewrite Ek, Pk; reflexivity|apply (same_desc r r' x p S), Dp|rewrite (same_kids r r' p S); exact I|exact Em'].
      * rewrite (O c NC) in Em'. assert (m = m') by congruence. subst m'. destruct (PB c (pmul g (transform m))) as (y & Ey & Py); [apply fk_child with p; assumption|exact NC|]. congruence.
Qed.
Lemma shape_root : forall r r', same_shape r r' -> root r' = root r.
Proof. intros r r' [[R _] _]. exact R. Qed.
Lemma shape_none : forall r r' x, same_shape r r' -> node_at r x = None -> node_at r' x = None.
Proof. intros r r' x [[_ H] _] E. specialize (H x). rewrite E in H. destruct (node_at r' x); [contradiction|reflexivity]. Qed.
Lemma shape_prop_inside : forall r r', same_shape r r' -> prop_inside r -> prop_inside r'.
Proof.
  intros r r' S P x n y f E I. destruct (shape_node r' r x n (shape_sym _ _ S) E) as (m & Em & B). apply but_joint_fields in B. destruct B as (_ & _ & B). rewrite <- B in I.
  rewrite (shape_root r r' S), (shape_desc r r' _ y S). destruct (P x m y f Em I) as [N|D]; [left; apply (shape_none r r' y S N)|right; exact D].
Qed.
Lemma shape_prop_falls : forall r r' rank, same_shape r r' -> prop_falls r rank -> prop_falls r' rank.
Proof.
  intros r r' rank S P x n y f E I. destruct (shape_node r' r x n (shape_sym _ _ S) E) as (m & Em & B). apply but_joint_fields in B. destruct B as (_ & _ & B). rewrite <- B in I.
  destruct (P x m y f Em I) as [N|D]; [left; apply (shape_none r r' y S N)|right; exact D].
Qed.
Definition prop_step (depth fuel x : nat) (o : option robot) (yf : nat * R) : option robot :=
  match o with
  | None => None
  | Some r =>
      match node_at r (fst yf) with
      | None => Some r
      | Some _ =>
          match set_value_at r (fst yf) (match node_at r x with Some n => value (n_joint n) | None => 0 end * snd yf) with
          | None => None
          | Some r => update_pose depth fuel r (fst yf)
          end
      end
  end.
Lemma update_pose_S : forall depth fuel r x, update_pose depth (S fuel) r x =
  match node_at r x with
  | None => Some r
  | Some n => match update_down depth r x (base_pose r x n) with None => None | Some r => fold_left (prop_step depth fuel x) (n_prop n) (Some r) end
  end.
Proof. reflexivity. Qed.
Lemma prop_step_none : forall depth fuel x l, fold_left (prop_step depth fuel x) l None = None.
Proof. induction l as [|a l IH]; [reflexivity|exact IH]. Qed.
Lemma update_pose_posed : forall depth fuel r x r', (length (nodes r) < depth)%nat -> tree r -> prop_inside r -> posed_but r x -> desc r (root r) x ->
  update_pose depth fuel r x = Some r' -> posed r' /\ same_shape r r'.
Proof.
  intros depth. induction fuel as [|fuel IH]; intros r x r' D T PI PB DX; [discriminate|]. rewrite update_pose_S.
  destruct (node_at r x) as [n|] eqn:En.
  - destruct (down_top depth r x (base_pose r x n) n D T En) as (r1 & E1 & S1 & RP & O & SP). rewrite E1.
    assert (P1 : posed r1) by (apply (down_posed depth r x n r1); assumption).
    assert (SH : same_shape r r1) by (apply shape_of_same; assumption).
    assert (LOOP : forall l r1, (forall y f, In (y, f) l -> node_at r y = None \/ desc r (root r) y) -> posed r1 -> same_shape r r1 ->
      fold_left (prop_step depth fuel x) l (Some r1) = Some r' -> posed r' /\ same_shape r r').
    { induction l as [|[y f] l IHl]; intros r2 IN P2 S2; cbn [fold_left].
      - intros [= <-]. split; assumption.
      - unfold prop_step at 2. cbn [fst snd]. destruct (node_at r2 y) as [m|] eqn:Em.
        + destruct (set_value_at_ok r2 y (match node_at r2 x with Some n => value (n_joint n) | None => 0 end * f)) as (r3 & E3 & S3 & _). rewrite E3.
          assert (PB3 := set_value_posed r2 r3 y _ (shape_tree r r2 S2 T) P2 E3).
          assert (SH3 : same_shape r r3) by (apply (shape_trans r r2 r3 S2 S3)).
          destruct (update_pose depth fuel r3 y) as [r4|] eqn:E4; [|rewrite prop_step_none; discriminate].
          assert (DY : desc r (root r) y).
          { destruct (IN y f (or_introl eq_refl)) as [N|DY]; [|exact DY]. apply (shape_none r r2 y S2) in N. congruence. }
          destruct (IH r3 y r4) as [P4 S4]; [rewrite (shape_length r r3 SH3); exact D|apply (shape_tree r r3 SH3 T)|apply (shape_prop_inside r r3 SH3 PI)|exact PB3| |exact E4|].
          * rewrite (shape_root r r3 SH3). apply (shape_desc r r3 _ y SH3), DY.
          * apply IHl; [intros z h I; apply (IN z h); right; exact I|exact P4|apply (shape_trans r r3 r4 SH3 S4)].
        + apply IHl; [intros z h I; apply (IN z h); right; exact I|exact P2|exact S2]. }
    apply LOOP; [intros y f I; apply (PI x n y f En I)|exact P1|exact SH].
  - intros [= <-]. split; [|apply shape_refl]. intros z g F. apply PB; [exact F|]. intros DZ. apply desc_first in DZ. destruct DZ as [<-|(c & I & _)].
    + inversion F as [m Em|p c m g' F' I Em]; subst; congruence.
    + unfold kids in I. rewrite En in I. destruct I.
Qed.
Lemma update_pose_ends : forall depth rank fuel r x, (length (nodes r) < depth)%nat -> tree r -> prop_falls r rank -> (rank x < fuel)%nat -> exists r', update_pose depth fuel r x = Some r' /\ same_shape r r'.
Proof.
  intros depth rank. induction fuel as [|fuel IH]; intros r x D T PF LT; [lia|]. rewrite update_pose_S.
  destruct (node_at r x) as [n|] eqn:En; [|exists r; split; [reflexivity|apply shape_refl]].
  destruct (down_top depth r x (base_pose r x n) n D T En) as (r1 & E1 & S1 & RP & O & SP). rewrite E1.
  assert (SH : same_shape r r1) by (apply shape_of_same; assumption).
  assert (LOOP : forall l r1, (forall y f, In (y, f) l -> node_at r y = None \/ (rank y < rank x)%nat) -> same_shape r r1 -> exists r', fold_left (prop_step depth fuel x) l (Some r1) = Some r' /\ same_shape r r').
  { induction l as [|[y f] l IHl]; intros r2 IN S2; cbn [fold_left].
    - exists r2. split; [reflexivity|exact S2].
    - unfold prop_step at 2. cbn [fst snd]. destruct (node_at r2 y) as [m|] eqn:Em.
      + destruct (set_value_at_ok r2 y (match node_at r2 x with Some n => value (n_joint n) | None => 0 end * f)) as (r3 & E3 & S3 & _). rewrite E3.
        assert (SH3 : same_shape r r3) by (apply (shape_trans r r2 r3 S2 S3)).
        destruct (IN y f (or_introl eq_refl)) as [N|LY]; [apply (shape_none r r2 y S2) in N; congruence|].
        destruct (IH r3 y) as (r4 & E4 & S4); [rewrite (shape_length r r3 SH3); exact D|apply (shape_tree r r3 SH3 T)|apply (shape_prop_falls r r3 rank SH3 PF)|lia|].
        rewrite E4. apply IHl; [intros z h I; apply (IN z h); right; exact I|apply (shape_trans r r3 r4 SH3 S4)].
      + apply IHl; [intros z h I; apply (IN z h); right; exact I|exact S2]. }
  apply LOOP; [intros y f I; apply (PF x n y f En I)|exact SH].
Qed.
(** After several values were set below a node. *)
Lemma set_values_posed : forall r r' qs k, tree r -> posed r -> set_values r qs = Some r' -> (forall x, In x (map fst qs) -> desc r k x) -> posed_but r' k.
Proof.
  intros r r' qs k T P E B. destruct (set_values_ok qs r) as (r1 & E1 & S & O). rewrite E in E1. injection E1 as <-.
  intros z g F NZ. rewrite (shape_desc r r' k z S) in NZ.
  assert (F0 : fk r z g).
  { apply (fk_outside r r' k z g S); [|exact F|exact NZ]. intros y NY.
    destruct (node_at r y) as [n|] eqn:En.
    - exists n, n. left. split; [reflexivity|]. rewrite O by (intros I; apply NY, B, I). auto.
    - exists (Node None [] Plain pid 0 (Joint 0 0 false false 0) pid []), (Node None [] Plain pid 0 (Joint 0 0 false false 0) pid []). right. reflexivity. }
  destruct (P z g F0) as (n & En & Pn). exists n. split; [|exact Pn]. rewrite O; [exact En|]. intros I. apply NZ, B, I.
Qed.

(** ** isKinematicRoot *)
Definition seek (fuel : nat) (r : robot) (c : nat) : list nat -> option bool :=
  fix loop (l : list nat) : option bool :=
    match l with
    | [] => Some false
    | k :: l => if Nat.eqb k c then Some true
                else match has_child_below fuel r k c with None => None | Some true => Some true | Some false => loop l end
    end.
Lemma has_child_below_S : forall fuel r p c, has_child_below (S fuel) r p c = seek fuel r c (kids r p).
Proof. reflexivity. Qed.
Lemma has_child_below_sound : forall fuel r p c b, has_child_below fuel r p c = Some b -> (b = true <-> exists k, In k (kids r p) /\ desc r k c).
Proof.
  induction fuel as [|fuel IH]; intros r p c b; [discriminate|]. rewrite has_child_below_S. generalize (kids r p) as l.
  induction l as [|k l IHl]; cbn [seek]; fold (seek fuel r c).
  - intros [= <-]. split; [discriminate|intros (k & [] & _)].
  - destruct (Nat.eqb_spec k c) as [->|N].
    + intros [= <-]. split; [intros _; exists c; split; [left; reflexivity|constructor]|reflexivity].
    + destruct (has_child_below fuel r k c) as [[|]|] eqn:E; [| |discriminate].
      * intros [= <-]. apply IH in E. split; [intros _|reflexivity]. destruct E as [E _]. destruct (E eq_refl) as (j & J & D). exists k. split; [left; reflexivity|]. apply desc_trans with j; [apply d_step with k; [constructor|exact J]|exact D].
      * intros H. rewrite (IHl H). apply IH in E. split; intros (j & I & D).
        -- exists j. split; [right; exact I|exact D].
        -- destruct I as [<-|I]; [|exists j; auto]. exfalso. apply desc_first in D. destruct D as [D|D]; [congruence|]. apply E in D. discriminate.
Qed.
Lemma has_child_below_ends : forall r, tree r -> forall fuel c path p,
  NoDup path -> (forall q, In q path -> (q < length (nodes r))%nat /\ exists k, In k (kids r q) /\ desc r k p) -> (length (nodes r) <= fuel + length path)%nat -> has_child_below (S fuel) r p c <> None.
Proof.
  intros r T. induction fuel as [|fuel IH]; intros c path p ND LT LE; rewrite has_child_below_S.
  - assert (NC : kids r p = []).
    { destruct (kids r p) as [|k l] eqn:E; [reflexivity|]. exfalso. assert (exists n, node_at r p = Some n) as (n & A) by (unfold kids in E; destruct (node_at r p) as [n|]; [exists n; reflexivity|discriminate]). apply node_lt in A.
      assert (NP : ~ In p path) by (intros I; apply LT in I; destruct I as (_ & k' & I & D); apply (t_acyclic r T p k' I D)).
      assert (B := NoDup_incl_length (l := p :: path) (l' := seq 0 (length (nodes r))) ltac:(constructor; assumption)).
      rewrite seq_length in B. cbn [length] in B. assert (incl (p :: path) (seq 0 (length (nodes r)))); [|specialize (B H); lia].
      intros q [<-|I]; apply in_seq; [lia|]. apply LT in I. lia. }
    rewrite NC. discriminate.
  - assert (G : forall l, incl l (kids r p) -> seek (S fuel) r c l <> None).
    { induction l as [|k l IHl]; intros I; [discriminate|]. cbn [seek]. fold (seek (S fuel) r c). destruct (Nat.eqb k c); [discriminate|].
      assert (IK : In k (kids r p)) by (apply I; left; reflexivity).
      assert (exists n, node_at r p = Some n) as (n & A) by (unfold kids in IK; destruct (node_at r p) as [n|]; [exists n; reflexivity|destruct IK]). apply node_lt in A.
      assert (Q : has_child_below (S fuel) r k c <> None).
      { apply (IH c (p :: path) k).
        - constructor; [|exact ND]. intros J. apply LT in J. destruct J as (_ & k' & J & D). apply (t_acyclic r T p k' J D).
        - intros q [<-|J]; [split; [exact A|exists k; split; [exact IK|constructor]]|]. apply LT in J. destruct J as (J1 & k' & J2 & J3). split; [exact J1|]. exists k'. split; [exact J2|]. apply d_step with p; assumption.
        - cbn [length]. lia. }
      destruct (has_child_below (S fuel) r k c) as [[|]|]; [discriminate| |congruence]. apply IHl. intros x X. apply I. right. exact X. }
    apply G. intros x X. exact X.
Qed.
Lemma is_kinematic_root_ok : forall r k l depth, tree r -> (length (nodes r) < depth)%nat -> exists b, is_kinematic_root depth r k l = Some b /\ (b = true <-> forall x, In x l -> desc r k x).
Proof.
  intros r k l depth T D. destruct depth as [|fuel]; [lia|]. induction l as [|x l IH]; cbn [is_kinematic_root].
  - exists true. split; [reflexivity|]. split; [intros _ x []|reflexivity].
  - destruct (Nat.eqb_spec x k) as [->|N].
    + destruct IH as (b & E & B). exists b. split; [exact E|]. rewrite B. split; [intros H z [<-|I]; [constructor|auto]|intros H z I; apply H; right; exact I].
    + assert (NE := has_child_below_ends r T fuel x [] k (NoDup_nil _) ltac:(intros q []) ltac:(cbn; lia)).
      destruct (has_child_below (S fuel) r k x) as [[|]|] eqn:E; [| |congruence]; apply has_child_below_sound in E.
      * destruct IH as (b & E' & B). exists b. split; [exact E'|]. rewrite B. destruct E as [E _]. destruct (E eq_refl) as (c & I & Dc).
        split; [intros H z [<-|J]; [apply desc_trans with c; [apply d_step with k; [constructor|exact I]|exact Dc]|auto]|intros H z J; apply H; right; exact J].
      * exists false. split; [reflexivity|]. split; [discriminate|]. intros H. specialize (H x (or_introl eq_refl)). apply desc_first in H. destruct H as [H|H]; [congruence|]. apply E in H. discriminate.
Qed.

(** ** Placing a robot *)
Definition at_pose (r : robot) (g : pose) : robot := Robot (nodes r) (root r) g.
Lemma kids_at_pose : forall r g x, kids (at_pose r g) x = kids r x.
Proof. reflexivity. Qed.
Lemma desc_at_pose : forall r g x z, desc (at_pose r g) x z <-> desc r x z.
Proof. intros r g x z. split; apply desc_kids; reflexivity. Qed.
Lemma tree_at_pose : forall r g, tree r -> tree (at_pose r g).
Proof.
  intros r g T. split; [exact (t_links r T)|exact (t_once r T)|exact (t_root r T)|].
  intros x c I D. apply (t_acyclic r T x c I). apply (desc_at_pose r g), D.
Qed.
(** The pose of a node relative to the robot does not depend on the pose of the robot. *)
Lemma fk_relative : forall r x p, fk r x p -> exists k, forall g, fk (at_pose r g) x (pmul g k).
Proof.
  intros r x p F. induction F as [n E|y c n h F (k & IH) I E].
  - exists (transform n). intros g. apply (fk_root (at_pose r g)), E.
  - exists (pmul k (transform n)). intros g. rewrite <- pmul_assoc. apply (fk_child (at_pose r g)) with y; [apply IH|exact I|exact E].
Qed.
Lemma inverted_left : forall p, rotation (prot p) -> pmul (inverted p) p = pid.
Proof.
  intros p (_ & R & _). unfold pmul, inverted, pid; cbn [prot ppos]. rewrite R. f_equal. unfold vadd, vscale; cbn [vx vy vz]. f_equal; ring.
Qed.
Lemma mmul_rotation : forall a b, rotation a -> rotation b -> rotation (mmul a b).
Proof.
  intros a b (A1 & A2 & A3) (B1 & B2 & B3).
  assert (TR : mtrans (mmul a b) = mmul (mtrans b) (mtrans a)) by (unfold mtrans, mmul; cbn [m00 m01 m02 m10 m11 m12 m20 m21 m22]; f_equal; ring).
  split; [|split].
  - rewrite TR, mmul_assoc, <- (mmul_assoc b), B1, mmul_mid_l. exact A1.
  - rewrite TR, mmul_assoc, <- (mmul_assoc (mtrans a)), A2, mmul_mid_l. exact B2.
  - transitivity (mdet a * mdet b); [unfold mdet, mmul; cbn [m00 m01 m02 m10 m11 m12 m20 m21 m22]; ring|]. rewrite A3, B3. ring.
Qed.
Lemma mtrans_rotation : forall a, rotation a -> rotation (mtrans a).
Proof.
  intros a (A1 & A2 & A3). assert (TT : mtrans (mtrans a) = a) by (destruct a; reflexivity). split; [|split]; [rewrite TT; exact A2|rewrite TT; exact A1|].
  rewrite <- A3. unfold mdet, mtrans; cbn [m00 m01 m02 m10 m11 m12 m20 m21 m22]. ring.
Qed.
Lemma orthogonalize_rotation : forall svd m, is_svd svd -> rotation m -> orthogonalize svd m = m.
Proof.
  intros svd m SV RM. specialize (SV m RM). destruct RM as (R1 & R2 & R3). unfold orthogonalize. destruct (svd m) as [[u s] v]. destruct SV as (U1 & U2 & V1 & V2 & S0 & S1 & S2 & E).
  set (d := Mat (vx s) 0 0 0 (vy s) 0 0 0 (vz s)) in *.
  assert (TD : mtrans d = d) by reflexivity.
  assert (TR : mtrans m = mmul v (mmul d (mtrans u))).
  { rewrite <- TD, E. unfold mtrans, mmul; cbn [m00 m01 m02 m10 m11 m12 m20 m21 m22]. f_equal; ring. }
  assert (DD : mmul d d = mid).
  { rewrite TR in R2. rewrite E in R2. 
    assert (H : mmul (mtrans v) (mmul (mmul (mmul v (mmul d (mtrans u))) (mmul (mmul u d) (mtrans v))) v) = mmul d d).
    { rewrite (mmul_assoc (mmul v (mmul d (mtrans u)))). rewrite (mmul_assoc (mmul u d)), V2, mmul_mid_r. rewrite (mmul_assoc v), <- (mmul_assoc (mtrans v) v), V2, mmul_mid_l.
      rewrite (mmul_assoc d), <- (mmul_assoc (mtrans u)), U2, mmul_mid_l. reflexivity. }
    rewrite <- H, R2, mmul_mid_l. exact V2. }
  assert (D1 : d = mid).
  { unfold d, mmul, mid in *. cbn [m00 m01 m02 m10 m11 m12 m20 m21 m22] in DD. injection DD as D0 _ _ _ D1 _ _ _ D2.
    assert (vx s = 1) by (clear - D0 S0; nra). assert (vy s = 1) by (clear - D1 S1; nra). assert (vz s = 1) by (clear - D2 S2; nra). rewrite H, H0, H1. reflexivity. }
  rewrite D1, mmul_mid_r in E. rewrite <- E, R3. destruct (Rle_dec 0 1); [reflexivity|lra].
Qed.
Lemma set_global_pose_ok : forall depth r g, (length (nodes r) < depth)%nat -> tree r -> exists r', set_global_pose depth r g = Some r' /\ same_nodes but_pose r r' /\ rpose r' = g /\ posed r'.
Proof.
  intros depth r g D T. destruct (apply_ok depth (at_pose r g) D (tree_at_pose r g T)) as (r' & E & S & R & P). exists r'. split; [exact E|]. split; [exact S|]. split; [exact R|exact P].
Qed.
Lemma fk_same : forall r r' x g, same_nodes but_pose r r' -> rpose r' = rpose r -> fk r x g -> fk r' x g.
Proof.
  intros r r' x g S RP F. induction F as [n E|p c n g F IH I E].
  - destruct (same_node r r' _ n S E) as (m & Em & B). apply but_pose_fields in B. destruct B as (_ & _ & _ & _ & <-). rewrite <- RP. destruct S as [RT _]. rewrite <- RT in *. apply fk_root, Em.
  - destruct (same_node r r' _ n S E) as (m & Em & B). apply but_pose_fields in B. destruct B as (_ & _ & _ & _ & <-). apply fk_child with p; [exact IH|rewrite (same_kids r r' p S); exact I|exact Em].
Qed.
(** Moving the robot to [g] moves the node, which was at [k] relative to it, to [g k]. *)
Lemma moved : forall depth r x p g, (length (nodes r) < depth)%nat -> tree r -> posed r -> fk r x p ->
  exists r' k, set_global_pose depth r g = Some r' /\ same_nodes but_pose r r' /\ rpose r' = g /\ posed r' /\ p = pmul (rpose r) k /\ node_pose r x = p /\ node_pose r' x = pmul g k /\ exists n, node_at r' x = Some n.
Proof.
  intros depth r x p g D T P F. destruct (set_global_pose_ok depth r g D T) as (r' & E & S & RP & P'). destruct (fk_relative r x p F) as (k & K).
  exists r', k. split; [exact E|]. split; [exact S|]. split; [exact RP|]. split; [exact P'|]. split; [|split; [|]].
  - apply (fk_fun r x p (pmul (rpose r) k) T F). specialize (K (rpose r)). replace r with (at_pose r (rpose r)) at 1; [exact K|]. destruct r; reflexivity.
  - destruct (P x p F) as (n & En & Pn). unfold node_pose. rewrite En. exact Pn.
  - assert (F' : fk r' x (pmul g k)) by (apply (fk_same (at_pose r g) r'); [exact S|exact RP|apply K]).
    destruct (P' x _ F') as (n & En & Pn). unfold node_pose. rewrite En. split; [exact Pn|]. exists n. reflexivity.
Qed.

(** Updating poses keeps the shape, whatever the tree. *)
Lemma down_shape : forall depth r x p r1, update_down depth r x p = Some r1 -> same_shape r r1.
Proof.
  induction depth as [|depth IH]; intros r x p r1; [discriminate|]. cbn [update_down]. destruct (node_at r x) as [n|]; [|intros [= <-]; apply shape_refl].
  assert (L : forall l r2 r1, same_shape r r2 -> fold_left (fun o c => match o with Some r => update_down depth r c (place n p) | None => None end) l (Some r2) = Some r1 -> same_shape r r1).
  { induction l as [|c l IHl]; intros r2 r3 S; cbn [fold_left]; [intros [= <-]; exact S|]. destruct (update_down depth r2 c (place n p)) as [r4|] eqn:E.
    - apply IHl. apply (shape_trans r r2 r4 S), (IH _ _ _ _ E).
    - intros H. exfalso. clear - H. induction l as [|d l IHl]; [discriminate|exact (IHl H)]. }
  apply L. apply shape_of_same; [apply same_set_pose|reflexivity].
Qed.
