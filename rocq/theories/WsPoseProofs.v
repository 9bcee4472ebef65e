From Coq Require Import List ZArith QArith Qabs Bool Arith Lia Lqa.
From Verif Require Import GridModel WsPoseModel WsPoseSpec.
Import ListNotations.
Open Scope Z_scope.

Definition okd (d : dim) : Prop := (d_lo d < d_hi d)%Q /\ d_size d = (d_hi d - d_lo d)%Q /\ 0 < d_num d /\ (0 < d_step d)%Q /\ (width (axis_of d) < d_step d)%Q.

Lemma trunc_pos : forall q, (0 <= q)%Q -> 0 <= trunc q /\ (inject_Z (trunc q) <= q < inject_Z (trunc q + 1))%Q.
Proof.
  intros [n d] H. unfold trunc, Qle, Qlt, inject_Z in *. cbn [Qnum Qden] in *. rewrite ?Z.mul_1_r in *. rewrite Z.quot_div_nonneg by lia.
  pose proof (Z.div_mod n (Z.pos d) ltac:(lia)). pose proof (Z.mod_pos_bound n (Z.pos d) ltac:(lia)). set (m := n / Z.pos d) in *. nia.
Qed.
Lemma trunc_neg : forall q, (q <= 0)%Q -> trunc q <= 0 /\ (inject_Z (trunc q - 1) < q <= inject_Z (trunc q))%Q.
Proof.
  intros [n d] H. destruct (trunc_pos (- (n # d))) as [A B]. { unfold Qle, Qopp in *. cbn [Qnum Qden] in *. lia. }
  assert (E : trunc (- (n # d)) = - trunc (n # d)). { unfold trunc, Qopp. cbn [Qnum Qden]. rewrite Z.quot_opp_l by lia. reflexivity. }
  rewrite E in *. split; [lia|]. replace (- trunc (n # d) + 1) with (- (trunc (n # d) - 1)) in B by lia. rewrite !inject_Z_opp in B. lra.
Qed.
Lemma injZ : forall a b, a <= b -> (inject_Z a <= inject_Z b)%Q.
Proof. intros. now rewrite <- Zle_Qle. Qed.
Lemma injZ_lt : forall a b, (inject_Z a < inject_Z b)%Q -> a < b.
Proof. intros a b H. now rewrite <- Zlt_Qlt in H. Qed.
Lemma injS : forall a, (inject_Z (a + 1) == inject_Z a + 1)%Q.
Proof. intros a. now rewrite inject_Z_plus. Qed.
Lemma injP : forall a, (inject_Z (a - 1) == inject_Z a - 1)%Q.
Proof. intros a. unfold Z.sub. now rewrite inject_Z_plus. Qed.

Lemma half : forall a q, (negb (Qle_bool (1 # 2) (Qabs (inject_Z a - q))) = true <-> inject_Z a - (1 # 2) < q < inject_Z a + (1 # 2))%Q.
Proof.
  intros a q. rewrite negb_true_iff. split.
  - intros H. assert (K : (Qabs (inject_Z a - q) < 1 # 2)%Q) by (apply Qnot_le_lt; intros K; apply Qle_bool_iff in K; congruence). apply Qabs_Qlt_condition in K. lra.
  - intros H. assert (K : (Qabs (inject_Z a - q) < 1 # 2)%Q) by (apply Qabs_Qlt_condition; lra). destruct (Qle_bool _ _) eqn:E; [|reflexivity]. apply Qle_bool_iff in E. lra.
Qed.

(** The position on the axis in voxel widths. *)
Definition qpos (d : dim) (x : Q) : Q := ((x - d_lo d) / d_size d * inject_Z (d_num d))%Q.
Lemma num_pos : forall d, okd d -> (0 < inject_Z (d_num d))%Q.
Proof. intros d (_ & _ & H & _). change 0%Q with (inject_Z 0). now rewrite <- Zlt_Qlt. Qed.
Lemma width_pos : forall d, okd d -> (0 < width (axis_of d))%Q.
Proof. intros d H. pose proof (num_pos d H). destruct H as (H & _). unfold width, axis_of. cbn [a_lo a_hi a_n]. apply Qlt_shift_div_l; [assumption|lra]. Qed.
Lemma qpos_eq : forall d x, okd d -> (x == d_lo d + qpos d x * width (axis_of d))%Q.
Proof. intros d x H. pose proof (num_pos d H). destruct H as (H & E & _). unfold qpos, width, axis_of. rewrite E. cbn [a_lo a_hi a_n]. field. lra. Qed.
Lemma hi_eq : forall d, okd d -> (d_hi d == d_lo d + inject_Z (d_num d) * width (axis_of d))%Q.
Proof. intros d H. pose proof (num_pos d H). destruct H as (H & E & _). unfold width, axis_of. cbn [a_lo a_hi a_n]. field. lra. Qed.

Lemma lt_q : forall d x c, okd d -> (qpos d x < c <-> x < d_lo d + c * width (axis_of d))%Q.
Proof. intros d x c H. pose proof (width_pos d H) as W. rewrite (qpos_eq d x H) at 2. rewrite <- (Qmult_lt_r (qpos d x) c (width (axis_of d)) W). split; intros; lra. Qed.
Lemma le_q : forall d x c, okd d -> (c <= qpos d x <-> d_lo d + c * width (axis_of d) <= x)%Q.
Proof. intros d x c H. pose proof (width_pos d H) as W. rewrite (qpos_eq d x H) at 2. rewrite <- (Qmult_le_r c (qpos d x) (width (axis_of d)) W). split; intros; lra. Qed.
Lemma gt_q : forall d x c, okd d -> (c < qpos d x <-> d_lo d + c * width (axis_of d) < x)%Q.
Proof. intros d x c H. pose proof (width_pos d H) as W. rewrite (qpos_eq d x H) at 2. rewrite <- (Qmult_lt_r c (qpos d x) (width (axis_of d)) W). split; intros; lra. Qed.

Definition accq (n k : Z) (q : Q) : Prop :=
  0 <= k < n /\ (if k =? 0 then - (3 # 2) < q else inject_Z k <= q)%Q /\ (if k =? n - 1 then q < inject_Z n + (1 # 2) else q < inject_Z (k + 1))%Q.
Lemma accepted_q : forall d k x, okd d -> (accepted (axis_of d) k x <-> accq (d_num d) k (qpos d x)).
Proof.
  intros d k x H. unfold accepted, accq, axis_of. cbn [a_lo a_hi a_n]. fold (axis_of d). pose proof (hi_eq d H) as Hh.
  pose proof (gt_q d x (- (3 # 2)) H). pose proof (le_q d x (inject_Z k) H). pose proof (lt_q d x (inject_Z (d_num d) + (1 # 2)) H). pose proof (lt_q d x (inject_Z (k + 1)) H).
  assert (A : (d_lo d - (3 # 2) * width (axis_of d) < x <-> - (3 # 2) < qpos d x)%Q) by (split; intros; [apply H0; lra|apply H0 in H4; lra]).
  assert (B : (x < d_hi d + (1 # 2) * width (axis_of d) <-> qpos d x < inject_Z (d_num d) + (1 # 2))%Q) by (split; intros; [apply H2; lra|apply H2 in H4; lra]).
  destruct (k =? 0), (k =? d_num d - 1); tauto.
Qed.

Lemma voxel_dim_ok : forall d x k, okd d -> (voxel_dim d x = Some k <-> accepted (axis_of d) k x).
Proof.
  intros d x k H. rewrite (accepted_q d k x H). unfold voxel_dim. fold (qpos d x). set (q := qpos d x). assert (Hn : 0 < d_num d) by apply H. set (n := d_num d) in *. clearbody q n.
  unfold accq. destruct (Qlt_le_dec q 0) as [N|N].
  - destruct (trunc_neg q ltac:(lra)) as [T1 T2]. set (a := trunc q) in *. clearbody a. destruct (Z.ltb_spec a 0) as [L|L].
    + destruct ((a =? -1) && negb (Qle_bool (1 # 2) (Qabs (inject_Z a - q)))) eqn:E.
      * apply andb_true_iff in E as [E1 E2]. apply Z.eqb_eq in E1. subst a. apply half in E2. change (inject_Z (-1)) with (-(1))%Q in *. split.
        -- intros [= <-]. rewrite Z.eqb_refl. split; [lia|]. split; [lra|]. pose proof (injZ 1 n ltac:(lia)) as J. change (inject_Z 1) with 1%Q in J. change (inject_Z (0 + 1)) with 1%Q. destruct (0 =? n - 1); lra.
        -- intros (R & A & _). destruct (Z.eqb_spec k 0) as [->|K]; [reflexivity|]. pose proof (injZ 0 k ltac:(lia)) as J. change (inject_Z 0) with 0%Q in J. lra.
      * split; [discriminate|]. intros (R & A & _). exfalso. destruct (Z.eqb_spec k 0) as [->|K].
        -- assert (a = -1). { destruct (Z_lt_le_dec a (-1)) as [L2|]; [|lia]. pose proof (injZ a (-2) ltac:(lia)) as J. change (inject_Z (-2)) with (-(2))%Q in J. lra. } subst a.
           rewrite Z.eqb_refl in E. cbn [andb] in E. assert (E' : negb (Qle_bool (1 # 2) (Qabs (inject_Z (-1) - q))) = true); [|congruence]. apply half. change (inject_Z (-1)) with (-(1))%Q in *. lra.
        -- pose proof (injZ 0 k ltac:(lia)) as J. change (inject_Z 0) with 0%Q in J. lra.
    + assert (a = 0) by lia. subst a. change (inject_Z (0 - 1)) with (-(1))%Q in T2. destruct (Z.leb_spec n 0); [lia|]. split.
      * intros [= <-]. rewrite Z.eqb_refl. split; [lia|]. split; [lra|]. pose proof (injZ 1 n ltac:(lia)) as J. change (inject_Z 1) with 1%Q in J. change (inject_Z (0 + 1)) with 1%Q. destruct (0 =? n - 1); lra.
      * intros (R & A & _). destruct (Z.eqb_spec k 0) as [->|K]; [reflexivity|]. pose proof (injZ 0 k ltac:(lia)) as J. change (inject_Z 0) with 0%Q in J. lra.
  - destruct (trunc_pos q N) as [T1 T2]. set (a := trunc q) in *. clearbody a. destruct (Z.ltb_spec a 0) as [L|L]; [lia|]. destruct (Z.leb_spec n a) as [L2|L2].
    + assert (K1 : forall k', 0 <= k' < n -> (if k' =? n - 1 then q < inject_Z n + (1 # 2) else q < inject_Z (k' + 1))%Q -> k' = n - 1 /\ (q < inject_Z n + (1 # 2))%Q).
      { intros k' R B. destruct (Z.eqb_spec k' (n - 1)) as [->|K]; [now split|]. pose proof (injZ (k' + 1) a ltac:(lia)). lra. }
      destruct ((a =? n) && negb (Qle_bool (1 # 2) (Qabs (inject_Z a - q)))) eqn:E.
      * apply andb_true_iff in E as [E1 E2]. apply Z.eqb_eq in E1. subst a. apply half in E2. split.
        -- intros [= <-]. rewrite Z.eqb_refl. split; [lia|]. split; [|lra]. pose proof (injZ (n - 1) n ltac:(lia)). destruct (n - 1 =? 0); lra.
        -- intros (R & _ & B). destruct (K1 k R B) as [-> _]. reflexivity.
      * split; [discriminate|]. intros (R & _ & B). exfalso. destruct (K1 k R B) as [-> B']. assert (a = n). { destruct (Z_lt_le_dec n a) as [L3|]; [|lia]. pose proof (injZ (n + 1) a ltac:(lia)) as J. rewrite injS in J. lra. } subst a.
        rewrite Z.eqb_refl in E. cbn [andb] in E. assert (E' : negb (Qle_bool (1 # 2) (Qabs (inject_Z n - q))) = true); [|congruence]. apply half. lra.
    + split.
      * intros [= <-]. split; [lia|]. split; [destruct (a =? 0); lra|]. destruct (Z.eqb_spec a (n - 1)) as [->|K]; [|lra]. replace (n - 1 + 1) with n in T2 by lia. lra.
      * intros (R & A & B). f_equal. assert (A' : (inject_Z k <= q)%Q) by (destruct (Z.eqb_spec k 0) as [->|K]; [change (inject_Z 0) with 0%Q; lra|exact A]).
        assert (k < a + 1) by (apply injZ_lt; lra). destruct (Z.eqb_spec k (n - 1)) as [->|K]; [lia|]. assert (a < k + 1) by (apply injZ_lt; lra). lia.
Qed.

Lemma position_dim_ok : forall d x k, okd d -> (position_dim d x = Some k <-> 0 <= k < d_num d /\
  ((k = 0 /\ (d_lo d - width (axis_of d) < x < d_lo d + width (axis_of d))%Q) \/ (k <> 0 /\ part' (axis_of d) k x))).
Proof.
  intros d x k H. pose proof (lt_q d x (inject_Z (k + 1)) H). pose proof (le_q d x (inject_Z k) H). pose proof (lt_q d x 1 H). pose proof (gt_q d x (-(1)) H).
  unfold position_dim, part', axis_of. cbn [a_lo a_hi a_n]. fold (axis_of d). fold (qpos d x). set (q := qpos d x) in *. assert (Hn : 0 < d_num d) by apply H. set (n := d_num d) in *.
  assert (A : (d_lo d - width (axis_of d) < x <-> - (1) < q)%Q) by (split; intros K; [apply H3; lra|apply H3 in K; lra]).
  assert (B : (x < d_lo d + width (axis_of d) <-> q < 1)%Q) by (split; intros K; [apply H2; lra|apply H2 in K; lra]).
  rewrite A, B, <- H0, <- H1. clear A B H0 H1 H2 H3. clearbody q n. destruct (Qlt_le_dec q 0) as [N|N].
  - destruct (trunc_neg q ltac:(lra)) as [T1 T2]. set (a := trunc q) in *. clearbody a. destruct (Z.ltb_spec a 0) as [L|L].
    + split; [discriminate|]. intros (R & [(-> & K)|(K & K1)]); exfalso.
      * pose proof (injZ a (-1) ltac:(lia)) as J. change (inject_Z (-1)) with (-(1))%Q in J. lra.
      * pose proof (injZ 0 k ltac:(lia)) as J. change (inject_Z 0) with 0%Q in J. lra.
    + assert (a = 0) by lia. subst a. change (inject_Z (0 - 1)) with (-(1))%Q in T2. destruct (Z.leb_spec n 0); [lia|]. split.
      * intros [= <-]. split; [lia|]. left. split; [reflexivity|]. lra.
      * intros (R & [(-> & K)|(K & K1)]); [reflexivity|]. pose proof (injZ 0 k ltac:(lia)) as J. change (inject_Z 0) with 0%Q in J. lra.
  - destruct (trunc_pos q N) as [T1 T2]. set (a := trunc q) in *. clearbody a. destruct (Z.ltb_spec a 0) as [L|L]; [lia|]. destruct (Z.leb_spec n a) as [L2|L2].
    + split; [discriminate|]. intros (R & [(-> & K)|(K & K1)]); exfalso.
      * pose proof (injZ 1 a ltac:(lia)) as J. change (inject_Z 1) with 1%Q in J. lra.
      * pose proof (injZ (k + 1) a ltac:(lia)) as J. lra.
    + split.
      * intros [= <-]. split; [lia|]. destruct (Z.eq_dec a 0) as [->|K]; [left|right]; (split; [assumption || reflexivity|]); [change (inject_Z (0 + 1)) with 1%Q in T2|]; lra.
      * intros (R & [(-> & K)|(K & K1)]); f_equal.
        -- assert (a < 1) by (apply injZ_lt; change (inject_Z 1) with 1%Q; lra). lia.
        -- assert (a < k + 1) by (apply injZ_lt; lra). assert (k < a + 1) by (apply injZ_lt; lra). lia.
Qed.

Lemma each_some : forall A B C (f : A -> B -> option C) l m r, each f l m = Some r <-> all3 (fun a b c => f a b = Some c) l m r.
Proof.
  intros A B C f. induction l as [|a l IH]; intros [|b m] r; cbn [each].
  - split; [intros [= <-]; constructor|intros H; now inversion H].
  - split; [discriminate|intros H; inversion H].
  - split; [discriminate|intros H; inversion H].
  - split.
    + destruct (f a b) as [c|] eqn:E; [|discriminate]. destruct (each f l m) as [r'|] eqn:E'; [|discriminate]. intros [= <-]. constructor; [exact E|]. now apply IH.
    + intros H. inversion H; subst. rewrite H5. apply IH in H6. now rewrite H6.
Qed.
Lemma all3_impl : forall A B C (P Q : A -> B -> C -> Prop) (G : A -> Prop) l m r, (forall a b c, G a -> P a b c -> Q a b c) -> Forall G l -> all3 P l m r -> all3 Q l m r.
Proof. intros A B C P Q G l m r H HG HP. induction HP; [constructor|]. apply Forall_cons_iff in HG as [G1 G2]. constructor; [now apply H|now apply IHHP]. Qed.
Lemma all3_map : forall A A' B C (P : A' -> B -> C -> Prop) (f : A -> A') l m r, all3 P (map f l) m r <-> all3 (fun a => P (f a)) l m r.
Proof.
  intros A A' B C P f. induction l as [|a l IH]; intros m r; cbn [map]; split; intros H; inversion H; subst; constructor; try assumption; now apply IH.
Qed.

Lemma init_dim_ok : forall lo hi s d, init_dim lo hi s = Some d -> okd d /\ d_lo d = lo /\ d_hi d = hi /\ d_step d = s.
Proof.
  intros lo hi s d H. unfold init_dim in H. destruct (Qle_bool s 0) eqn:B1; [discriminate|]. destruct (Qle_bool hi lo) eqn:B2; [discriminate|].
  destruct (Z.leb_spec (trunc ((hi - lo) / s) + 1) 0) as [L|L]; [discriminate|]. injection H as <-. cbn [d_lo d_hi d_step].
  assert (S0 : (0 < s)%Q) by (apply Qnot_le_lt; intros K; apply Qle_bool_iff in K; congruence). assert (L0 : (lo < hi)%Q) by (apply Qnot_le_lt; intros K; apply Qle_bool_iff in K; congruence).
  split; [|split; [reflexivity|split; reflexivity]]. unfold okd, axis_of, width. cbn [d_lo d_hi d_num d_step d_size a_lo a_hi a_n]. split; [exact L0|]. split; [reflexivity|]. split; [exact L|]. split; [exact S0|].
  set (n := trunc ((hi - lo) / s)) in *. assert (P : (0 <= (hi - lo) / s)%Q) by (apply Qle_shift_div_l; [assumption|lra]). destruct (trunc_pos _ P) as [T1 T2]. fold n in T1, T2.
  assert (Hn' : (0 < inject_Z (n + 1))%Q) by (change 0%Q with (inject_Z 0); rewrite <- Zlt_Qlt; lia). apply Qlt_shift_div_r; [exact Hn'|].
  assert (E : (hi - lo == (hi - lo) / s * s)%Q) by (field; lra). rewrite E at 1. rewrite (Qmult_comm s). apply Qmult_lt_r; [assumption|lra].
Qed.
Lemma init_dims_ok : forall bs ss ds, init_dims bs ss = Some ds -> Forall okd ds /\ map (fun d => (d_lo d, d_hi d)) ds = bs /\ map d_step ds = firstn (length bs) ss.
Proof.
  induction bs as [|[lo hi] bs IH]; intros ss ds H; cbn [init_dims] in H.
  - destruct ss; injection H as <-; split; try constructor; split; reflexivity.
  - destruct ss as [|s ss]; [discriminate|]. destruct (init_dim lo hi s) as [d|] eqn:E; [|discriminate]. destruct (init_dims bs ss) as [ds'|] eqn:E'; [|discriminate]. injection H as <-.
    destruct (init_dim_ok _ _ _ _ E) as (O & <- & <- & <-). destruct (IH _ _ E') as (F & <- & M). split; [now constructor|]. cbn [map length firstn]. split; [reflexivity|]. f_equal. rewrite M. reflexivity.
Qed.
Lemma initialize_ok : forall bs t r ds, initialize bs t r = Some ds ->
  length ds = 6%nat /\ Forall okd ds /\ map (fun d => (d_lo d, d_hi d)) ds = bs /\ map d_step ds = [t; t; t; r; r; r].
Proof.
  intros bs t r ds H. unfold initialize in H. destruct (Nat.eqb_spec (length bs) 6) as [L|L]; [|discriminate]. destruct (init_dims_ok _ _ _ H) as (F & M & S). rewrite L in S.
  split; [rewrite <- (map_length (fun d => (d_lo d, d_hi d))), M; exact L|]. split; [exact F|]. split; [exact M|exact S].
Qed.

(** [getPoseFromVoxel] coordinatewise. *)
Lemma pose_loop_ok : forall ds v pre l, ds = pre ++ l -> (length ds <= 6)%nat -> Forall okd ds -> length v = length l ->
  exists x, pose_loop ds (length pre) v = Some x /\ all3 (fun d q y => y == d_lo d + q * width (axis_of d))%Q l v x.
Proof.
  intros ds v. induction v as [|q v IH]; intros pre l E L6 O L; destruct l as [|d l]; try discriminate.
  - exists []. split; [reflexivity|constructor].
  - cbn [pose_loop]. destruct (IH (pre ++ [d]) l) as (x & Hx & Ax); [now rewrite <- app_assoc|assumption|assumption|cbn in L; lia|]. rewrite app_length in Hx. cbn [length] in Hx. replace (length pre + 1)%nat with (S (length pre)) in Hx by lia.
    assert (N : nth_error ds (length pre) = Some d) by (rewrite E, nth_error_app2, Nat.sub_diag by lia; reflexivity).
    assert (B : (length pre < length ds)%nat) by (apply nth_error_Some; congruence). assert (Od : okd d) by (rewrite Forall_forall in O; apply O; now apply nth_error_In in N).
    unfold pose_coord, voxel_size. rewrite N. rewrite Nat2Z.id, N. destruct (Z.ltb_spec (Z.of_nat (length pre)) 0); [lia|]. destruct (Z.ltb_spec 6 (Z.of_nat (length pre))); [lia|]. cbn [orb].
    rewrite Hx. eexists. split; [reflexivity|]. constructor; [|exact Ax]. destruct Od as (_ & Sz & Hn & _). destruct (Z.leb_spec (d_num d) 0); [lia|]. rewrite Sz. reflexivity.
Qed.

Lemma inner_accepted : forall d k x, okd d -> 0 <= k < d_num d -> inner_part (axis_of d) k x -> accepted (axis_of d) k x.
Proof.
  intros d k x O R [A B]. pose proof (width_pos d O) as W. pose proof (hi_eq d O) as Hh. unfold accepted, axis_of in *. cbn [a_lo a_hi a_n] in *. fold (axis_of d) in *. split; [exact R|]. split.
  - destruct (Z.eqb_spec k 0) as [->|K]; [change (inject_Z 0) with 0%Q in A; lra|lra].
  - destruct (Z.eqb_spec k (d_num d - 1)) as [->|K]; [|exact B]. replace (d_num d - 1 + 1) with (d_num d) in B by lia. lra.
Qed.
