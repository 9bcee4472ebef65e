From Coq Require Import List ZArith Bool Lia FinFun.
From Verif Require Import WsDataModel WsDataSpec.
Import ListNotations.
Open Scope Z_scope.

(** Positions. *)
Lemma radix_bound : forall a A b B, 0 <= a < A -> 0 <= b < B -> 0 <= a * B + b < A * B.
Proof. intros. nia. Qed.
Lemma radix_inj : forall a a' b b' B, 0 <= b < B -> 0 <= b' < B -> a * B + b = a' * B + b' -> a = a' /\ b = b'.
Proof.
  intros a a' b b' B Hb Hb' E. assert (a = a').
  { 
    assert (K : (a * B + b) / B = (a' * B + b') / B) by now rewrite E. rewrite !Z.div_add_l, !Z.div_small in K by lia. lia. }
  subst. split; [reflexivity|lia].
Qed.

Lemma u32_small : forall z, 0 <= z < 2 ^ 32 -> u32 z = z.
Proof. intros. unfold u32. now apply Z.mod_small. Qed.

Lemma in_zseq : forall n x, In x (zseq n) <-> 0 <= x < n.
Proof.
  intros n x. unfold zseq. rewrite in_map_iff. split.
  - intros (k & <- & Hk). apply in_seq in Hk. lia.
  - intros H. exists (Z.to_nat x). split; [lia|]. apply in_seq. lia.
Qed.
Lemma nodup_zseq : forall n, NoDup (zseq n).
Proof. intros n. unfold zseq. apply Injective_map_NoDup; [|apply seq_NoDup]. intros a b H. lia. Qed.

Lemma nodup_prod : forall {A B} (l : list A) (k : list B), NoDup l -> NoDup k -> NoDup (list_prod l k).
Proof.
  intros A B l k Hl Hk. induction Hl as [|a l Ha Hl IH]; cbn; [constructor|].
  assert (G : forall (x : list (A * B)) y, NoDup x -> NoDup y -> (forall z, In z x -> ~ In z y) -> NoDup (x ++ y)).
  { clear. induction x as [|z x IH]; intros y Hx Hy HD; cbn; [assumption|]. inversion Hx; subst. constructor.
    - rewrite in_app_iff. intros [K|K]; [contradiction|]. apply (HD z); [now left|assumption].
    - apply IH; auto. intros u Hu. apply HD. now right. }
  apply G; [|assumption|].
  - apply Injective_map_NoDup; [|assumption]. intros b b' E. congruence.
  - intros [a' b] H1 H2. apply in_map_iff in H1 as (b' & E & _). injection E as -> ->. apply in_prod_iff in H2 as [H2 _]. contradiction.
Qed.

Lemma in_voxels : forall s v, In v (voxels s) <-> inside s v.
Proof.
  intros [[[[[s0 s1] s2] s3] s4] s5] [[[[[x0 x1] x2] x3] x4] x5]. unfold voxels, inside, six. rewrite !in_prod_iff, !in_zseq. tauto.
Qed.
Lemma nodup_voxels : forall s, NoDup (voxels s).
Proof. intros [[[[[s0 s1] s2] s3] s4] s5]. unfold voxels. repeat apply nodup_prod; apply nodup_zseq. Qed.
Lemma in_places : forall s p, In p (places s) <-> place_inside s p.
Proof. intros [[[[[s0 s1] s2] s3] s4] s5] [[x y] z]. unfold places, place_inside. rewrite !in_prod_iff, !in_zseq. tauto. Qed.
Lemma nodup_places : forall s, NoDup (places s).
Proof. intros [[[[[s0 s1] s2] s3] s4] s5]. unfold places. repeat apply nodup_prod; apply nodup_zseq. Qed.

Lemma six_eqb_iff : forall u v, six_eqb u v = true <-> u = v.
Proof.
  intros [[[[[a b] c] d] e] f] [[[[[a' b'] c'] d'] e'] f']. unfold six_eqb. rewrite !andb_true_iff, !Z.eqb_eq.
  split; [intros (((((-> & ->) & ->) & ->) & ->) & ->); reflexivity|]. intros E. injection E as -> -> -> -> -> ->. tauto.
Qed.
Lemma six_eqb_refl : forall v, six_eqb v v = true.
Proof. intros. now apply six_eqb_iff. Qed.
Lemma six_eqb_neq : forall u v, u <> v -> six_eqb u v = false.
Proof. intros u v H. destruct (six_eqb u v) eqn:E; [|reflexivity]. now apply six_eqb_iff in E. Qed.
Lemma six_dec : forall u v : six, {u = v} + {u <> v}.
Proof. intros. destruct (six_eqb u v) eqn:E; [left; now apply six_eqb_iff|right; intros ->; now rewrite six_eqb_refl in E]. Qed.

Section Sizes.
Variable s : six.
Hypothesis F : fits s.

Definition valid (i : Z) : Prop := 0 <= i < size_tr s.

Lemma flat_place : forall p, place_inside s p ->
  place_pos s p = (let '(x, y, z) := p in let '(_, s1, s2, _, _, _) := s in (x * s1 + y) * s2 + z) /\ valid (place_pos s p).
Proof.
  unfold valid. destruct s as [[[[[s0 s1] s2] s3] s4] s5]. destruct F as (P0 & P1 & P2 & P3 & P4 & P5 & Ftr & Frot).
  intros [[x y] z] (Hx & Hy & Hz). unfold place_pos, tr0, tr1, size_tr.
  pose proof (radix_bound x s0 y s1 Hx Hy) as B1. pose proof (radix_bound (x * s1 + y) (s0 * s1) z s2 B1 Hz) as B2.
  assert (s1 * s2 <= s0 * s1 * s2) by nia. rewrite (u32_small (s1 * s2)) by nia. rewrite (u32_small (s0 * s1 * s2)) by lia.
  replace (x * (s1 * s2) + y * s2 + z) with ((x * s1 + y) * s2 + z) by ring. rewrite u32_small by lia. split; [reflexivity|lia].
Qed.

Lemma place_inj : forall p q, place_inside s p -> place_inside s q -> place_pos s p = place_pos s q -> p = q.
Proof.
  intros p q Hp Hq E. destruct (flat_place p Hp) as [Ep _], (flat_place q Hq) as [Eq _]. rewrite Ep, Eq in E. clear Ep Eq.
  destruct s as [[[[[s0 s1] s2] s3] s4] s5], p as [[x y] z], q as [[x' y'] z']. destruct Hp as (? & ? & ?), Hq as (? & ? & ?).
  apply radix_inj in E as [E ->]; [|lia|lia]. apply radix_inj in E as [-> ->]; [reflexivity|lia|lia].
Qed.

(** Every valid position is that of a place. *)
Lemma place_surj : forall i, valid i -> exists p, place_inside s p /\ place_pos s p = i.
Proof.
  intros i Hi. unfold valid in Hi. assert (F' := F).
  assert (Es : exists s0 s1 s2 s3 s4 s5, s = (s0, s1, s2, s3, s4, s5)) by (destruct s as [[[[[s0 s1] s2] s3] s4] s5]; repeat eexists).
  destruct Es as (s0 & s1 & s2 & s3 & s4 & s5 & Es). rewrite Es in F', Hi. destruct F' as (P0 & P1 & P2 & P3 & P4 & P5 & Ftr & Frot). unfold size_tr in Hi. rewrite u32_small in Hi by nia.
  set (p := (i / s2 / s1, (i / s2) mod s1, i mod s2)).
  assert (I : place_inside s p).
  { rewrite Es. unfold p. split; [|split; apply Z.mod_pos_bound; lia]. split; [apply Z.div_pos; [apply Z.div_pos; lia|lia]|].
    apply Z.div_lt_upper_bound; [lia|]. apply Z.div_lt_upper_bound; [lia|]. nia. }
  exists p. split; [exact I|]. destruct (flat_place p I) as [E _]. rewrite E, Es. unfold p.
  replace (i / s2 / s1 * s1 + (i / s2) mod s1) with (i / s2) by (rewrite (Z.div_mod (i / s2) s1) at 1; lia). rewrite (Z.div_mod i s2) at 3; lia.
Qed.

Lemma inside_place : forall v, inside s v -> place_inside s (place v).
Proof. intros [[[[[x0 x1] x2] x3] x4] x5] H. destruct s as [[[[[s0 s1] s2] s3] s4] s5]. cbn in *. tauto. Qed.
Lemma pos_tr_place : forall v, pos_tr s v = place_pos s (place v).
Proof. intros [[[[[x0 x1] x2] x3] x4] x5]. reflexivity. Qed.

Definition flat_rot (v : six) : Z := let '(_, _, _, d, e, f) := v in let '(_, _, _, _, s4, s5) := s in (d * s4 + e) * s5 + f.
Lemma rot_bound : forall v, inside s v -> pos_rot s v = flat_rot v /\ 0 <= pos_rot s v < size_rot s.
Proof.
  unfold flat_rot. destruct s as [[[[[s0 s1] s2] s3] s4] s5]. destruct F as (P0 & P1 & P2 & P3 & P4 & P5 & Ftr & Frot).
  intros [[[[[x0 x1] x2] x3] x4] x5] (_ & _ & _ & Hx & Hy & Hz). unfold pos_rot, rot0, rot1, size_rot.
  pose proof (radix_bound x3 s3 x4 s4 Hx Hy) as B1. pose proof (radix_bound (x3 * s4 + x4) (s3 * s4) x5 s5 B1 Hz) as B2.
  assert (s4 * s5 <= s3 * s4 * s5) by nia. rewrite (u32_small (s4 * s5)) by nia. rewrite (u32_small (s3 * s4 * s5)) by lia.
  replace (x3 * (s4 * s5) + x4 * s5 + x5) with ((x3 * s4 + x4) * s5 + x5) by ring. rewrite u32_small by lia. split; [reflexivity|lia].
Qed.

Lemma pos_inj : forall u v, inside s u -> inside s v -> pos_tr s u = pos_tr s v -> pos_rot s u = pos_rot s v -> u = v.
Proof.
  intros u v Hu Hv E1 E2. rewrite !pos_tr_place in E1. apply place_inj in E1; [|now apply inside_place|now apply inside_place].
  destruct (rot_bound u Hu) as [Eu _], (rot_bound v Hv) as [Ev _]. rewrite Eu, Ev in E2. clear Eu Ev. unfold flat_rot in E2.
  destruct s as [[[[[s0 s1] s2] s3] s4] s5], u as [[[[[a b] c] d] e] f], v as [[[[[a' b'] c'] d'] e'] f'].
  cbn [place] in E1. injection E1 as -> -> ->. destruct Hu as (_ & _ & _ & ? & ? & ?), Hv as (_ & _ & _ & ? & ? & ?).
  apply radix_inj in E2 as [E2 ->]; [|lia|lia]. apply radix_inj in E2 as [-> ->]; [reflexivity|lia|lia].
Qed.

(** The invariant: the blocks of [w] are live and not shared. *)
Record owned (h : heap) (w : wdata) : Prop := Owned {
  o_sizes : w_sizes w = s;
  o_sane : sane h;
  o_live : forall i p, valid i -> w_data w i = Some p -> h_block h p <> None;
  o_inj : forall i j p, valid i -> valid j -> w_data w i = Some p -> w_data w j = Some p -> i = j }.

Definition cell (h : heap) (w : wdata) (i j : Z) : Z :=
  match w_data w i with None => 0 | Some p => match h_block h p with Some b => b j | None => 0 end end.
Definition val (h : heap) (w : wdata) (v : six) : Z := cell h w (pos_tr s v) (pos_rot s v).

Definition frame (h : heap) (w : wdata) (h' : heap) (w' : wdata) : Prop :=
  (h_next h <= h_next h')%nat /\
  (forall p, (p < h_next h)%nat -> (forall i, valid i -> w_data w i <> Some p) ->
    h_block h' p = h_block h p /\ forall i, valid i -> w_data w' i <> Some p) /\
  (forall p, h_block h' p <> None -> (forall i, valid i -> w_data w' i <> Some p) ->
    h_block h p <> None /\ forall i, valid i -> w_data w i <> Some p).
Lemma frame_refl : forall h w, frame h w h w.
Proof. intros. split; [auto|]. split; auto. Qed.
Lemma frame_trans : forall h w h1 w1 h2 w2, frame h w h1 w1 -> frame h1 w1 h2 w2 -> frame h w h2 w2.
Proof.
  intros h w h1 w1 h2 w2 [L1 [F1 G1]] [L2 [F2 G2]]. split; [lia|]. split.
  - intros p Hp N. destruct (F1 p Hp N) as [E1 N1]. destruct (F2 p ltac:(lia) N1) as [E2 N2]. split; [congruence|assumption].
  - intros p Hp N. destruct (G2 p Hp N) as [E1 N1]. exact (G1 p E1 N1).
Qed.
Lemma frame_stats : forall h w h' w' mx f, frame h w h' w' -> frame h w h' (with_stats w' mx f).
Proof. intros. exact H. Qed.

Lemma ptr_valid : forall h w i, owned h w -> valid i -> ptr w i = Some (w_data w i).
Proof.
  intros h w i O H. unfold ptr. rewrite (o_sizes _ _ O). unfold valid in H.
  destruct (Z.leb_spec 0 i), (Z.ltb_spec i (size_tr s)); try lia. reflexivity.
Qed.
Lemma tr_valid : forall v, inside s v -> valid (pos_tr s v).
Proof. intros v H. rewrite pos_tr_place. apply flat_place, inside_place, H. Qed.

Lemma peek_ok : forall h w i p j, owned h w -> valid i -> w_data w i = Some p -> 0 <= j < size_rot s -> peek h w p j = Some (cell h w i j).
Proof.
  intros h w i p j O Hi E Hj. unfold peek, cell. rewrite (o_sizes _ _ O), E. destruct (Z.leb_spec 0 j), (Z.ltb_spec j (size_rot s)); try lia. cbn [andb].
  destruct (h_block h p) eqn:Eb; [reflexivity|]. exfalso. exact (o_live _ _ O i p Hi E Eb).
Qed.

Lemma get_val : forall h w v, owned h w -> inside s v -> get h w v = Some (val h w v).
Proof.
  intros h w v O H. unfold get, val. rewrite (o_sizes _ _ O), (ptr_valid h w _ O (tr_valid v H)).
  destruct (w_data w (pos_tr s v)) as [p|] eqn:E.
  - apply peek_ok; auto; [now apply tr_valid|now apply rot_bound].
  - unfold cell. now rewrite E.
Qed.

Lemma reads_val : forall h w m, owned h w -> reads h w m -> forall v, inside s v -> val h w v = m v.
Proof. intros h w m O R v H. assert (K := R v). rewrite (o_sizes _ _ O) in K. specialize (K H). rewrite (get_val h w v O H) in K. congruence. Qed.

Lemma ensure_ok : forall h w p, owned h w -> place_inside s p -> exists h' w' q, ensure h w p = Some (h', w') /\ owned h' w' /\
  (forall i j, valid i -> cell h' w' i j = cell h w i j) /\ w_data w' (place_pos s p) = Some q /\ frame h w h' w' /\
  w_min w' = w_min w /\ w_max w' = w_max w /\ w_filled w' = w_filled w /\ w_adjust w' = w_adjust w.
Proof.
  intros h w p O H. destruct (flat_place p H) as [_ V]. unfold ensure. rewrite (o_sizes _ _ O), (ptr_valid h w _ O V).
  destruct (w_data w (place_pos s p)) as [q|] eqn:E.
  - exists h, w, q. split; [reflexivity|]. split; [assumption|]. split; [reflexivity|]. split; [exact E|]. split; [apply frame_refl|auto].
  - unfold alloc. set (q := h_next h). set (i0 := place_pos s p) in *.
    assert (FR : forall i r, valid i -> w_data w i = Some r -> (r < q)%nat).
    { intros i r Hi Er. apply (o_sane _ _ O). exact (o_live _ _ O i r Hi Er). }
    eexists _, _, q. split; [reflexivity|]. split; [|split; [|split; [|split]]].
    + constructor; cbn [w_sizes set_ptr w_data h_block].
      * exact (o_sizes _ _ O).
      * intros r Hr. cbn [h_block h_next] in *. destruct (Nat.eqb_spec r q); [unfold q in *; lia|]. pose proof (o_sane _ _ O r Hr). lia.
      * intros i r Hi Er. destruct (Z.eqb_spec i i0) as [->|N].
        -- injection Er as <-. rewrite Nat.eqb_refl. discriminate.
        -- pose proof (FR i r Hi Er). destruct (Nat.eqb_spec r q); [discriminate|]. exact (o_live _ _ O i r Hi Er).
      * intros i j r Hi Hj Ei Ej. destruct (Z.eqb_spec i i0), (Z.eqb_spec j i0); subst; auto.
        -- injection Ei as <-. pose proof (FR j q Hj Ej). lia.
        -- injection Ej as <-. pose proof (FR i q Hi Ei). lia.
        -- exact (o_inj _ _ O i j r Hi Hj Ei Ej).
    + intros i j Hi. unfold cell. cbn [w_data set_ptr h_block]. destruct (Z.eqb_spec i i0) as [->|N].
      * rewrite Nat.eqb_refl, E. reflexivity.
      * destruct (w_data w i) as [r|] eqn:Er; [|reflexivity]. pose proof (FR i r Hi Er). destruct (Nat.eqb_spec r q); [lia|reflexivity].
    + cbn [w_data set_ptr]. now rewrite Z.eqb_refl.
    + split; [cbn; lia|]. split.
      * intros r Hr N. cbn [h_block w_data set_ptr]. destruct (Nat.eqb_spec r q); [unfold q in *; lia|]. split; [reflexivity|].
        intros i Hi. destruct (Z.eqb_spec i i0); [intros K; injection K as <-; unfold q in *; lia|now apply N].
      * intros r Hr N. cbn [h_block w_data set_ptr] in *. destruct (Nat.eqb_spec r q) as [Er|].
        -- exfalso. apply (N i0 V). now rewrite Z.eqb_refl, Er.
        -- split; [exact Hr|]. intros i Hi Ei. apply (N i Hi). destruct (Z.eqb_spec i i0) as [Ei0|]; [congruence|exact Ei].
    + cbn. auto.
Qed.

Lemma poke_ok : forall h w i p j x, owned h w -> valid i -> w_data w i = Some p -> 0 <= j < size_rot s ->
  exists h', poke h w p j x = Some h' /\ owned h' w /\ h_next h' = h_next h /\ frame h w h' w /\
    (forall i' j', valid i' -> cell h' w i' j' = if (i' =? i) && (j' =? j) then x else cell h w i' j').
Proof.
  intros h w i p j x O Hi E Hj. unfold poke. rewrite (o_sizes _ _ O). destruct (Z.leb_spec 0 j), (Z.ltb_spec j (size_rot s)); try lia. cbn [andb].
  destruct (h_block h p) as [b|] eqn:Eb; [|exfalso; exact (o_live _ _ O i p Hi E Eb)].
  eexists. split; [reflexivity|]. split; [|split; [reflexivity|split]].
  - constructor; [exact (o_sizes _ _ O)|..].
    + intros r Hr. cbn [write_block h_block h_next] in *. destruct (Nat.eqb_spec r p) as [Er|]; apply (o_sane _ _ O); congruence.
    + intros i' r Hi' Er. cbn [write_block h_block]. destruct (Nat.eqb_spec r p); [discriminate|]. exact (o_live _ _ O i' r Hi' Er).
    + exact (o_inj _ _ O).
  - split; [cbn; lia|]. split; intros r Hr N; cbn [write_block h_block] in *; destruct (Nat.eqb_spec r p) as [Er|]; [exfalso; subst r; exact (N i Hi E)|auto|exfalso; subst r; exact (N i Hi E)|auto].
  - intros i' j' Hi'. unfold cell. cbn [write_block h_block]. destruct (w_data w i') as [r|] eqn:Er.
    + destruct (Nat.eqb_spec r p) as [->|Nr].
      * assert (i' = i) by exact (o_inj _ _ O i' i p Hi' Hi Er E). subst i'. rewrite Z.eqb_refl. cbn [andb]. rewrite Eb. reflexivity.
      * destruct (Z.eqb_spec i' i) as [->|]; [congruence|reflexivity].
    + destruct (Z.eqb_spec i' i) as [->|]; [congruence|reflexivity].
Qed.

Definition upd (m : six -> Z) (v : six) (x : Z) (u : six) : Z := if six_eqb u v then x else m u.
Lemma upd_same : forall m v x, upd m v x v = x.
Proof. intros. unfold upd. now rewrite six_eqb_refl. Qed.
Lemma upd_other : forall m v x u, u <> v -> upd m v x u = m u.
Proof. intros. unfold upd. now rewrite six_eqb_neq. Qed.

Lemma reads_intro : forall h w m, owned h w -> (forall v, inside s v -> val h w v = m v) -> reads h w m.
Proof. intros h w m O H v Hv. rewrite (o_sizes _ _ O) in Hv. rewrite (get_val h w v O Hv). f_equal. auto. Qed.

Lemma owned_stats : forall h w mx f, owned h w -> owned h (with_stats w mx f).
Proof. intros h w mx f O. destruct O. constructor; auto. Qed.

Lemma val_update : forall h h' w w' v x, inside s v -> (forall i' j', valid i' -> cell h' w' i' j' = if (i' =? pos_tr s v) && (j' =? pos_rot s v) then x else cell h w i' j') ->
  forall u, inside s u -> val h' w' u = upd (val h w) v x u.
Proof.
  intros h h' w w' v x Hv H u Hu. unfold val at 1. rewrite H by now apply tr_valid. unfold upd.
  destruct (six_eqb u v) eqn:E.
  - apply six_eqb_iff in E. subst. now rewrite !Z.eqb_refl.
  - destruct (Z.eqb_spec (pos_tr s u) (pos_tr s v)) as [E1|]; [|reflexivity]. destruct (Z.eqb_spec (pos_rot s u) (pos_rot s v)) as [E2|]; [|reflexivity].
    rewrite (pos_inj u v Hu Hv E1 E2), six_eqb_refl in E. discriminate.
Qed.

(** [st]: the state and its map. *)
Definition state_ok (h : heap) (w : wdata) (m : six -> Z) : Prop := owned h w /\ reads h w m.

Lemma set_datum_ok : forall h w m v x, state_ok h w m -> inside s v ->
  exists h' w', set_datum h w v x = Some (h', w') /\ state_ok h' w' (upd m v x) /\ frame h w h' w' /\
    w_min w' = w_min w /\ w_adjust w' = w_adjust w /\
    w_max w' = Z.max (w_max w) x /\ w_filled w' = (if m v =? 0 then u32 (w_filled w + 1) else w_filled w).
Proof.
  intros h w m v x [O R] Hv. unfold set_datum.
  destruct (ensure_ok h w (place v) O (inside_place v Hv)) as (h1 & w1 & q & -> & O1 & C1 & D1 & F1 & M1 & X1 & L1 & A1).
  rewrite (o_sizes _ _ O1), (ptr_valid _ _ _ O1 (tr_valid v Hv)). rewrite <- pos_tr_place in D1. rewrite D1.
  destruct (rot_bound v Hv) as [_ B]. rewrite (peek_ok h1 w1 (pos_tr s v) q _ O1 (tr_valid v Hv) D1 B).
  destruct (poke_ok h1 w1 (pos_tr s v) q (pos_rot s v) x O1 (tr_valid v Hv) D1 B) as (h2 & -> & O2 & _ & F2 & C2).
  assert (EV : cell h1 w1 (pos_tr s v) (pos_rot s v) = m v).
  { rewrite C1 by now apply tr_valid. exact (reads_val h w m O R v Hv). }
  rewrite EV. eexists _, _. split; [reflexivity|]. split; [|split; [|split; [|split; [|split]]]].
  - split; [now apply owned_stats|]. apply reads_intro; [now apply owned_stats|]. intros u Hu.
    change (val h2 (with_stats w1 (if w_max w1 <=? x then x else w_max w1) (if m v =? 0 then u32 (w_filled w1 + 1) else w_filled w1)) u) with (val h2 w1 u).
    rewrite (val_update h1 h2 w1 w1 v x Hv C2 u Hu). unfold upd. destruct (six_eqb u v); [reflexivity|].
    unfold val. rewrite C1 by now apply tr_valid. exact (reads_val h w m O R u Hu).
  - apply frame_stats. eapply frame_trans; eassumption.
  - exact M1.
  - exact A1.
  - cbn. rewrite X1. destruct (Z.leb_spec (w_max w) x); lia.
  - cbn. now rewrite L1.
Qed.

Lemma touch_ok : forall f h w m v, f 0 = 0 -> state_ok h w m -> inside s v ->
  exists h', touch f w (Some h) v = Some h' /\ state_ok h' w (upd m v (f (m v))) /\ frame h w h' w.
Proof.
  intros f h w m v F0 [O R] Hv. unfold touch. rewrite (o_sizes _ _ O), (ptr_valid _ _ _ O (tr_valid v Hv)).
  destruct (w_data w (pos_tr s v)) as [p|] eqn:E.
  - destruct (rot_bound v Hv) as [_ B]. rewrite (peek_ok h w (pos_tr s v) p _ O (tr_valid v Hv) E B).
    assert (EV : cell h w (pos_tr s v) (pos_rot s v) = m v) by exact (reads_val h w m O R v Hv). rewrite EV.
    destruct (poke_ok h w (pos_tr s v) p (pos_rot s v) (f (m v)) O (tr_valid v Hv) E B) as (h2 & -> & O2 & _ & F2 & C2).
    exists h2. split; [reflexivity|]. split; [|assumption]. split; [assumption|]. apply reads_intro; [assumption|]. intros u Hu.
    rewrite (val_update h h2 w w v _ Hv C2 u Hu). unfold upd. destruct (six_eqb u v); [reflexivity|]. exact (reads_val h w m O R u Hu).
  - exists h. split; [reflexivity|]. split; [|apply frame_refl]. split; [assumption|]. apply reads_intro; [assumption|]. intros u Hu. unfold upd.
    destruct (six_eqb u v) eqn:K; [|exact (reads_val h w m O R u Hu)]. apply six_eqb_iff in K. subst u.
    assert (Z0 : m v = 0). { rewrite <- (reads_val h w m O R v Hv). unfold val, cell. now rewrite E. }
    rewrite Z0, F0. unfold val, cell. now rewrite E.
Qed.

Lemma state_ext : forall h w m m', state_ok h w m -> (forall v, inside s v -> m' v = m v) -> state_ok h w m'.
Proof. intros h w m m' [O R] H. split; [assumption|]. intros v Hv. rewrite (R v Hv). f_equal. symmetry. apply H. now rewrite <- (o_sizes _ _ O). Qed.

Lemma touch_fold_ok : forall f w l h m, f 0 = 0 -> NoDup l -> (forall v, In v l -> inside s v) -> state_ok h w m ->
  exists h' m', fold_left (touch f w) l (Some h) = Some h' /\ state_ok h' w m' /\ frame h w h' w /\
    (forall u, In u l -> m' u = f (m u)) /\ (forall u, ~ In u l -> m' u = m u).
Proof.
  induction l as [|v l IH]; intros h m F0 ND HI S; cbn [fold_left].
  - exists h, m. split; [reflexivity|]. split; [assumption|]. split; [apply frame_refl|]. split; [intros u []|auto].
  - inversion ND as [|? ? Nv ND']. subst. destruct (touch_ok f h w m v F0 S (HI v (or_introl eq_refl))) as (h1 & -> & S1 & F1).
    destruct (IH h1 _ F0 ND' (fun u H => HI u (or_intror H)) S1) as (h2 & m2 & -> & S2 & F2 & I2 & N2).
    exists h2, m2. split; [reflexivity|]. split; [assumption|]. split; [eapply frame_trans; eassumption|]. split.
    + intros u [->|Hu].
      * rewrite N2 by assumption. now rewrite upd_same.
      * rewrite I2 by assumption. rewrite upd_other; [reflexivity|]. intros ->. contradiction.
    + intros u Hu. rewrite N2 by (intros K; apply Hu; now right). apply upd_other. intros ->. apply Hu. now left.
Qed.

Lemma touch_all_ok : forall f h w m, f 0 = 0 -> state_ok h w m ->
  exists h', fold_left (touch f w) (voxels s) (Some h) = Some h' /\ state_ok h' w (fun u => f (m u)) /\ frame h w h' w.
Proof.
  intros f h w m F0 S. destruct (touch_fold_ok f w (voxels s) h m F0 (nodup_voxels s) (fun v H => proj1 (in_voxels s v) H) S) as (h' & m' & E & S' & FR & I & _).
  exists h'. split; [exact E|]. split; [|exact FR]. apply state_ext with m'; [assumption|]. intros v Hv. symmetry. apply I. now apply in_voxels.
Qed.

Lemma halve_spec : forall mn e, halve mn e = if e <=? mn then e else Z.max mn (e / 2).
Proof. intros mn e. unfold halve. destruct (Z.ltb_spec mn e), (Z.leb_spec e mn); try lia. destruct (Z.ltb_spec (e / 2) mn); lia. Qed.

Lemma bisect_ok : forall h w m, 0 <= w_min w -> state_ok h w m ->
  exists h', bisect h w = Some (h', with_stats w (halve (w_min w) (w_max w)) (w_filled w)) /\
    state_ok h' (with_stats w (halve (w_min w) (w_max w)) (w_filled w)) (fun u => halve (w_min w) (m u)) /\
    frame h w h' (with_stats w (halve (w_min w) (w_max w)) (w_filled w)).
Proof.
  intros h w m Hm S. unfold bisect. rewrite (o_sizes _ _ (proj1 S)).
  destruct (touch_all_ok (halve (w_min w)) h w m) as (h' & -> & S' & FR); auto.
  - unfold halve. destruct (Z.ltb_spec (w_min w) 0); lia.
  - exists h'. split; [reflexivity|]. split; [|exact FR]. destruct S' as [O R]. split; [now apply owned_stats|exact R].
Qed.

Lemma binarize_ok : forall h w m, 0 <= w_min w -> state_ok h w m ->
  exists h', binarize h w = Some (h', with_stats w (w_min w) (w_filled w)) /\
    state_ok h' (with_stats w (w_min w) (w_filled w)) (fun u => Z.min (m u) (w_min w)) /\
    frame h w h' (with_stats w (w_min w) (w_filled w)).
Proof.
  intros h w m Hm S. unfold binarize. rewrite (o_sizes _ _ (proj1 S)).
  destruct (touch_all_ok (fun e => if w_min w <? e then w_min w else e) h w m) as (h' & -> & S' & FR); auto.
  - destruct (Z.ltb_spec (w_min w) 0); lia.
  - exists h'. split; [reflexivity|]. split; [|exact FR]. destruct S' as [O R]. split; [now apply owned_stats|].
    intros v Hv. transitivity (get h' w v); [reflexivity|]. rewrite (R v Hv). f_equal. destruct (Z.ltb_spec (w_min w) (m v)); lia.
Qed.

Lemma increase_ok : forall h w m v, 0 <= w_min w -> state_ok h w m -> inside s v ->
  exists h' w' m', increase h w v = Some (h', w') /\ state_ok h' w' m' /\ frame h w h' w' /\
    w_min w' = w_min w /\ w_adjust w' = w_adjust w /\
    w_filled w' = (if m v =? 0 then u32 (w_filled w + 1) else w_filled w) /\
    ((m v < 255 /\ (forall u, m' u = upd m v (m v + 1) u) /\ w_max w' = Z.max (w_max w) (m v + 1)) \/
     (255 <= m v /\ w_adjust w = true /\ (forall u, m' u = halve (w_min w) (m u)) /\ w_max w' = halve (w_min w) (w_max w)) \/
     (255 <= m v /\ w_adjust w = false /\ (forall u, m' u = m u) /\ w_max w' = w_max w)).
Proof.
  intros h w m v Hm [O R] Hv. unfold increase.
  destruct (ensure_ok h w (place v) O (inside_place v Hv)) as (h1 & w1 & q & -> & O1 & C1 & D1 & F1 & M1 & X1 & L1 & A1).
  rewrite (o_sizes _ _ O1), (ptr_valid _ _ _ O1 (tr_valid v Hv)). rewrite <- pos_tr_place in D1. rewrite D1.
  destruct (rot_bound v Hv) as [_ B]. rewrite (peek_ok h1 w1 (pos_tr s v) q _ O1 (tr_valid v Hv) D1 B).
  assert (EV : cell h1 w1 (pos_tr s v) (pos_rot s v) = m v).
  { rewrite C1 by now apply tr_valid. exact (reads_val h w m O R v Hv). }
  rewrite EV. set (w2 := with_stats w1 (w_max w1) (if m v =? 0 then u32 (w_filled w1 + 1) else w_filled w1)).
  assert (O2 : owned h1 w2) by now apply owned_stats.
  assert (R1 : reads h1 w2 m). { apply reads_intro; [assumption|]. intros u Hu. change (val h1 w2 u) with (val h1 w1 u). unfold val. rewrite C1 by now apply tr_valid. exact (reads_val h w m O R u Hu). }
  change (w_sizes w2) with (w_sizes w1). rewrite (o_sizes _ _ O1).
  destruct (Z.ltb_spec (m v) 255) as [L|L].
  - destruct (poke_ok h1 w2 (pos_tr s v) q (pos_rot s v) (m v + 1) O2 (tr_valid v Hv) D1 B) as (h2 & -> & O3 & _ & F3 & C3).
    eexists _, _, (upd m v (m v + 1)). split; [reflexivity|]. split; [|split; [|split; [|split; [|split]]]].
    + split; [now apply owned_stats|]. apply reads_intro; [now apply owned_stats|]. intros u Hu.
      change (val h2 (with_stats w2 (if w_max w2 <=? m v then m v + 1 else w_max w2) (w_filled w2)) u) with (val h2 w2 u).
      rewrite (val_update h1 h2 w2 w2 v _ Hv C3 u Hu). unfold upd. destruct (six_eqb u v); [reflexivity|]. exact (reads_val h1 w2 m O2 R1 u Hu).
    + apply frame_stats. eapply frame_trans; [exact F1|exact F3].
    + exact M1.
    + exact A1.
    + cbn. now rewrite L1.
    + left. split; [lia|]. split; [reflexivity|]. cbn. rewrite X1. destruct (Z.leb_spec (w_max w) (m v)); lia.
  - change (w_adjust w2) with (w_adjust w1). rewrite A1. destruct (w_adjust w) eqn:Ea.
    + destruct (bisect_ok h1 w2 m) as (h2 & E2 & S2 & F2); [cbn; lia|now split|]. rewrite E2.
      eexists _, _, (fun u => halve (w_min w2) (m u)). split; [reflexivity|]. split; [exact S2|]. split; [eapply frame_trans; [exact F1|exact F2]|].
      split; [exact M1|]. split; [exact A1|]. split; [cbn; now rewrite L1|]. right; left. split; [lia|]. split; [reflexivity|].
      split; [intros; cbn; now rewrite M1|]. cbn. now rewrite M1, X1.
    + exists h1, w2, m. split; [reflexivity|]. split; [now split|]. split; [exact F1|]. split; [exact M1|]. split; [exact A1|].
      split; [cbn; now rewrite L1|]. right; right. split; [lia|]. split; [reflexivity|]. split; [reflexivity|]. exact X1.
Qed.

(** Neighbours. *)
Lemma in_range : forall lo hi x, In x (range lo hi) <-> lo <= x <= hi.
Proof.
  intros lo hi x. unfold range. rewrite in_map_iff. split.
  - intros (k & <- & Hk). apply in_seq in Hk. lia.
  - intros H. exists (Z.to_nat (x - lo)). split; [lia|]. apply in_seq. lia.
Qed.

Lemma bounds_ok : forall x nb n y, 0 <= x < n -> 0 <= nb -> n + nb < 2 ^ 31 ->
  (lower_bound x nb <= y <= upper_bound x nb n <-> 0 <= y < n /\ Z.abs (x - y) <= nb).
Proof.
  intros x nb n y Hx Hn HL. unfold lower_bound, upper_bound.
  assert (TI : forall z, 0 <= z < 2 ^ 31 -> to_int z = z).
  { intros z Hz. unfold to_int. rewrite u32_small by lia. destruct (Z.ltb_spec z (2 ^ 31)); lia. }
  assert (TN : forall z, - 2 ^ 31 <= z < 0 -> to_int z = z).
  { intros z Hz. unfold to_int, u32. replace (z mod 2 ^ 32) with (z + 2 ^ 32).
    - destruct (Z.ltb_spec (z + 2 ^ 32) (2 ^ 31)); lia.
    - symmetry. rewrite <- (Z.mod_add z 1) by lia. apply Z.mod_small. lia. }
  rewrite (TI (x + nb)), (TI n), (TI (n - 1)) by lia.
  assert (D : to_int (x - nb) = x - nb). { destruct (Z_lt_le_dec (x - nb) 0); [apply TN; lia|apply TI; lia]. }
  rewrite D. destruct (Z.ltb_spec (x - nb) 0), (Z.leb_spec n (x + nb)); lia.
Qed.

Lemma in_neighbourhood : forall v nb u, allowed s (CNeighbours v 0 nb) -> (In u (neighbourhood s v nb) <-> inside s u /\ near v u nb).
Proof.
  intros v nb u (Hv & _ & Hn & HL). destruct s as [[[[[s0 s1] s2] s3] s4] s5], v as [[[[[x0 x1] x2] x3] x4] x5], u as [[[[[y0 y1] y2] y3] y4] y5].
  unfold neighbourhood, inside, near, six in *. rewrite !in_prod_iff, !in_range, !bounds_ok by lia. tauto.
Qed.

Section Raise.
Variable x : Z.
(** What the loop preserves. *)
Variable P : heap -> wdata -> (six -> Z) -> Prop.
Hypothesis Pstep : forall h w m v h' w', state_ok h w m -> inside s v -> m v < x -> set_datum h w v x = Some (h', w') -> P h w m -> P h' w' (upd m v x).

Lemma raise_fold_ok : forall l h w m, (forall v, In v l -> inside s v) -> state_ok h w m -> P h w m ->
  exists h' w' m', fold_left (raise_to x) l (Some (h, w)) = Some (h', w') /\ state_ok h' w' m' /\ frame h w h' w' /\
    w_min w' = w_min w /\ w_adjust w' = w_adjust w /\ P h' w' m' /\
    (forall u, In u l -> m' u = Z.max (m u) x) /\ (forall u, ~ In u l -> m' u = m u).
Proof.
  induction l as [|v l IH]; intros h w m HI S HP; cbn [fold_left].
  - exists h, w, m. split; [reflexivity|]. split; [assumption|]. split; [apply frame_refl|]. split; [reflexivity|]. split; [reflexivity|]. split; [assumption|].
    split; [intros u []|auto].
  - assert (Hv : inside s v) by (apply HI; now left). cbn [raise_to]. assert (S' := S). destruct S' as [O R].
    assert (E : get h w v = Some (m v)) by (apply R; now rewrite (o_sizes _ _ O)). rewrite E.
    destruct (Z.ltb_spec (m v) x) as [L|L].
    + destruct (set_datum_ok h w m v x S Hv) as (h1 & w1 & E1 & S1 & F1 & M1 & A1 & _ & _). rewrite E1.
      assert (P1 := Pstep h w m v h1 w1 S Hv L E1 HP).
      destruct (IH h1 w1 _ (fun u H => HI u (or_intror H)) S1 P1) as (h2 & w2 & m2 & -> & S2 & F2 & M2 & A2 & P2 & I2 & N2).
      exists h2, w2, m2. split; [reflexivity|]. split; [assumption|]. split; [eapply frame_trans; eassumption|]. split; [congruence|]. split; [congruence|]. split; [assumption|].
      split.
      * intros u Hu. destruct (six_dec u v) as [->|Nu].
        -- destruct (in_dec six_dec v l) as [K|K]; [rewrite I2 by assumption|rewrite N2 by assumption]; rewrite upd_same; lia.
        -- destruct Hu as [->|Hu]; [contradiction|]. rewrite I2 by assumption. now rewrite upd_other.
      * intros u Hu. rewrite N2 by (intros K; apply Hu; now right). apply upd_other. intros ->. apply Hu. now left.
    + destruct (IH h w m (fun u H => HI u (or_intror H)) S HP) as (h2 & w2 & m2 & -> & S2 & F2 & M2 & A2 & P2 & I2 & N2).
      exists h2, w2, m2. split; [reflexivity|]. split; [assumption|]. split; [assumption|]. split; [assumption|]. split; [assumption|]. split; [assumption|]. split.
      * intros u Hu. destruct (in_dec six_dec u l) as [K|K]; [now apply I2|]. rewrite N2 by assumption. destruct Hu as [<-|Hu]; [lia|contradiction].
      * intros u Hu. apply N2. intros K. apply Hu. now right.
Qed.
End Raise.

(** Clear, destroy, clone. *)
Lemma delete_ok : forall h w i p, owned h w -> valid i -> w_data w i = Some p ->
  exists h', delete h (Some p) = Some h' /\ h_next h' = h_next h /\ h_block h' p = None /\ (forall q, q <> p -> h_block h' q = h_block h q).
Proof.
  intros h w i p O Hi E. unfold delete. destruct (h_block h p) eqn:Eb; [|exfalso; exact (o_live _ _ O i p Hi E Eb)].
  eexists. split; [reflexivity|]. split; [reflexivity|]. cbn [write_block h_block]. split; [now rewrite Nat.eqb_refl|].
  intros q Hq. destruct (Nat.eqb_spec q p); [contradiction|reflexivity].
Qed.

Lemma clear_place_ok : forall h w p, owned h w -> place_inside s p ->
  exists h' w', clear_place (Some (h, w)) p = Some (h', w') /\ owned h' w' /\ frame h w h' w' /\ w_data w' (place_pos s p) = None /\
    (forall i, valid i -> w_data w i = None -> w_data w' i = None) /\ w_min w' = w_min w /\ w_adjust w' = w_adjust w.
Proof.
  intros h w p O H. destruct (flat_place p H) as [_ V]. unfold clear_place. rewrite (o_sizes _ _ O), (ptr_valid h w _ O V).
  set (i0 := place_pos s p) in *. destruct (w_data w i0) as [q|] eqn:E.
  - destruct (delete_ok h w i0 q O V E) as (h1 & -> & N1 & B1 & K1).
    eexists _, _. split; [reflexivity|]. split; [|split; [|split; [|split; [|split]]]].
    + constructor; cbn [set_ptr w_sizes w_data].
      * exact (o_sizes _ _ O).
      * intros r Hr. rewrite N1. apply (o_sane _ _ O). destruct (Nat.eq_dec r q) as [->|Nq]; [congruence|]. now rewrite <- K1.
      * intros i r Hi Er. destruct (Z.eqb_spec i i0) as [->|Ni]; [discriminate|]. rewrite K1; [exact (o_live _ _ O i r Hi Er)|].
        intros ->. apply Ni. exact (o_inj _ _ O i i0 q Hi V Er E).
      * intros i j r Hi Hj Ei Ej. destruct (Z.eqb_spec i i0); [discriminate|]. destruct (Z.eqb_spec j i0); [discriminate|]. exact (o_inj _ _ O i j r Hi Hj Ei Ej).
    + split; [rewrite N1; lia|]. split.
      * intros r Hr Nr. split; [apply K1; intros ->; exact (Nr i0 V E)|]. intros i Hi. cbn. destruct (Z.eqb_spec i i0); [discriminate|now apply Nr].
      * intros r Hr Nr. assert (Dq : r <> q) by (intros ->; contradiction). rewrite K1 in Hr by assumption. split; [assumption|].
        intros i Hi Ei. apply (Nr i Hi). cbn. destruct (Z.eqb_spec i i0); [congruence|exact Ei].
    + cbn. now rewrite Z.eqb_refl.
    + intros i Hi Ei. cbn. now destruct (Z.eqb_spec i i0).
    + reflexivity.
    + reflexivity.
  - exists h, w. split; [reflexivity|]. split; [assumption|]. split; [apply frame_refl|]. auto.
Qed.

Lemma clear_fold_ok : forall l h w, (forall p, In p l -> place_inside s p) -> owned h w ->
  exists h' w', fold_left clear_place l (Some (h, w)) = Some (h', w') /\ owned h' w' /\ frame h w h' w' /\
    (forall p, In p l -> w_data w' (place_pos s p) = None) /\ (forall i, valid i -> w_data w i = None -> w_data w' i = None) /\
    w_min w' = w_min w /\ w_adjust w' = w_adjust w.
Proof.
  induction l as [|p l IH]; intros h w HI O; cbn [fold_left].
  - exists h, w. split; [reflexivity|]. split; [assumption|]. split; [apply frame_refl|]. split; [intros p []|auto].
  - assert (Hp : place_inside s p) by (apply HI; now left).
    destruct (clear_place_ok h w p O Hp) as (h1 & w1 & -> & O1 & F1 & D1 & K1 & M1 & A1).
    destruct (IH h1 w1 (fun q H => HI q (or_intror H)) O1) as (h2 & w2 & -> & O2 & F2 & D2 & K2 & M2 & A2).
    exists h2, w2. split; [reflexivity|]. split; [assumption|]. split; [eapply frame_trans; eassumption|]. split; [|split; [|split; congruence]].
    + intros q [<-|Hq]; [|now apply D2]. apply K2; [now apply flat_place|assumption].
    + intros i Hi E. apply K2; auto.
Qed.

Lemma clear_ok : forall h w m, state_ok h w m -> exists h' w', clear h w = Some (h', w') /\ state_ok h' w' (fun _ => 0) /\ frame h w h' w' /\
  w_min w' = w_min w /\ w_adjust w' = w_adjust w /\ w_max w' = 0 /\ w_filled w' = 0 /\ (forall i, valid i -> w_data w' i = None).
Proof.
  intros h w m [O R]. unfold clear. rewrite (o_sizes _ _ O).
  destruct (clear_fold_ok (places s) h w (fun p H => proj1 (in_places s p) H) O) as (h1 & w1 & -> & O1 & F1 & D1 & _ & M1 & A1).
  assert (DN : forall i, valid i -> w_data w1 i = None).
  { intros i Hi. destruct (place_surj i Hi) as (p & Hp & <-). apply D1. now apply in_places. }
  eexists _, _. split; [reflexivity|]. split; [|split; [exact F1|split; [exact M1|split; [exact A1|split; [reflexivity|split; [reflexivity|exact DN]]]]]].
  split; [now apply owned_stats|]. apply reads_intro; [now apply owned_stats|]. intros v Hv. unfold val, cell. cbn [with_stats w_data]. now rewrite DN by now apply tr_valid.
Qed.

Lemma destroy_fold_ok : forall w l h done, NoDup l -> (forall p, In p l -> place_inside s p) ->
  w_sizes w = s -> (forall i j p, valid i -> valid j -> w_data w i = Some p -> w_data w j = Some p -> i = j) ->
  (forall p q, In p l -> w_data w (place_pos s p) = Some q -> h_block h q <> None) ->
  (forall p q, In p done -> place_inside s p -> w_data w (place_pos s p) = Some q -> h_block h q = None) ->
  exists h', fold_left (destroy_place w) l (Some h) = Some h' /\ h_next h' = h_next h /\
    (forall p q, In p l \/ In p done -> place_inside s p -> w_data w (place_pos s p) = Some q -> h_block h' q = None) /\
    (forall q, (forall p, In p l -> w_data w (place_pos s p) <> Some q) -> h_block h' q = h_block h q).
Proof.
  intros w. induction l as [|p l IH]; intros h done ND HI Sz INJ LV DN; cbn [fold_left].
  - exists h. split; [reflexivity|]. split; [reflexivity|]. split; [intros p q [[]|Hp]; now apply DN|auto].
  - apply NoDup_cons_iff in ND as [Np ND']. assert (Hp : place_inside s p) by (apply HI; now left).
    destruct (flat_place p Hp) as [_ V]. 
    assert (PV : ptr w (place_pos s p) = Some (w_data w (place_pos s p))).
    { unfold ptr. rewrite Sz. unfold valid in V. destruct (Z.leb_spec 0 (place_pos s p)), (Z.ltb_spec (place_pos s p) (size_tr s)); try lia. reflexivity. }
    change (destroy_place w (Some h) p) with (match ptr w (place_pos (w_sizes w) p) with None => None | Some q => delete h q end). rewrite Sz, PV. destruct (w_data w (place_pos s p)) as [q|] eqn:E; cbn [delete].
    + assert (LQ : h_block h q <> None) by (apply (LV p); [now left|assumption]). destruct (h_block h q) eqn:Eq; [|contradiction].
      destruct (IH (write_block h q None) (p :: done)) as (h' & E' & N' & G' & K'); auto.
      * intros p' Hp'. apply HI. now right.
      * intros p' q' Hp' Eq'. cbn [write_block h_block]. destruct (Nat.eqb_spec q' q) as [->|]; [|apply (LV p'); [now right|assumption]].
        exfalso. apply Np. assert (Hp2 : place_inside s p') by (apply HI; now right).
        replace p with p'; [assumption|]. apply (place_inj p' p Hp2 Hp). eapply INJ; eauto. now apply flat_place.
      * intros p' q' [<-|Hp'] I' Eq'; cbn [write_block h_block].
        -- rewrite E in Eq'. injection Eq' as <-. now rewrite Nat.eqb_refl.
        -- destruct (Nat.eqb_spec q' q); [reflexivity|]. now apply (DN p').
      * exists h'. split; [exact E'|]. split; [exact N'|]. split.
        -- intros p' q' [[<-|H1]|H1] I' Eq'; [apply (G' p q'); [right; now left|assumption|assumption]|apply (G' p' q'); auto|apply (G' p' q'); [right; now right|assumption|assumption]].
        -- intros q' Nq'. rewrite K' by (intros p' Hp'; apply Nq'; now right). cbn [write_block h_block]. destruct (Nat.eqb_spec q' q) as [->|]; [|reflexivity].
           exfalso. apply (Nq' p); [now left|assumption].
    + destruct (IH h (p :: done)) as (h' & E' & N' & G' & K'); auto.
      * intros p' Hp'. apply HI. now right.
      * intros p' q' Hp' Eq'. apply (LV p'); [now right|assumption].
      * intros p' q' [<-|Hp'] I' Eq'; [congruence|now apply (DN p')].
      * exists h'. split; [exact E'|]. split; [exact N'|]. split.
        -- intros p' q' [[<-|H1]|H1] I' Eq'; [congruence|apply (G' p' q'); auto|apply (G' p' q'); [right; now right|assumption|assumption]].
        -- intros q' Nq'. apply K'. intros p' Hp'. apply Nq'. now right.
Qed.

Lemma destroy_ok : forall h w, owned h w -> exists h', destroy h w = Some h' /\
  (forall i q, valid i -> w_data w i = Some q -> h_block h' q = None) /\
  (forall q, (forall i, valid i -> w_data w i <> Some q) -> h_block h' q = h_block h q).
Proof.
  intros h w O. unfold destroy. rewrite (o_sizes _ _ O).
  destruct (destroy_fold_ok w (places s) h [] (nodup_places s) (fun p H => proj1 (in_places s p) H) (o_sizes _ _ O) (o_inj _ _ O)) as (h' & E & _ & G & K).
  - intros p q Hp Eq. apply (o_live _ _ O (place_pos s p) q); [|assumption]. apply flat_place. now apply in_places.
  - intros p q [].
  - exists h'. split; [exact E|]. split.
    + intros i q Hi Eq. destruct (place_surj i Hi) as (p & Hp & <-). apply (G p q); [left; now apply in_places|assumption|assumption].
    + intros q Nq. apply K. intros p Hp. apply Nq. apply flat_place. now apply in_places.
Qed.

Section Clone.
Hypothesis Small : size_tr s <= 2 ^ 31.
Variables (h0 : heap) (o : wdata).
Hypothesis Oo : owned h0 o.

Record copying (h : heap) (w : wdata) (done : list (Z * Z * Z)) : Prop := Copying {
  c_owned : owned h w;
  c_next : (h_next h0 <= h_next h)%nat;
  c_old : forall p, (p < h_next h0)%nat -> h_block h p = h_block h0 p;
  c_new : forall i p, valid i -> w_data w i = Some p -> (h_next h0 <= p)%nat;
  c_done : forall p j, In p done -> place_inside s p -> cell h w (place_pos s p) j = cell h0 o (place_pos s p) j }.

Lemma clone_place_ok : forall h w done p, copying h w done -> place_inside s p ->
  exists h' w', clone_place o (Some (h, w)) p = Some (h', w') /\ copying h' w' (p :: done).
Proof.
  intros h w done p [O N OLD NEW DN] Hp. destruct (flat_place p Hp) as [_ V]. unfold clone_place. rewrite (o_sizes _ _ O).
  set (i0 := place_pos s p) in *.
  assert (TI : to_int i0 = i0). { unfold valid in V. unfold to_int. rewrite u32_small by lia. destruct (Z.ltb_spec i0 (2 ^ 31)); lia. }
  rewrite TI, (ptr_valid h0 o _ Oo V), (ptr_valid h w _ O V).
  assert (OTH : forall p', In p' done -> place_inside s p' -> place_pos s p' <> i0 \/ p' = p).
  { intros p' _ Hp'. destruct (Z.eq_dec (place_pos s p') i0) as [E|]; [right; now apply place_inj|now left]. }
  destruct (w_data o i0) as [q|] eqn:Eo.
  - assert (Lq : (q < h_next h0)%nat) by (apply (o_sane _ _ Oo); exact (o_live _ _ Oo i0 q V Eo)).
    rewrite (OLD q Lq). destruct (h_block h0 q) as [b|] eqn:Eb; [|exfalso; exact (o_live _ _ Oo i0 q V Eo Eb)].
    unfold alloc. set (r := h_next h).
    assert (FR : forall i t, valid i -> w_data w i = Some t -> (t < r)%nat).
    { intros i t Hi Et. apply (o_sane _ _ O). exact (o_live _ _ O i t Hi Et). }
    eexists _, _. split; [reflexivity|]. constructor.
    + constructor; cbn [w_sizes set_ptr w_data h_block].
      * exact (o_sizes _ _ O).
      * intros t Ht. cbn [h_block h_next] in *. destruct (Nat.eqb_spec t r); [unfold r in *; lia|]. pose proof (o_sane _ _ O t Ht). lia.
      * intros i t Hi Et. destruct (Z.eqb_spec i i0) as [->|Ni].
        -- injection Et as <-. rewrite Nat.eqb_refl. discriminate.
        -- pose proof (FR i t Hi Et). destruct (Nat.eqb_spec t r); [discriminate|]. exact (o_live _ _ O i t Hi Et).
      * intros i j t Hi Hj Ei Ej. destruct (Z.eqb_spec i i0), (Z.eqb_spec j i0); subst; auto.
        -- injection Ei as <-. pose proof (FR j r Hj Ej). lia.
        -- injection Ej as <-. pose proof (FR i r Hi Ei). lia.
        -- exact (o_inj _ _ O i j t Hi Hj Ei Ej).
    + cbn. lia.
    + intros t Ht. cbn. destruct (Nat.eqb_spec t r); [unfold r in *; lia|]. now apply OLD.
    + intros i t Hi Et. cbn in Et. destruct (Z.eqb_spec i i0); [injection Et as <-; exact N|]. exact (NEW i t Hi Et).
    + intros p' j Hp' I'. unfold cell. cbn [set_ptr w_data h_block]. destruct (Z.eqb_spec (place_pos s p') i0) as [E|Ne].
      * rewrite Nat.eqb_refl. rewrite E, Eo, Eb. reflexivity.
      * destruct Hp' as [<-|Hp']; [contradiction|]. assert (K := DN p' j Hp' I'). unfold cell in K. rewrite <- K.
        destruct (w_data w (place_pos s p')) as [t|] eqn:Et; [|reflexivity]. assert (V' : valid (place_pos s p')) by now apply flat_place.
        pose proof (FR _ t V' Et). destruct (Nat.eqb_spec t r); [lia|reflexivity].
  - eexists _, _. split; [reflexivity|]. constructor.
    + constructor; cbn [w_sizes set_ptr w_data]; [exact (o_sizes _ _ O)|exact (o_sane _ _ O)|..].
      * intros i t Hi Et. destruct (Z.eqb_spec i i0); [discriminate|]. exact (o_live _ _ O i t Hi Et).
      * intros i j t Hi Hj Ei Ej. destruct (Z.eqb_spec i i0); [discriminate|]. destruct (Z.eqb_spec j i0); [discriminate|]. exact (o_inj _ _ O i j t Hi Hj Ei Ej).
    + exact N.
    + exact OLD.
    + intros i t Hi Et. cbn in Et. destruct (Z.eqb_spec i i0); [discriminate|]. exact (NEW i t Hi Et).
    + intros p' j Hp' I'. unfold cell. cbn [set_ptr w_data]. destruct (Z.eqb_spec (place_pos s p') i0) as [E|Ne].
      * now rewrite E, Eo.
      * destruct Hp' as [<-|Hp']; [contradiction|]. exact (DN p' j Hp' I').
Qed.

Lemma clone_fold_ok : forall l h w done, copying h w done -> (forall p, In p l -> place_inside s p) ->
  exists h' w', fold_left (clone_place o) l (Some (h, w)) = Some (h', w') /\ copying h' w' (rev l ++ done).
Proof.
  induction l as [|p l IH]; intros h w done C HI; cbn [fold_left].
  - exists h, w. auto.
  - destruct (clone_place_ok h w done p C (HI p (or_introl eq_refl))) as (h1 & w1 & -> & C1).
    destruct (IH h1 w1 _ C1 (fun q H => HI q (or_intror H))) as (h2 & w2 & E2 & C2). exists h2, w2. split; [exact E2|]. cbn [rev]. rewrite <- app_assoc. exact C2.
Qed.

Lemma clone_ok : forall m, reads h0 o m -> exists h w, clone h0 o = Some (h, w) /\ state_ok h w m /\ state_ok h o m /\
  (forall i p, valid i -> w_data w i = Some p -> (h_next h0 <= p < h_next h)%nat) /\ (h_next h0 <= h_next h)%nat /\
  (forall p, (p < h_next h0)%nat -> h_block h p = h_block h0 p) /\
  w_min w = w_min o /\ w_max w = w_max o /\ w_filled w = w_filled o /\ w_adjust w = w_adjust o.
Proof.
  intros m R. unfold clone. rewrite (o_sizes _ _ Oo).
  destruct (clone_fold_ok (places s) h0 (new_data s (w_adjust o)) []) as (h & w & -> & C).
  - constructor; auto; try (intros; discriminate).
    + constructor; auto; try (intros; discriminate). exact (o_sane _ _ Oo).
    + intros p j [].
  - intros p Hp. now apply in_places.
  - destruct C as [O N OLD NEW DN]. eexists _, _. split; [reflexivity|].
    assert (O' : owned h (WData s (w_min o) (w_max o) (w_filled o) (w_adjust o) (w_data w))) by (destruct O; constructor; auto).
    assert (Oo' : owned h o).
    { constructor; [exact (o_sizes _ _ Oo)|exact (o_sane _ _ O)|..|exact (o_inj _ _ Oo)]. intros i p Hi E. rewrite OLD; [exact (o_live _ _ Oo i p Hi E)|].
      apply (o_sane _ _ Oo). exact (o_live _ _ Oo i p Hi E). }
    split; [|split; [|split; [|split; [|split]]]].
    + split; [exact O'|]. apply reads_intro; [exact O'|]. intros v Hv. rewrite <- (reads_val h0 o m Oo R v Hv).
      unfold val. rewrite pos_tr_place. unfold cell. cbn [w_data]. apply DN; [|now apply inside_place].
      rewrite app_nil_r. apply in_rev. rewrite rev_involutive. apply in_places. now apply inside_place.
    + split; [exact Oo'|]. apply reads_intro; [exact Oo'|]. intros v Hv. rewrite <- (reads_val h0 o m Oo R v Hv). unfold val, cell.
      destruct (w_data o (pos_tr s v)) as [p|] eqn:E; [|reflexivity]. rewrite OLD; [reflexivity|]. apply (o_sane _ _ Oo). exact (o_live _ _ Oo _ p (tr_valid v Hv) E).
    + intros i p Hi E. cbn [w_data] in E. split; [exact (NEW i p Hi E)|]. apply (o_sane _ _ O). exact (o_live _ _ O i p Hi E).
    + exact N.
    + exact OLD.
    + cbn. auto.
Qed.
End Clone.
End Sizes.

(** One call. *)
Section Step.
Variable s : six.
Hypothesis F : fits s.

Definition bytes (m : six -> Z) : Prop := forall v, inside s v -> byte (m v).

Lemma nonzero_ext : forall m m', (forall v, inside s v -> (m v = 0 <-> m' v = 0)) -> nonzero s m = nonzero s m'.
Proof.
  intros m m' H. unfold nonzero. f_equal. f_equal. apply filter_ext_in. intros v Hv. apply in_voxels in Hv. specialize (H v Hv).
  destruct (Z.eqb_spec (m v) 0), (Z.eqb_spec (m' v) 0); tauto.
Qed.

Lemma count_upd : forall l m v x, NoDup l -> x <> 0 ->
  Z.of_nat (length (filter (fun u => negb (upd m v x u =? 0)) l)) =
  Z.of_nat (length (filter (fun u => negb (m u =? 0)) l)) + (if in_dec six_dec v l then if m v =? 0 then 1 else 0 else 0).
Proof.
  induction l as [|u l IH]; intros m v x ND Hx; [reflexivity|]. apply NoDup_cons_iff in ND as [Nu ND]. cbn [filter].
  specialize (IH m v x ND Hx). unfold upd at 1. destruct (six_eqb u v) eqn:E.
  - apply six_eqb_iff in E. subst u. destruct (in_dec six_dec v l); [contradiction|].
    destruct (in_dec six_dec v (v :: l)) as [_|K]; [|exfalso; apply K; now left].
    destruct (Z.eqb_spec x 0); [contradiction|]. cbn [negb length]. destruct (Z.eqb_spec (m v) 0); cbn [negb length]; lia.
  - assert (Ne : u <> v) by (intros ->; now rewrite six_eqb_refl in E).
    assert (I : (if in_dec six_dec v (u :: l) then if m v =? 0 then 1 else 0 else 0) = (if in_dec six_dec v l then if m v =? 0 then 1 else 0 else 0)).
    { destruct (in_dec six_dec v (u :: l)) as [[K|K]|K], (in_dec six_dec v l) as [K'|K']; try reflexivity; try contradiction; exfalso; apply K; now right. }
    rewrite I. destruct (m u =? 0); cbn [negb length]; lia.
Qed.
Lemma nonzero_upd : forall m v x, inside s v -> x <> 0 -> nonzero s (upd m v x) = nonzero s m + (if m v =? 0 then 1 else 0).
Proof.
  intros m v x Hv Hx. unfold nonzero. rewrite count_upd; [|apply nodup_voxels|assumption]. f_equal.
  destruct (in_dec six_dec v (voxels s)) as [_|K]; [reflexivity|]. exfalso. apply K. now apply in_voxels.
Qed.
Lemma nonzero_zero : forall m, (forall v, inside s v -> m v = 0) -> nonzero s m = 0.
Proof.
  intros m H. unfold nonzero. replace (filter (fun v => negb (m v =? 0)) (voxels s)) with (@nil six); [reflexivity|].
  symmetry. assert (G : forall l, (forall v, In v l -> inside s v) -> filter (fun v => negb (m v =? 0)) l = []).
  { induction l as [|v l IH]; intros HI; [reflexivity|]. cbn [filter]. rewrite H by (apply HI; now left). cbn. apply IH. intros u Hu. apply HI. now right. }
  apply G. intros v. apply in_voxels.
Qed.
Lemma u32_succ : forall a b, u32 (u32 a + b) = u32 (a + b).
Proof. intros. unfold u32. apply Z.add_mod_idemp_l. lia. Qed.

Definition counts (w : wdata) (m : six -> Z) : Prop := w_filled w = u32 (nonzero s m).

Lemma set_stats : forall h w m v x h' w', state_ok s h w m -> inside s v -> set_datum h w v x = Some (h', w') ->
  (upper s (w_max w) m -> upper s (w_max w') (upd m v x)) /\
  (x <> 0 -> counts w m -> counts w' (upd m v x)) /\
  (m v <= x -> upper s (w_max w) m -> attained s (w_max w) m -> attained s (w_max w') (upd m v x)).
Proof.
  intros h w m v x h' w' S Hv E. destruct (set_datum_ok s F h w m v x S Hv) as (h1 & w1 & E1 & _ & _ & _ & _ & X & L).
  rewrite E in E1. injection E1 as <- <-. split; [|split].
  - intros U u Hu. rewrite X. unfold upd. specialize (U u Hu). destruct (six_eqb u v); lia.
  - intros Hx C. unfold counts in *. rewrite nonzero_upd by assumption. rewrite L, C. destruct (m v =? 0); [apply u32_succ|now rewrite Z.add_0_r].
  - intros Hx U (u & Hu & A). rewrite X. destruct (Z_lt_le_dec x (w_max w)).
    + exists u. split; [assumption|]. rewrite upd_other; [lia|]. intros ->. lia.
    + exists v. split; [assumption|]. rewrite upd_same. lia.
Qed.

Lemma halve_mono : forall mn a b, a <= b -> halve mn a <= halve mn b.
Proof.
  intros mn a b H. unfold halve. assert (a / 2 <= b / 2) by (apply Z.div_le_mono; lia).
  destruct (Z.ltb_spec mn a), (Z.ltb_spec mn b), (Z.ltb_spec (a / 2) mn), (Z.ltb_spec (b / 2) mn); lia.
Qed.
Lemma halve_byte : forall mn e, byte mn -> byte e -> byte (halve mn e).
Proof.
  intros mn e [] []. unfold halve, byte. assert (0 <= e / 2 <= e) by (split; [apply Z.div_pos; lia|apply Z.div_le_upper_bound; lia]).
  destruct (Z.ltb_spec mn e), (Z.ltb_spec (e / 2) mn); lia.
Qed.
Lemma halve_zero : forall mn e, 1 <= mn -> (e = 0 <-> halve mn e = 0).
Proof. intros mn e H. unfold halve. destruct (Z.ltb_spec mn e), (Z.ltb_spec (e / 2) mn); lia. Qed.

Lemma set_rot_ok : forall h w m p b, state_ok s h w m -> place_inside s p ->
  exists h' w' m', set_rot h w p b = Some (h', w') /\ state_ok s h' w' m' /\ frame s h w h' w' /\
    w_min w' = w_min w /\ w_adjust w' = w_adjust w /\
    (forall u, inside s u -> m' u = if if Z.eq_dec (place_pos s (place u)) (place_pos s p) then true else false then b (flat_rot s u) else m u).
Proof.
  intros h w m p b [O R] Hp. unfold set_rot.
  destruct (ensure_ok s F h w p O Hp) as (h1 & w1 & q & -> & O1 & C1 & D1 & F1 & M1 & X1 & L1 & A1).
  destruct (flat_place s F p Hp) as [_ V]. rewrite (o_sizes _ _ _ O1), (ptr_valid s h1 w1 _ O1 V), D1.
  destruct (h_block h1 q) as [old|] eqn:Eq; [|exfalso; exact (o_live _ _ _ O1 _ q V D1 Eq)].
  set (h2 := write_block h1 q (Some (fun i => if (0 <=? i) && (i <? size_rot s) then b i else old i))).
  assert (O2 : owned s h2 w1).
  { constructor; [exact (o_sizes _ _ _ O1)|..|exact (o_inj _ _ _ O1)].
    - intros r Hr. cbn [h2 write_block h_block h_next] in *. destruct (Nat.eqb_spec r q) as [Er|]; apply (o_sane _ _ _ O1); congruence.
    - intros i r Hi Er. cbn [h2 write_block h_block]. destruct (Nat.eqb_spec r q); [discriminate|]. exact (o_live _ _ _ O1 i r Hi Er). }
  assert (F2 : frame s h1 w1 h2 w1).
  { split; [cbn; lia|]. split; intros r Hr N; cbn [h2 write_block h_block] in *; destruct (Nat.eqb_spec r q) as [Er|];
      [exfalso; subst r; exact (N _ V D1)|auto|exfalso; subst r; exact (N _ V D1)|auto]. }
  exists h2, w1, (fun u => if if Z.eq_dec (place_pos s (place u)) (place_pos s p) then true else false then b (flat_rot s u) else m u).
  split; [reflexivity|]. split; [|split; [eapply frame_trans; eassumption|split; [assumption|split; [assumption|reflexivity]]]].
  split; [assumption|]. apply (reads_intro s F); [assumption|]. intros v Hv. unfold val. rewrite pos_tr_place. unfold cell.
  destruct (rot_bound s F v Hv) as [Er B]. destruct (Z.eq_dec (place_pos s (place v)) (place_pos s p)) as [E|Ne].
  - rewrite E, D1. cbn [h2 write_block h_block]. rewrite Nat.eqb_refl, Er. rewrite Er in B.
    destruct (Z.leb_spec 0 (flat_rot s v)), (Z.ltb_spec (flat_rot s v) (size_rot s)); try lia. reflexivity.
  - rewrite <- (reads_val s F h w m O R v Hv). unfold val. rewrite <- C1 by now apply tr_valid. rewrite pos_tr_place. unfold cell.
    destruct (w_data w1 (place_pos s (place v))) as [r|] eqn:Ed; [|reflexivity]. cbn [h2 write_block h_block].
    destruct (Nat.eqb_spec r q) as [Eq2|]; [|reflexivity]. exfalso. apply Ne. subst r. apply (o_inj _ _ _ O1 _ _ q); auto.
    apply (flat_place s F). now apply inside_place.
Qed.

Theorem step_ok : forall h w m c, state_ok s h w m -> byte (w_min w) -> bytes m -> allowed s c ->
  exists h' w' m', wstep h w c = Some (h', w') /\ state_ok s h' w' m' /\ byte (w_min w') /\ bytes m' /\ frame s h w h' w' /\
    w_min w' = next_min (w_min w) c /\ w_adjust w' = w_adjust w /\ effect s (w_adjust w) (w_min w) c m m' /\
    (not_rot c -> upper s (w_max w) m -> upper s (w_max w') m') /\
    (no_zero c -> 1 <= w_min w -> counts w m -> counts w' m') /\
    (grows s (w_min w) m c -> upper s (w_max w) m -> attained s (w_max w) m -> attained s (w_max w') m').
Proof.
  intros h w m c S Hmn HB HA. destruct c as [v x|v|v x nb|p b| | | |k]; cbn [wstep].
  - destruct HA as [Hv Hx]. destruct (set_datum_ok s F h w m v x S Hv) as (h' & w' & E & S' & FR & M & A & X & L).
    destruct (set_stats h w m v x h' w' S Hv E) as (U & C & T).
    exists h', w', (upd m v x). split; [exact E|]. split; [assumption|]. split; [now rewrite M|]. split.
    { intros u Hu. unfold upd. destruct (six_eqb u v); [exact Hx|now apply HB]. }
    split; [assumption|]. split; [exact M|]. split; [exact A|]. split.
    { split; [apply upd_same|]. intros u _ Nu. now apply upd_other. }
    split; [auto|]. split; [intros NZ _; apply C; cbn in NZ; lia|exact T].
  - destruct (increase_ok s F h w m v) as (h' & w' & m' & E & S' & FR & M & A & L & X); [destruct Hmn; lia|assumption|assumption|].
    exists h', w', m'. assert (Bv := HB v HA). unfold byte in Bv.
    split; [exact E|]. split; [assumption|]. split; [now rewrite M|]. split.
    { intros u Hu. specialize (HB u Hu). destruct X as [(H1 & H2 & _)|[(_ & _ & H2 & _)|(_ & _ & H2 & _)]]; rewrite H2; [|now apply halve_byte|assumption].
      unfold upd. unfold byte in *. destruct (six_eqb u v); lia. }
    split; [assumption|]. split; [exact M|]. split; [exact A|]. split.
    { cbn [effect]. destruct X as [(H1 & H2 & _)|[(H1 & Ea & H2 & _)|(H1 & Ea & H2 & _)]]; destruct (Z.ltb_spec (m v) 255); try lia.
      - split; [rewrite H2; apply upd_same|]. intros u _ Nu. rewrite H2. now apply upd_other.
      - rewrite Ea. intros u _. rewrite H2. apply halve_spec.
      - rewrite Ea. intros u _. apply H2. }
    split; [|split].
    + intros _ U u Hu. specialize (U u Hu). destruct X as [(H1 & H2 & H3)|[(H1 & Ea & H2 & H3)|(H1 & Ea & H2 & H3)]]; rewrite H2, H3; [|now apply halve_mono|assumption].
      unfold upd. destruct (six_eqb u v); lia.
    + intros _ M1 C. unfold counts in *. rewrite L, C. destruct X as [(H1 & H2 & H3)|[(H1 & Ea & H2 & H3)|(H1 & Ea & H2 & H3)]].
      * rewrite (nonzero_ext m' (upd m v (m v + 1))) by (intros u _; now rewrite H2). rewrite nonzero_upd by (assumption || lia).
        destruct (m v =? 0); [apply u32_succ|now rewrite Z.add_0_r].
      * destruct (Z.eqb_spec (m v) 0); [lia|]. f_equal. apply nonzero_ext. intros u _. rewrite H2. now apply halve_zero.
      * destruct (Z.eqb_spec (m v) 0); [lia|]. f_equal. apply nonzero_ext. intros u _. now rewrite H2.
    + intros _ U (u & Hu & T). destruct X as [(H1 & H2 & H3)|[(H1 & Ea & H2 & H3)|(H1 & Ea & H2 & H3)]]; rewrite H3.
      * destruct (Z_lt_le_dec (m v + 1) (w_max w)).
        -- exists u. split; [assumption|]. rewrite H2, upd_other; [lia|]. intros ->. lia.
        -- exists v. split; [assumption|]. rewrite H2, upd_same. lia.
      * exists u. split; [assumption|]. rewrite H2. now rewrite T.
      * exists u. split; [assumption|]. now rewrite H2.
  - destruct HA as (Hv & Hx & Hnb & HS). cbn [wstep]. unfold set_neighbours.
    destruct (set_datum_ok s F h w m v x S Hv) as (h1 & w1 & E & S1 & F1 & M1 & A1 & _ & _). rewrite E.
    destruct (set_stats h w m v x h1 w1 S Hv E) as (U1 & C1 & T1).
    set (P := fun (h : heap) (w2 : wdata) (m2 : six -> Z) =>
      (upper s (w_max w) m -> upper s (w_max w2) m2) /\ (x <> 0 -> counts w m -> counts w2 m2) /\
      (m v <= x -> upper s (w_max w) m -> attained s (w_max w) m -> attained s (w_max w2) m2)).
    assert (P1 : P h1 w1 (upd m v x)) by (split; [exact U1|split; [exact C1|exact T1]]).
    assert (B1 : bytes (upd m v x)). { intros u Hu. unfold upd. destruct (six_eqb u v); [exact Hx|now apply HB]. }
    destruct (Z.eqb_spec nb 0) as [->|Nz].
    + exists h1, w1, (upd m v x). split; [reflexivity|]. split; [assumption|]. split; [now rewrite M1|]. split; [assumption|]. split; [assumption|].
      split; [exact M1|]. split; [exact A1|]. split.
      { split; [apply upd_same|]. intros u _ Nu. rewrite upd_other by assumption. split; [|reflexivity]. intros K. exfalso. apply Nu.
        destruct v as [[[[[x0 x1] x2] x3] x4] x5], u as [[[[[y0 y1] y2] y3] y4] y5]. cbn in K. repeat f_equal; lia. }
      destruct P1 as (Pa & Pb & Pc). split; [auto|]. split; [intros NZ _; apply Pb; cbn in NZ; lia|exact Pc].
    + rewrite (o_sizes _ _ _ (proj1 S1)).
      assert (IN : forall u, In u (neighbourhood s v nb) <-> inside s u /\ near v u nb).
      { intros u. apply in_neighbourhood; [assumption|]. cbn. unfold byte. repeat (split; [lia || assumption|]). assumption. }
      destruct (raise_fold_ok s F x P) with (l := neighbourhood s v nb) (h := h1) (w := w1) (m := upd m v x) as (h2 & w2 & m2 & E2 & S2 & F2 & M2 & A2 & P2 & I2 & N2).
      * intros ha wa ma va hb wb Sa Hva Lt Ea (Pa & Pb & Pc). destruct (set_stats ha wa ma va x hb wb Sa Hva Ea) as (Ua & Ca & Ta).
        split; [auto|]. split; [auto|]. intros G U T. apply Ta; [lia|auto|auto].
      * intros u Hu. now apply IN.
      * assumption.
      * exact P1.
      * exists h2, w2, m2. split; [exact E2|]. split; [assumption|]. split; [now rewrite M2, M1|].
        assert (EF : m2 v = x /\ forall u, inside s u -> u <> v -> (near v u nb -> m2 u = Z.max (m u) x) /\ (~ near v u nb -> m2 u = m u)).
        { split.
          - destruct (in_dec six_dec v (neighbourhood s v nb)) as [K|K]; [rewrite I2 by assumption|rewrite N2 by assumption]; rewrite upd_same; lia.
          - intros u Hu Nu. split; intros K.
            + rewrite I2 by (now apply IN). now rewrite upd_other.
            + rewrite N2 by (intros K'; apply IN in K'; tauto). now rewrite upd_other. }
        split.
        { intros u Hu. destruct (in_dec six_dec u (neighbourhood s v nb)) as [K|K]; [rewrite I2 by assumption|rewrite N2 by assumption].
          - specialize (B1 u Hu). unfold byte in *. lia.
          - now apply B1. }
        split; [eapply frame_trans; eassumption|]. split; [cbn; congruence|]. split; [congruence|]. split; [exact EF|].
        destruct P2 as (Pa & Pb & Pc). split; [auto|]. split; [intros NZ _; apply Pb; cbn in NZ; lia|exact Pc].
  - destruct HA as [Hp Hb]. destruct (set_rot_ok h w m p b S Hp) as (h' & w' & m' & E & S' & FR & M & A & X).
    exists h', w', m'. split; [exact E|]. split; [assumption|]. split; [now rewrite M|]. split.
    { intros u Hu. rewrite X by assumption. destruct (Z.eq_dec _ _); [apply Hb|now apply HB]. }
    split; [assumption|]. split; [exact M|]. split; [exact A|]. split; [|split; [intros []|split; [intros []|intros []]]].
    cbn [effect]. destruct p as [[px py] pz]. split.
    + intros d e f Hi. rewrite X by assumption. cbn [place]. destruct (Z.eq_dec _ _) as [_|K]; [|contradiction]. unfold flat_rot. reflexivity.
    + intros u Hu Nu. rewrite X by assumption. destruct (Z.eq_dec _ _) as [K|_]; [|reflexivity]. exfalso. apply Nu.
      apply (place_inj s F); [now apply inside_place|assumption|assumption].
  - destruct (binarize_ok s F h w m) as (h' & E & S' & FR); [destruct Hmn; lia|assumption|].
    exists h', (with_stats w (w_min w) (w_filled w)), (fun u => Z.min (m u) (w_min w)). split; [exact E|]. split; [assumption|]. split; [assumption|]. split.
    { intros u Hu. specialize (HB u Hu). unfold byte in *. lia. }
    split; [assumption|]. split; [reflexivity|]. split; [reflexivity|]. split; [intros u _; reflexivity|]. split; [|split].
    + intros _ _ u _. cbn. lia.
    + intros _ M1 C. unfold counts in *. cbn [with_stats w_filled]. rewrite C. f_equal. apply nonzero_ext. intros u Hu. specialize (HB u Hu). unfold byte in HB. lia.
    + intros (u & Hu & K) _ _. exists u. split; [assumption|]. cbn. lia.
  - destruct (bisect_ok s F h w m) as (h' & E & S' & FR); [destruct Hmn; lia|assumption|].
    eexists h', _, (fun u => halve (w_min w) (m u)). split; [exact E|]. split; [assumption|]. split; [assumption|]. split.
    { intros u Hu. apply halve_byte; auto. }
    split; [assumption|]. split; [reflexivity|]. split; [reflexivity|]. split; [intros u _; apply halve_spec|]. split; [|split].
    + intros _ U u Hu. cbn [with_stats w_max]. apply halve_mono. now apply U.
    + intros _ M1 C. unfold counts in *. cbn [with_stats w_filled]. rewrite C. f_equal. apply nonzero_ext. intros u Hu. now apply halve_zero.
    + intros _ _ (u & Hu & T). exists u. split; [assumption|]. cbn [with_stats w_max]. now rewrite T.
  - destruct (clear_ok s F h w m S) as (h' & w' & E & S' & FR & M & A & X & L & _).
    exists h', w', (fun _ => 0). split; [exact E|]. split; [assumption|]. split; [now rewrite M|]. split; [intros u _; unfold byte; lia|].
    split; [assumption|]. split; [exact M|]. split; [exact A|]. split; [intros u _; reflexivity|]. split; [|split].
    + intros _ _ u _. lia.
    + intros _ _ _. unfold counts. rewrite L, nonzero_zero by reflexivity. reflexivity.
    + intros _ _ (u & Hu & _). exists u. split; [assumption|]. lia.
  - exists h, (WData (w_sizes w) k (w_max w) (w_filled w) (w_adjust w) (w_data w)), m. split; [reflexivity|]. split.
    { destruct S as [O R]. split; [destruct O; constructor; auto|exact R]. }
    split; [exact HA|]. split; [assumption|]. split; [exact (frame_refl s h w)|]. split; [reflexivity|]. split; [reflexivity|]. split; [intros u _; reflexivity|].
    split; [auto|]. split; [auto|auto].
Qed.

(** Histories. *)
Theorem run_ok : forall cs h w m, state_ok s h w m -> byte (w_min w) -> bytes m -> Forall (allowed s) cs ->
  exists h' w' m', wrun h w cs = Some (h', w') /\ state_ok s h' w' m' /\ byte (w_min w') /\ bytes m' /\ frame s h w h' w' /\
    w_adjust w' = w_adjust w /\ effects s (w_adjust w) (w_min w) m cs (w_min w') m' /\
    (Forall not_rot cs -> upper s (w_max w) m -> upper s (w_max w') m') /\
    (Forall no_zero cs -> 1 <= w_min w -> counts w m -> counts w' m') /\
    (growing s (w_adjust w) (w_min w) m cs -> Forall not_rot cs -> upper s (w_max w) m -> attained s (w_max w) m -> attained s (w_max w') m').
Proof.
  induction cs as [|c cs IH]; intros h w m S Hmn HB HA; cbn [wrun].
  - exists h, w, m. split; [reflexivity|]. split; [assumption|]. split; [assumption|]. split; [assumption|]. split; [apply frame_refl|]. split; [reflexivity|].
    split; [constructor|]. split; [auto|]. split; auto.
  - apply Forall_cons_iff in HA as [HA HAs].
    destruct (step_ok h w m c S Hmn HB HA) as (h1 & w1 & m1 & -> & S1 & Hm1 & HB1 & F1 & M1 & A1 & EF & U1 & C1 & T1).
    destruct (IH h1 w1 m1 S1 Hm1 HB1 HAs) as (h2 & w2 & m2 & E2 & S2 & Hm2 & HB2 & F2 & A2 & EF2 & U2 & C2 & T2).
    exists h2, w2, m2. split; [exact E2|]. split; [assumption|]. split; [assumption|]. split; [assumption|]. split; [eapply frame_trans; eassumption|].
    split; [congruence|]. split; [|split; [|split]].
    + econstructor; [exact EF|]. rewrite <- M1, <- A1. exact EF2.
    + intros HN U. apply Forall_cons_iff in HN as [HN HNs]. auto.
    + intros HN L C. apply Forall_cons_iff in HN as [HN HNs]. apply C2; auto. rewrite M1. destruct c; cbn in *; assumption.
    + intros HG HN U T. apply Forall_cons_iff in HN as [HN HNs]. inversion HG as [|? ? ? ? G1 G2]; subst. apply T2; auto.
      rewrite A1, M1. now apply G2.
Qed.

Lemma new_ok : forall h adjust, sane h -> state_ok s h (new_data s adjust) (fun _ => 0).
Proof.
  intros h adjust Sh. assert (O : owned s h (new_data s adjust)) by (constructor; auto; intros; discriminate).
  split; [assumption|]. apply (reads_intro s F); [assumption|]. reflexivity.
Qed.

Definition origin : six := (0, 0, 0, 0, 0, 0).
Lemma origin_inside : inside s origin.
Proof. destruct s as [[[[[s0 s1] s2] s3] s4] s5]. cbn in *. lia. Qed.

Theorem reach_ok : forall cs h adjust, sane h -> Forall (allowed s) cs ->
  exists h' w' m', wrun h (new_data s adjust) cs = Some (h', w') /\ state_ok s h' w' m' /\ byte (w_min w') /\ bytes m' /\
    frame s h (new_data s adjust) h' w' /\ w_adjust w' = adjust /\ effects s adjust 1 (fun _ => 0) cs (w_min w') m' /\
    (Forall not_rot cs -> upper s (w_max w') m') /\ (Forall no_zero cs -> counts w' m') /\
    (growing s adjust 1 (fun _ => 0) cs -> Forall not_rot cs -> attained s (w_max w') m').
Proof.
  intros cs h adjust Sh HA.
  destruct (run_ok cs h (new_data s adjust) (fun _ => 0) (new_ok h adjust Sh)) as (h' & w' & m' & E & S' & Hm & HB & FR & A & EF & U & C & T); auto.
  - unfold byte. cbn. lia.
  - intros v _. unfold byte. lia.
  - exists h', w', m'. split; [exact E|]. split; [assumption|]. split; [assumption|]. split; [assumption|]. split; [assumption|]. split; [exact A|]. split; [exact EF|].
    split; [|split].
    + intros HN. apply U; [assumption|]. intros v _. cbn. lia.
    + intros HN. apply C; [assumption|cbn; lia|]. unfold counts. rewrite nonzero_zero by reflexivity. reflexivity.
    + intros HG HN. apply T; auto.
      * intros v _. cbn. lia.
      * exists origin. split; [apply origin_inside|reflexivity].
Qed.

(** Only increments. *)
Lemma effects_increments : forall cs mn m mn' m', effects s false mn m cs mn' m' -> (forall c, In c cs -> exists v, c = CInc v /\ inside s v) ->
  (forall v, inside s v -> 0 <= m v <= 255) -> forall v, inside s v -> m' v = Z.min (m v + Z.of_nat (increments v cs)) 255.
Proof.
  intros cs mn m mn' m' E. remember false as adj eqn:Ea. induction E as [mn m|mn m c m1 cs mn' m' H E IH]; intros HC HB v Hv.
  - specialize (HB v Hv). cbn. lia.
  - destruct (HC c (or_introl eq_refl)) as (u & -> & Hu). subst adj. cbn [effect] in H.
    assert (M1 : forall x, inside s x -> m1 x = if six_eqb u x then Z.min (m x + 1) 255 else m x).
    { intros x Hx. specialize (HB u Hu). destruct (Z.ltb_spec (m u) 255).
      - destruct H as [H1 H2]. destruct (six_eqb u x) eqn:K.
        + apply six_eqb_iff in K. subst x. lia.
        + apply H2; [assumption|]. intros ->. now rewrite six_eqb_refl in K.
      - rewrite H by assumption. destruct (six_eqb u x) eqn:K; [|reflexivity]. apply six_eqb_iff in K. subst x. lia. }
    rewrite IH; auto.
    + rewrite M1 by assumption. unfold increments. cbn [filter]. specialize (HB v Hv). destruct (six_eqb u v); cbn [length]; lia.
    + intros c Hc. apply HC. now right.
    + intros x Hx. rewrite M1 by assumption. specialize (HB x Hx). destruct (six_eqb u x); lia.
Qed.

Lemma unowned_live : forall h w m p, state_ok s h w m -> forall i, valid s i -> w_data w i = Some p -> (p < h_next h)%nat.
Proof. intros h w m p [O _] i Hi E. apply (o_sane _ _ _ O). exact (o_live _ _ _ O i p Hi E). Qed.

(** Clone at a position beyond the range of [int]. *)
Lemma clone_none : forall o l, fold_left (clone_place o) l None = None.
Proof. intros o. induction l; auto. Qed.
Lemma clone_big : forall h o, w_sizes o = s -> 2 ^ 31 < size_tr s -> clone h o = None.
Proof.
  intros h o Sz HB. unfold clone. rewrite Sz.
  assert (G : forall l st, (forall h' w', st = Some (h', w') -> w_sizes w' = s) -> (exists p, In p l /\ 2 ^ 31 <= place_pos s p < 2 ^ 32) ->
     fold_left (clone_place o) l st = None).
  { induction l as [|p l IH]; intros st HS (p0 & Hp0 & B0); [destruct Hp0|]. cbn [fold_left]. destruct st as [[h' w']|]; [|apply clone_none].
    specialize (HS h' w' eq_refl). destruct Hp0 as [->|Hp0].
    - assert (TI : to_int (place_pos s p0) = place_pos s p0 - 2 ^ 32) by (unfold to_int; rewrite u32_small by lia; destruct (Z.ltb_spec (place_pos s p0) (2 ^ 31)); lia).
      assert (PN : ptr o (place_pos s p0 - 2 ^ 32) = None) by (unfold ptr; destruct (Z.leb_spec 0 (place_pos s p0 - 2 ^ 32)); [lia|reflexivity]).
      replace (clone_place o (Some (h', w')) p0) with (@None (heap * wdata)); [apply clone_none|]. symmetry. unfold clone_place. now rewrite HS, TI, PN.
    - apply IH; [|exists p0; auto]. intros h2 w2 E. unfold clone_place in E. destruct (ptr o _) as [[q|]|]; try discriminate;
        destruct (ptr w' _); try discriminate.
      + destruct (h_block h' q); [|discriminate]. destruct (alloc h' b) as [q' h3]. injection E as _ <-. exact HS.
      + injection E as _ <-. exact HS. }
  rewrite G; [reflexivity|intros h' w' E; injection E as _ <-; reflexivity|].
  destruct (place_surj s F (2 ^ 31)) as (p & Hp & E); [unfold valid; lia|]. exists p. split; [now apply in_places|]. rewrite E. lia.
Qed.
End Step.

(** Two objects. *)
Definition apart (s1 s2 : six) (w1 w2 : wdata) : Prop :=
  forall i j p, valid s1 i -> valid s2 j -> w_data w1 i = Some p -> w_data w2 j <> Some p.

Lemma other_kept : forall s1 s2 h w1 w2 m2 h' w1', fits s1 -> fits s2 -> owned s1 h' w1' -> frame s1 h w1 h' w1' -> state_ok s2 h w2 m2 -> apart s1 s2 w1 w2 ->
  state_ok s2 h' w2 m2 /\ apart s1 s2 w1' w2.
Proof.
  intros s1 s2 h w1 w2 m2 h' w1' F1 F2 O1 [N [FR _]] [O R] AP.
  assert (K : forall j p, valid s2 j -> w_data w2 j = Some p -> h_block h' p = h_block h p /\ forall i, valid s1 i -> w_data w1' i <> Some p).
  { intros j p Hj E. apply FR.
    - apply (o_sane _ _ _ O). exact (o_live _ _ _ O j p Hj E).
    - intros i Hi Ei. exact (AP i j p Hi Hj Ei E). }
  assert (O' : owned s2 h' w2).
  { constructor; [exact (o_sizes _ _ _ O)|exact (o_sane _ _ _ O1)|..|exact (o_inj _ _ _ O)].
    intros j p Hj E. rewrite (proj1 (K j p Hj E)). exact (o_live _ _ _ O j p Hj E). }
  split.
  - split; [exact O'|]. apply (reads_intro s2 F2); [exact O'|]. intros v Hv. rewrite <- (reads_val s2 F2 h w2 m2 O R v Hv). unfold val, cell.
    destruct (w_data w2 (pos_tr s2 v)) as [p|] eqn:E; [|reflexivity]. now rewrite (proj1 (K _ p (tr_valid s2 F2 v Hv) E)).
  - intros i j p Hi Hj Ei Ej. exact (proj2 (K j p Hj Ej) i Hi Ei).
Qed.
Lemma apart_sym : forall s1 s2 w1 w2, apart s1 s2 w1 w2 -> apart s2 s1 w2 w1.
Proof. intros s1 s2 w1 w2 H i j p Hi Hj Ei Ej. exact (H j i p Hj Hi Ej Ei). Qed.

Theorem run2_ok : forall s1 s2, fits s1 -> fits s2 -> forall cs h w1 w2 m1 m2,
  state_ok s1 h w1 m1 -> state_ok s2 h w2 m2 -> apart s1 s2 w1 w2 -> byte (w_min w1) -> byte (w_min w2) -> bytes s1 m1 -> bytes s2 m2 ->
  Forall (fun c : bool * wcall => allowed (if fst c then s1 else s2) (snd c)) cs ->
  exists h' w1' w2' m1' m2', wrun2 h w1 w2 cs = Some (h', w1', w2') /\ state_ok s1 h' w1' m1' /\ state_ok s2 h' w2' m2' /\ apart s1 s2 w1' w2' /\
    effects s1 (w_adjust w1) (w_min w1) m1 (calls_of true cs) (w_min w1') m1' /\
    effects s2 (w_adjust w2) (w_min w2) m2 (calls_of false cs) (w_min w2') m2'.
Proof.
  intros s1 s2 F1 F2. induction cs as [|[first c] cs IH]; intros h w1 w2 m1 m2 S1 S2 AP M1 M2 B1 B2 HA; cbn [wrun2].
  - exists h, w1, w2, m1, m2. repeat (split; [assumption || reflexivity || constructor|]). constructor.
  - apply Forall_cons_iff in HA as [HA HAs]. destruct first; cbn [fst snd] in HA.
    + destruct (step_ok s1 F1 h w1 m1 c S1 M1 B1 HA) as (h' & w' & m' & -> & S' & M' & B' & FR & NM & A' & EF & _).
      destruct (other_kept s1 s2 h w1 w2 m2 h' w' F1 F2 (proj1 S') FR S2 AP) as [S2' AP'].
      destruct (IH h' w' w2 m' m2 S' S2' AP' M' M2 B' B2 HAs) as (h3 & w3 & w4 & m3 & m4 & E & H1 & H2 & H3 & H4 & H5).
      exists h3, w3, w4, m3, m4. split; [exact E|]. split; [assumption|]. split; [assumption|]. split; [assumption|]. split; [|exact H5].
      unfold calls_of. cbn [filter fst Bool.eqb map snd]. econstructor; [exact EF|]. rewrite <- NM, <- A'. exact H4.
    + destruct (step_ok s2 F2 h w2 m2 c S2 M2 B2 HA) as (h' & w' & m' & -> & S' & M' & B' & FR & NM & A' & EF & _).
      destruct (other_kept s2 s1 h w2 w1 m1 h' w' F2 F1 (proj1 S') FR S1 (apart_sym _ _ _ _ AP)) as [S1' AP'].
      destruct (IH h' w1 w' m1 m' S1' S' (apart_sym _ _ _ _ AP') M1 M' B1 B' HAs) as (h3 & w3 & w4 & m3 & m4 & E & H1 & H2 & H3 & H4 & H5).
      exists h3, w3, w4, m3, m4. split; [exact E|]. split; [assumption|]. split; [assumption|]. split; [assumption|]. split; [exact H4|].
      unfold calls_of. cbn [filter fst Bool.eqb map snd]. econstructor; [exact EF|]. rewrite <- NM, <- A'. exact H5.
Qed.

(** Sums over the orientations: [hasEntry] is used the wrong way round. *)
Lemma fold_zero : forall {A} (g : A -> option Z) l, (forall a, In a l -> g a = Some 0) ->
  fold_left (fun (o : option Z) a => match o with None => None | Some acc => match g a with Some x => Some (acc + x) | None => None end end) l (Some 0) = Some 0.
Proof. intros A g. induction l as [|a l IH]; intros H; [reflexivity|]. cbn [fold_left]. rewrite H by now left. cbn. apply IH. intros b Hb. apply H. now right. Qed.
