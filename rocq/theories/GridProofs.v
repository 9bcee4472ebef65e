From Coq Require Import List ZArith QArith Bool Arith Lia Lqa.
From Verif Require Import GridModel GridSpec.
Import ListNotations.
Open Scope Z_scope.

Lemma trunc_spec : forall q k, 0 <= k ->
  (trunc q = k <-> (k <> 0 /\ (inject_Z k <= q < inject_Z (k + 1))%Q) \/ (k = 0 /\ (-1 < q < 1)%Q)).
Proof.
  intros [n d] k Hk. unfold trunc, Qle, Qlt, inject_Z. cbn [Qnum Qden]. rewrite ?Z.mul_1_r.
  destruct (Z_le_gt_dec 0 n) as [Hn|Hn].
  - rewrite Z.quot_div_nonneg by lia. split.
    + intros <-. pose proof (Z.div_mod n (Z.pos d) ltac:(lia)). pose proof (Z.mod_pos_bound n (Z.pos d) ltac:(lia)). set (m := n / Z.pos d) in *.
      destruct (Z.eq_dec m 0) as [E|E]; [right|left]; (split; [assumption|]); nia.
    + intros [(N0 & H1 & H2)|(-> & H1 & H2)]; symmetry.
      * apply Z.div_unique with (r := n - k * Z.pos d); [left; nia|lia].
      * apply Z.div_unique with (r := n); [left; nia|lia].
  - assert (E : Z.quot n (Z.pos d) = - ((- n) / Z.pos d)).
    { rewrite <- Z.quot_div_nonneg by lia. rewrite Z.quot_opp_l by lia. lia. }
    rewrite E. clear E. pose proof (Z.div_mod (- n) (Z.pos d) ltac:(lia)). pose proof (Z.mod_pos_bound (- n) (Z.pos d) ltac:(lia)). set (m := (- n) / Z.pos d) in *.
    assert (Hm : 0 <= m) by (apply Z.div_pos; lia). split.
    + intros Em. assert (m = 0) by lia. right. split; [lia|]. nia.
    + intros [(N0 & H1 & H2)|(-> & H1 & H2)]; [nia|]. nia.
Qed.

Lemma cell_spec : forall lo ext n k x, (0 < ext)%Q -> 0 < n -> 0 <= k < n ->
  (trunc ((x - lo) / ext * inject_Z n) = k <-> in_cell lo ext n k x).
Proof.
  intros lo ext n k x He Hn Hk. rewrite trunc_spec by lia. unfold in_cell. set (w := (ext / inject_Z n)%Q). set (q := ((x - lo) / ext * inject_Z n)%Q).
  assert (Hn' : (0 < inject_Z n)%Q) by (change 0%Q with (inject_Z 0); rewrite <- Zlt_Qlt; lia).
  assert (Hw : (0 < w)%Q) by (unfold w; apply Qlt_shift_div_l; [assumption|lra]).
  assert (Eq : (x == lo + q * w)%Q) by (unfold q, w; field; lra).
  assert (LE : forall a, (a <= q)%Q <-> (lo + a * w <= x)%Q).
  { intros a. rewrite Eq. rewrite <- (Qmult_le_r a q w Hw). split; intros; lra. }
  assert (LT : forall a, (q < a)%Q <-> (x < lo + a * w)%Q).
  { intros a. rewrite Eq. rewrite <- (Qmult_lt_r q a w Hw). split; intros; lra. }
  assert (GT : forall a, (a < q)%Q <-> (lo + a * w < x)%Q).
  { intros a. rewrite Eq. rewrite <- (Qmult_lt_r a q w Hw). split; intros; lra. }
  rewrite LE, LT, LT, GT. split.
  - intros [(N0 & H1 & H2)|(-> & H1 & H2)]; (split; [assumption|]); [left|right]; (split; [auto|]); split; try assumption; lra.
  - intros (_ & [(N0 & H1 & H2)|(-> & H1 & H2)]); [left|right]; (split; [auto|]); split; try assumption; lra.
Qed.

Definition frame_of (g : grid) : frame := Frame (g_minx g) (g_miny g) (g_extx g) (g_exty g) (g_sx g) (g_sy g).
Definition range (g : grid) (i j : Z) : Prop := 0 <= i < g_sx g /\ 0 <= j < g_sy g.
Definition ginv (g : grid) : Prop :=
  (0 < g_extx g)%Q /\ (0 < g_exty g)%Q /\ 0 < g_sx g /\ 0 < g_sy g /\
  length (g_data g) = Z.to_nat (g_sx g * g_sy g) /\ length (g_links g) = Z.to_nat (g_sx g * g_sy g) /\ Forall (fun v => 0 <= v) (g_data g).

Lemma outside_false : forall g i j, outside g i j = false <-> range g i j.
Proof. intros g i j. unfold outside, range. rewrite !orb_false_iff, !Z.ltb_ge, !Z.leb_gt. lia. Qed.
Lemma outside_true : forall g i j, outside g i j = true <-> ~ range g i j.
Proof. intros g i j. rewrite <- outside_false. destruct (outside g i j); split; congruence. Qed.
Lemma data_pos_eq : forall g i j, range g i j -> data_pos g i j = Z.to_nat (i * g_sy g + j).
Proof. intros g i j [H1 H2]. unfold data_pos. destruct (Z.ltb_spec (i * g_sy g + j) 0); [nia|reflexivity]. Qed.
Lemma data_pos_lt : forall g i j, range g i j -> (data_pos g i j < Z.to_nat (g_sx g * g_sy g))%nat.
Proof. intros g i j H. rewrite data_pos_eq by assumption. destruct H as [H1 H2]. apply Z2Nat.inj_lt; nia. Qed.
Lemma data_pos_inj : forall g i j i' j', range g i j -> range g i' j' -> data_pos g i j = data_pos g i' j' -> i = i' /\ j = j'.
Proof.
  intros g i j i' j' H H' E. rewrite !data_pos_eq in E by assumption. destruct H as [H1 H2], H' as [H1' H2'].
  apply Z2Nat.inj in E; [|nia|nia].
  assert (D : i = i').
  { destruct (Z_lt_le_dec i i') as [L|L]; [|destruct (Z_lt_le_dec i' i) as [L'|L']; [|lia]]; exfalso.
    - assert (i * g_sy g + g_sy g <= i' * g_sy g) by nia. lia.
    - assert (i' * g_sy g + g_sy g <= i * g_sy g) by nia. lia. }
  subst i'. split; [reflexivity|lia].
Qed.

Lemma put_length : forall {A} (l : list A) i x, length (put l i x) = length l.
Proof. induction l as [|y l IH]; intros [|i] x; cbn; auto. Qed.
Lemma put_same : forall {A} (l : list A) i x, (i < length l)%nat -> nth_error (put l i x) i = Some x.
Proof. induction l as [|y l IH]; intros [|i] x H; cbn in *; try lia; [reflexivity|]. apply IH. lia. Qed.
Lemma put_other : forall {A} (l : list A) i k x, i <> k -> nth_error (put l i x) k = nth_error l k.
Proof. induction l as [|y l IH]; intros [|i] [|k] x H; cbn; try reflexivity; [lia|]. apply IH. lia. Qed.
Lemma put_forall : forall {A} (P : A -> Prop) l i x, Forall P l -> P x -> Forall P (put l i x).
Proof. intros A P. induction l as [|y l IH]; intros [|i] x H Hx; cbn; auto; inversion H; subst; constructor; auto. Qed.

Definition holds (g : grid) (i j v : Z) (l : list nat) : Prop := get_cell g i j = Some (Some (v, l)).
Lemma holds_iff : forall g i j v l, ginv g -> range g i j -> (holds g i j v l <-> nth_error (g_data g) (data_pos g i j) = Some v /\ nth_error (g_links g) (data_pos g i j) = Some l).
Proof.
  intros g i j v l I R. unfold holds, get_cell. apply outside_false in R. rewrite R.
  destruct (nth_error (g_data g) (data_pos g i j)) as [v'|], (nth_error (g_links g) (data_pos g i j)) as [l'|]; (split; [intros H; try discriminate|intros [H1 H2]; try discriminate]).
  - injection H as -> ->. auto.
  - injection H1 as ->. injection H2 as ->. reflexivity.
Qed.
Lemma holds_ex : forall g i j, ginv g -> range g i j -> exists v l, holds g i j v l.
Proof.
  intros g i j I R. pose proof (data_pos_lt g i j R) as L. assert (I' := I). destruct I as (_ & _ & _ & _ & L1 & L2 & _).
  destruct (nth_error (g_data g) (data_pos g i j)) as [v|] eqn:E1; [|apply nth_error_None in E1; lia].
  destruct (nth_error (g_links g) (data_pos g i j)) as [l|] eqn:E2; [|apply nth_error_None in E2; lia].
  exists v, l. apply holds_iff; auto.
Qed.

Definition upd (v : Z) (gr : option nat) (old : Z) (l : list nat) : Z * list nat := (Z.max old v, if (old <=? v) || (100 <=? v) then link gr l else l).

Lemma set_cell_out : forall g cx cy v gr, ~ range g cx cy -> set_cell g cx cy v gr = Some g.
Proof. intros g cx cy v gr H. unfold set_cell. apply outside_true in H. now rewrite H. Qed.

Lemma set_cell_ok : forall g cx cy v gr, ginv g -> exists g', set_cell g cx cy v gr = Some g' /\ ginv g' /\ frame_of g' = frame_of g /\
  (forall i j old l, range g i j -> holds g i j old l -> if (i =? cx) && (j =? cy) then holds g' i j (fst (upd v gr old l)) (snd (upd v gr old l)) else holds g' i j old l).
Proof.
  intros g cx cy v gr I. destruct (outside g cx cy) eqn:O.
  - apply outside_true in O. rewrite set_cell_out by exact O. exists g. split; [reflexivity|]. split; [exact I|]. split; [reflexivity|]. intros i j old l R H.
    destruct (Z.eqb_spec i cx) as [->|]; cbn [andb]; [|exact H]. destruct (Z.eqb_spec j cy) as [->|]; [contradiction|exact H].
  - assert (R0 := proj1 (outside_false g cx cy) O). destruct (holds_ex g cx cy I R0) as (v0 & l0 & H0). apply holds_iff in H0 as [D0 L0]; try assumption.
    unfold set_cell. rewrite O, D0, L0. pose proof (data_pos_lt g cx cy R0) as LT. assert (I' := I). destruct I as (P1 & P2 & P3 & P4 & P5 & P6 & P7).
    assert (V0 : 0 <= v0). { rewrite Forall_forall in P7. apply P7. now apply nth_error_In in D0. }
    assert (G : forall d' l' nv nl, length d' = length (g_data g) -> length l' = length (g_links g) -> Forall (fun v => 0 <= v) d' ->
      nth_error d' (data_pos g cx cy) = Some nv -> nth_error l' (data_pos g cx cy) = Some nl ->
      (forall k, k <> data_pos g cx cy -> nth_error d' k = nth_error (g_data g) k) -> (forall k, k <> data_pos g cx cy -> nth_error l' k = nth_error (g_links g) k) ->
      (nv, nl) = upd v gr v0 l0 ->
      ginv (with_data g d' l') /\ frame_of (with_data g d' l') = frame_of g /\
      (forall i j old l, range g i j -> holds g i j old l -> if (i =? cx) && (j =? cy) then holds (with_data g d' l') i j (fst (upd v gr old l)) (snd (upd v gr old l)) else holds (with_data g d' l') i j old l)).
    { intros d' l' nv nl E1 E2 E3 E4 E5 E6 E7 E8.
      assert (GI : ginv (with_data g d' l')).
      { unfold ginv, with_data. cbn [g_extx g_exty g_sx g_sy g_data g_links]. rewrite E1, E2. split; [exact P1|]. split; [exact P2|]. split; [exact P3|]. split; [exact P4|]. split; [exact P5|]. split; [exact P6|exact E3]. }
      split; [exact GI|]. split; [reflexivity|]. intros i j old l R H. apply holds_iff in H as [HD HL]; try assumption.
      assert (R' : range (with_data g d' l') i j) by exact R.
      assert (EP : data_pos (with_data g d' l') i j = data_pos g i j) by (rewrite !data_pos_eq by assumption; reflexivity).
      destruct (Z.eqb_spec i cx) as [Ei|Ni]; cbn [andb]; [destruct (Z.eqb_spec j cy) as [Ej|Nj]|].
      - subst i j. rewrite D0 in HD. rewrite L0 in HL. injection HD as <-. injection HL as <-. rewrite <- E8. cbn [fst snd]. apply holds_iff; [exact GI|exact R'|]. rewrite EP. split; [exact E4|exact E5].
      - apply holds_iff; [exact GI|exact R'|]. rewrite EP. unfold with_data. cbn [g_data g_links]. assert (N : data_pos g i j <> data_pos g cx cy) by (intros K; apply data_pos_inj in K; [lia|assumption|assumption]). rewrite E6, E7 by exact N. now split.
      - apply holds_iff; [exact GI|exact R'|]. rewrite EP. unfold with_data. cbn [g_data g_links]. assert (N : data_pos g i j <> data_pos g cx cy) by (intros K; apply data_pos_inj in K; [lia|assumption|assumption]). rewrite E6, E7 by exact N. now split. }
    destruct (Z.leb_spec v0 v) as [C1|C1]; [|destruct (Z.leb_spec 100 v) as [C2|C2]].
    + eexists. split; [reflexivity|]. apply (G _ _ v (link gr l0)).
      * apply put_length.
      * apply put_length.
      * apply put_forall; [assumption|lia].
      * apply put_same. lia.
      * apply put_same. lia.
      * intros k Hk. apply put_other. congruence.
      * intros k Hk. apply put_other. congruence.
      * unfold upd. rewrite Z.max_r by lia. destruct (Z.leb_spec v0 v); [reflexivity|lia].
    + eexists. split; [reflexivity|]. apply (G _ _ v0 (link gr l0)).
      * reflexivity.
      * apply put_length.
      * assumption.
      * assumption.
      * apply put_same. lia.
      * reflexivity.
      * intros k Hk. apply put_other. congruence.
      * unfold upd. rewrite Z.max_l by lia. destruct (Z.leb_spec v0 v); [lia|]. destruct (Z.leb_spec 100 v); [reflexivity|lia].
    + exists g. split; [reflexivity|]. split; [exact I'|]. split; [reflexivity|]. intros i j old l R H.
      destruct (Z.eqb_spec i cx) as [->|]; cbn [andb]; [|exact H]. destruct (Z.eqb_spec j cy) as [->|]; [|exact H].
      apply holds_iff in H as [HD HL]; try assumption. rewrite D0 in HD. rewrite L0 in HL. injection HD as <-. injection HL as <-.
      unfold upd. rewrite Z.max_l by lia. destruct (Z.leb_spec v0 v); [lia|]. destruct (Z.leb_spec 100 v); [lia|]. cbn [orb fst snd]. apply holds_iff; auto.
Qed.

Definition memb (i j : Z) (cs : list (Z * Z)) : bool := existsb (fun c => (i =? fst c) && (j =? snd c)) cs.
Lemma memb_in : forall i j cs, memb i j cs = true <-> In (i, j) cs.
Proof.
  intros i j cs. unfold memb. rewrite existsb_exists. split.
  - intros ([a b] & H1 & H2). cbn in H2. apply andb_true_iff in H2 as [H2 H3]. apply Z.eqb_eq in H2, H3. now subst.
  - intros H. exists (i, j). split; [exact H|]. cbn. now rewrite !Z.eqb_refl.
Qed.

Lemma set_cells_ok : forall cs g v gr, ginv g -> NoDup cs -> exists g', set_cells g cs v gr = Some g' /\ ginv g' /\ frame_of g' = frame_of g /\
  (forall i j old l, range g i j -> holds g i j old l -> if memb i j cs then holds g' i j (fst (upd v gr old l)) (snd (upd v gr old l)) else holds g' i j old l).
Proof.
  induction cs as [|[cx cy] cs IH]; intros g v gr I ND; [exists g; cbn; auto|]. apply NoDup_cons_iff in ND as [N0 ND]. cbn [set_cells].
  destruct (set_cell_ok g cx cy v gr I) as (g1 & -> & I1 & F1 & H1). destruct (IH g1 v gr I1 ND) as (g2 & -> & I2 & F2 & H2).
  exists g2. split; [reflexivity|]. split; [exact I2|]. split; [congruence|]. intros i j old l R H. specialize (H1 i j old l R H). cbn [memb existsb fst snd]. fold (memb i j cs).
  assert (R1 : range g1 i j) by (unfold frame_of in F1; injection F1 as _ _ _ _ E1 E2; unfold range; rewrite E1, E2; exact R).
  destruct ((i =? cx) && (j =? cy)) eqn:E; cbn [orb].
  - specialize (H2 _ _ _ _ R1 H1). destruct (memb i j cs) eqn:M; [|exact H2]. apply memb_in in M. apply andb_true_iff in E as [E1 E2]. apply Z.eqb_eq in E1, E2. subst. contradiction.
  - exact (H2 _ _ _ _ R1 H1).
Qed.

Definition ring (a b : Z) : list (Z * Z) := [(a - 1, b); (a - 1, b - 1); (a - 1, b + 1); (a, b - 1); (a, b + 1); (a + 1, b - 1); (a + 1, b); (a + 1, b + 1)].
Lemma ring_in : forall a b i j, In (i, j) ((a, b) :: ring a b) <-> -1 <= i - a <= 1 /\ -1 <= j - b <= 1.
Proof.
  intros a b i j. unfold ring. cbn [In]. split.
  - intros H. repeat (destruct H as [H|H]; [injection H as <- <-; lia|]). destruct H.
  - intros [H1 H2]. assert (Hi : i = a - 1 \/ i = a \/ i = a + 1) by lia. assert (Hj : j = b - 1 \/ j = b \/ j = b + 1) by lia.
    destruct Hi as [->|[->| ->]], Hj as [->|[->| ->]]; tauto.
Qed.
Lemma ring_nodup : forall a b, NoDup ((a, b) :: ring a b).
Proof.
  intros a b. unfold ring. repeat (constructor; [cbn [In]; intros H; repeat (destruct H as [H|H]; [injection H; intros; lia|]); destruct H|]). constructor.
Qed.

Lemma cell_of : forall g x y, ginv g -> (forall i j, range g i j -> (cell_x g x = i /\ cell_y g y = j <-> in_cell2 (frame_of g) i j x y)).
Proof.
  intros g x y (P1 & P2 & P3 & P4 & _) i j [R1 R2]. unfold cell_x, cell_y, in_cell2, frame_of. cbn [f_x f_y f_extx f_exty f_nx f_ny].
  rewrite cell_spec by assumption. rewrite cell_spec by assumption. reflexivity.
Qed.
Lemma in_cell_range : forall g i j x y, in_cell2 (frame_of g) i j x y -> range g i j.
Proof. intros g i j x y [[H1 _] [H2 _]]. split; assumption. Qed.

Lemma link_add : forall gr l, add_grasp gr l (link gr l).
Proof.
  intros [k|] l; cbn; [|reflexivity]. destruct (existsb (Nat.eqb k) l) eqn:E.
  - left. split; [|reflexivity]. apply existsb_exists in E as (k' & H & Ek). apply Nat.eqb_eq in Ek. now subst.
  - right. split; [|reflexivity]. intros H. assert (existsb (Nat.eqb k) l = true) by (apply existsb_exists; exists k; split; [assumption|apply Nat.eqb_refl]). congruence.
Qed.

Lemma range_frame : forall g g' i j, frame_of g' = frame_of g -> range g i j -> range g' i j.
Proof. intros g g' i j E. unfold frame_of in E. injection E as _ _ _ _ E1 E2. unfold range. now rewrite E1, E2. Qed.

(** One operation. *)
Lemma gstep_ok : forall g o, ginv g -> exists g', gstep g o = Some g' /\ ginv g' /\ frame_of g' = moved (frame_of g) o /\
  (forall i j old l, range g i j -> holds g i j old l ->
     (o = Reset /\ holds g' i j 0 []) \/
     (exists v gr, writes (frame_of g) o i j v gr /\ holds g' i j (fst (upd v gr old l)) (snd (upd v gr old l))) \/
     (o <> Reset /\ (forall v gr, ~ writes (frame_of g) o i j v gr) /\ holds g' i j old l)).
Proof.
  intros g o I. destruct o as [x y v gr|cx cy v gr|x y v gr|x y|]; cbn [gstep].
  - unfold set_entry. destruct (set_cell_ok g (cell_x g x) (cell_y g y) v gr I) as (g' & E & I' & F & H). exists g'. split; [exact E|]. split; [exact I'|]. split; [exact F|].
    intros i j old l R Ho. specialize (H i j old l R Ho). right. pose proof (cell_of g x y I i j R) as C. destruct ((i =? cell_x g x) && (j =? cell_y g y)) eqn:B.
    + apply andb_true_iff in B as [B1 B2]. apply Z.eqb_eq in B1, B2. left. exists v, gr. split; [|exact H]. cbn [writes]. split; [reflexivity|]. split; [reflexivity|]. apply C. now split.
    + right. split; [discriminate|]. split; [|exact H]. intros v' gr' (_ & _ & K). apply C in K as [K1 K2]. subst i j. now rewrite !Z.eqb_refl in B.
  - destruct (set_cell_ok g cx cy v gr I) as (g' & E & I' & F & H). exists g'. split; [exact E|]. split; [exact I'|]. split; [exact F|].
    intros i j old l R Ho. specialize (H i j old l R Ho). right. destruct ((i =? cx) && (j =? cy)) eqn:B.
    + apply andb_true_iff in B as [B1 B2]. apply Z.eqb_eq in B1, B2. subst cx cy. left. exists v, gr. split; [|exact H]. cbn [writes]. auto.
    + right. split; [discriminate|]. split; [|exact H]. intros v' gr' (_ & _ & -> & ->). now rewrite !Z.eqb_refl in B.
  - unfold set_neighbors. destruct (outside g (cell_x g x) (cell_y g y)) eqn:O.
    + exists g. split; [reflexivity|]. split; [exact I|]. split; [reflexivity|]. intros i j old l R Ho. right. right. split; [discriminate|]. split; [|exact Ho].
      intros v' gr' (_ & _ & a & b & K & _). assert (Ra := in_cell_range g a b x y K). apply (cell_of g x y I a b Ra) in K as [K1 K2]. subst a b. apply outside_true in O. contradiction.
    + assert (R0 := proj1 (outside_false g _ _) O). set (a := cell_x g x) in *. set (b := cell_y g y) in *.
      assert (K0 : in_cell2 (frame_of g) a b x y) by (apply (cell_of g x y I a b R0); now split).
      assert (U : forall a' b', in_cell2 (frame_of g) a' b' x y -> a' = a /\ b' = b).
      { intros a' b' K. assert (Ra := in_cell_range g a' b' x y K). apply (cell_of g x y I a' b' Ra) in K. fold a b in K. split; symmetry; tauto. }
      assert (INN : ((0 <? a) && (a <? g_sx g - 1) && (0 <? b) && (b <? g_sy g - 1) = true) <-> inner (frame_of g) a b).
      { rewrite !andb_true_iff, !Z.ltb_lt. unfold inner, frame_of. cbn [f_nx f_ny]. tauto. }
      destruct ((0 <? a) && (a <? g_sx g - 1) && (0 <? b) && (b <? g_sy g - 1)).
      * destruct (set_cells_ok ((a, b) :: ring a b) g v gr I (ring_nodup a b)) as (g' & E & I' & F & H). cbn [set_cells] in E.
        destruct (set_cell g a b v gr) as [g1|]; [|discriminate]. exists g'. split; [exact E|]. split; [exact I'|]. split; [exact F|].
        intros i j old l R Ho. specialize (H i j old l R Ho). right. pose proof (memb_in i j ((a, b) :: ring a b)) as M. rewrite ring_in in M. destruct (memb i j ((a, b) :: ring a b)).
        -- left. exists v, gr. split; [|exact H]. cbn [writes]. split; [reflexivity|]. split; [reflexivity|]. exists a, b. split; [exact K0|]. right. split; [now apply INN|]. now apply M.
        -- right. split; [discriminate|]. split; [|exact H]. intros v' gr' (_ & _ & a' & b' & K & D). apply U in K as [-> ->]. assert (false = true) as X; [|discriminate]. apply M. destruct D as [[-> ->]|[_ D]]; [lia|exact D].
      * destruct (set_cell_ok g a b v gr I) as (g' & E & I' & F & H). rewrite E. exists g'. split; [reflexivity|]. split; [exact I'|]. split; [exact F|].
        intros i j old l R Ho. specialize (H i j old l R Ho). right. destruct ((i =? a) && (j =? b)) eqn:B.
        -- apply andb_true_iff in B as [B1 B2]. apply Z.eqb_eq in B1, B2. left. exists v, gr. split; [|exact H]. cbn [writes]. split; [reflexivity|]. split; [reflexivity|]. exists a, b. split; [exact K0|]. now left.
        -- right. split; [discriminate|]. split; [|exact H]. intros v' gr' (_ & _ & a' & b' & K & D). apply U in K as [-> ->]. destruct D as [[-> ->]|[D _]]; [now rewrite !Z.eqb_refl in B|]. apply INN in D. discriminate.
  - eexists. split; [reflexivity|]. split; [exact I|]. split; [reflexivity|]. intros i j old l R Ho. right. right. split; [discriminate|]. split; [intros v gr []|exact Ho].
  - assert (I' : ginv (reset g)).
    { destruct I as (P1 & P2 & P3 & P4 & P5 & P6 & P7). unfold ginv, reset, with_data. cbn [g_extx g_exty g_sx g_sy g_data g_links]. rewrite !repeat_length. split; [exact P1|]. split; [exact P2|]. split; [exact P3|]. split; [exact P4|]. split; [reflexivity|]. split; [reflexivity|].
      apply Forall_forall. intros z Hz. apply repeat_spec in Hz. lia. }
    eexists. split; [reflexivity|]. split; [exact I'|]. split; [reflexivity|]. intros i j old l R Ho. left. split; [reflexivity|]. apply holds_iff; [exact I'|exact R|].
    assert (L : (data_pos (reset g) i j < Z.to_nat (g_sx g * g_sy g))%nat) by (apply (data_pos_lt (reset g)); exact R). unfold reset, with_data. cbn [g_data g_links].
    change (data_pos _ i j) with (data_pos (reset g) i j).
    split; rewrite nth_error_repeat by exact L; reflexivity.
Qed.

Lemma grun_app : forall os g os', grun g (os ++ os') = match grun g os with Some g' => grun g' os' | None => None end.
Proof. induction os as [|o os IH]; intros g os'; [reflexivity|]. cbn. destruct (gstep g o); [apply IH|reflexivity]. Qed.

Lemma new_ginv : forall x1 x2 y1 y2 d g, new_grid x1 x2 y1 y2 d = Some g -> ginv g /\ frame_of g = Frame x1 y1 (x2 - x1)%Q (y2 - y1)%Q (g_sx g) (g_sy g) /\
  g_sx g = trunc ((x2 - x1) / d) + 1 /\ g_sy g = trunc ((y2 - y1) / d) + 1 /\ g_disc g = d /\ (x1 < x2)%Q /\ (y1 < y2)%Q /\
  (forall i j, range g i j -> holds g i j 0 []).
Proof.
  intros x1 x2 y1 y2 d g H. unfold new_grid in H. destruct (Qle_bool x2 x1) eqn:B1; [discriminate|]. destruct (Qle_bool y2 y1) eqn:B2; [discriminate|]. cbn [orb] in H.
  destruct (Z.leb_spec (trunc ((x2 - x1) / d) + 1) 0) as [C1|C1]; [discriminate|]. destruct (Z.leb_spec (trunc ((y2 - y1) / d) + 1) 0) as [C2|C2]; [discriminate|]. cbn [orb] in H. injection H as <-.
  assert (X : (x1 < x2)%Q) by (apply Qnot_le_lt; intros K; apply Qle_bool_iff in K; congruence). assert (Y : (y1 < y2)%Q) by (apply Qnot_le_lt; intros K; apply Qle_bool_iff in K; congruence).
  match goal with |- ginv ?G /\ _ => set (g := G) end. assert (I : ginv g).
  { unfold ginv, g. cbn [g_extx g_exty g_sx g_sy g_data g_links]. rewrite !repeat_length. split; [lra|]. split; [lra|]. split; [lia|]. split; [lia|]. split; [reflexivity|]. split; [reflexivity|]. apply Forall_forall. intros z Hz. apply repeat_spec in Hz. lia. }
  split; [exact I|]. split; [reflexivity|]. split; [reflexivity|]. split; [reflexivity|]. split; [reflexivity|]. split; [exact X|]. split; [exact Y|].
  intros i j R. apply holds_iff; [exact I|exact R|]. pose proof (data_pos_lt g i j R) as L. split; unfold g at 1; cbn [g_data g_links]; rewrite nth_error_repeat by exact L; reflexivity.
Qed.

Lemma grun_ok : forall os g, ginv g -> (forall i j, range g i j -> holds g i j 0 []) ->
  exists g', grun g os = Some g' /\ ginv g' /\ frame_of g' = frame_after (frame_of g) os /\
    (forall i j, range g i j -> range g' i j /\ exists v l, holds g' i j v l /\ content (frame_of g) i j os v l).
Proof.
  induction os as [|o os IH] using rev_ind; intros g I H0.
  - exists g. split; [reflexivity|]. split; [exact I|]. split; [reflexivity|]. intros i j R. split; [exact R|]. exists 0, []. split; [now apply H0|constructor].
  - destruct (IH g I H0) as (g1 & E1 & I1 & F1 & C1). destruct (gstep_ok g1 o I1) as (g2 & E2 & I2 & F2 & C2). exists g2. rewrite grun_app, E1. cbn [grun]. rewrite E2. split; [reflexivity|]. split; [exact I2|].
    split; [unfold frame_after; rewrite fold_left_app; cbn [fold_left]; fold (frame_after (frame_of g) os); now rewrite F2, F1|].
    intros i j R. destruct (C1 i j R) as (R1 & v & l & Hv & Hc). rewrite F1 in C2. assert (R2 : range g2 i j).
    { destruct R1. unfold range. assert (K : f_nx (frame_of g2) = f_nx (frame_of g1) /\ f_ny (frame_of g2) = f_ny (frame_of g1)) by (rewrite F2; destruct o; split; reflexivity). cbn in K. destruct K as [-> ->]. now split. }
    split; [exact R2|]. destruct (C2 i j v l R1 Hv) as [(-> & H)|[(w & gr & W & H)|(N & W & H)]].
    + exists 0, []. split; [exact H|]. constructor.
    + eexists _, _. split; [exact H|]. cbn [upd fst snd]. eapply content_write; [exact Hc|exact W|]. destruct ((v <=? w) || (100 <=? w)); [apply link_add|reflexivity].
    + exists v, l. split; [exact H|]. apply content_other; assumption.
Qed.

(** The maximum. *)
Lemma zseq_in : forall n i, In i (zseq n) <-> 0 <= i < n.
Proof.
  intros n i. unfold zseq. rewrite in_map_iff. split.
  - intros (k & <- & H). apply in_seq in H. lia.
  - intros H. exists (Z.to_nat i). split; [lia|]. apply in_seq. lia.
Qed.
Lemma max_loop_ok : forall g cs m, ginv g -> (forall i j, In (i, j) cs -> range g i j) -> exists r, max_loop g cs m = Some r /\ m <= r /\
  (forall i j v l, In (i, j) cs -> holds g i j v l -> v <= r) /\ (r = m \/ exists i j l, In (i, j) cs /\ holds g i j r l).
Proof.
  intros g. induction cs as [|[a b] cs IH]; intros m I H; [exists m; cbn; split; [reflexivity|]; split; [lia|]; split; [intros ? ? ? ? []|now left]|].
  cbn [max_loop]. assert (R := H a b (or_introl eq_refl)). destruct (holds_ex g a b I R) as (v & l & Hv). assert (Hv' := Hv). apply holds_iff in Hv' as [-> _]; try assumption.
  destruct (IH (if m <? v then v else m) I (fun i j K => H i j (or_intror K))) as (r & E & L & U & A). exists r. split; [exact E|].
  assert (B : m <= (if m <? v then v else m) /\ v <= (if m <? v then v else m)) by (destruct (Z.ltb_spec m v); lia). split; [lia|]. split.
  - intros i j v' l' [K|K] Hh; [|exact (U i j v' l' K Hh)]. injection K as <- <-. unfold holds in Hv, Hh. assert (v' = v) by congruence. lia.
  - destruct A as [->|(i & j & l' & K & Hh)]; [|right; exists i, j, l'; split; [now right|exact Hh]]. destruct (Z.ltb_spec m v); [|now left]. right. exists a, b, l. split; [now left|exact Hv].
Qed.
