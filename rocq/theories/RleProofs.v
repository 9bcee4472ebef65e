From Coq Require Import List NArith PeanoNat Bool Lia ZifyBool ZifyN ZifyNat.
From Verif Require Import RleModel RleSpec.
Import ListNotations.
Open Scope N_scope.

(** ** What a piece of code decodes to *)
Inductive Dec (m : N) : list N -> list N -> Prop :=
| Dec_nil : Dec m [] []
| Dec_plain s r d : s <> m -> Dec m r d -> Dec m (s :: r) (s :: d)
| Dec_mark c r d : c <= 2 -> Dec m r d ->
    Dec m (m :: c :: r) (repeat m (N.to_nat (c + 1)) ++ d)
| Dec_short c s r d : 2 < c -> N.testbit c 7 = false -> Dec m r d ->
    Dec m (m :: c :: s :: r) (repeat s (N.to_nat (c + 1)) ++ d)
| Dec_long c lo s r d : 2 < c -> N.testbit c 7 = true -> Dec m r d ->
    Dec m (m :: c :: lo :: s :: r)
        (repeat s (N.to_nat (N.shiftl (N.land c 127) 8 + lo + 1)) ++ d).

Lemma Dec_app m a x b y : Dec m a x -> Dec m b y -> Dec m (a ++ b) (x ++ y).
Proof.
  intros H Hb. induction H; cbn [app]; rewrite <- ?app_assoc; try (constructor; assumption).
  assumption.
Qed.

Lemma dec_loop_Dec m code data : Dec m code data ->
  forall fuel out, code <> [] -> (length code <= fuel)%nat ->
  rle_dec_loop fuel m code out = DecOk (out ++ data).
Proof.
  induction 1 as [|s r d Hs HD IH|c r d Hc HD IH|c s r d Hc Ht HD IH|c lo s r d Hc Ht HD IH];
    intros fuel out Hne Hf; [congruence| | | |]; cbn [length] in Hf;
    (destruct fuel as [|fuel]; [lia|]); cbn [rle_dec_loop].
  - replace (s =? m) with false by lia.
    destruct r as [|x r].
    + inversion HD; subst. reflexivity.
    + rewrite IH; [|congruence|cbn [length] in *; lia]. now rewrite <- app_assoc.
  - rewrite N.eqb_refl. replace (c <=? 2) with true by lia.
    destruct r as [|x r].
    + inversion HD; subst. now rewrite app_nil_r.
    + rewrite IH; [|congruence|cbn [length] in *; lia]. now rewrite <- app_assoc.
  - rewrite N.eqb_refl. replace (c <=? 2) with false by lia. rewrite Ht.
    destruct r as [|x r].
    + inversion HD; subst. now rewrite app_nil_r.
    + rewrite IH; [|congruence|cbn [length] in *; lia]. now rewrite <- app_assoc.
  - rewrite N.eqb_refl. replace (c <=? 2) with false by lia. rewrite Ht.
    destruct r as [|x r].
    + inversion HD; subst. now rewrite app_nil_r.
    + rewrite IH; [|congruence|cbn [length] in *; lia]. now rewrite <- app_assoc.
Qed.

(** ** The encoder's pieces *)
Lemma byte_count c : 128 <= c -> c < 32768 ->
  to_uchar (N.lor (N.shiftr c 8) 128) = N.lor (N.shiftr c 8) 128 /\
  N.testbit (N.lor (N.shiftr c 8) 128) 7 = true /\
  2 < N.lor (N.shiftr c 8) 128 /\
  N.shiftl (N.land (N.lor (N.shiftr c 8) 128) 127) 8 + N.land c 255 = c.
Proof.
  intros H1 H2.
  assert (Hs : N.shiftr c 8 < 128).
  { rewrite N.shiftr_div_pow2. change (2^8) with 256.
    apply N.div_lt_upper_bound; lia. }
  assert (Hl : N.lor (N.shiftr c 8) 128 = N.shiftr c 8 + 128).
  { rewrite N.add_nocarry_lxor.
    - rewrite N.lxor_lor; [reflexivity|].
      apply N.bits_inj_0. intro i. rewrite N.land_spec.
      destruct (N.eq_dec i 7) as [-> |Hi].
      + assert (N.testbit (N.shiftr c 8) 7 = false) as ->; [|reflexivity].
        rewrite N.testbit_false. change (2^7) with 128. rewrite N.div_small by lia. reflexivity.
      + change 128 with (2^7). rewrite N.pow2_bits_false by congruence. apply andb_false_r.
    - apply N.bits_inj_0. intro i. rewrite N.land_spec.
      destruct (N.eq_dec i 7) as [-> |Hi].
      + assert (N.testbit (N.shiftr c 8) 7 = false) as ->; [|reflexivity].
        rewrite N.testbit_false. change (2^7) with 128. rewrite N.div_small by lia. reflexivity.
      + change 128 with (2^7). rewrite N.pow2_bits_false by congruence. apply andb_false_r. }
  repeat split.
  - unfold to_uchar. rewrite Hl, N.mod_small; lia.
  - rewrite N.lor_spec. change 128 with (2^7). rewrite N.pow2_bits_true. apply orb_true_r.
  - rewrite Hl. lia.
  - rewrite Hl. change 127 with (N.ones 7). rewrite N.land_ones. change (2^7) with 128.
    replace (N.shiftr c 8 + 128) with (N.shiftr c 8 + 1 * 128) by lia.
    rewrite N.mod_add by lia. rewrite N.mod_small by lia.
    change 255 with (N.ones 8). rewrite N.land_ones.
    rewrite N.shiftl_mul_pow2, N.shiftr_div_pow2. change (2^8) with 256.
    rewrite (N.div_mod' c 256) at 3. lia.
Qed.

Fixpoint occ (m : N) (l : list N) : N :=
  match l with [] => 0 | x :: r => if x =? m then occ m r + 1 else occ m r end.

Lemma hist_occ l b : rle_hist l b = occ b l.
Proof. induction l as [|x r IH]; cbn; [reflexivity|]. now rewrite IH. Qed.

Lemma occ_app m a b : occ m (a ++ b) = occ m a + occ m b.
Proof. induction a as [|x r IH]; cbn; [lia|]. destruct (x =? m); lia. Qed.

Lemma occ_repeat_same m n : occ m (repeat m n) = N.of_nat n.
Proof. induction n; cbn; [reflexivity|]. rewrite N.eqb_refl. lia. Qed.

(** code [c] decodes to [d] and is at most [occ m d] bytes longer. *)
Definition enc (m : N) (c d : list N) : Prop :=
  Dec m c d /\ N.of_nat (length c) <= N.of_nat (length d) + occ m d /\
  (byte_list d -> m < 256 -> byte_list c).

Lemma enc_app m a x b y : enc m a x -> enc m b y -> enc m (a ++ b) (x ++ y).
Proof.
  intros (H1 & H2 & H3) (K1 & K2 & K3). split; [|split].
  - now apply Dec_app.
  - rewrite !app_length, occ_app. lia.
  - unfold byte_list in *. rewrite !Forall_app. intuition.
Qed.

Lemma enc_nil m : enc m [] [].
Proof. split; [constructor|split]; [cbn; lia|intros; constructor]. Qed.

Lemma enc_nonrep m s : enc m (rle_write_nonrep m s) [s].
Proof.
  unfold rle_write_nonrep. destruct (s =? m) eqn:E.
  - apply N.eqb_eq in E. subst. split; [|split].
    + change [m] with (repeat m (N.to_nat (0 + 1)) ++ []). constructor; [lia|constructor].
    + cbn. rewrite N.eqb_refl. lia.
    + intros Hb Hm. repeat constructor; lia.
  - split; [|split].
    + constructor; [lia|constructor].
    + cbn [length occ]. rewrite E. lia.
    + intros Hb Hm. exact Hb.
Qed.

Lemma enc_plain m s n : s <> m -> enc m (repeat s n) (repeat s n).
Proof.
  intro H. induction n; cbn [repeat].
  - apply enc_nil.
  - change (s :: repeat s n) with ([s] ++ repeat s n). apply enc_app; [|assumption].
    pose proof (enc_nonrep m s) as K. unfold rle_write_nonrep in K.
    replace (s =? m) with false in K by lia. exact K.
Qed.

Lemma enc_rep m s c : 1 <= c -> c <= 32768 -> enc m (rle_write_rep m s c) (repeat s (N.to_nat c)).
Proof.
  intros Hlo Hhi. unfold rle_write_rep.
  destruct (c <=? 3) eqn:E3.
  - destruct (s =? m) eqn:Es.
    + apply N.eqb_eq in Es. subst.
      assert (Hc : to_uchar (c - 1) = c - 1) by (unfold to_uchar; rewrite N.mod_small; lia).
      rewrite Hc.
      split; [|split].
      * replace (N.to_nat c) with (N.to_nat (c - 1 + 1)) by lia.
        rewrite <- (app_nil_r (repeat m _)). constructor; [lia|constructor].
      * rewrite repeat_length, occ_repeat_same. cbn [length]. lia.
      * intros _ Hm. repeat constructor; lia.
    + apply enc_plain. lia.
  - assert (Hsym : byte_list (repeat s (N.to_nat c)) -> s < 256).
    { intro Hb. unfold byte_list in Hb. rewrite Forall_forall in Hb. apply Hb.
      apply repeat_spec || idtac. destruct (N.to_nat c) eqn:K; [lia|]. now left. }
    destruct (128 <=? c - 1) eqn:E128; cbn [app].
    + destruct (byte_count (c - 1)) as (B1 & B2 & B3 & B4); [lia|lia|].
      assert (Hu : to_uchar (N.land (c - 1) 255) = N.land (c - 1) 255).
      { unfold to_uchar. change 255 with (N.ones 8). rewrite N.land_ones. change (2^8) with 256.
        rewrite N.mod_mod; lia. }
      rewrite Hu. rewrite B1.
      split; [|split].
      * pose proof (Dec_long m _ (N.land (c-1) 255) s [] [] B3 B2 (Dec_nil m)) as D.
        rewrite B4 in D. rewrite app_nil_r in D.
        replace (c - 1 + 1) with c in D by lia. exact D.
      * rewrite repeat_length. cbn [length]. lia.
      * intros Hb Hm. unfold byte_list. specialize (Hsym Hb).
        repeat constructor; try assumption.
        -- rewrite <- B1. unfold to_uchar. apply N.mod_lt. lia.
        -- rewrite <- Hu. unfold to_uchar. apply N.mod_lt. lia.
    + assert (Hu : to_uchar (N.land (c - 1) 255) = c - 1).
      { unfold to_uchar. change 255 with (N.ones 8). rewrite N.land_ones. change (2^8) with 256.
        rewrite N.mod_mod by lia. apply N.mod_small. lia. }
      rewrite Hu. split; [|split].
      * rewrite <- (app_nil_r (repeat s _)). replace (N.to_nat c) with (N.to_nat (c - 1 + 1)) by lia.
        apply Dec_short; [lia| |constructor].
        rewrite N.testbit_false. change (2^7) with 128. rewrite N.div_small by lia. reflexivity.
      * rewrite repeat_length. cbn [length]. lia.
      * intros Hb Hm. unfold byte_list. specialize (Hsym Hb). repeat constructor; try assumption; lia.
Qed.

(** ** The run scanner *)
Lemma repeat_snoc {A} (x : A) n l : repeat x n ++ x :: l = repeat x (S n) ++ l.
Proof. change (x :: l) with ([x] ++ l). rewrite app_assoc. f_equal. now rewrite <- repeat_cons. Qed.

Lemma rle_run_spec b1 rest : forall b2 c b2' c' rest',
  rle_run b1 b2 c rest = (b2', c', rest') -> b1 = b2 -> 2 <= c -> c <= 32768 ->
  2 <= c' /\ c' <= 32768 /\ (length rest' <= length rest)%nat /\
  (b1 = b2' -> repeat b1 (N.to_nat c) ++ rest = repeat b1 (N.to_nat c') ++ rest') /\
  (b1 <> b2' -> repeat b1 (N.to_nat c) ++ rest = repeat b1 (N.to_nat (c' - 1)) ++ b2' :: rest').
Proof.
  induction rest as [|x r IH]; intros b2 c b2' c' rest' H E Hc Hc2; cbn [rle_run] in H.
  - injection H as <- <- <-. repeat split; try lia; auto.
  - subst b2. rewrite N.eqb_refl in H. cbn [andb] in H.
    destruct (c <? 32768) eqn:Ec.
    2:{ injection H as <- <- <-. repeat split; try lia; auto. }
    destruct (N.eq_dec b1 x) as [-> |Hx].
    + destruct (IH _ _ _ _ _ H eq_refl) as (A1 & A2 & A3 & A4 & A5); [lia|lia|].
      assert (K : repeat x (N.to_nat c) ++ x :: r = repeat x (N.to_nat (c + 1)) ++ r).
      { rewrite repeat_snoc. f_equal. f_equal. lia. }
      repeat split; try assumption; [cbn [length]; lia| |]; intro; rewrite K; auto.
    + assert (Hr : rle_run b1 x (c + 1) r = (x, c + 1, r)).
      { destruct r as [|y r]; cbn [rle_run]; [reflexivity|].
        replace (b1 =? x) with false by lia. reflexivity. }
      rewrite Hr in H. injection H as <- <- <-.
      repeat split; try lia; [cbn [length]; lia|].
      intros _. replace (c + 1 - 1) with c by lia. reflexivity.
Qed.

(** ** The main loop *)
Definition loop_inv (m : N) (input : list N) (s : rle_state) : Prop :=
  exists code done,
    r_out s = m :: code /\ enc m code done /\
    input = done ++ r_byte1 s :: r_byte2 s :: r_rest s /\ r_count s = 2.

Definition final_inv (m : N) (input : list N) (s : rle_state) : Prop :=
  exists code done,
    r_out s = m :: code /\ enc m code done /\ r_rest s = [] /\
    ((r_count s = 1 /\ input = done ++ [r_byte1 s]) \/ (r_count s = 0 /\ input = done)).

Lemma body_inv m input s : loop_inv m input s ->
  let s' := rle_body2 (rle_body1 m s) in
  (loop_inv m input s' /\ (length (r_rest s') < length (r_rest s))%nat) \/
  (final_inv m input s').
Proof.
  intros (code & done & Hout & Henc & Hin & Hc).
  destruct s as [b1 b2 c rest out]. cbn [r_out r_byte1 r_byte2 r_rest r_count] in *. subst c out.
  cbn zeta. unfold rle_body1. destruct (b1 =? b2) eqn:E12.
  - apply N.eqb_eq in E12. subst b2.
    destruct (rle_run b1 b1 2 rest) as [[b2' c'] rest'] eqn:ER.
    destruct (rle_run_spec _ _ _ _ _ _ _ ER eq_refl) as (A1 & A2 & A3 & A4 & A5); [lia|lia|].
    change (N.to_nat 2) with 2%nat in *. cbn [repeat app] in A4, A5.
    destruct (b1 =? b2') eqn:E.
    + apply N.eqb_eq in E. specialize (A4 E). clear A5.
      assert (He : enc m (code ++ rle_write_rep m b1 c') (done ++ repeat b1 (N.to_nat c'))).
      { apply enc_app; [assumption|]. apply enc_rep; lia. }
      rewrite A4, app_assoc in Hin.
      destruct rest' as [|x [|y r]].
      * right. exists (code ++ rle_write_rep m b1 c'), (done ++ repeat b1 (N.to_nat c')).
        cbn [rle_body2 r_out r_rest r_count r_byte1]. repeat split; auto; try apply He.
        right. split; [reflexivity|]. now rewrite app_nil_r in Hin.
      * right. exists (code ++ rle_write_rep m b1 c'), (done ++ repeat b1 (N.to_nat c')).
        cbn [rle_body2 r_out r_rest r_count r_byte1]. repeat split; auto; try apply He.
      * left. split.
        -- exists (code ++ rle_write_rep m b1 c'), (done ++ repeat b1 (N.to_nat c')).
           cbn [rle_body2 r_out r_rest r_count r_byte1 r_byte2]. repeat split; auto; apply He.
        -- cbn [rle_body2 r_rest]. cbn [length] in *. lia.
    + assert (E' : b1 <> b2') by lia. specialize (A5 E'). clear A4.
      assert (Hc' : 2 <= c' - 1).
      { destruct (N.eq_dec c' 2) as [-> |]; [|lia]. exfalso.
        change (N.to_nat (2-1)) with 1%nat in A5. cbn [repeat app] in A5. congruence. }
      assert (He : enc m (code ++ rle_write_rep m b1 (c' - 1)) (done ++ repeat b1 (N.to_nat (c' - 1)))).
      { apply enc_app; [assumption|]. apply enc_rep; lia. }
      rewrite A5, app_assoc in Hin.
      destruct rest' as [|x r].
      * right. exists (code ++ rle_write_rep m b1 (c' - 1)), (done ++ repeat b1 (N.to_nat (c' - 1))).
        cbn [rle_body2 r_out r_rest r_count r_byte1]. repeat split; auto; try apply He.
      * left. split.
        -- exists (code ++ rle_write_rep m b1 (c' - 1)), (done ++ repeat b1 (N.to_nat (c' - 1))).
           cbn [rle_body2 r_out r_rest r_count r_byte1 r_byte2]. repeat split; auto; apply He.
        -- cbn [rle_body2 r_rest]. cbn [length] in *. lia.
  - assert (He : enc m (code ++ rle_write_nonrep m b1) (done ++ [b1])).
    { apply enc_app; [assumption|]. apply enc_nonrep. }
    change (b1 :: b2 :: rest) with ([b1] ++ b2 :: rest) in Hin. rewrite app_assoc in Hin.
    destruct rest as [|x r].
    + right. exists (code ++ rle_write_nonrep m b1), (done ++ [b1]).
      cbn [rle_body2 r_out r_rest r_count r_byte1]. repeat split; auto; apply He.
    + left. split.
      * exists (code ++ rle_write_nonrep m b1), (done ++ [b1]).
        cbn [rle_body2 r_out r_rest r_count r_byte1 r_byte2]. repeat split; auto; apply He.
      * cbn [rle_body2 r_rest length]. lia.
Qed.

Lemma loop_ok m input : forall fuel s, loop_inv m input s -> (length (r_rest s) < fuel)%nat ->
  exists s', rle_loop fuel m s = Some s' /\ final_inv m input s'.
Proof.
  induction fuel as [|fuel IH]; intros s Hs Hf; [lia|].
  cbn [rle_loop]. destruct (body_inv m input s Hs) as [[Hi Hl]|Hfin]; cbn zeta in *.
  - set (s' := rle_body2 (rle_body1 m s)) in *.
    destruct Hi as (code & done & H1 & H2 & H3 & H4).
    replace (2 <=? r_count s') with true by (rewrite H4; reflexivity).
    rewrite orb_true_r. apply IH; [exists code, done; auto|lia].
  - set (s' := rle_body2 (rle_body1 m s)) in *.
    pose proof Hfin as (code & done & H1 & H2 & H3 & H4).
    rewrite H3. replace (2 <=? r_count s') with false by (destruct H4 as [[-> _]|[-> _]]; reflexivity).
    cbn. eauto.
Qed.

Lemma compress_enc input : input <> [] ->
  exists code, rle_compress input = Some (rle_marker input :: code) /\
               enc (rle_marker input) code input.
Proof.
  destruct input as [|b1 rest]; [congruence|intros _].
  unfold rle_compress. set (input := b1 :: rest). set (m := rle_marker input).
  assert (Hfin : exists s, match rest with
        | b2 :: rest' => rle_loop (length input) m (RleState b1 b2 2 rest' [m])
        | [] => Some (RleState b1 b1 1 [] [m])
        end = Some s /\ final_inv m input s).
  { destruct rest as [|b2 rest].
    - eexists. split; [reflexivity|]. exists [], []. cbn [r_out r_rest r_count r_byte1 r_byte2 app]. repeat split; auto; apply enc_nil.
    - apply loop_ok; [|subst input; cbn [r_rest length]; lia].
      exists [], []. cbn [r_out r_rest r_count r_byte1 r_byte2 app]. repeat split; auto; apply enc_nil. }
  destruct Hfin as (s & -> & code & done & H1 & H2 & H3 & H4).
  destruct H4 as [[Hc Hin]|[Hc Hin]]; rewrite Hc, H1; cbn [N.eqb Pos.eqb].
  - eexists. split; [reflexivity|]. rewrite Hin. apply enc_app; [assumption|apply enc_nonrep].
  - eexists. split; [reflexivity|]. now rewrite Hin.
Qed.

(** ** Choice of the marker *)
Lemma marker_fold (h : N -> N) l m0 :
  let m := fold_left (fun m i => if h i <? h m then i else m) l m0 in
  (m = m0 \/ In m l) /\ (forall i, In i l \/ i = m0 -> h m <= h i).
Proof.
  revert m0. induction l as [|x l IH]; intro m0; cbn [fold_left].
  - split; [now left|]. intros i [[]| ->]. lia.
  - specialize (IH (if h x <? h m0 then x else m0)). cbn zeta in *.
    destruct IH as [I1 I2]. destruct (h x <? h m0) eqn:E.
    + split.
      * destruct I1 as [-> |I1]; [right; now left|right; now right].
      * intros i [[-> |Hi]| ->]; [apply I2; now right|apply I2; now left|].
        etransitivity; [apply I2; now right|lia].
    + split.
      * destruct I1 as [-> |I1]; [now left|right; now right].
      * intros i [[-> |Hi]| ->]; [|apply I2; now left|apply I2; now right].
        etransitivity; [apply I2; now right|lia].
Qed.

Lemma marker_byte input : rle_marker input < 256.
Proof.
  unfold rle_marker.
  destruct (proj1 (marker_fold (rle_hist input) (map N.of_nat (seq 1 255)) 0)) as [-> |H]; [lia|].
  apply in_map_iff in H. destruct H as (k & <- & Hk). apply in_seq in Hk. lia.
Qed.

Lemma marker_min input b : b < 256 -> occ (rle_marker input) input <= occ b input.
Proof.
  intro Hb. rewrite <- !hist_occ. unfold rle_marker.
  apply (proj2 (marker_fold (rle_hist input) (map N.of_nat (seq 1 255)) 0)).
  destruct (N.eq_dec b 0) as [-> |]; [now right|]. left.
  apply in_map_iff. exists (N.to_nat b). split; [lia|]. apply in_seq. lia.
Qed.

(** The sum of the frequencies of the byte values [0..k-1]. *)
Fixpoint occ_sum (k : nat) (l : list N) : N :=
  match k with O => 0 | S k => occ (N.of_nat k) l + occ_sum k l end.

Lemma occ_sum_nil k : occ_sum k [] = 0.
Proof. induction k as [|k IHk]; cbn [occ_sum]; [reflexivity|]. rewrite IHk. reflexivity. Qed.

Lemma occ_sum_cons k x l : occ_sum k (x :: l) = (if x <? N.of_nat k then 1 else 0) + occ_sum k l.
Proof.
  induction k as [|k IH]; cbn [occ_sum].
  - now destruct x.
  - rewrite IH. cbn [occ]. destruct (N.eqb_spec x (N.of_nat k)), (N.ltb_spec x (N.of_nat k)),
      (N.ltb_spec x (N.of_nat (S k))); lia.
Qed.

Lemma occ_sum_length l : occ_sum 256 l <= N.of_nat (length l).
Proof.
  induction l as [|x l IH].
  - now rewrite occ_sum_nil.
  - rewrite occ_sum_cons. cbn [length]. destruct (x <? _); lia.
Qed.

Lemma occ_sum_lower v l k : (forall i, i < N.of_nat k -> v <= occ i l) ->
  N.of_nat k * v <= occ_sum k l.
Proof.
  induction k as [|k IH]; intro H; cbn [occ_sum]; [lia|].
  pose proof (H (N.of_nat k)) as Hk.
  assert (N.of_nat k * v <= occ_sum k l) by (apply IH; intros; apply H; lia). lia.
Qed.

Lemma marker_rare input : 256 * occ (rle_marker input) input <= N.of_nat (length input).
Proof.
  etransitivity; [|apply occ_sum_length].
  change 256 with (N.of_nat 256) at 1. apply occ_sum_lower.
  intros i Hi. apply marker_min. exact Hi.
Qed.

(** ** Results *)
Lemma compress_roundtrip input :
  exists code, rle_compress input = Some code /\ rle_uncompress code = DecOk input.
Proof.
  destruct (list_eq_dec N.eq_dec input []) as [-> |Hne]; [exists []; split; reflexivity|].
  destruct (compress_enc input Hne) as (code & Hc & HD & _).
  eexists. split; [exact Hc|]. cbn [rle_uncompress].
  rewrite (dec_loop_Dec _ _ _ HD); [reflexivity| |cbn [length]; lia].
  intros ->. inversion HD; congruence.
Qed.

Lemma compress_size input code : rle_compress input = Some code ->
  (length code <= documented_bound (length input))%nat.
Proof.
  intro H. destruct (list_eq_dec N.eq_dec input []) as [-> |Hne].
  - injection H as <-. cbn. lia.
  - destruct (compress_enc input Hne) as (c & Hc & _ & Hl & _). rewrite Hc in H. injection H as <-.
    pose proof (marker_rare input) as Hr. unfold documented_bound. cbn [length].
    set (n := length input) in *. set (o := occ (rle_marker input) input) in *.
    assert (o <= N.of_nat (n / 256)%nat).
    { assert (Hd : N.to_nat o = (256 * N.to_nat o / 256)%nat)
        by (rewrite Nat.mul_comm, Nat.div_mul; lia).
      assert (256 * N.to_nat o / 256 <= n / 256)%nat by (apply Nat.div_le_mono; lia). lia. }
    lia.
Qed.

Lemma compress_bytes input code : byte_list input -> rle_compress input = Some code -> byte_list code.
Proof.
  intros Hb H. destruct (list_eq_dec N.eq_dec input []) as [-> |Hne].
  - injection H as <-. constructor.
  - destruct (compress_enc input Hne) as (c & Hc & _ & _ & Hby). rewrite Hc in H. injection H as <-.
    constructor; [apply marker_byte|]. apply Hby; [assumption|apply marker_byte].
Qed.

Lemma dec_loop_terminates m : forall fuel code out, (length code <= fuel)%nat -> (0 < fuel)%nat ->
  rle_dec_loop fuel m code out <> DecFuel.
Proof.
  induction fuel as [|fuel IH]; intros code out Hf Hpos; [lia|].
  assert (Hcont : forall rest out, (length rest < length code)%nat ->
            match rest with [] => DecOk out | _ => rle_dec_loop fuel m rest out end <> DecFuel).
  { intros rest o Hr. destruct rest as [|x r]; [discriminate|]. apply IH; cbn [length] in *; lia. }
  cbn [rle_dec_loop]. destruct code as [|s code]; [discriminate|].
  destruct (s =? m).
  - destruct code as [|c code]; [discriminate|].
    destruct (c <=? 2).
    + apply Hcont. cbn [length]. lia.
    + destruct (N.testbit c 7).
      * destruct code as [|lo [|s2 code]]; try discriminate. apply Hcont. cbn [length]. lia.
      * destruct code as [|s2 code]; try discriminate. apply Hcont. cbn [length]. lia.
  - apply Hcont. cbn [length]. lia.
Qed.

Lemma uncompress_terminates code : rle_uncompress code <> DecFuel.
Proof.
  destruct code as [|m code]; [discriminate|]. cbn [rle_uncompress].
  apply dec_loop_terminates; cbn [length]; lia.
Qed.

Lemma decoder_safe input code :
  byte_list input -> rle_compress input = Some code ->
  byte_list code /\
  rle_uncompress code <> DecReadOutOfBounds /\
  (forall out, rle_uncompress code = DecOk out -> length out = length input).
Proof.
  intros Hb Hc. split; [eapply compress_bytes; eauto|].
  destruct (compress_roundtrip input) as (c & H1 & H2).
  assert (c = code) by congruence. subst c. split; intros; congruence.
Qed.

Lemma decoder_arbitrary_refuted :
  ~ (forall code, byte_list code -> rle_uncompress code <> DecReadOutOfBounds).
Proof. intro H. apply (H [5; 5; 200]); [repeat constructor|reflexivity]. Qed.
