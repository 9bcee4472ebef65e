From Coq Require Import List ZArith Bool Arith Lia.
From Verif Require Import BlockModel BlockSpec.
Import ListNotations.

(** The pairs of a run. *)
Definition chunk (r : nat * Z) : list (Z * Z) :=
  let '(n, x) := r in repeat (255%Z, x) ((n - 1) / 255) ++ [(Z.of_nat (n - 255 * ((n - 1) / 255)), x)].
Definition flat (ps : list (Z * Z)) : list Z := flat_map (fun p => [fst p; snd p]) ps.
Definition enc (l : list Z) : list (Z * Z) := flat_map chunk (runs l).

Lemma runs_cons : forall x l, exists n r, runs (x :: l) = (S n, x) :: r.
Proof.
  intros x l. cbn. destruct (runs l) as [|[n y] r]; [eauto|]. destruct (Z.eqb_spec x y) as [->|]; eauto.
Qed.
Lemma runs_repeat : forall k x l n r, runs (x :: l) = (n, x) :: r -> runs (repeat x k ++ x :: l) = (k + n, x) :: r.
Proof.
  induction k as [|k IH]; intros x l n r E; [exact E|]. cbn [repeat app]. specialize (IH x l n r E). cbn [runs]. cbn [runs] in IH. rewrite IH.
  rewrite Z.eqb_refl. reflexivity.
Qed.
Lemma runs_change : forall k x y l, x <> y -> runs (repeat x (S k) ++ y :: l) = (S k, x) :: runs (y :: l).
Proof.
  intros k x y l N. destruct (runs_cons y l) as (n & r & E). revert E. induction k as [|k IH]; intros E.
  - cbn [repeat app]. cbn [runs] in *. rewrite E. destruct (Z.eqb_spec x y); [contradiction|reflexivity].
  - cbn [repeat app] in *. specialize (IH E). cbn [runs] in *. rewrite IH, Z.eqb_refl. reflexivity.
Qed.
Lemma runs_repeat_nil : forall k x, runs (repeat x (S k)) = [(S k, x)].
Proof. induction k as [|k IH]; intros x; [reflexivity|]. specialize (IH x). cbn [repeat] in *. cbn [runs] in *. rewrite IH, Z.eqb_refl. reflexivity. Qed.

Definition c255 : nat := 255.
Lemma chunk_small : forall n x, 1 <= n <= 255 -> chunk (n, x) = [(Z.of_nat n, x)].
Proof.
  intros n x H. unfold chunk. replace ((n - 1) / 255) with 0 by (symmetry; apply Nat.div_small; lia). cbn [repeat app Nat.mul]. now rewrite Nat.sub_0_r.
Qed.
Lemma chunk_step : forall n x, 1 <= n -> chunk (255 + n, x) = (255%Z, x) :: chunk (n, x).
Proof.
  intros n x H. unfold chunk. replace (255 + n - 1) with (1 * 255 + (n - 1)) by lia. rewrite Nat.div_add_l by lia.
  set (q := (n - 1) / 255). cbn [Nat.add repeat app]. f_equal. f_equal. f_equal. f_equal. f_equal. lia.
Qed.

Fixpoint emit_all (size : nat) (out : list Z) (ps : list (Z * Z)) : outcome :=
  match ps with
  | [] => Done out
  | (c, v) :: ps => match emit size out c v with Done out => emit_all size out ps | r => r end
  end.

Lemma loop_enc : forall size rest cur count out, 1 <= count <= 255 ->
  compress_loop size cur (Z.of_nat count) rest out = emit_all size out (enc (repeat cur count ++ rest)).
Proof.
  intros size. induction rest as [|x rest IH]; intros cur count out Hc; cbn [compress_loop].
  - rewrite app_nil_r. destruct count as [|k]; [lia|]. unfold enc. rewrite runs_repeat_nil. cbn [flat_map]. rewrite chunk_small by lia. rewrite app_nil_r. cbn [emit_all].
    destruct (Z.ltb_spec 0 (Z.of_nat (S k))); [|lia]. destruct (emit size out (Z.of_nat (S k)) cur); reflexivity.
  - destruct (Z.eqb_spec x cur) as [->|N].
    + destruct (Z.eqb_spec (Z.of_nat count) 255) as [E|N'].
      * assert (count = c255) by (unfold c255; lia). subst count. destruct (runs_cons cur rest) as (n & r & Er).
        unfold enc. rewrite (runs_repeat c255 cur rest (S n) r Er). cbn [flat_map]. unfold c255. rewrite chunk_step by lia. cbn [app emit_all].
        destruct (emit size out 255 cur); try reflexivity. specialize (IH cur 1 out0 ltac:(lia)). cbn [Z.of_nat Pos.of_succ_nat] in IH. rewrite IH.
        cbn [repeat app]. unfold enc. rewrite Er. reflexivity.
      * rewrite Z.mod_small by lia. replace (Z.of_nat count + 1)%Z with (Z.of_nat (S count)) by lia. rewrite IH by lia. f_equal. f_equal.
        cbn [repeat app]. clear. induction count as [|k IH]; [reflexivity|]. cbn [repeat app]. now rewrite <- IH.
    + destruct count as [|k]; [lia|]. unfold enc. rewrite runs_change by congruence. cbn [flat_map]. rewrite chunk_small by lia. cbn [app emit_all].
      destruct (emit size out (Z.of_nat (S k)) cur); try reflexivity. specialize (IH x 1 out0 ltac:(lia)). cbn [Z.of_nat Pos.of_succ_nat] in IH. rewrite IH. reflexivity.
Qed.

Lemma emit_all_spec : forall size ps out, length out < size ->
  emit_all size out ps = if length out + 2 * length ps <? size then Done (out ++ flat ps) else if Nat.even (size - length out) then Thrown else Undefined.
Proof.
  intros size. induction ps as [|[c v] ps IH]; intros out H; cbn [emit_all].
  - cbn [length flat flat_map]. rewrite app_nil_r. destruct (Nat.ltb_spec (length out + 2 * 0) size); [reflexivity|lia].
  - unfold emit. cbn [length]. destruct (Nat.leb_spec (length out + 2) size).
    + destruct (Nat.leb_spec size (length out + 2)).
      * destruct (Nat.ltb_spec (length out + 2 * S (length ps)) size); [lia|]. replace (size - length out) with 2 by lia. reflexivity.
      * rewrite IH by (rewrite app_length; cbn; lia). rewrite app_length. cbn [length].
        replace (length out + 2 + 2 * length ps) with (length out + 2 * S (length ps)) by lia. destruct (Nat.ltb_spec (length out + 2 * S (length ps)) size).
        -- rewrite <- app_assoc. reflexivity.
        -- replace (size - length out) with (S (S (size - (length out + 2)))) by lia. reflexivity.
    + destruct (Nat.ltb_spec (length out + 2 * S (length ps)) size); [lia|]. replace (size - length out) with 1 by lia. reflexivity.
Qed.

Lemma enc_pairs : forall l, length (enc l) = pairs l.
Proof.
  intros l. unfold enc, pairs.
  assert (G : forall rs, (forall n x, In (n, x) rs -> 1 <= n) -> length (flat_map chunk rs) = list_sum (map (fun r => (fst r + 254) / 255) rs)).
  { induction rs as [|[n x] rs IH]; intros H; [reflexivity|]. cbn [flat_map map list_sum fold_right]. rewrite app_length, IH by (intros; apply (H n0 x0); now right).
    f_equal. cbn [fst]. unfold chunk. rewrite app_length, repeat_length. cbn [length]. assert (1 <= n) by (apply (H n x); now left).
    replace (n + 254) with (1 * 255 + (n - 1)) by lia. rewrite Nat.div_add_l by lia. lia. }
  apply G. intros n x. induction l as [|y l IH]; [intros []|]. cbn [runs]. destruct (runs l) as [|[k z] r]; [intros [E|[]]; injection E as <- _; lia|].
  destruct (y =? z)%Z; intros [E|H].
  - injection E as <- _. lia.
  - apply IH. now right.
  - injection E as <- _. lia.
  - apply IH. exact H.
Qed.

Lemma compress_spec : forall l, l <> [] ->
  compress l = if 2 * pairs l <? length l then Done (flat (enc l)) else if Nat.even (length l) then Thrown else Undefined.
Proof.
  intros [|x l] H; [contradiction|]. unfold compress. change 1%Z with (Z.of_nat 1). rewrite loop_enc by lia. cbn [repeat app].
  rewrite emit_all_spec by (cbn; lia). cbn [length Nat.add]. rewrite enc_pairs, Nat.sub_0_r. reflexivity.
Qed.

Lemma flat_length : forall ps, length (flat ps) = 2 * length ps.
Proof. induction ps as [|[a b] ps IH]; [reflexivity|]. cbn [flat flat_map app length]. unfold flat in IH. rewrite IH. lia. Qed.

Definition expand (ps : list (Z * Z)) : list Z := flat_map (fun p => repeat (snd p) (Z.to_nat (fst p))) ps.
Lemma uncompress_flat : forall ps room, length (expand ps) <= room -> uncompress_loop (length ps) (flat ps) room = Some (expand ps).
Proof.
  induction ps as [|[c v] ps IH]; intros room H; [reflexivity|]. cbn [length flat flat_map app fst snd uncompress_loop]. unfold expand in H. cbn [flat_map fst snd] in H.
  rewrite app_length, repeat_length in H. destruct (Nat.leb_spec (Z.to_nat c) room); [|lia]. unfold flat in IH. rewrite IH by (unfold expand; lia). reflexivity.
Qed.

Lemma expand_chunk : forall n x, 1 <= n -> expand (chunk (n, x)) = repeat x n.
Proof.
  intros n x H. unfold chunk, expand. rewrite flat_map_app. cbn [flat_map fst snd]. rewrite app_nil_r, Nat2Z.id.
  set (q := (n - 1) / 255). assert (255 * q <= n - 1) by (apply Nat.mul_div_le; lia).
  assert (G : forall k, flat_map (fun p : Z * Z => repeat (snd p) (Z.to_nat (fst p))) (repeat (255%Z, x) k) = repeat x (255 * k)).
  { induction k as [|k IH]; [reflexivity|]. replace (255 * S k) with (255 + 255 * k) by lia. rewrite repeat_app, <- IH. reflexivity. }
  rewrite G, <- repeat_app. f_equal. lia.
Qed.

Lemma expand_enc : forall l, expand (enc l) = l.
Proof.
  intros l. unfold enc. assert (G : forall l, (forall n x, In (n, x) (runs l) -> 1 <= n) /\ flat_map (fun r => repeat (snd r) (fst r)) (runs l) = l).
  { clear. induction l as [|y l [IH1 IH2]]; [split; [intros ? ? []|reflexivity]|]. cbn [runs]. destruct (runs l) as [|[k z] r].
    - cbn in IH2. subst. split; [intros n x [E|[]]; injection E as <- _; lia|reflexivity].
    - destruct (Z.eqb_spec y z) as [->|].
      + split; [intros n x [E|H]; [injection E as <- _; lia|apply (IH1 n x); now right]|]. cbn [flat_map fst snd repeat app] in *. now rewrite IH2.
      + split; [intros n' x [E|H]; [injection E as <- _; lia|apply (IH1 n' x H)]|]. cbn [flat_map fst snd repeat app] in *. now rewrite IH2. }
  destruct (G l) as [H1 H2]. rewrite <- H2 at 2. clear G H2. induction (runs l) as [|[n x] r IH]; [reflexivity|]. cbn [flat_map fst snd].
  unfold expand in *. rewrite flat_map_app. rewrite IH by (intros n' x' H'; apply (H1 n' x'); now right). f_equal. apply expand_chunk. apply (H1 n x). now left.
Qed.

Lemma enc_bytes : forall l, Forall is_byte l -> Forall is_byte (flat (enc l)).
Proof.
  intros l H. apply Forall_forall. intros z Hz. unfold flat in Hz. apply in_flat_map in Hz as ([c v] & Hp & Hz). unfold enc in Hp. apply in_flat_map in Hp as ([n x] & Hr & Hp).
  assert (Hn : 1 <= n /\ In x l).
  { clear - Hr. induction l as [|y l IH]; [destruct Hr|]. cbn [runs] in Hr. destruct (runs l) as [|[k w] r].
    - destruct Hr as [E|[]]. injection E as <- <-. split; [lia|now left].
    - destruct (Z.eqb_spec y w) as [->|].
      + destruct Hr as [E|Hr]; [injection E as <- <-; split; [lia|now left]|]. destruct IH; [now right|]. split; [assumption|now right].
      + destruct Hr as [E|Hr]; [injection E as <- <-; split; [lia|now left]|]. destruct IH; [assumption|]. split; [assumption|now right]. }
  destruct Hn as [Hn Hx]. rewrite Forall_forall in H. specialize (H x Hx). unfold is_byte in *. unfold chunk in Hp. apply in_app_iff in Hp.
  pose proof (Nat.div_mod (n - 1) 255 ltac:(lia)). pose proof (Nat.mod_upper_bound (n - 1) 255 ltac:(lia)).
  set (q := (n - 1) / 255) in *. set (r := (n - 1) mod 255) in *. assert (R : (0 <= Z.of_nat (n - 255 * q) <= 255)%Z) by (clearbody q r; lia). clearbody q r.
  destruct Hp as [Hp|[Hp|[]]].
  - apply repeat_spec in Hp. injection Hp as -> ->. cbn [fst snd] in Hz. destruct Hz as [<-|[<-|[]]]; lia.
  - destruct Hz as [<-|[<-|[]]]; inversion Hp; subst; cbn [fst snd]; assumption.
Qed.

(** A block whose neighbours all differ needs one pair for each byte. *)
Fixpoint alternating (n : nat) : list Z := match n with O => [] | S n => Z.of_nat (n mod 2) :: alternating n end.
Lemma alternating_runs : forall n, pairs (alternating n) = n.
Proof.
  assert (G : forall n, runs (alternating n) = map (fun x => (1, x)) (alternating n)).
  { induction n as [|n IH]; [reflexivity|]. cbn [alternating runs map]. rewrite IH. destruct n as [|n]; [reflexivity|].
    cbn [alternating map]. destruct (Z.eqb_spec (Z.of_nat (S n mod 2)) (Z.of_nat (n mod 2))) as [E|]; [|reflexivity]. exfalso. apply Nat2Z.inj in E.
    pose proof (Nat.div_mod n 2 ltac:(lia)). pose proof (Nat.div_mod (S n) 2 ltac:(lia)). pose proof (Nat.mod_upper_bound n 2 ltac:(lia)). lia. }
  intros n. unfold pairs. rewrite G. rewrite map_map. cbn [fst]. induction n as [|n IH]; [reflexivity|]. cbn [alternating map list_sum fold_right].
  unfold list_sum in IH. rewrite IH. reflexivity.
Qed.
Lemma alternating_length : forall n, length (alternating n) = n.
Proof. induction n; cbn; auto. Qed.
