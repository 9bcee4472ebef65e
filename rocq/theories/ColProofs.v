(** Proofs for the color maps. *)
From Coq Require Import Reals List Bool ZArith Permutation Lra Lia SpecFloat.
From Verif Require Import ColModel ColSpec.
Import ListNotations.
Open Scope R_scope.

Definition validb (k : key) : bool := if Rlt_dec (k_pos k) 0 then false else if Rlt_dec 1 (k_pos k) then false else true.
Lemma validb_ok k : validb k = true <-> valid k.
Proof. unfold validb, valid. destruct (Rlt_dec (k_pos k) 0), (Rlt_dec 1 (k_pos k)); split; intros H; try discriminate; try reflexivity; lra. Qed.
Definition accepted (ks : list key) : list key := filter validb ks.
Lemma accepted_ok ks k : In k (accepted ks) <-> counts ks k.
Proof. unfold accepted, counts. rewrite filter_In, validb_ok. reflexivity. Qed.

(** What is stored. *)
Definition stored (iv0 : list R) (l : list key) (m : cmap) : Prop :=
  Permutation (keys m) l /\ ((length l <= 1)%nat -> intervals m = iv0) /\ ((1 < length l)%nat -> ordered (keys m) /\ intervals m = map k_pos (keys m)).
Lemma add_ok sorter iv0 l m k : sorts sorter -> stored iv0 l m ->
  (valid k -> fst (add_key sorter m k) = true) /\ (~ valid k -> add_key sorter m k = (false, m)) /\ stored iv0 (l ++ accepted [k]) (snd (add_key sorter m k)).
Proof.
  intros SO (P & I1 & I2). unfold add_key, accepted, valid; cbn [filter]; unfold validb.
  assert (S0 : stored iv0 (l ++ []) m) by (rewrite app_nil_r; split; [exact P|split; assumption]).
  destruct (Rlt_dec (k_pos k) 0) as [A|A]; [split; [intros; lra|split; [reflexivity|exact S0]]|].
  destruct (Rlt_dec 1 (k_pos k)) as [B|B]; [split; [intros; lra|split; [reflexivity|exact S0]]|].
  split; [reflexivity|split; [intros N; exfalso; apply N; lra|]]. cbn [snd]. unfold sort_keys. cbn [keys intervals].
  assert (PL : Permutation (keys m ++ [k]) (l ++ [k])) by (now apply Permutation_app_tail). pose proof (Permutation_length PL) as LE.
  destruct (Nat.ltb_spec 1 (length (keys m ++ [k]))) as [L|L].
  - destruct (SO (keys m ++ [k])) as (S1 & S2). split; [cbn [keys]; now rewrite S1|]. split; [intros; lia|]. intros _. cbn [keys intervals]. auto.
  - split; [exact PL|]. cbn [keys intervals]. split; [|intros; lia]. intros _. apply I1. rewrite app_length in LE, L. cbn in LE, L. rewrite (app_length l) in LE. cbn in LE. lia.
Qed.
Lemma adds_ok sorter iv0 ks : sorts sorter -> forall l m, stored iv0 l m -> stored iv0 (l ++ accepted ks) (add_keys sorter m ks).
Proof.
  intros SO. induction ks as [|k ks IH]; intros l m S0; cbn [add_keys fold_left].
  - cbn. now rewrite app_nil_r.
  - destruct (add_ok sorter iv0 l m k SO S0) as (_ & _ & S1). apply IH in S1. unfold accepted in *. cbn [filter] in *.
    destruct (validb k); [rewrite <- app_assoc in S1; exact S1|rewrite app_nil_r in S1; exact S1].
Qed.
Lemma start_ok iv0 : stored iv0 [] (CMap [] iv0).
Proof. split; [constructor|]. split; [reflexivity|cbn; lia]. Qed.
Lemma sort_again sorter iv0 l m : sorts sorter -> stored iv0 l m -> stored iv0 l (sort_keys sorter m).
Proof.
  intros SO (P & I1 & I2). unfold sort_keys. pose proof (Permutation_length P) as LE. destruct (Nat.ltb_spec 1 (length (keys m))) as [L|L]; [|split; [exact P|split; assumption]].
  destruct (SO (keys m)) as (S1 & S2). split; [cbn [keys]; now rewrite S1|]. split; [intros; lia|]. intros _. cbn [keys intervals]. auto.
Qed.

(** The loop of getColor. *)
Lemma scan_some ks p c : scan (map k_pos ks) ks p = Some c -> exists l1 a b l2, ks = l1 ++ a :: b :: l2 /\ k_pos a <= p <= k_pos b /\ c = between (k_pos a) (k_pos b) a b p.
Proof.
  induction ks as [|a [|b ks] IH]; [discriminate|discriminate|]. cbn [map] in *. cbn [scan].
  assert (N : scan (k_pos b :: map k_pos ks) (b :: ks) p = Some c -> exists l1 a' b' l2, a :: b :: ks = l1 ++ a' :: b' :: l2 /\ k_pos a' <= p <= k_pos b' /\ c = between (k_pos a') (k_pos b') a' b' p).
  { intros H. destruct (IH H) as (l1 & a' & b' & l2 & E & B & C). exists (a :: l1), a', b', l2. rewrite E. auto. }
  destruct (Rle_dec (k_pos a) p) as [A|A]; [|exact N]. destruct (Rle_dec p (k_pos b)) as [B|B]; [|exact N].
  intros [= <-]. exists [], a, b, ks. auto.
Qed.
Lemma scan_none ks p : scan (map k_pos ks) ks p = None -> forall l1 a b l2, ks = l1 ++ a :: b :: l2 -> ~ k_pos a <= p <= k_pos b.
Proof.
  induction ks as [|k ks IH]; intros H l1 a b l2 E; [destruct l1; discriminate|]. destruct l1 as [|k' l1]; cbn [app] in E.
  - injection E as -> ->. cbn [map scan] in H. destruct (Rle_dec (k_pos a) p); [|lra]. destruct (Rle_dec p (k_pos b)); [discriminate|lra].
  - injection E as <- E. apply (IH ltac:(destruct ks as [|k2 ks]; [destruct l1; discriminate|]; cbn [map scan] in H; destruct (Rle_dec (k_pos k) p); [destruct (Rle_dec p (k_pos k2)); [discriminate|exact H]|exact H]) l1 a b l2 E).
Qed.
Lemma ordered_app l1 a l2 : ordered (l1 ++ a :: l2) -> (forall k, In k l1 -> k_pos k <= k_pos a) /\ (forall k, In k l2 -> k_pos a <= k_pos k).
Proof.
  assert (H2 : forall l a, ordered (a :: l) -> forall k, In k l -> k_pos a <= k_pos k).
  { induction l as [|b l IH]; intros x O k I; [destruct I|]. cbn [ordered] in O. destruct O as (L & O). destruct I as [<-|I]; [exact L|]. apply Rle_trans with (k_pos b); [exact L|]. now apply IH. }
  assert (T : forall b l, ordered (b :: l) -> ordered l) by (intros b [|c l]; cbn; [auto|intros (_ & O); exact O]).
  induction l1 as [|b l1 IH]; cbn [app]; intros O.
  - split; [intros k []|]. now apply H2.
  - destruct (IH (T _ _ O)) as (A & B). split; [|exact B]. intros k [<-|I]; [|now apply A]. apply (H2 _ _ O). apply in_or_app. right. now left.
Qed.
Lemma apart_inj ks a b : apart ks -> In a ks -> In b ks -> k_pos a = k_pos b -> a = b.
Proof.
  unfold apart. induction ks as [|k ks IH]; intros N A B E; [destruct A|]. cbn [map] in N. inversion N as [|? ? NI N']; subst.
  destruct A as [<-|A], B as [<-|B]; auto; exfalso; apply NI; [rewrite E|rewrite <- E]; now apply in_map.
Qed.
Lemma apart_accepted ks : apart ks -> NoDup (map k_pos (accepted ks)).
Proof.
  unfold apart, accepted. induction ks as [|k ks IH]; cbn [map filter]; intros N; [constructor|]. inversion N as [|? ? NI N']; subst. destruct (validb k); [|auto].
  cbn [map]. constructor; [|auto]. rewrite in_map_iff. intros (x & E & I). apply filter_In in I. apply NI. rewrite <- E. now apply in_map.
Qed.
Lemma between_blend a b p : k_pos a < k_pos b -> k_pos a <= p <= k_pos b ->
  between (k_pos a) (k_pos b) a b p = blend ((p - k_pos a) / (k_pos b - k_pos a)) (key_color a) (key_color b).
Proof.
  intros L B. unfold between. rewrite (Rabs_left1 (k_pos a - p)), (Rabs_right (k_pos b - p)) by lra.
  destruct (Req_EM_T (- (k_pos a - p) + (k_pos b - p)) 0) as [E|_]; [lra|]. unfold blend, key_color, mix. cbn [c_r c_g c_b c_t]. f_equal; field; lra.
Qed.
Section map.
Context (ks : list key) (iv0 : list R) (m : cmap) (ST : stored iv0 (accepted ks) m) (AP : apart ks).
Lemma in_keys k : In k (keys m) <-> counts ks k.
Proof. destruct ST as (P & _). rewrite <- accepted_ok. split; apply Permutation_in; [exact P|now apply Permutation_sym]. Qed.
Lemma split_neighbours l1 a b l2 : (1 < length (accepted ks))%nat -> keys m = l1 ++ a :: b :: l2 -> neighbours ks a b.
Proof.
  intros L E. destruct ST as (P & _ & O). destruct (O L) as (OR & _). assert (CA : counts ks a) by (apply in_keys; rewrite E; apply in_or_app; right; now left).
  assert (CB : counts ks b) by (apply in_keys; rewrite E; apply in_or_app; right; right; now left).
  pose proof (apart_accepted ks AP) as ND. rewrite <- (Permutation_map k_pos P) in ND. rewrite E in OR, ND. destruct (ordered_app _ _ _ OR) as (O1 & O2).
  assert (NE : k_pos a <> k_pos b).
  { rewrite map_app in ND. cbn [map] in ND. apply NoDup_remove_2 in ND. intros Q. apply ND. apply in_or_app. right. left. now symmetry. }
  assert (LT : k_pos a < k_pos b) by (pose proof (O2 b (or_introl eq_refl)); lra).
  split; [exact CA|]. split; [exact CB|]. split; [exact LT|]. intros k C. apply in_keys in C. rewrite E in C. apply in_app_or in C. destruct C as [C|[<-|[<-|C]]].
  - left. now apply O1.
  - left. lra.
  - right. lra.
  - right. replace (l1 ++ a :: b :: l2) with ((l1 ++ [a]) ++ b :: l2) in OR by (rewrite <- app_assoc; reflexivity). destruct (ordered_app _ _ _ OR) as (_ & O3). now apply O3.
Qed.
Lemma neighbours_split a b : neighbours ks a b -> (1 < length (accepted ks))%nat /\ exists l1 l2, keys m = l1 ++ a :: b :: l2.
Proof.
  intros (CA & CB & LT & NB). assert (L : (1 < length (accepted ks))%nat).
  { apply accepted_ok in CA, CB. destruct (accepted ks) as [|x [|y l]]; [destruct CA| |cbn; lia]. destruct CA as [<-|[]], CB as [<-|[]]. lra. }
  split; [exact L|]. destruct ST as (P & _ & O). destruct (O L) as (OR & _). apply in_keys in CA. apply in_split in CA. destruct CA as (l1 & l2 & E). exists l1.
  pose proof OR as OR'. rewrite E in OR'. destruct (ordered_app _ _ _ OR') as (O1 & O2). pose proof CB as IB. apply in_keys in IB. rewrite E in IB. apply in_app_or in IB.
  assert (B2 : In b l2). { destruct IB as [I|[<-|I]]; [apply O1 in I; lra|lra|exact I]. }
  destruct l2 as [|c l2]; [destruct B2|]. exists l2. rewrite E. f_equal. f_equal. f_equal.
  assert (CC : counts ks c) by (apply in_keys; rewrite E; apply in_or_app; right; right; now left).
  assert (LC : k_pos a <= k_pos c) by (apply O2; now left).
  assert (CBL : k_pos c <= k_pos b). { replace (l1 ++ a :: c :: l2) with ((l1 ++ [a]) ++ c :: l2) in OR' by (rewrite <- app_assoc; reflexivity). destruct (ordered_app _ _ _ OR') as (_ & O3). destruct B2 as [->|B2]; [lra|now apply O3]. }
  assert (NE : k_pos a <> k_pos c).
  { pose proof (apart_accepted ks AP) as ND. rewrite <- (Permutation_map k_pos P), E, map_app in ND. cbn [map] in ND. apply NoDup_remove_2 in ND. intros Q. apply ND. apply in_or_app. right. left. now symmetry. }
  apply (apart_inj ks); [exact AP|apply CC|apply CB|]. destruct (NB c CC); lra.
Qed.
Lemma color_some p c : iv0 = [] \/ (1 < length (accepted ks))%nat -> get_color m p = Some c ->
  exists a b, neighbours ks a b /\ k_pos a <= p <= k_pos b /\ c = blend ((p - k_pos a) / (k_pos b - k_pos a)) (key_color a) (key_color b).
Proof.
  unfold get_color. intros H E. destruct (Rle_dec 0 p); [|discriminate]. destruct (Rle_dec p 1); [|discriminate].
  destruct (Compare_dec.le_lt_dec (length (accepted ks)) 1) as [L|L].
  - destruct H as [H|H]; [|lia]. destruct ST as (_ & I & _). rewrite (I L), H in E. discriminate.
  - destruct ST as (P & _ & O). destruct (O L) as (OR & IE). rewrite IE in E. apply scan_some in E. destruct E as (l1 & a & b & l2 & E & B & ->). exists a, b.
    pose proof (split_neighbours l1 a b l2 L E) as N. split; [exact N|]. split; [exact B|]. apply between_blend; [apply N|exact B].
Qed.
Lemma color_there a b p : neighbours ks a b -> k_pos a <= p <= k_pos b -> get_color m p <> None.
Proof.
  intros N B H. destruct (neighbours_split a b N) as (L & l1 & l2 & E). destruct N as ((_ & VA) & (_ & VB) & _). unfold valid in *. unfold get_color in H.
  destruct (Rle_dec 0 p); [|lra]. destruct (Rle_dec p 1); [|lra]. destruct ST as (P & _ & O). destruct (O L) as (OR & IE). rewrite IE in H. apply (scan_none _ _ H l1 a b l2 E B).
Qed.
End map.

Lemma blend_0 a b : blend 0 a b = a.
Proof. destruct a as [r g c t]. unfold blend; cbn. f_equal; ring. Qed.
Lemma blend_1 a b : blend 1 a b = b.
Proof. destruct b as [r g c t]. unfold blend; cbn. f_equal; ring. Qed.
Lemma neighbours_one ks a b a' b' p : apart ks -> neighbours ks a b -> neighbours ks a' b' -> k_pos a <= p <= k_pos b -> k_pos a' <= p <= k_pos b' ->
  blend ((p - k_pos a) / (k_pos b - k_pos a)) (key_color a) (key_color b) = blend ((p - k_pos a') / (k_pos b' - k_pos a')) (key_color a') (key_color b').
Proof.
  intros AP (CA & CB & L & N) (CA' & CB' & L' & N') B B'.
  assert (W : forall a b a' b', counts ks a -> counts ks b -> counts ks a' -> counts ks b' -> k_pos a < k_pos b -> k_pos a' < k_pos b' ->
    (forall k, counts ks k -> k_pos k <= k_pos a \/ k_pos b <= k_pos k) -> k_pos a <= p <= k_pos b -> k_pos a' <= p <= k_pos b' -> k_pos a < k_pos a' ->
    blend ((p - k_pos a) / (k_pos b - k_pos a)) (key_color a) (key_color b) = blend ((p - k_pos a') / (k_pos b' - k_pos a')) (key_color a') (key_color b')).
  { clear -AP. intros. assert (p = k_pos b /\ p = k_pos a') as (E1 & E2) by (destruct (H5 a' H1); lra). assert (b = a') as <-; [|].
    - apply (apart_inj ks); [exact AP|apply H0|apply H1|lra].
    - rewrite E1 at 1. replace ((k_pos b - k_pos a) / (k_pos b - k_pos a)) with 1 by (field; lra). rewrite E1. replace ((k_pos b - k_pos b) / (k_pos b' - k_pos b)) with 0 by (field; lra).
      now rewrite blend_0, blend_1. }
  destruct (Rtotal_order (k_pos a) (k_pos a')) as [LT|[E|LT]].
  - now apply W.
  - assert (a = a') as <- by (apply (apart_inj ks); [exact AP|apply CA|apply CA'|exact E]).
    assert (b = b') as <-; [|reflexivity]. apply (apart_inj ks); [exact AP|apply CB|apply CB'|]. destruct (N b' CB'), (N' b CB); lra.
  - symmetry. now apply W.
Qed.

(** Keys at equal distances. *)
Definition even (ks : list key) : Prop := forall i k, nth_error ks i = Some k -> k_pos k * INR (length ks - 1) = INR i.
Lemma even_apart ks : even ks -> (1 < length ks)%nat -> apart ks /\ forall k, In k ks -> valid k.
Proof.
  intros E L. assert (P : 0 < INR (length ks - 1)) by (apply lt_0_INR; lia). split.
  - apply NoDup_nth_error. intros i j LI EQ. rewrite map_length in LI. rewrite !nth_error_map in EQ.
    destruct (nth_error ks i) as [k|] eqn:EI; [|apply nth_error_None in EI; lia]. destruct (nth_error ks j) as [k'|] eqn:EJ; [|discriminate]. injection EQ as EQ.
    apply E in EI, EJ. rewrite EQ, EJ in EI. apply INR_eq. now symmetry.
  - intros k I. apply In_nth_error in I. destruct I as (i & EI). assert (LI : (i < length ks)%nat) by (apply nth_error_Some; congruence). apply E in EI.
    assert (IB : 0 <= INR i <= INR (length ks - 1)) by (split; [apply pos_INR|apply le_INR; lia]). rewrite <- EI in IB. unfold valid. split.
    + apply (Rmult_le_reg_r (INR (length ks - 1))); [exact P|]. lra.
    + apply (Rmult_le_reg_r (INR (length ks - 1))); [exact P|]. lra.
Qed.
Lemma even_neighbours ks i a b : even ks -> nth_error ks i = Some a -> nth_error ks (S i) = Some b -> neighbours ks a b.
Proof.
  intros E EA EB. assert (LI : (S i < length ks)%nat) by (apply nth_error_Some; congruence). destruct (even_apart ks E) as (_ & V); [lia|].
  assert (P : 0 < INR (length ks - 1)) by (apply lt_0_INR; lia).
  assert (IA : In a ks) by (now apply nth_error_In with i). assert (IB : In b ks) by (now apply nth_error_In with (S i)).
  split; [split; auto|]. split; [split; auto|]. apply E in EA, EB. rewrite S_INR in EB. split.
  - apply (Rmult_lt_reg_r (INR (length ks - 1))); [exact P|]. lra.
  - intros k (I & _). apply In_nth_error in I. destruct I as (j & EJ). apply E in EJ. destruct (Compare_dec.le_lt_dec j i) as [L|L].
    + left. apply (Rmult_le_reg_r (INR (length ks - 1))); [exact P|]. rewrite EJ, EA. now apply le_INR.
    + right. apply (Rmult_le_reg_r (INR (length ks - 1))); [exact P|]. rewrite EJ, EB. rewrite <- S_INR. apply le_INR. lia.
Qed.
Lemma even_color ks iv0 m i a b s : stored iv0 (accepted ks) m -> even ks -> nth_error ks i = Some a -> nth_error ks (S i) = Some b -> 0 <= s <= 1 ->
  get_color m ((INR i + s) / INR (length ks - 1)) = Some (blend s (key_color a) (key_color b)).
Proof.
  intros ST E EA EB S0. assert (LI : (S i < length ks)%nat) by (apply nth_error_Some; congruence). destruct (even_apart ks E) as (AP & V); [lia|].
  assert (P : 0 < INR (length ks - 1)) by (apply lt_0_INR; lia). pose proof (even_neighbours ks i a b E EA EB) as N.
  assert (PA : k_pos a = INR i / INR (length ks - 1)) by (rewrite <- (E i a EA); field; lra). assert (PB : k_pos b = (INR i + 1) / INR (length ks - 1)) by (rewrite <- S_INR, <- (E (S i) b EB); field; lra).
  set (p := (INR i + s) / INR (length ks - 1)).
  assert (B : k_pos a <= p <= k_pos b).
  { rewrite PA, PB. unfold p, Rdiv. assert (0 < / INR (length ks - 1)) by (now apply Rinv_0_lt_compat). split; apply Rmult_le_compat_r; lra. }
  pose proof (color_there ks iv0 m ST AP a b p N B) as TH. destruct (get_color m p) as [c|] eqn:EC; [|congruence].
  assert (L : (1 < length (accepted ks))%nat) by (apply (neighbours_split ks iv0 m ST AP a b N)).
  apply (color_some ks iv0 m ST AP) in EC; [|now right]. destruct EC as (a' & b' & N' & B' & ->). f_equal. rewrite <- (neighbours_one ks a b a' b' p AP N N' B B'). f_equal.
  rewrite PA, PB. unfold p. field. lra.
Qed.

Lemma Int_part_eq x z : IZR z <= x < IZR z + 1 -> Int_part x = z.
Proof. intros (A & B). unfold Int_part. rewrite <- (up_tech x z); [lia|exact A|now rewrite plus_IZR]. Qed.
Lemma stepped_nth delta alpha cs : forall pos i r g b, nth_error cs i = Some (r, g, b) -> nth_error (stepped delta pos alpha cs) i = Some (Key r g b (alpha (nth i (map k_pos (stepped delta pos alpha cs)) 0)) (nth i (map k_pos (stepped delta pos alpha cs)) 0)).
Proof.
  induction cs as [|((r0, g0), b0) cs IH]; intros pos [|i] r g b; try discriminate; cbn [stepped nth_error map nth k_pos].
  - intros [= -> -> ->]. reflexivity.
  - intros H. now apply IH.
Qed.
Lemma stepped_pos delta alpha cs : forall pos i, (i < length cs)%nat -> nth i (map k_pos (stepped delta pos alpha cs)) 0 = pos + INR i * delta.
Proof.
  induction cs as [|((r0, g0), b0) cs IH]; intros pos [|i] L; cbn [length] in L; try lia; cbn [stepped map nth k_pos].
  - cbn. ring.
  - rewrite IH by lia. rewrite S_INR. ring.
Qed.
Lemma stepped_length delta alpha cs : forall pos, length (stepped delta pos alpha cs) = length cs.
Proof. induction cs as [|((r0, g0), b0) cs IH]; intros pos; cbn; [reflexivity|]. now rewrite IH. Qed.
Lemma kind_keys_ok t i r g b al : nth_error (table t) i = Some (r, g, b, al) ->
  nth_error (kind_keys t) i = Some (Key r g b al (INR i / INR (length (table t) - 1))).
Proof.
  destruct t; do 17 (destruct i as [|i]; [cbn -[INR Int_part]; intros H; try discriminate; injection H as <- <- <- <-; cbn [INR]; f_equal; f_equal; try (apply Int_part_eq; split); lra|]);
    destruct i; discriminate.
Qed.
Lemma kind_length t : length (kind_keys t) = length (table t) /\ (1 < length (table t))%nat.
Proof. destruct t; cbn; lia. Qed.
Lemma kind_even t : even (kind_keys t).
Proof.
  intros i k E. destruct (kind_length t) as (L & G). assert (LI : (i < length (table t))%nat) by (rewrite <- L; apply nth_error_Some; congruence).
  destruct (nth_error (table t) i) as [(((r, g), b), al)|] eqn:ET; [|apply nth_error_None in ET; lia]. apply kind_keys_ok in ET. rewrite E in ET. injection ET as ->. cbn [k_pos].
  rewrite L. field. apply not_0_INR. lia.
Qed.

(** Custom maps. *)
Lemma byte_near x : Rabs (IZR (byte x) / 255 - x) <= 1 / 510.
Proof. unfold byte. destruct (base_Int_part (x * 255 + 1 / 2)) as (A & B). apply Rabs_le. lra. Qed.
Lemma key_near c pos : near (1 / 510) (key_color (key_of c pos)) c.
Proof.
  unfold near, key_color, key_of. cbn [c_r c_g c_b c_t k_r k_g k_b k_a]. repeat split; try apply byte_near.
  rewrite minus_IZR. replace (1 - (255 - IZR (byte (c_t c))) / 255 - c_t c) with (IZR (byte (c_t c)) / 255 - c_t c) by field. apply byte_near.
Qed.
Lemma mid_near e s x y a b : 0 <= s <= 1 -> Rabs (x - a) <= e -> Rabs (y - b) <= e -> Rabs (x + s * (y - x) - (a + s * (b - a))) <= e.
Proof.
  intros B X Y. apply Rabs_le. destruct (Rabs_def2 (x - a) (e + 1)) as (X1 & X2); [lra|].
  assert (XA : - e <= x - a <= e) by (revert X; unfold Rabs; destruct (Rcase_abs (x - a)); lra).
  assert (YB : - e <= y - b <= e) by (revert Y; unfold Rabs; destruct (Rcase_abs (y - b)); lra).
  replace (x + s * (y - x) - (a + s * (b - a))) with ((1 - s) * (x - a) + s * (y - b)) by ring. split.
  - assert ((1 - s) * - e <= (1 - s) * (x - a)) by (apply Rmult_le_compat_l; lra). assert (s * - e <= s * (y - b)) by (apply Rmult_le_compat_l; lra). lra.
  - assert ((1 - s) * (x - a) <= (1 - s) * e) by (apply Rmult_le_compat_l; lra). assert (s * (y - b) <= s * e) by (apply Rmult_le_compat_l; lra). lra.
Qed.
Lemma blend_near e s a b a' b' : 0 <= s <= 1 -> near e a a' -> near e b b' -> near e (blend s a b) (blend s a' b').
Proof. intros S0 (A1 & A2 & A3 & A4) (B1 & B2 & B3 & B4). unfold near, blend. cbn [c_r c_g c_b c_t]. repeat split; now apply mid_near. Qed.
Definition r_step (n : nat) : R := 1 / INR n.
Lemma custom_rest_nth step cs : forall act i c, nth_error cs i = Some c -> nth_error (custom_rest Rplus (fun x => x) step act cs) i = Some (key_of c (act + INR (S i) * step)).
Proof.
  induction cs as [|c0 cs IH]; intros act [|i] c; try discriminate; cbn [nth_error custom_rest].
  - intros [= ->]. cbn [INR]. f_equal. f_equal. ring.
  - intros H. rewrite (IH (act + step) i c H). f_equal. f_equal. rewrite (S_INR (S i)). ring.
Qed.
Lemma custom_rest_length {A} (add : A -> A -> A) val step cs : forall act, length (custom_rest add val step act cs) = length cs.
Proof. induction cs as [|c cs IH]; intros act; cbn; [reflexivity|]. now rewrite IH. Qed.
Lemma custom_nth cs i c : (1 < length cs)%nat -> nth_error cs i = Some c -> nth_error (custom_keys 0 Rplus r_step (fun x => x) cs) i = Some (key_of c (INR i / INR (length cs - 1))).
Proof.
  destruct cs as [|c0 [|c1 cs]]; cbn [length]; intros L E; try lia. unfold custom_keys. destruct i as [|i].
  - injection E as ->. cbn. do 2 f_equal. unfold Rdiv. ring.
  - cbn [nth_error] in E |- *. rewrite (custom_rest_nth _ _ 0 i c E). do 2 f_equal. unfold r_step. cbn [length Nat.sub]. unfold Rdiv. ring.
Qed.
Lemma custom_length cs : (1 < length cs)%nat -> length (custom_keys 0 Rplus r_step (fun x => x) cs) = length cs.
Proof. destruct cs as [|c0 [|c1 cs]]; cbn [length]; intros L; try lia. unfold custom_keys. cbn [length]. rewrite custom_rest_length. reflexivity. Qed.
Lemma custom_even cs : (1 < length cs)%nat -> even (custom_keys 0 Rplus r_step (fun x => x) cs).
Proof.
  intros L i k E. pose proof (custom_length cs L) as LE. assert (LI : (i < length cs)%nat) by (rewrite <- LE; apply nth_error_Some; congruence).
  destruct (nth_error cs i) as [c|] eqn:EC; [|apply nth_error_None in EC; lia]. rewrite (custom_nth cs i c L EC) in E. injection E as <-. unfold key_of. cbn [k_pos]. rewrite LE. field. apply not_0_INR. lia.
Qed.
