(** C121, C122: color maps. *)
From Coq Require Import Reals List Bool ZArith Permutation Lra Lia SpecFloat.
From Verif Require Import ColModel ColSpec ColProofs.
Import ListNotations.
Open Scope R_scope.

Lemma made_ok sorter ks : sorts sorter -> stored [] (accepted ks) (add_keys sorter empty ks).
Proof. intros SO. apply (adds_ok sorter [] ks SO [] empty). apply start_ok. Qed.

(** C121 *)
Theorem C121_keys_accepted : forall sorter m k, (valid k -> fst (add_key sorter m k) = true) /\ (~ valid k -> add_key sorter m k = (false, m)).
Proof.
  intros sorter m k. unfold valid, add_key. destruct (Rlt_dec (k_pos k) 0); [split; [intros; lra|reflexivity]|]. destruct (Rlt_dec 1 (k_pos k)); [split; [intros; lra|reflexivity]|].
  split; [reflexivity|intros N; exfalso; apply N; lra].
Qed.
(** Positions between two keys are answered, with the color between those of the keys next to the position; other positions are not. *)
Theorem C121_color_at_a_position : forall sorter ks, sorts sorter -> apart ks -> forall p,
  (forall c, get_color (add_keys sorter empty ks) p = Some c -> exists a b, neighbours ks a b /\ k_pos a <= p <= k_pos b /\
     c = blend ((p - k_pos a) / (k_pos b - k_pos a)) (key_color a) (key_color b)) /\
  (get_color (add_keys sorter empty ks) p = None -> forall a b, counts ks a -> counts ks b -> k_pos a < k_pos b -> ~ k_pos a <= p <= k_pos b).
Proof.
  intros sorter ks SO AP p. pose proof (made_ok sorter ks SO) as ST. split.
  - intros c E. apply (color_some ks [] _ ST AP p c); [now left|exact E].
  - intros E a b CA CB LT B.
    (* the keys next to p *)
    assert (G : forall l, (forall k, In k l -> counts ks k) -> exists a' b', counts ks a' /\ counts ks b' /\ k_pos a' < k_pos b' /\ k_pos a' <= p <= k_pos b' /\ forall k, In k l -> k_pos k <= k_pos a' \/ k_pos b' <= k_pos k).
    { induction l as [|k l IH]; intros H.
      - exists a, b. repeat split; try apply CA; try apply CB; try lra. intros k [].
      - destruct IH as (a' & b' & CA' & CB' & L' & B' & N'); [intros x X; apply H; now right|]. pose proof (H k (or_introl eq_refl)) as CK.
        destruct (Rle_dec (k_pos k) (k_pos a')) as [K1|K1]; [exists a', b'; repeat split; try apply CA'; try apply CB'; try lra; intros x [<-|X]; [now left|now apply N']|].
        destruct (Rle_dec (k_pos b') (k_pos k)) as [K2|K2]; [exists a', b'; repeat split; try apply CA'; try apply CB'; try lra; intros x [<-|X]; [now right|now apply N']|].
        destruct (Rle_dec (k_pos k) p) as [K3|K3]; [exists k, b'|exists a', k]; (split; [assumption|split; [assumption|split; [lra|split; [lra|]]]]); intros x [<-|X]; try (left; lra); try (right; lra);
          destruct (N' x X); [left; lra|now right|now left|right; lra]. }
    destruct (G (accepted ks)) as (a' & b' & CA' & CB' & L' & B' & N'); [intros k K; now apply accepted_ok|].
    apply (color_there ks [] _ ST AP a' b' p); [|exact B'|exact E]. split; [exact CA'|]. split; [exact CB'|]. split; [exact L'|]. intros k K. apply N'. now apply accepted_ok.
Qed.
(** At a key the color is that of the key, if there is another one. *)
Theorem C121_color_at_a_key : forall sorter ks k k', sorts sorter -> apart ks -> counts ks k -> counts ks k' -> k_pos k <> k_pos k' ->
  get_color (add_keys sorter empty ks) (k_pos k) = Some (key_color k).
Proof.
  intros sorter ks k k' SO AP CK CK' NE. destruct (C121_color_at_a_position sorter ks SO AP (k_pos k)) as (A & B).
  destruct (get_color (add_keys sorter empty ks) (k_pos k)) as [c|].
  - destruct (A c eq_refl) as (a & b & (CA & CB & LT & NB) & BT & ->). f_equal. destruct (NB k CK) as [H|H].
    + assert (k = a) as -> by (apply (apart_inj ks); [exact AP|apply CK|apply CA|lra]). replace ((k_pos a - k_pos a) / (k_pos b - k_pos a)) with 0 by (field; lra). apply blend_0.
    + assert (k = b) as -> by (apply (apart_inj ks); [exact AP|apply CK|apply CB|lra]). replace ((k_pos b - k_pos a) / (k_pos b - k_pos a)) with 1 by (field; lra). apply blend_1.
  - exfalso. destruct (Rlt_dec (k_pos k) (k_pos k')) as [L|L].
    + apply (B eq_refl k k' CK CK' L). lra.
    + apply (B eq_refl k' k CK' CK); lra.
Qed.
(** Neither the order of the requests nor the way of sorting matters. *)
Theorem C121_order_of_keys : forall sorter sorter' ks ks', sorts sorter -> sorts sorter' -> apart ks -> Permutation ks ks' -> forall p,
  get_color (add_keys sorter empty ks) p = get_color (add_keys sorter' empty ks') p.
Proof.
  intros sorter sorter' ks ks' SO SO' AP PM p. assert (AP' : apart ks') by (unfold apart; apply (Permutation_NoDup (Permutation_map k_pos PM)); exact AP).
  assert (CC : forall k, counts ks k <-> counts ks' k).
  { intros k. unfold counts. split; intros (I & V); (split; [|exact V]); [apply (Permutation_in k PM I)|apply (Permutation_in k (Permutation_sym PM) I)]. }
  assert (NN : forall a b, neighbours ks' a b -> neighbours ks a b).
  { intros a b (CA & CB & LT & N). split; [now apply CC|]. split; [now apply CC|]. split; [exact LT|]. intros k K. apply N. now apply CC. }
  destruct (C121_color_at_a_position sorter ks SO AP p) as (A & B), (C121_color_at_a_position sorter' ks' SO' AP' p) as (A' & B').
  destruct (get_color (add_keys sorter empty ks) p) as [c|], (get_color (add_keys sorter' empty ks') p) as [c'|]; [| | |reflexivity].
  - destruct (A c eq_refl) as (a & b & N & BT & ->), (A' c' eq_refl) as (a' & b' & N' & BT' & ->). f_equal. apply (neighbours_one ks); auto.
  - destruct (A c eq_refl) as (a & b & N & BT & ->). exfalso. destruct N as (CA & CB & LT & _). apply (B' eq_refl a b); [now apply CC|now apply CC|exact LT|exact BT].
  - destruct (A' c' eq_refl) as (a & b & N & BT & ->). exfalso. destruct N as (CA & CB & LT & _). apply (B eq_refl a b); [now apply CC|now apply CC|exact LT|exact BT].
Qed.
(** The components of a color are from 0 to 1. *)
Theorem C121_components : forall sorter ks p c, sorts sorter -> apart ks -> (forall k, In k ks -> bytes k) -> get_color (add_keys sorter empty ks) p = Some c -> proper_color c.
Proof.
  intros sorter ks p c SO AP BY E. destruct (C121_color_at_a_position sorter ks SO AP p) as (A & _). destruct (A c E) as (a & b & (CA & CB & LT & _) & BT & ->).
  assert (S0 : 0 <= (p - k_pos a) / (k_pos b - k_pos a) <= 1).
  { split; [apply Rmult_le_pos; [lra|apply Rlt_le, Rinv_0_lt_compat; lra]|]. apply (Rmult_le_reg_r (k_pos b - k_pos a)); [lra|]. unfold Rdiv. rewrite Rmult_assoc, Rinv_l by lra. lra. }
  set (s := (p - k_pos a) / (k_pos b - k_pos a)) in *. clearbody s.
  assert (M : forall x y, 0 <= x <= 1 -> 0 <= y <= 1 -> 0 <= x + s * (y - x) <= 1).
  { intros x y X Y. replace (x + s * (y - x)) with ((1 - s) * x + s * y) by ring. assert (0 <= (1 - s) * x) by (apply Rmult_le_pos; lra). assert (0 <= s * y) by (apply Rmult_le_pos; lra).
    assert ((1 - s) * x <= (1 - s) * 1) by (apply Rmult_le_compat_l; lra). assert (s * y <= s * 1) by (apply Rmult_le_compat_l; lra). lra. }
  assert (Z : forall z, (0 <= z <= 255)%Z -> 0 <= IZR z / 255 <= 1) by (intros z (Z1 & Z2); apply IZR_le in Z1, Z2; lra).
  destruct (BY a (proj1 CA)) as (A1 & A2 & A3 & A4), (BY b (proj1 CB)) as (B1 & B2 & B3 & B4).
  unfold proper_color, blend, key_color. cbn [c_r c_g c_b c_t]. do 3 (split; [apply M; apply Z; assumption|]). apply Z in A4, B4. apply M; lra.
Qed.

(** Insertion sort sorts. *)
Fixpoint put_key (k : key) (l : list key) : list key := match l with [] => [k] | a :: l => if Rle_dec (k_pos k) (k_pos a) then k :: a :: l else a :: put_key k l end.
Definition by_insertion (l : list key) : list key := fold_right put_key [] l.
Lemma by_insertion_sorts : sorts by_insertion.
Proof.
  assert (P : forall k l, Permutation (put_key k l) (k :: l)).
  { induction l as [|a l IH]; cbn; [reflexivity|]. destruct (Rle_dec (k_pos k) (k_pos a)); [reflexivity|]. rewrite IH. apply perm_swap. }
  assert (O : forall k l, ordered l -> ordered (put_key k l)).
  { induction l as [|a l IH]; intros O; [exact I|]. cbn [put_key]. destruct (Rle_dec (k_pos k) (k_pos a)) as [L|L]; [split; assumption|].
    destruct l as [|b l]; [cbn; split; [lra|exact I]|]. cbn [ordered] in O. destruct O as (AB & O). specialize (IH O). cbn [put_key] in *. destruct (Rle_dec (k_pos k) (k_pos b)) as [L'|L'].
    - split; [lra|exact IH].
    - split; [exact AB|exact IH]. }
  intros l. unfold by_insertion. induction l as [|a l (IP & IO)]; cbn [fold_right]; [split; [constructor|exact I]|]. split; [rewrite P; now apply perm_skip|now apply O].
Qed.
Definition black : key := Key 0 0 0 255 0.
Definition white : key := Key 255 255 255 255 1.
Example C121_witness : sorts by_insertion /\ apart [white; black] /\ counts [white; black] black /\ counts [white; black] white /\
  get_color (add_keys by_insertion empty [white; black]) (k_pos black) = Some (Color (0 / 255) (0 / 255) (0 / 255) (1 - 255 / 255)).
Proof.
  assert (A : apart [white; black]) by (unfold apart; cbn; repeat constructor; cbn; intuition lra).
  assert (CB : counts [white; black] black) by (split; [right; now left|unfold valid; cbn; lra]). assert (CW : counts [white; black] white) by (split; [now left|unfold valid; cbn; lra]).
  repeat (split; [apply by_insertion_sorts || assumption|]). apply (C121_color_at_a_key by_insertion [white; black] black white); auto; [apply by_insertion_sorts|cbn; lra].
Qed.
(** Two keys at the lowest position: the color there is black and fully transparent, whatever the colors of the keys are. *)
Theorem C121_two_keys_at_one_position_refuted : ~ forall sorter ks k, sorts sorter -> counts ks k -> (forall k', In k' ks -> key_color k' = key_color k) -> (1 < length ks)%nat ->
  get_color (add_keys sorter empty ks) (k_pos k) = Some (key_color k).
Proof.
  intros H. set (w := Key 255 255 255 255 0). specialize (H by_insertion [w; w] w by_insertion_sorts).
  assert (E : get_color (add_keys by_insertion empty [w; w]) (k_pos w) = Some (Color 0 0 0 1)).
    { unfold add_keys. cbn [fold_left]. unfold add_key at 2. cbn [k_pos w]. destruct (Rlt_dec 0 0); [lra|]. destruct (Rlt_dec 1 0); [lra|]. cbn [snd]. unfold sort_keys at 1. cbn [keys empty app length Nat.ltb Nat.leb].
      unfold add_key. cbn [k_pos w]. destruct (Rlt_dec 0 0); [lra|]. destruct (Rlt_dec 1 0); [lra|]. cbn [snd]. unfold sort_keys. cbn [keys intervals empty app length Nat.ltb Nat.leb].
      unfold by_insertion. cbn [fold_right put_key k_pos w]. destruct (Rle_dec 0 0); [|lra]. cbn [map k_pos]. unfold get_color. cbn [intervals keys scan].
      destruct (Rle_dec 0 0); [|lra]. destruct (Rle_dec 0 1); [|lra]. unfold between. change (k_pos w) with 0. replace (0 - 0) with 0 by ring. rewrite Rabs_R0. destruct (Req_EM_T (0 + 0) 0); [|lra]. cbv beta iota zeta. unfold mix. destruct (Rle_dec 0 0); [|lra]. f_equal. f_equal; field. }
  assert (C : counts [w; w] w) by (split; [now left|unfold valid, w; cbn; lra]). assert (SC : forall k', In k' [w; w] -> key_color k' = key_color w) by (intros k' [<-|[<-|[]]]; reflexivity).
  specialize (H C SC ltac:(cbn; lia)). rewrite E in H. injection H as H _ _ _. cbn in H. lra.
Qed.
(** A map with one key answers nothing, not even at the key. *)
Theorem C121_one_key_refuted : ~ forall sorter ks k, sorts sorter -> apart ks -> counts ks k -> get_color (add_keys sorter empty ks) (k_pos k) <> None.
Proof.
  intros H. apply (H by_insertion [white] white by_insertion_sorts); [unfold apart; cbn; repeat constructor; intros []|split; [now left|unfold valid; cbn; lra]|].
  unfold add_keys. cbn [fold_left]. unfold add_key. cbn [k_pos white]. destruct (Rlt_dec 1 0); [lra|]. destruct (Rlt_dec 1 1); [lra|]. cbn [snd]. unfold sort_keys. cbn [keys empty app length Nat.ltb Nat.leb].
  unfold get_color. cbn [intervals keys scan empty]. destruct (Rle_dec 0 1), (Rle_dec 1 1); reflexivity.
Qed.

(** C122 *)
(** The predefined maps answer every position from 0 to 1 with the color between the two entries of the table next to it, whatever the map was before. *)
Theorem C122_predefined_maps : forall sorter m t i r g b al r' g' b' al' s, sorts sorter -> nth_error (table t) i = Some (r, g, b, al) -> nth_error (table t) (S i) = Some (r', g', b', al') -> 0 <= s <= 1 ->
  get_color (create sorter m t) ((INR i + s) / INR (length (table t) - 1)) = Some (blend s (key_color (Key r g b al 0)) (key_color (Key r' g' b' al' 1))).
Proof.
  intros sorter m t i r g b al r' g' b' al' s SO E E' S0. apply kind_keys_ok in E, E'. destruct (kind_length t) as (L & _). rewrite <- L.
  assert (ST : stored (intervals m) (accepted (kind_keys t)) (create sorter m t)).
  { unfold create. apply sort_again; [exact SO|]. apply (adds_ok sorter (intervals m) (kind_keys t) SO [] (CMap [] (intervals m))). apply start_ok. }
  rewrite (even_color _ (intervals m) _ i _ _ s ST (kind_even t) E E' S0). reflexivity.
Qed.
(** In exact arithmetic a custom map answers every position with the color between the two given colors next to it, up to the rounding to bytes. *)
Theorem C122_custom_maps : forall sorter cs i c c' s, sorts sorter -> nth_error cs i = Some c -> nth_error cs (S i) = Some c' -> 0 <= s <= 1 ->
  exists d, get_color (custom sorter 0 Rplus (fun n => 1 / INR n) (fun x => x) cs) ((INR i + s) / INR (length cs - 1)) = Some d /\ near (1 / 510) d (blend s c c').
Proof.
  intros sorter cs i c c' s SO E E' S0. assert (L : (1 < length cs)%nat) by (assert (S i < length cs)%nat by (apply nth_error_Some; congruence); lia).
  pose proof (custom_nth cs i c L E) as K. pose proof (custom_nth cs (S i) c' L E') as K'.
  pose proof (made_ok sorter (custom_keys 0 Rplus r_step (fun x => x) cs) SO) as ST.
  pose proof (even_color _ [] _ i _ _ s ST (custom_even cs L) K K' S0) as G. rewrite (custom_length cs L) in G. eexists. split; [exact G|].
  apply blend_near; [exact S0|apply key_near|apply key_near].
Qed.
(** A custom map of one color has it everywhere. *)
Theorem C122_custom_map_of_one_color : forall sorter c s, sorts sorter -> 0 <= s <= 1 ->
  exists d, get_color (custom sorter 0 Rplus (fun n => 1 / INR n) (fun x => x) [c]) s = Some d /\ near (1 / 510) d c.
Proof.
  intros sorter c s SO S0. set (ks := [key_of c 0; key_of c 1]). assert (EV : even ks).
  { intros [|[|[|i]]] k; cbn; try discriminate; intros [= <-]; cbn; ring. }
  pose proof (even_color ks [] (add_keys sorter empty ks) 0 _ _ s (made_ok sorter ks SO) EV eq_refl eq_refl S0) as G.
  replace ((INR 0 + s) / INR (length ks - 1)) with s in G by (cbn; field). eexists. split; [exact G|].
  destruct (blend_near (1 / 510) s _ _ _ _ S0 (key_near c 0) (key_near c 1)) as (A & B & C & D). unfold blend in *. cbn [c_r c_g c_b c_t] in *.
  unfold near. cbn [c_r c_g c_b c_t].
  replace (c_r c + s * (c_r c - c_r c)) with (c_r c) in A by ring. replace (c_g c + s * (c_g c - c_g c)) with (c_g c) in B by ring.
  replace (c_b c + s * (c_b c - c_b c)) with (c_b c) in C by ring. replace (c_t c + s * (c_t c - c_t c)) with (c_t c) in D by ring. auto.
Qed.
Lemma power_neg p : powerRZ 2 (Zneg p) = / IZR (2 ^ Zpos p).
Proof. cbn [powerRZ]. f_equal. rewrite (pow_IZR 2), positive_nat_Z. reflexivity. Qed.
(** In single precision the positions of eleven colors add up to more than 1: the last color is refused, and the position 1 has no color. *)
Theorem C122_custom_maps_in_single_precision_refuted : ~ forall sorter cs p, sorts sorter -> cs <> [] -> (forall c, In c cs -> proper_color c) -> 0 <= p <= 1 ->
  get_color (custom sorter (S754_zero false) f_add f_step f_val cs) p <> None.
Proof.
  intros H. set (c := Color 1 1 1 0). set (cs := repeat c 11).
  assert (ACC : forall a s l, custom_rest f_add f_val s a l = map (fun ca => key_of (fst ca) (f_val (snd ca))) (combine l ((fix acc n a := match n with O => [] | S n => f_add a s :: acc n (f_add a s) end) (length l) a))).
  { intros a s l. revert a. induction l as [|x l IH]; intros a; cbn [custom_rest length combine map fst snd]; [reflexivity|]. rewrite IH. reflexivity. }
  pose (pos := [0; 13421773 * / 134217728; 13421773 * / 67108864; 10066330 * / 33554432; 13421773 * / 33554432; 8388608 * / 16777216; 10066330 * / 16777216; 11744052 * / 16777216; 13421774 * / 16777216; 15099496 * / 16777216; 8388609 * / 8388608]).
  assert (K : custom_keys (S754_zero false) f_add f_step f_val cs = map (key_of c) pos).
  { unfold custom_keys, cs. cbn [repeat length]. rewrite ACC. cbn [length]. unfold pos. cbn [map]. f_equal.
    match goal with |- map _ (combine _ ?l) = _ => let v := eval vm_compute in l in change l with v end. cbn [combine map fst snd].
    repeat (apply f_equal2; [apply f_equal|]); try reflexivity; unfold f_val; rewrite power_neg; cbn; lra. }
  set (m := custom by_insertion (S754_zero false) f_add f_step f_val cs).
  apply (H by_insertion cs 1 by_insertion_sorts); [discriminate| |lra|].
  - intros x I. apply repeat_spec in I. subst x. unfold proper_color, c; cbn; lra.
  - unfold custom. rewrite K. destruct (get_color (add_keys by_insertion empty (map (key_of c) pos)) 1) as [d|] eqn:E; [exfalso|reflexivity].
    assert (AP : apart (map (key_of c) pos)).
    { unfold apart. rewrite map_map. cbn [key_of k_pos]. rewrite map_id. unfold pos. repeat (constructor; [cbn [In]; intros Q; repeat (destruct Q as [Q|Q]; [lra|]); exact Q|]). constructor. }
    destruct (C121_color_at_a_position by_insertion _ by_insertion_sorts AP 1) as (A & _). destruct (A d E) as (a & b & (_ & (IB & VB) & _) & BT & _).
    apply in_map_iff in IB. destruct IB as (x & <- & IX). unfold valid in VB. cbn [key_of k_pos] in VB, BT. unfold pos in IX. cbn [In] in IX.
    repeat (destruct IX as [IX|IX]; [lra|]). exact IX.
Qed.
Example C122_witness : exists d, get_color (custom by_insertion 0 Rplus (fun n => 1 / INR n) (fun x => x) [Color 0 0 0 0; Color 1 1 1 0; Color 0 0 1 0]) (3 / 4) = Some d /\ near (1 / 510) d (Color (1 / 2) (1 / 2) 1 0).
Proof.
  destruct (C122_custom_maps by_insertion [Color 0 0 0 0; Color 1 1 1 0; Color 0 0 1 0] 1 (Color 1 1 1 0) (Color 0 0 1 0) (1 / 2) by_insertion_sorts eq_refl eq_refl ltac:(lra)) as (d & E & N).
  replace ((INR 1 + 1 / 2) / INR (length [Color 0 0 0 0; Color 1 1 1 0; Color 0 0 1 0] - 1)) with (3 / 4) in E by (cbn; field). exists d. split; [exact E|].
  replace (Color (1 / 2) (1 / 2) 1 0) with (blend (1 / 2) (Color 1 1 1 0) (Color 0 0 1 0)) by (unfold blend; cbn; f_equal; field). exact N.
Qed.

Print Assumptions C121_keys_accepted.
Print Assumptions C121_color_at_a_position.
Print Assumptions C121_color_at_a_key.
Print Assumptions C121_order_of_keys.
Print Assumptions C121_components.
Print Assumptions C121_two_keys_at_one_position_refuted.
Print Assumptions C121_one_key_refuted.
Print Assumptions C122_predefined_maps.
Print Assumptions C122_custom_maps.
Print Assumptions C122_custom_map_of_one_color.
Print Assumptions C122_custom_maps_in_single_precision_refuted.
