From Coq Require Import List Reals ZArith Bool Lia Lra.
From Verif Require Import TrajModel TrajSpec.
Import ListNotations.
Open Scope nat_scope.

Lemma vec_insert_eq : forall {A} pos (c : A) l, pos <= length l -> vec_insert pos c l = firstn pos l ++ c :: skipn pos l.
Proof.
  intros A pos c. induction pos as [|pos IH]; intros [|x l] H; cbn in *; try reflexivity; try lia. rewrite IH by lia. reflexivity.
Qed.

Lemma vec_erase_eq : forall {A} pos (l : list A), vec_erase pos l = firstn pos l ++ skipn (S pos) l.
Proof.
  intros A pos. induction pos as [|pos IH]; intros [|x l]; try reflexivity. cbn [vec_erase firstn app]. rewrite IH.
  destruct l; reflexivity.
Qed.

Lemma skipn_nth : forall {A} (l : list A) i c, nth_error l i = Some c -> skipn i l = c :: skipn (S i) l.
Proof.
  intros A l i c. revert l. induction i as [|i IH]; intros [|x l] H; try discriminate; cbn in *; [congruence|]. now apply IH.
Qed.

Lemma firstn_S_nth : forall {A} (l : list A) i c, nth_error l i = Some c -> firstn (S i) l = firstn i l ++ [c].
Proof.
  intros A l i c. revert l. induction i as [|i IH]; intros [|x l] H; try discriminate; cbn in *; [congruence|].
  f_equal. now apply IH.
Qed.

Lemma firstn_exact : forall {A} (a b : list A) n, length a = n -> firstn n (a ++ b) = a.
Proof. intros A a b n <-. rewrite firstn_app, Nat.sub_diag, firstn_all. cbn. apply app_nil_r. Qed.

Lemma skipn_exact : forall {A} (a b : list A) n, length a = n -> skipn n (a ++ b) = b.
Proof. intros A a b n <-. now rewrite skipn_app, Nat.sub_diag, skipn_all. Qed.

Section Points.
Context {C : Type} (zero : C).

Lemma get_point_nth : forall (l : list C) i c, nth_error l i = Some c -> get_point zero l i = c.
Proof.
  intros l i c H. unfold get_point. assert (i < length l) by (apply nth_error_Some; congruence).
  destruct (Nat.leb_spec (length l) i); [lia|]. now apply nth_error_nth.
Qed.

Lemma copy_points_eq : forall count (l : list C) i acc, i + count <= length l ->
  copy_points zero l i count acc = acc ++ firstn count (skipn i l).
Proof.
  induction count as [|count IH]; intros l i acc H; cbn [copy_points].
  - cbn. now rewrite app_nil_r.
  - rewrite IH by lia. destruct (nth_error l i) as [c|] eqn:E.
    + rewrite (get_point_nth _ _ _ E). unfold add_point. rewrite <- app_assoc. f_equal.
      rewrite (skipn_nth _ _ _ E). reflexivity.
    + apply nth_error_None in E. lia.
Qed.

Lemma clone_eq : forall l : list C, clone zero l = l.
Proof. intros l. unfold clone. rewrite copy_points_eq by lia. cbn [app skipn]. apply firstn_all. Qed.

Lemma sub_path_eq : forall (l : list C) s e, create_sub_path zero l s e =
  if ((s <? length l) && (e <? length l))%bool then Some (range l s e) else None.
Proof.
  intros l s e. unfold create_sub_path, range.
  destruct (Nat.leb_spec (length l) s), (Nat.leb_spec (length l) e), (Nat.ltb_spec s (length l)), (Nat.ltb_spec e (length l));
    try lia; try reflexivity.
  cbn [orb andb]. destruct (Nat.leb_spec s e).
  - now rewrite copy_points_eq by lia.
  - replace (S e - s) with 0 by lia. reflexivity.
Qed.

Lemma get_points_eq : forall (l : list C) s e store, get_points zero l s e store =
  if ((s <=? e) && (e <? length l))%bool then (true, store ++ range l s e) else (false, store).
Proof.
  intros l s e store. unfold get_points, range.
  destruct (Nat.ltb_spec e s), (Nat.leb_spec (length l) e), (Nat.leb_spec s e), (Nat.ltb_spec e (length l));
    try lia; try reflexivity.
  cbn [orb andb]. now rewrite copy_points_eq by lia.
Qed.

Lemma erase_eq : forall (l : list C) pos, erase_position l pos = firstn pos l ++ skipn (S pos) l.
Proof.
  intros l pos. unfold erase_position. destruct (Nat.leb_spec (length l) pos).
  - rewrite firstn_all2, skipn_all2 by lia. now rewrite app_nil_r.
  - apply vec_erase_eq.
Qed.

Lemma skipn_skipn' : forall (l : list C) a b, skipn a (skipn b l) = skipn (b + a) l.
Proof.
  intros l a b. revert l. induction b as [|b IH]; intros l; [reflexivity|]. destruct l; [now rewrite skipn_nil|]. cbn. apply IH.
Qed.

Lemma remove_loop_eq : forall count (l : list C) s r, s + count <= length l ->
  remove_loop count l s r = (firstn s l ++ skipn (s + count) l, r + count).
Proof.
  induction count as [|count IH]; intros l s r H; cbn [remove_loop].
  - rewrite !Nat.add_0_r. now rewrite firstn_skipn.
  - destruct (Nat.eqb_spec s (length l)); [lia|].
    assert (L : length (vec_erase s l) = length l - 1).
    { rewrite vec_erase_eq, app_length, firstn_length, skipn_length. lia. }
    rewrite IH by lia. f_equal; [|lia]. rewrite vec_erase_eq.
    rewrite firstn_app, firstn_firstn, skipn_app, firstn_length. rewrite Nat.min_id.
    replace (s - Nat.min s (length l)) with 0 by lia. cbn [firstn]. rewrite app_nil_r. f_equal.
    rewrite skipn_all2 by (rewrite firstn_length; lia). cbn [app]. rewrite skipn_skipn'. f_equal. lia.
Qed.

Lemma remove_eq : forall (l : list C) s e, remove_positions l s e =
  if ((s <=? e) && (e <? length l))%bool then (firstn s l ++ skipn (S e) l, S e - s) else (l, 0).
Proof.
  intros l s e. unfold remove_positions.
  destruct (Nat.leb_spec (length l) s), (Nat.leb_spec (length l) e), (Nat.ltb_spec e s), (Nat.leb_spec s e), (Nat.ltb_spec e (length l));
    try lia; try reflexivity.
  cbn [orb andb]. rewrite remove_loop_eq by lia. f_equal. f_equal. f_equal. lia.
Qed.

Lemma insert_eq : forall (l : list C) pos c, insert_position l pos c =
  if pos <=? length l then spliced l pos [c] else l.
Proof.
  intros l pos c. unfold insert_position, spliced. destruct (Nat.ltb_spec (length l) pos), (Nat.leb_spec pos (length l)); try lia; auto.
  now apply vec_insert_eq.
Qed.

Lemma spliced_length : forall (l : list C) pos new, length (spliced l pos new) = length l + length new.
Proof.
  intros. unfold spliced. rewrite !app_length, firstn_length, skipn_length.
  destruct (Nat.le_gt_cases pos (length l)); lia.
Qed.

Lemma insert_positions_eq : forall cs (l : list C) pos, insert_positions l pos cs =
  if pos <=? length l then spliced l pos cs else l.
Proof.
  induction cs as [|c cs IH]; intros l pos; cbn [insert_positions].
  - unfold spliced. cbn [app]. rewrite firstn_skipn. now destruct (pos <=? length l).
  - rewrite IH, insert_eq. destruct (Nat.leb_spec pos (length l)).
    + rewrite spliced_length. cbn [length]. destruct (Nat.leb_spec (S pos) (length l + 1)); [|lia].
      assert (L : length (firstn pos l ++ [c]) = S pos) by (rewrite app_length, firstn_length; cbn; lia).
      unfold spliced.
      replace (firstn pos l ++ [c] ++ skipn pos l) with ((firstn pos l ++ [c]) ++ skipn pos l) by now rewrite <- app_assoc.
      rewrite (firstn_exact _ _ _ L), (skipn_exact _ _ _ L), <- app_assoc. reflexivity.
    + destruct (Nat.leb_spec (S pos) (length l)); [lia|reflexivity].
Qed.

Lemma insert_loop_eq : forall i (l : list C) pos other, i <= length other ->
  insert_loop zero i l pos other = if pos <=? length l then spliced l pos (firstn i other) else l.
Proof.
  induction i as [|i IH]; intros l pos other H; cbn [insert_loop].
  - unfold spliced. cbn [firstn app]. rewrite firstn_skipn. now destruct (pos <=? length l).
  - rewrite IH by lia. rewrite insert_eq. destruct (Nat.leb_spec pos (length l)).
    + rewrite spliced_length. cbn [length]. destruct (Nat.leb_spec pos (length l + 1)); [|lia].
      destruct (nth_error other i) as [c|] eqn:E; [|apply nth_error_None in E; lia].
      rewrite (get_point_nth _ _ _ E). unfold spliced.
      assert (L : length (firstn pos l) = pos) by (rewrite firstn_length; lia).
      rewrite (firstn_exact _ _ _ L), (skipn_exact _ _ _ L). f_equal.
      rewrite (firstn_S_nth _ _ _ E), <- app_assoc. reflexivity.
    + destruct (Nat.leb_spec pos (length l)); [lia|reflexivity].
Qed.

Lemma run_edit_eq : forall (l : list C) e, run_edit zero l e = spec_edit l e.
Proof.
  intros l [c|pos c|pos cs|pos other|pos|s e| |]; cbn [run_edit spec_edit]; try reflexivity.
  - apply insert_eq.
  - apply insert_positions_eq.
  - unfold insert_trajectory. rewrite insert_loop_eq, firstn_all by lia. reflexivity.
  - apply erase_eq.
  - rewrite remove_eq. now destruct (_ && _)%bool.
Qed.

Lemma run_edits_eq : forall (es : list edit) (l : list C), fold_left (run_edit zero) es l = fold_left spec_edit es l.
Proof. induction es as [|e es IH]; intros l; cbn; [reflexivity|]. now rewrite run_edit_eq, IH. Qed.

Lemma insert_self_ok : forall (l : list C), insert_self zero l (length l) = l ++ l.
Proof.
  intros l. unfold insert_self.
  assert (G : forall i m, i <= length l -> insert_self_loop zero i (l ++ m) (length l) = l ++ firstn i l ++ m).
  { induction i as [|i IH]; intros m Hi; cbn [insert_self_loop]; [reflexivity|].
    rewrite insert_eq, app_length. destruct (Nat.leb_spec (length l) (length l + length m)); [|lia].
    destruct (nth_error l i) as [c|] eqn:E; [|apply nth_error_None in E; lia].
    rewrite (get_point_nth _ _ c) by (rewrite nth_error_app1 by lia; assumption).
    unfold spliced. rewrite (firstn_exact l m _ eq_refl), (skipn_exact l m _ eq_refl).
    rewrite IH by lia. rewrite (firstn_S_nth _ _ _ E), <- app_assoc. reflexivity. }
  specialize (G (length l) [] (le_n _)). rewrite app_nil_r in G. rewrite G, firstn_all. now rewrite app_nil_r.
Qed.
End Points.

Open Scope R_scope.

Section Interpolate.
Context {C : Type} (dist : C -> C -> R) (mix : C -> C -> R -> C).
Context (dist_nonneg : forall a b, 0 <= dist a b).

Lemma get_length_arc : forall l c, get_length dist c l = arc_length dist (c :: l).
Proof. induction l as [|d l IH]; intros c; cbn [get_length]; [reflexivity|]. rewrite IH. reflexivity. Qed.

Lemma arc_nonneg : forall l, 0 <= arc_length dist l.
Proof. intros l. induction l as [|a [|b l] IH]; cbn in *; try lra. pose proof (dist_nonneg a b). lra. Qed.

Lemma arc_app : forall l a b m, arc_length dist (l ++ [a] ++ b :: m) = arc_length dist (l ++ [a]) + dist a b + arc_length dist (b :: m).
Proof.
  induction l as [|x l IH]; intros a b m.
  - cbn. lra.
  - destruct l as [|y l].
    + cbn in *. lra.
    + specialize (IH a b m). cbn [app arc_length] in *. lra.
Qed.

(** Invariant: [done] are the points before c2, c2 included is the current end. *)
Lemma search_ok : forall rest pre c2 wanted act lastl c1,
  0 < wanted -> act = arc_length dist (pre ++ [c2]) ->
  wanted <= arc_length dist (pre ++ c2 :: rest) ->
  (pre = [] \/ exists pre', pre = pre' ++ [c1] /\ lastl = dist c1 c2 /\ arc_length dist (pre' ++ [c1]) < wanted) ->
  exists i a b act' f, search dist rest wanted act lastl (length pre) c1 c2 = (S i, a, b, act', dist a b) /\
    nth_error (pre ++ c2 :: rest) i = Some a /\ nth_error (pre ++ c2 :: rest) (S i) = Some b /\
    0 < dist a b /\ act' - dist a b = arc_length dist (firstn (S i) (pre ++ c2 :: rest)) /\
    0 <= f <= 1 /\ wanted - (act' - dist a b) = f * dist a b.
Proof.
  induction rest as [|c rest IH]; intros pre c2 wanted act lastl c1 Hw Ha Hl Hp; cbn [search].
  - destruct Hp as [->|(pre' & -> & -> & Hlt)]; [cbn in Hl; lra|].
    rewrite <- app_assoc in Ha, Hl. rewrite arc_app in Ha, Hl. change (arc_length dist [c2]) with 0 in *.
    assert (Hd : 0 < dist c1 c2) by lra.
    exists (length pre'), c1, c2, act, ((wanted - arc_length dist (pre' ++ [c1])) / dist c1 c2).
    split; [rewrite app_length; cbn; rewrite Nat.add_comm; reflexivity|].
    rewrite <- !app_assoc. cbn [app].
    split; [rewrite nth_error_app2 by lia; now rewrite Nat.sub_diag|].
    split; [rewrite nth_error_app2 by lia; replace (S (length pre') - length pre')%nat with 1%nat by lia; reflexivity|].
    split; [assumption|].
    assert (Ef : firstn (S (length pre')) (pre' ++ [c1; c2]) = pre' ++ [c1]).
    { rewrite firstn_app, firstn_all2 by lia. replace (S (length pre') - length pre')%nat with 1%nat by lia. reflexivity. }
    rewrite Ef. split; [lra|]. split; [|field_simplify; lra].
    split.
    + apply Rmult_le_pos; [lra|left; now apply Rinv_0_lt_compat].
    + apply Rmult_le_reg_r with (dist c1 c2); [assumption|]. unfold Rdiv. rewrite Rmult_assoc, Rinv_l by lra. lra.
  - destruct (Rlt_dec act wanted) as [K|K].
    + assert (Hpre : length (pre ++ [c2]) = S (length pre)) by (rewrite app_length; cbn; lia).
      rewrite <- Hpre.
      replace (pre ++ c2 :: c :: rest) with ((pre ++ [c2]) ++ c :: rest) by now rewrite <- app_assoc.
      apply IH; auto.
      * rewrite <- app_assoc, (arc_app pre c2 c []). change (arc_length dist [c]) with 0. lra.
      * rewrite <- app_assoc. assumption.
      * right. exists pre. repeat split; auto. lra.
    + destruct Hp as [->|(pre' & -> & -> & Hlt)]; [cbn in Ha; lra|].
      rewrite <- app_assoc in Ha. rewrite arc_app in Ha. change (arc_length dist [c2]) with 0 in *.
      assert (Hd : 0 < dist c1 c2) by lra.
      exists (length pre'), c1, c2, act, ((wanted - arc_length dist (pre' ++ [c1])) / dist c1 c2).
      split; [rewrite app_length; cbn; rewrite Nat.add_comm; reflexivity|].
      rewrite <- !app_assoc. cbn [app].
      split; [rewrite nth_error_app2 by lia; now rewrite Nat.sub_diag|].
      split; [rewrite nth_error_app2 by lia; replace (S (length pre') - length pre')%nat with 1%nat by lia; reflexivity|].
      split; [assumption|].
      assert (Ef : firstn (S (length pre')) (pre' ++ c1 :: c2 :: c :: rest) = pre' ++ [c1]).
      { rewrite firstn_app, firstn_all2 by lia. replace (S (length pre') - length pre')%nat with 1%nat by lia. reflexivity. }
      rewrite Ef. split; [lra|]. split; [|field_simplify; lra].
      split.
      * apply Rmult_le_pos; [lra|left; now apply Rinv_0_lt_compat].
      * apply Rmult_le_reg_r with (dist c1 c2); [assumption|]. unfold Rdiv. rewrite Rmult_assoc, Rinv_l by lra. lra.
Qed.

Lemma interpolate_inner : forall len li l t, len = arc_length dist l -> 0 < len -> 0 < t < 1 ->
  exists q i, interpolate_path dist mix len li l t = Some (q, Z.of_nat i) /\ at_arc dist mix l (t * len) i q.
Proof.
  intros len li l t Hlen Hpos Ht. destruct l as [|p rest]; [cbn in Hlen; lra|]. cbn [interpolate_path].
  destruct (Rlt_dec t 0); [lra|]. destruct (Rlt_dec 1 t); [lra|].
  destruct (Req_EM_T t 0); [lra|]. destruct (Req_EM_T t 1); [lra|].
  assert (Hw : 0 < len * t) by (apply Rmult_lt_0_compat; lra).
  assert (Hw2 : len * t <= len) by (rewrite <- (Rmult_1_r len) at 2; apply Rmult_le_compat_l; lra).
  destruct (search_ok rest [] p (len * t) 0 0 p Hw eq_refl) as (i & a & b & act' & f & E & Na & Nb & Hd & Hact & Hf & Hwf).
  { cbn [app]. lra. }
  { now left. }
  cbn [length] in E. rewrite E. cbn [app] in *.
  destruct (Rlt_dec 0 (dist a b)); [|lra].
  assert (Ef : (len * t - (act' - dist a b)) / dist a b = f) by (rewrite Hwf; field; lra).
  rewrite Ef. destruct (Rlt_dec 1 f); [lra|].
  exists (mix a b f), i. split; [do 2 f_equal; lia|]. exists a, b, f.
  repeat (split; [assumption|]). split; [reflexivity|]. lra.
Qed.

Lemma interpolate_ends : forall len li p l t,
  (t <= 0 -> interpolate_path dist mix len li (p :: l) t = Some (p, 0%Z)) /\
  (1 <= t -> interpolate_path dist mix len li (p :: l) t = Some (last l p, li)).
Proof.
  intros len li p l t. split; intros H; cbn [interpolate_path].
  - destruct (Rlt_dec t 0).
    + destruct (Req_EM_T 0 0); [reflexivity|lra].
    + destruct (Rlt_dec 1 t); [lra|]. destruct (Req_EM_T t 0); [reflexivity|lra].
  - destruct (Rlt_dec t 0); [lra|]. destruct (Rlt_dec 1 t).
    + destruct (Req_EM_T 1 0); [lra|]. destruct (Req_EM_T 1 1); [reflexivity|lra].
    + destruct (Req_EM_T t 0); [lra|]. destruct (Req_EM_T t 1); [reflexivity|lra].
Qed.

Lemma interpolate_degenerate : forall li p l t, 0 < t < 1 ->
  interpolate_path dist mix 0 li (p :: l) t = Some (mix p p 0, (-1)%Z).
Proof.
  intros li p l t Ht. cbn [interpolate_path].
  destruct (Rlt_dec t 0); [lra|]. destruct (Rlt_dec 1 t); [lra|].
  destruct (Req_EM_T t 0); [lra|]. destruct (Req_EM_T t 1); [lra|].
  assert (S0 : search dist l (0 * t) 0 0 0 p p = (0%nat, p, p, 0, 0)).
  { destruct l; [reflexivity|]. cbn [search]. destruct (Rlt_dec 0 (0 * t)); [lra|reflexivity]. }
  rewrite S0. destruct (Rlt_dec 0 0); [lra|]. destruct (Rlt_dec 1 0); [lra|]. reflexivity.
Qed.
End Interpolate.

Lemma norm2_nonneg : forall a b, 0 <= norm2 a b.
Proof.
  intros a b. unfold norm2. induction (combine a b) as [|x l IH]; cbn; [lra|].
  assert (0 <= (snd x - fst x) * (snd x - fst x)) by apply Rle_0_sqr. lra.
Qed.

Lemma norm_diff_nonneg : forall a b, 0 <= norm_diff a b.
Proof. intros. apply sqrt_pos. Qed.

Lemma norm_blend : forall a b f, length a = length b -> 0 <= f <= 1 ->
  norm_diff a (blend a b f) = f * norm_diff a b /\ norm_diff (blend a b f) b = (1 - f) * norm_diff a b.
Proof.
  intros a b f Hl Hf.
  assert (E1 : norm2 a (blend a b f) = f * f * norm2 a b).
  { revert b Hl. induction a as [|x a IH]; intros [|y b] Hl; try discriminate.
    - unfold norm2. cbn. lra.
    - assert (E := IH b ltac:(cbn in Hl; lia)). unfold norm2, blend in *. cbn [combine map fold_right fst snd] in *. rewrite E. ring. }
  assert (E2 : norm2 (blend a b f) b = (1 - f) * (1 - f) * norm2 a b).
  { clear E1. revert b Hl. induction a as [|x a IH]; intros [|y b] Hl; try discriminate.
    - unfold norm2. cbn. lra.
    - assert (E := IH b ltac:(cbn in Hl; lia)). unfold norm2, blend in *. cbn [combine map fold_right fst snd] in *. rewrite E. ring. }
  unfold norm_diff. rewrite E1, E2. split.
  - rewrite sqrt_mult; [|apply Rle_0_sqr|apply norm2_nonneg]. now rewrite sqrt_square by lra.
  - rewrite sqrt_mult; [|apply Rle_0_sqr|apply norm2_nonneg]. now rewrite sqrt_square by lra.
Qed.

Lemma blend_self : forall p, blend p p 0 = p.
Proof. intros p. unfold blend. induction p as [|x p IH]; cbn; [reflexivity|]. f_equal; [lra|exact IH]. Qed.

Lemma traj_length_arc : forall l, traj_length l = arc_length norm_diff l.
Proof. intros [|c l]; [reflexivity|]. cbn [traj_length]. apply get_length_arc. Qed.
