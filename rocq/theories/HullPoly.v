(** The polygon: proofs about the whole hull and the inside test. *)
From Coq Require Import List ZArith Bool Arith Lia Psatz Sorting.Sorted Permutation.
From Verif Require Import HullModel HullSpec HullProofs.
Import ListNotations.
Open Scope Z_scope.

(** * Weighted means *)
Fixpoint addw (k1 : Z) (w1 : list Z) (k2 : Z) (w2 : list Z) : list Z :=
  match w1, w2 with
  | a :: w1, b :: w2 => (k1 * a + k2 * b) :: addw k1 w1 k2 w2
  | _, _ => []
  end.
Lemma addw_length k1 k2 : forall w1 w2, length w1 = length w2 -> length (addw k1 w1 k2 w2) = length w1.
Proof. induction w1 as [|a w1 IH]; intros [|b w2] H; cbn in *; try lia. rewrite IH; lia. Qed.
Lemma addw_total k1 k2 : forall w1 w2, length w1 = length w2 -> total (addw k1 w1 k2 w2) = k1 * total w1 + k2 * total w2.
Proof. unfold total. induction w1 as [|a w1 IH]; intros [|b w2] H; cbn [addw fold_right length] in *; try lia. rewrite IH; lia. Qed.
Lemma addw_weighted f k1 k2 : forall vs w1 w2, length w1 = length vs -> length w2 = length vs ->
  weighted f (addw k1 w1 k2 w2) vs = k1 * weighted f w1 vs + k2 * weighted f w2 vs.
Proof.
  unfold weighted, total.
  induction vs as [|v vs IH]; intros [|a w1] [|b w2] H1 H2; cbn [addw combine map fold_right length fst snd] in *; try lia.
  rewrite IH; lia.
Qed.
Lemma addw_pos k1 k2 : 0 <= k1 -> 0 <= k2 -> forall w1 w2, Forall (Z.le 0) w1 -> Forall (Z.le 0) w2 -> Forall (Z.le 0) (addw k1 w1 k2 w2).
Proof.
  intros K1 K2. induction w1 as [|a w1 IH]; intros [|b w2] F1 F2; cbn [addw]; try constructor.
  - inversion F1; inversion F2; subst; nia.
  - inversion F1; inversion F2; subst; auto.
Qed.

Definition unitw (vs : list point) (i : nat) : list Z := map (fun j => if Nat.eqb i j then 1 else 0) (seq 0 (length vs)).
Lemma in_vertex : forall vs v, In v vs -> in_polygon vs v.
Proof.
  induction vs as [|x vs IH]; intros v H; [destruct H|]. destruct H as [<-|H].
  - exists (1 :: repeat 0 (length vs)). cbn [length]. rewrite repeat_length. split; [reflexivity|]. split.
    + constructor; [lia|]. apply Forall_forall; intros y Hy; apply repeat_spec in Hy; lia.
    + assert (E : forall f, weighted f (1 :: repeat 0 (length vs)) (x :: vs) = f x).
      { intros f. unfold weighted, total. cbn [combine map fold_right fst snd].
        enough (fold_right Z.add 0 (map (fun wv => fst wv * f (snd wv)) (combine (repeat 0 (length vs)) vs)) = 0) by lia.
        clear. induction vs as [|y vs IH]; cbn [length repeat combine map fold_right fst snd]; lia. }
      assert (T : total (1 :: repeat 0 (length vs)) = 1).
      { unfold total; cbn [fold_right]. enough (fold_right Z.add 0 (repeat 0 (length vs)) = 0) by lia.
        clear. induction vs as [|y vs IH]; cbn [length repeat fold_right]; lia. }
      rewrite T, !E. lia.
  - destruct (IH v H) as (ws & L & P & T & X & Y). exists (0 :: ws). cbn [length]. split; [lia|]. split; [constructor; [lia|assumption]|].
    assert (E : forall f, weighted f (0 :: ws) (x :: vs) = weighted f ws vs) by (intros; unfold weighted, total; cbn [combine map fold_right fst snd]; lia).
    assert (T' : total (0 :: ws) = total ws) by (unfold total; cbn [fold_right]; lia).
    rewrite T', !E. lia.
Qed.

Lemma mix2 vs p q r w1 w2 : in_polygon vs p -> in_polygon vs q -> 0 <= w1 -> 0 <= w2 -> 0 < w1 + w2 ->
  (w1 + w2) * fst r = w1 * fst p + w2 * fst q -> (w1 + w2) * snd r = w1 * snd p + w2 * snd q -> in_polygon vs r.
Proof.
  intros (u & LU & PU & TU & XU & YU) (v & LV & PV & TV & XV & YV) W1 W2 W X Y.
  exists (addw (w1 * total v) u (w2 * total u) v).
  assert (L : length u = length v) by congruence.
  rewrite addw_length by exact L. split; [exact LU|]. split; [apply addw_pos; nia || assumption|].
  rewrite addw_total, !addw_weighted by assumption. rewrite <- XU, <- XV, <- YU, <- YV.
  split; [|split].
  - assert (0 < total u * total v) by nia. replace (w1 * total v * total u + w2 * total u * total v) with ((w1 + w2) * (total u * total v)) by ring. nia.
  - replace ((w1 * total v * total u + w2 * total u * total v) * fst r) with (((w1 + w2) * fst r) * (total u * total v)) by ring. rewrite X; ring.
  - replace ((w1 * total v * total u + w2 * total u * total v) * snd r) with (((w1 + w2) * snd r) * (total u * total v)) by ring. rewrite Y; ring.
Qed.
Lemma mix3 vs p q s r w1 w2 w3 : in_polygon vs p -> in_polygon vs q -> in_polygon vs s -> 0 <= w1 -> 0 <= w2 -> 0 <= w3 -> 0 < w1 + w2 + w3 ->
  (w1 + w2 + w3) * fst r = w1 * fst p + w2 * fst q + w3 * fst s -> (w1 + w2 + w3) * snd r = w1 * snd p + w2 * snd q + w3 * snd s -> in_polygon vs r.
Proof.
  intros (u & LU & PU & TU & XU & YU) (v & LV & PV & TV & XV & YV) (t & LT & PT & TT & XT & YT) W1 W2 W3 W X Y.
  exists (addw 1 (addw (w1 * (total v * total t)) u (w2 * (total u * total t)) v) (w3 * (total u * total v)) t).
  assert (L : length u = length v) by congruence.
  assert (L2 : length (addw (w1 * (total v * total t)) u (w2 * (total u * total t)) v) = length vs) by (rewrite addw_length by exact L; exact LU).
  assert (L3 : length (addw (w1 * (total v * total t)) u (w2 * (total u * total t)) v) = length t) by congruence.
  assert (P1 : 0 < total v * total t) by nia. assert (P2 : 0 < total u * total t) by nia. assert (P3 : 0 < total u * total v) by nia.
  rewrite addw_length by exact L3. split; [exact L2|]. split.
  { apply addw_pos; [lia|nia| |assumption]. apply addw_pos; [nia|nia|assumption|assumption]. }
  rewrite (addw_total 1) by exact L3. rewrite addw_total by exact L. rewrite !(addw_weighted _ 1) by assumption. rewrite !addw_weighted by assumption.
  rewrite <- XU, <- XV, <- YU, <- YV, <- XT, <- YT.
  set (K := total u * (total v * total t)). assert (0 < K) by (unfold K; nia).
  replace (1 * (w1 * (total v * total t) * total u + w2 * (total u * total t) * total v) + w3 * (total u * total v) * total t) with ((w1 + w2 + w3) * K) by (unfold K; ring).
  split; [nia|]. split.
  - replace ((w1 + w2 + w3) * K * fst r) with (((w1 + w2 + w3) * fst r) * K) by ring. rewrite X; unfold K; ring.
  - replace ((w1 + w2 + w3) * K * snd r) with (((w1 + w2 + w3) * snd r) * K) by ring. rewrite Y; unfold K; ring.
Qed.

(** An affine function that is not negative where the weights are positive is not negative at the mean. *)
Lemma weighted_aff (h : point -> Z) (A B C : Z) : (forall v, h v = A * fst v + B * snd v + C) -> forall ws vs,
  length ws = length vs -> weighted h ws vs = A * weighted fst ws vs + B * weighted snd ws vs + C * total ws.
Proof.
  intros E. unfold weighted, total. induction ws as [|w ws IH]; intros [|v vs] L; cbn [length combine map fold_right fst snd] in *; try lia.
  rewrite IH by lia. rewrite E. ring.
Qed.
Lemma weighted_nonneg h : forall ws vs, (forall w v, In (w, v) (combine ws vs) -> 0 <= w * h v) -> 0 <= weighted h ws vs.
Proof.
  unfold weighted, total. induction ws as [|w ws IH]; intros [|v vs] H; cbn [combine map fold_right fst snd] in *; try lia.
  assert (0 <= w * h v) by (apply H; left; reflexivity). specialize (IH vs (fun w v Hi => H w v (or_intror Hi))). lia.
Qed.
Lemma weighted_zero h : forall ws vs, (forall w v, In (w, v) (combine ws vs) -> 0 <= w * h v) -> weighted h ws vs = 0 ->
  forall w v, In (w, v) (combine ws vs) -> w * h v = 0.
Proof.
  unfold weighted, total. induction ws as [|w ws IH]; intros [|v vs] H E w' v' Hi; cbn [combine map fold_right fst snd] in *; try (destruct Hi; fail).
  assert (0 <= w * h v) by (apply H; left; reflexivity).
  assert (N := weighted_nonneg h ws vs (fun w v Hi => H w v (or_intror Hi))). unfold weighted, total in N.
  destruct Hi as [[= <- <-]|Hi]; [lia|]. apply (IH vs (fun w v Hi => H w v (or_intror Hi))); [lia|exact Hi].
Qed.

(** * The edges of a polygon *)
Definition edges (vs : list pt) : list (pt * pt) := match vs with [] => [] | v :: r => combine vs (r ++ [v]) end.
Definition side (e : pt * pt) (p : pt) : Z := is_left (fst e) (snd e) p.

Lemma adj_combine (P : pt -> pt -> Prop) : forall l v w, adj P (v :: l ++ [w]) <-> forall e, In e (combine (v :: l) (l ++ [w])) -> P (fst e) (snd e).
Proof.
  induction l as [|x l IH]; intros v w.
  - cbn. split; [intros [H _] e [<-|[]]; exact H|intros H; split; [apply (H (v, w)); left; reflexivity|exact I]].
  - change (adj P (v :: (x :: l) ++ [w])) with (P v x /\ adj P (x :: l ++ [w])). rewrite IH.
    change (combine (v :: x :: l) ((x :: l) ++ [w])) with ((v, x) :: combine (x :: l) (l ++ [w])). split.
    + intros [H1 H2] e [<-|He]; [exact H1|apply H2; exact He].
    + intros H; split; [apply (H (v, x)); left; reflexivity|intros e He; apply H; right; exact He].
Qed.

Fixpoint eloop (p : pt) (es : list (pt * pt)) : bool :=
  match es with
  | [] => true
  | e :: es =>
      if side e p <=? 0 then
        if side e p =? 0 then
          if 0 <? (fst p - fst (fst e)) * (fst p - fst (snd e)) then false
          else if 0 <? (snd p - snd (fst e)) * (snd p - snd (snd e)) then false else true
        else false
      else eloop p es
  end.
Lemma inside_eloop p vs : forall segs es, Forall2 (fun s e => nth_error vs (fst s) = Some (fst e) /\ nth_error vs (snd s) = Some (snd e)) segs es ->
  inside_loop p vs segs = Some (eloop p es).
Proof.
  induction 1 as [|[i j] [q r] segs es [H1 H2] HF IH]; [reflexivity|]. cbn [fst snd] in *. cbn [inside_loop eloop side fst snd].
  rewrite H1, H2, IH. change ((fst r - fst q) * (snd p - snd q) - (fst p - fst q) * (snd r - snd q)) with (is_left q r p).
  unfold side; cbn [fst snd].
  repeat match goal with |- context [if ?b then _ else _] => destruct b end; reflexivity.
Qed.
Lemma segs_edges vs : Forall2 (fun s e => nth_error vs (fst s) = Some (fst e) /\ nth_error vs (snd s) = Some (snd e)) (hull_segments (length vs)) (edges vs).
Proof.
  destruct vs as [|v r]; [constructor|]. unfold hull_segments, edges.
  assert (G : forall k l, (k + length l = length (v :: r))%nat -> skipn k (v :: r) = l ->
    Forall2 (fun s e => nth_error (v :: r) (fst s) = Some (fst e) /\ nth_error (v :: r) (snd s) = Some (snd e))
      (map (fun u => (u, if (u =? length (v :: r) - 1)%nat then 0%nat else S u)) (seq k (length l))) (combine l (match l with [] => [] | _ :: l' => l' ++ [v] end))).
  { intros k l; revert k. induction l as [|x l IH]; intros k L S; [constructor|].
    assert (X : nth_error (v :: r) k = Some x).
    { rewrite <- (firstn_skipn k (v :: r)), S, nth_error_app2; rewrite firstn_length, Nat.min_l by (cbn [length] in *; lia); [|lia]. rewrite Nat.sub_diag; reflexivity. }
    assert (S' : skipn (Datatypes.S k) (v :: r) = l).
    { replace (Datatypes.S k) with (k + 1)%nat by lia. rewrite <- (firstn_skipn k (v :: r)), S.
      rewrite skipn_app. rewrite skipn_all2 by (rewrite firstn_length; lia). rewrite firstn_length, Nat.min_l by (cbn [length] in *; lia).
      replace (k + 1 - k)%nat with 1%nat by lia. reflexivity. }
    cbn [length seq map]. destruct l as [|y l].
    - cbn [app combine]. constructor; [|constructor]. cbn [fst snd]. split; [exact X|].
      destruct (k =? _)%nat eqn:EE; [reflexivity|apply Nat.eqb_neq in EE; cbn [length] in *; lia].
    - change (combine (x :: y :: l) ((y :: l) ++ [v])) with ((x, y) :: combine (y :: l) (l ++ [v])). constructor.
      + cbn [fst snd]. split; [exact X|].
        destruct (k =? _)%nat eqn:EE; [apply Nat.eqb_eq in EE; cbn [length] in *; lia|].
        rewrite <- (firstn_skipn (Datatypes.S k) (v :: r)), S', nth_error_app2; rewrite firstn_length, Nat.min_l by (cbn [length] in *; lia); [|lia]. rewrite Nat.sub_diag; reflexivity.
      + apply (IH (Datatypes.S k)); [cbn [length] in *; lia|exact S']. }
  exact (G 0%nat (v :: r) eq_refl eq_refl).
Qed.
Lemma is_inside_edges p vs : is_inside p vs = Some (eloop p (edges vs)).
Proof. apply inside_eloop, segs_edges. Qed.

Definition between (e : pt * pt) (p : pt) : Prop :=
  side e p = 0 /\ (fst p - fst (fst e)) * (fst p - fst (snd e)) <= 0 /\ (snd p - snd (fst e)) * (snd p - snd (snd e)) <= 0.
Lemma eloop_intro p : forall es, (forall e, In e es -> 0 < side e p \/ between e p) -> eloop p es = true.
Proof.
  induction es as [|e es IH]; intros H; [reflexivity|]. cbn [eloop].
  destruct (H e (or_introl eq_refl)) as [K|(K1 & K2 & K3)].
  - rewrite (proj2 (Z.leb_gt _ _) K). apply IH; intros e' He; apply H; right; exact He.
  - rewrite K1. cbn [Z.leb Z.eqb Z.compare]. rewrite (proj2 (Z.ltb_ge _ _) K2), (proj2 (Z.ltb_ge _ _) K3). reflexivity.
Qed.
Lemma eloop_elim p : forall es, eloop p es = true -> (forall e, In e es -> 0 < side e p) \/ exists e, In e es /\ between e p.
Proof.
  induction es as [|e es IH]; cbn [eloop]; intros H; [left; intros e []|].
  destruct (side e p <=? 0) eqn:E1.
  - destruct (side e p =? 0) eqn:E2; [|discriminate]. apply Z.eqb_eq in E2.
    destruct (0 <? _) eqn:E3; [discriminate|]. destruct (0 <? (snd p - _) * _) eqn:E4; [discriminate|].
    apply Z.ltb_ge in E3, E4. right; exists e; split; [left; reflexivity|]. repeat split; assumption.
  - apply Z.leb_gt in E1. destruct (IH H) as [K|(e' & K1 & K2)].
    + left; intros e' [<-|He]; [exact E1|apply K; exact He].
    + right; exists e'; split; [right; exact K1|exact K2].
Qed.

Lemma edges_in vs : forall e, In e (edges vs) -> In (fst e) vs /\ In (snd e) vs.
Proof.
  destruct vs as [|v r]; [intros e []|]. intros [a b] H. cbn [fst snd]. split; [eapply in_combine_l; exact H|].
  apply in_combine_r in H. apply in_app_iff in H; destruct H as [H|[<-|[]]]; [right; exact H|left; reflexivity].
Qed.

(** A point of an edge. *)
Lemma between_mix vs e p : In (fst e) vs -> In (snd e) vs -> between e p -> in_polygon vs p.
Proof.
  destruct e as [q r]; unfold between, side; cbn [fst snd]; intros HQ HR (S & BX & BY).
  apply in_vertex in HQ, HR. unfold is_left in S.
  destruct (Z.eq_dec (fst q) (fst r)) as [EX|NX].
  - destruct (Z.eq_dec (snd q) (snd r)) as [EY|NY].
    + apply (mix2 vs q r p 1 1); try assumption; nia.
    + assert (O : snd q <= snd p <= snd r \/ snd r <= snd p <= snd q) by (destruct (Z_le_gt_dec (snd q) (snd r)); [left|right]; nia).
      destruct O as [O|O].
      * apply (mix2 vs q r p (snd r - snd p) (snd p - snd q)); try assumption; lia || nia.
      * apply (mix2 vs q r p (snd p - snd r) (snd q - snd p)); try assumption; lia || nia.
  - assert (O : fst q <= fst p <= fst r \/ fst r <= fst p <= fst q) by (destruct (Z_le_gt_dec (fst q) (fst r)); [left|right]; nia).
    destruct O as [O|O].
    + apply (mix2 vs q r p (fst r - fst p) (fst p - fst q)); try assumption; lia || nia.
    + apply (mix2 vs q r p (fst p - fst r) (fst q - fst p)); try assumption; lia || nia.
Qed.

(** Points in the polygon are on the left of every edge, and on the edge if on its line. *)
Lemma polygon_edges vs p : in_polygon vs p -> forall e, (forall v, In v vs -> v = fst e \/ v = snd e \/ 0 < side e v) -> 0 < side e p \/ between e p.
Proof.
  intros (ws & L & P & T & X & Y) [q r] G. unfold between, side in *; cbn [fst snd] in *.
  assert (WV : forall w v, In (w, v) (combine ws vs) -> 0 <= w /\ In v vs).
  { intros w v H. split; [rewrite Forall_forall in P; apply P; eapply in_combine_l; exact H|eapply in_combine_r; exact H]. }
  assert (A : forall A B C, weighted (fun v => A * fst v + B * snd v + C) ws vs = total ws * (A * fst p + B * snd p + C)).
  { intros A B C. rewrite (weighted_aff _ A B C (fun v => eq_refl)) by exact L. rewrite <- X, <- Y. ring. }
  assert (G' : forall v, In v vs -> 0 <= is_left q r v) by (intros v Hv; destruct (G v Hv) as [->|[->|]]; unfold is_left in *; lia).
  set (h := fun v : point => - (snd r - snd q) * fst v + (fst r - fst q) * snd v + (- (fst r - fst q) * snd q + fst q * (snd r - snd q))).
  assert (HE : forall v, h v = is_left q r v) by (intros; unfold h, is_left; ring).
  assert (HA : weighted h ws vs = total ws * h p) by apply A.
  assert (HN : forall w v, In (w, v) (combine ws vs) -> 0 <= w * h v).
  { intros w v H. destruct (WV w v H) as [W V]. rewrite HE. specialize (G' v V). nia. }
  assert (N := weighted_nonneg h ws vs HN). rewrite <- HE. rewrite HA in N.
  destruct (Z.eq_dec (h p) 0) as [Z0|Z0]; [right|left; nia].
  split; [exact Z0|].
  assert (ZW : forall w v, In (w, v) (combine ws vs) -> w = 0 \/ v = q \/ v = r).
  { intros w v H. destruct (WV w v H) as [W V].
    assert (E := weighted_zero h ws vs HN ltac:(rewrite HA, Z0; lia) w v H). rewrite HE in E.
    destruct (G v V) as [->|[->|K]]; [right; left; reflexivity|right; right; reflexivity|left; nia]. }
  assert (LO : forall A B C, 0 <= A * fst q + B * snd q + C -> 0 <= A * fst r + B * snd r + C -> 0 <= A * fst p + B * snd p + C).
  { intros A' B C H1 H2. assert (N' := weighted_nonneg (fun v => A' * fst v + B * snd v + C) ws vs).
    rewrite A in N'. enough (0 <= total ws * (A' * fst p + B * snd p + C)) by nia. apply N'.
    intros w v H. destruct (ZW w v H) as [-> |[-> | ->]]; [lia| |]; destruct (WV w _ H) as [W _]; nia. }
  split.
  - assert (H1 := LO 1 0 (- Z.min (fst q) (fst r)) ltac:(lia) ltac:(lia)). assert (H2 := LO (-1) 0 (Z.max (fst q) (fst r)) ltac:(lia) ltac:(lia)). nia.
  - assert (H1 := LO 0 1 (- Z.min (snd q) (snd r)) ltac:(lia) ltac:(lia)). assert (H2 := LO 0 (-1) (Z.max (snd q) (snd r)) ltac:(lia) ltac:(lia)). nia.
Qed.

(** * Convex polygons *)
Lemma cyc a b c : is_left a b c = is_left b c a.
Proof. unfold is_left; ring. Qed.

(** A point on the left of every edge is in one of the triangles of the fan. *)
Lemma fan p v0 vs : forall rest x, incl (x :: rest) vs -> In v0 vs -> rest <> [] ->
  0 <= is_left v0 x p -> is_left v0 (last rest x) p <= 0 -> adj (fun a b => 0 <= is_left a b p) (x :: rest) -> adj (fun a b => leftp v0 a b) (x :: rest) ->
  in_polygon vs p.
Proof.
  induction rest as [|y rest IH]; intros x I V0 NE H0 HL A B; [congruence|].
  destruct A as [A1 A2], B as [B1 B2].
  destruct (Z_le_gt_dec (is_left v0 y p) 0) as [H|H].
  - assert (X : In x vs) by (apply I; left; reflexivity). assert (Y : In y vs) by (apply I; right; left; reflexivity).
    unfold leftp in B1.
    assert (E : is_left x y p + is_left y v0 p + is_left v0 x p = is_left v0 x y) by (unfold is_left; ring).
    assert (is_left y v0 p = - is_left v0 y p) by (unfold is_left; ring).
    apply (mix3 vs v0 x y p (is_left x y p) (is_left y v0 p) (is_left v0 x p)); try (apply in_vertex; assumption); try lia.
    + unfold is_left; ring.
    + unfold is_left; ring.
  - rewrite last_cons in HL. destruct rest as [|z rest]; [cbn [last] in HL; lia|].
    apply (IH y); try assumption; [|congruence|lia]. intros w Hw; apply I; right; exact Hw.
Qed.

Lemma convex_edges vs : ord3 leftp vs -> forall e, In e (edges vs) -> forall v, In v vs -> v = fst e \/ v = snd e \/ 0 < side e v.
Proof.
  destruct vs as [|v0 r]; [intros _ e []|]. intros O.
  assert (G : forall l1 l2, v0 :: r = l1 ++ l2 -> forall e, In e (combine l2 (tl l2 ++ [v0])) -> forall v, In v (v0 :: r) -> v = fst e \/ v = snd e \/ 0 < side e v).
  { intros l1 l2; revert l1. induction l2 as [|x l2 IH]; intros l1 E e He v Hv; [destruct He|].
    destruct l2 as [|y l2].
    - cbn [tl app combine] in He. destruct He as [<-|[]]. unfold side; cbn [fst snd].
      rewrite E, in_app_iff in Hv. destruct Hv as [Hv|[Hv|[]]]; [|left; congruence].
      destruct l1 as [|w l1]; [destruct Hv|]. injection E as E1 E2. subst w.
      destruct Hv as [Hv|Hv]; [right; left; congruence|]. right; right. rewrite <- cyc, <- cyc.
      rewrite E2 in O. destruct O as [O _]. rewrite ord2_app in O. rewrite cyc, cyc, cyc. apply (proj2 (proj2 O) v x); [exact Hv|left; reflexivity].
    - change (combine (x :: y :: l2) (tl (x :: y :: l2) ++ [v0])) with ((x, y) :: combine (y :: l2) (tl (y :: l2) ++ [v0])) in He.
      destruct He as [<-|He].
      + unfold side; cbn [fst snd]. rewrite E, in_app_iff in Hv. rewrite E, ord3_app in O. destruct O as (O1 & O2 & O3 & O4).
        destruct Hv as [Hv|[Hv|[Hv|Hv]]]; [|left; congruence|right; left; congruence|]; right; right.
        * rewrite <- cyc. destruct (O4 v Hv) as [O5 _]. inversion O5; assumption.
        * destruct O2 as [[O5 _] _]. rewrite Forall_forall in O5. apply (O5 v Hv).
      + apply (IH (l1 ++ [x])); [rewrite <- app_assoc; exact E|exact He|exact Hv]. }
  intros e He. exact (G [] (v0 :: r) eq_refl e He).
Qed.

Lemma last_in {A} : forall (l : list A) d, In (last l d) (d :: l).
Proof. induction l as [|x l IH]; intros d; [left; reflexivity|]. rewrite last_cons. right. apply IH. Qed.
Lemma edges_adj (P : pt -> pt -> Prop) v r : (forall e, In e (edges (v :: r)) -> P (fst e) (snd e)) <-> adj P (v :: r) /\ P (last r v) v.
Proof.
  unfold edges. rewrite <- adj_combine. destruct (exists_last (l := v :: r) ltac:(congruence)) as (l & x & E).
  replace (last r v) with x; [|rewrite <- (last_cons r v v), E, last_last; reflexivity].
  change (v :: r ++ [v]) with ((v :: r) ++ [v]). rewrite E, <- app_assoc. cbn [app].
  rewrite adj_app. cbn [adj]. tauto.
Qed.

Lemma half_planes vs p : ord3 leftp vs -> (3 <= length vs)%nat -> (forall e, In e (edges vs) -> 0 <= side e p) -> in_polygon vs p.
Proof.
  intros O L H. destruct vs as [|v0 [|x rest]]; cbn [length] in L; try lia.
  rewrite (edges_adj (fun a b => 0 <= is_left a b p)) in H. destruct H as [[H1 H2] H3].
  apply (fan p v0 (v0 :: x :: rest) rest x).
  - intros w Hw; right; exact Hw.
  - left; reflexivity.
  - intros ->; cbn in L; lia.
  - exact H1.
  - rewrite last_cons in H3. unfold is_left in *; lia.
  - exact H2.
  - destruct O as [O _]. apply ord2_adj in O. exact O.
Qed.

(** * The inside test on a convex polygon *)
Lemma inside_convex vs p : ord3 leftp vs -> (3 <= length vs)%nat -> (is_inside p vs = Some true <-> in_polygon vs p).
Proof.
  intros O L. rewrite is_inside_edges. split.
  - intros [= H]. destruct (eloop_elim _ _ H) as [K|(e & K1 & K2)].
    + apply half_planes; [assumption|assumption|]. intros e He; specialize (K e He); lia.
    + destruct (edges_in _ _ K1). apply (between_mix vs e); assumption.
  - intros H. f_equal. apply eloop_intro. intros e He. apply (polygon_edges vs); [exact H|]. apply convex_edges; assumption.
Qed.
(** Two vertices, and the three vertices of the vertical case. *)
Lemma inside_flat a b vs p : vs = [a; b] \/ vs = [a; b; a] -> (is_inside p vs = Some true <-> in_polygon vs p).
Proof.
  intros V. rewrite is_inside_edges.
  assert (E : exists es, edges vs = (a, b) :: (b, a) :: es) by (destruct V as [-> | ->]; eexists; reflexivity).
  destruct E as [es E].
  assert (IV : forall v, In v vs -> v = a \/ v = b) by (intros v Hv; destruct V as [-> | ->]; cbn [In] in Hv; intuition).
  split.
  - intros [= H]. destruct (eloop_elim _ _ H) as [K|(e & K1 & K2)].
    + exfalso. rewrite E in K. assert (K1 := K _ (or_introl eq_refl)). assert (K2 := K _ (or_intror (or_introl eq_refl))).
      unfold side, is_left in *; cbn [fst snd] in *; lia.
    + destruct (edges_in _ _ K1). apply (between_mix vs e); assumption.
  - intros H. f_equal. rewrite E.
    destruct (polygon_edges vs p H (a, b)) as [K|K].
    + intros v Hv; destruct (IV v Hv); tauto.
    + exfalso. destruct (polygon_edges vs p H (b, a)) as [K'|[K' _]].
      * intros v Hv; destruct (IV v Hv); cbn [fst snd]; tauto.
      * unfold side, is_left in *; cbn [fst snd] in *; lia.
      * unfold side, is_left in *; cbn [fst snd] in *; lia.
    + destruct K as (K1 & K2 & K3). cbn [eloop]. rewrite K1. cbn [Z.leb Z.eqb Z.compare]. rewrite (proj2 (Z.ltb_ge _ _) K2), (proj2 (Z.ltb_ge _ _) K3). reflexivity.
Qed.
