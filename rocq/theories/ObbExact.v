(** The contact test is exact for triangles with an area: if no axis separates them they share a point. *)
From Coq Require Import List Reals Bool Lra.
From Verif Require Import ObbModel ObbSpec ObbProofs.
Import ListNotations.
Open Scope R_scope.

Definition vscale (s : R) (v : vec) : vec := V3 (s * vx v) (s * vy v) (s * vz v).

(** A number between two finite sets. *)
Lemma between : forall (A B : list R), (forall a b, In a A -> In b B -> a < b) -> exists z, (forall a, In a A -> a < z) /\ (forall b, In b B -> z < b).
Proof.
  assert (LO : forall (A : list R) c, (forall a, In a A -> a < c) -> exists z, z < c /\ forall a, In a A -> a < z).
  { induction A as [|a A IH]; intros c H.
    - exists (c - 1). split; [lra|]. intros a [].
    - destruct (IH c) as (z & Z & HZ); [intros; apply H; now right|]. exists (Rmax z ((a + c) / 2)). assert (a < c) by (apply H; now left).
      split; [apply Rmax_lub_lt; lra|]. intros x [<-|I].
      + eapply Rlt_le_trans; [|apply Rmax_r]. lra.
      + eapply Rlt_le_trans; [now apply HZ|apply Rmax_l]. }
  induction B as [|b B IH]; intros H.
  - assert (K : exists z, forall a, In a A -> a < z).
    { clear. induction A as [|a A (z & IH)]; [exists 0; intros x []|]. exists (Rmax z (a + 1)). intros x [<-|I].
      - eapply Rlt_le_trans; [|apply Rmax_r]. lra.
      - eapply Rlt_le_trans; [now apply IH|apply Rmax_l]. }
    destruct K as (z & Z). exists z. split; [exact Z|]. intros b [].
  - destruct IH as (z & Z1 & Z2); [intros; apply H; [assumption|now right]|].
    destruct (LO A (Rmin z b)) as (y & Y1 & Y2).
    + intros a I. apply Rmin_glb_lt; [now apply Z1|apply H; [assumption|now left]].
    + exists ((y + Rmin z b) / 2). assert (M1 := Rmin_l z b). assert (M2 := Rmin_r z b). split.
      * intros a I. apply Y2 in I. lra.
      * intros x [<-|I]; [lra|]. apply Z2 in I. lra.
Qed.

(** Gordan's theorem in three dimensions, by Fourier-Motzkin elimination. *)
Section Gordan.
Variable C : vec -> Prop.
Hypothesis Cadd : forall x y, C x -> C y -> C (vpv x y).
Hypothesis Cscale : forall s x, 0 < s -> C x -> C (vscale s x).

(** The witness for [L] from that for [L']. *)
Lemma extend : forall (f : vec -> R) (d : vec) (L L' : list vec), (forall x, vdot d x = f x) ->
  (forall x, In x L -> f x = 0 -> In x L') ->
  (forall x y, In x L -> In y L -> 0 < f x -> f y < 0 -> In (vpv (vscale (- f y) x) (vscale (f x) y)) L') ->
  forall v, (forall x, In x L' -> 0 < vdot v x) -> exists z, forall x, In x L -> 0 < vdot (vpv v (vscale z d)) x.
Proof.
  intros f d L L' FD HZ HP v HV.
  destruct (between (flat_map (fun x => if Rlt_dec 0 (f x) then [- vdot v x / f x] else []) L) (flat_map (fun x => if Rlt_dec (f x) 0 then [- vdot v x / f x] else []) L)) as (z & Z1 & Z2).
  - intros a b A B. apply in_flat_map in A as (x & X & A). apply in_flat_map in B as (y & Y & B).
    destruct (Rlt_dec 0 (f x)) as [PX|]; [|destruct A]. destruct (Rlt_dec (f y) 0) as [PY|]; [|destruct B]. destruct A as [<-|[]], B as [<-|[]].
    assert (K := HV _ (HP x y X Y PX PY)). replace (vdot v (vpv (vscale (- f y) x) (vscale (f x) y))) with (- f y * vdot v x + f x * vdot v y) in K by (unfold vdot, vpv, vscale; cbn; ring).
    apply (Rmult_lt_reg_r (f x * - f y)); [apply Rmult_lt_0_compat; lra|].
    replace (- vdot v x / f x * (f x * - f y)) with (f y * vdot v x) by (field; lra).
    replace (- vdot v y / f y * (f x * - f y)) with (f x * vdot v y) by (field; lra). lra.
  - exists z. intros x X. replace (vdot (vpv v (vscale z d)) x) with (vdot v x + z * vdot d x) by (unfold vdot, vpv, vscale; cbn; ring). rewrite FD.
    destruct (Rtotal_order (f x) 0) as [N|[E|P]].
    + assert (K : z < - vdot v x / f x). { apply Z2. apply in_flat_map. exists x. split; [assumption|]. destruct (Rlt_dec (f x) 0); [now left|contradiction]. }
      apply (Rmult_lt_compat_r (- f x)) in K; [|lra]. replace (- vdot v x / f x * - f x) with (vdot v x) in K by (field; lra). lra.
    + rewrite E. assert (K := HV x (HZ x X E)). lra.
    + assert (K : - vdot v x / f x < z). { apply Z1. apply in_flat_map. exists x. split; [assumption|]. destruct (Rlt_dec 0 (f x)); [now left|contradiction]. }
      apply (Rmult_lt_compat_r (f x)) in K; [|lra]. replace (- vdot v x / f x * f x) with (- vdot v x) in K by (field; lra). lra.
Qed.

Theorem gordan : forall L, (forall x, In x L -> C x) -> (exists v, forall x, In x L -> 0 < vdot v x) \/ C videntity.
Proof.
  assert (NEXT : forall (f : vec -> R) d, (forall x, vdot d x = f x) -> forall (Q : vec -> Prop), (forall x y, Q x -> Q y -> Q (vpv x y)) -> (forall s x, Q x -> Q (vscale s x)) ->
     ((forall L, (forall x, In x L -> C x /\ Q x /\ f x = 0) -> (exists v, forall x, In x L -> 0 < vdot v x) \/ C videntity) ->
      forall L, (forall x, In x L -> C x /\ Q x) -> (exists v, forall x, In x L -> 0 < vdot v x) \/ C videntity)).
  { intros f d FD Q QA QS H L HL.
    assert (FS : forall s x, f (vscale s x) = s * f x) by (intros; rewrite <- !FD; unfold vdot, vscale; cbn; ring).
    assert (FA : forall x y, f (vpv x y) = f x + f y) by (intros; rewrite <- !FD; unfold vdot, vpv; cbn; ring).
    (* elimination keeps C and Q *)
    set (L0 := filter (fun x => if Req_EM_T (f x) 0 then true else false) L ++
     flat_map (fun x => flat_map (fun y => if Rlt_dec 0 (f x) then if Rlt_dec (f y) 0 then [vpv (vscale (- f y) x) (vscale (f x) y)] else [] else []) L) L).
    destruct (H L0) as [(v & V)|Z].
    - intros x I. unfold L0 in I. apply in_app_or in I as [I|I].
      + apply filter_In in I as [I1 I2]. destruct (Req_EM_T (f x) 0); [|discriminate]. destruct (HL x I1). auto.
      + apply in_flat_map in I as (a & A & I). apply in_flat_map in I as (b & B & I).
        destruct (Rlt_dec 0 (f a)); [|destruct I]. destruct (Rlt_dec (f b) 0); [|destruct I]. destruct I as [<-|[]].
        destruct (HL a A), (HL b B). split; [apply Cadd; apply Cscale; auto; lra|]. split; [apply QA; now apply QS|]. rewrite FA, !FS. ring.
    - left. destruct (extend f d L L0 FD) with (v := v) as (z & E).
      + intros x I E. unfold L0. apply in_or_app. left. apply filter_In. split; [assumption|]. destruct (Req_EM_T (f x) 0); [reflexivity|contradiction].
      + intros x y X Y PX PY. unfold L0. apply in_or_app. right. apply in_flat_map. exists x. split; [assumption|]. apply in_flat_map. exists y. split; [assumption|].
        destruct (Rlt_dec 0 (f x)); [|contradiction]. destruct (Rlt_dec (f y) 0); [|contradiction]. now left.
      + exact V.
      + exists (vpv v (vscale z d)). exact E.
    - now right. }
  intros L HL.
  apply (NEXT vz (V3 0 0 1)) with (Q := fun _ => True) (L := L); [intros; unfold vdot; cbn; ring|auto|auto| |auto].
  intros L1 HL1. apply (NEXT vy (V3 0 1 0)) with (Q := fun x => vz x = 0) (L := L1); [intros; unfold vdot; cbn; ring|intros x y A B; cbn; lra|intros s x A; cbn; rewrite A; ring| |intros x I; destruct (HL1 x I) as (A & _ & B); auto].
  intros L2 HL2. apply (NEXT vx (V3 1 0 0)) with (Q := fun x => vz x = 0 /\ vy x = 0) (L := L2); [intros; unfold vdot; cbn; ring|intros x y [A A'] [B B']; cbn; lra|intros s x [A A']; cbn; rewrite A, A'; split; ring| |intros x I; destruct (HL2 x I) as (A & B & D); auto].
  intros L3 HL3. destruct L3 as [|x L3]; [left; exists videntity; intros x []|]. right.
  destruct (HL3 x (or_introl eq_refl)) as (A & (B & B') & D). replace videntity with x; [assumption|]. apply vec_eq; assumption.
Qed.
End Gordan.

(** Disjoint triangles are strictly separated by some direction. *)
Definition diffs (P Q : tri3) : list vec :=
  flat_map (fun p => map (fun q => vmv p q) [p1 Q; p2 Q; p3 Q]) [p1 P; p2 P; p3 P].

Lemma corner_in : forall t, in_tri t (p1 t) /\ in_tri t (p2 t) /\ in_tri t (p3 t).
Proof. intros t. split; [exists 1, 0, 0|split; [exists 0, 1, 0|exists 0, 0, 1]]; repeat split; lra. Qed.

Lemma in_tri_convex : forall t x y k, in_tri t x -> in_tri t y -> 0 <= k <= 1 -> in_tri t (vpv (vscale k x) (vscale (1 - k) y)).
Proof.
  intros t x y k (a & b & c & A & B & D & S1 & X & Y & Z) (a' & b' & c' & A' & B' & D' & S1' & X' & Y' & Z') K.
  exists (k * a + (1 - k) * a'), (k * b + (1 - k) * b'), (k * c + (1 - k) * c').
  assert (N : forall u w, 0 <= u -> 0 <= w -> 0 <= k * u + (1 - k) * w).
  { intros u w U W. assert (0 <= k * u) by (apply Rmult_le_pos; lra). assert (0 <= (1 - k) * w) by (apply Rmult_le_pos; lra). lra. }
  split; [auto|]. split; [auto|]. split; [auto|]. split.
  - replace (k * a + (1 - k) * a' + (k * b + (1 - k) * b') + (k * c + (1 - k) * c')) with (k * (a + b + c) + (1 - k) * (a' + b' + c')) by ring. rewrite S1, S1'. ring.
  - unfold vpv, vscale. cbn. rewrite X, Y, Z, X', Y', Z'. repeat split; ring.
Qed.

Lemma separate : forall P Q, (exists v, forall x, In x (diffs P Q) -> 0 < vdot v x) \/ exists x, in_tri P x /\ in_tri Q x.
Proof.
  intros P Q.
  destruct (gordan (fun x => exists s p q, 0 < s /\ in_tri P p /\ in_tri Q q /\ x = vscale s (vmv p q))) with (L := diffs P Q) as [G|(s & p & q & S0 & IP & IQ & E)].
  - intros x y (s & p & q & S0 & IP & IQ & ->) (s' & p' & q' & S0' & IP' & IQ' & ->).
    assert (K : 0 <= s / (s + s') <= 1).
    { split; [apply Rlt_le, Rdiv_lt_0_compat; lra|]. apply (Rmult_le_reg_r (s + s')); [lra|]. replace (s / (s + s') * (s + s')) with s by (field; lra). lra. }
    exists (s + s'), (vpv (vscale (s / (s + s')) p) (vscale (1 - s / (s + s')) p')), (vpv (vscale (s / (s + s')) q) (vscale (1 - s / (s + s')) q')).
    split; [lra|]. split; [now apply in_tri_convex|]. split; [now apply in_tri_convex|].
    apply vec_eq; unfold vpv, vscale, vmv; cbn; field; lra.
  - intros k x K (s & p & q & S0 & IP & IQ & ->). exists (k * s), p, q. split; [now apply Rmult_lt_0_compat|]. split; [assumption|]. split; [assumption|].
    apply vec_eq; unfold vscale, vmv; cbn; ring.
  - intros x I. unfold diffs in I. apply in_flat_map in I as (p & IP & I). apply in_map_iff in I as (q & <- & IQ).
    exists 1, p, q. split; [lra|]. destruct (corner_in P) as (P1 & P2 & P3), (corner_in Q) as (Q1 & Q2 & Q3).
    split; [destruct IP as [<-|[<-|[<-|[]]]]; assumption|]. split; [destruct IQ as [<-|[<-|[<-|[]]]]; assumption|].
    apply vec_eq; unfold vscale, vmv; cbn; ring.
  - now left.
  - right. exists p. split; [assumption|]. replace p with q; [assumption|]. unfold vscale, vmv, videntity in E. injection E as E0 E1 E2.
    assert (N : forall u w, 0 = s * (u - w) -> w = u). { intros u w K. symmetry in K. apply Rmult_integral in K as [K|K]; lra. }
    apply vec_eq; auto.
Qed.

(** A direction in a cone with a positive product with [d] can be moved to an edge of the cone. *)
Lemma parallel_cross : forall u v w, vdot u w = 0 -> vdot v w = 0 -> vcross u v <> videntity -> exists l, w = vscale l (vcross u v).
Proof.
  intros [u0 u1 u2] [v0 v1 v2] [w0 w1 w2]. unfold vdot, vcross, vscale, videntity. cbn. intros A B N.
  set (n0 := u1 * v2 - u2 * v1) in *. set (n1 := u2 * v0 - u0 * v2) in *. set (n2 := u0 * v1 - u1 * v0) in *.
  assert (NN : 0 < n0 * n0 + n1 * n1 + n2 * n2).
  { assert (S0 := Rle_0_sqr n0). assert (S1 := Rle_0_sqr n1). assert (S2 := Rle_0_sqr n2). unfold Rsqr in *.
    destruct (Rle_lt_dec (n0 * n0 + n1 * n1 + n2 * n2) 0); [|assumption]. exfalso. apply N.
    assert (Z : forall x, x * x = 0 -> x = 0) by (intros x K; apply Rmult_integral in K; tauto).
    rewrite (Z n0), (Z n1), (Z n2) by lra. reflexivity. }
  exists ((n0 * w0 + n1 * w1 + n2 * w2) / (n0 * n0 + n1 * n1 + n2 * n2)).
  (* w x n = 0 *)
  assert (C0 : w1 * n2 - w2 * n1 = 0). { unfold n1, n2. transitivity (u0 * (v0 * w0 + v1 * w1 + v2 * w2) - v0 * (u0 * w0 + u1 * w1 + u2 * w2)); [ring|rewrite A, B; ring]. }
  assert (C1 : w2 * n0 - w0 * n2 = 0). { unfold n0, n2. transitivity (u1 * (v0 * w0 + v1 * w1 + v2 * w2) - v1 * (u0 * w0 + u1 * w1 + u2 * w2)); [ring|rewrite A, B; ring]. }
  assert (C2 : w0 * n1 - w1 * n0 = 0). { unfold n0, n1. transitivity (u2 * (v0 * w0 + v1 * w1 + v2 * w2) - v2 * (u0 * w0 + u1 * w1 + u2 * w2)); [ring|rewrite A, B; ring]. }
  clearbody n0 n1 n2.
  f_equal; apply (Rmult_eq_reg_r (n0 * n0 + n1 * n1 + n2 * n2)); try lra; field_simplify; try lra.
  - transitivity (n0 * (n0 * w0 + n1 * w1 + n2 * w2) + n1 * (w0 * n1 - w1 * n0) - n2 * (w2 * n0 - w0 * n2)); [ring|rewrite C1, C2; ring].
  - transitivity (n1 * (n0 * w0 + n1 * w1 + n2 * w2) - n0 * (w0 * n1 - w1 * n0) + n2 * (w1 * n2 - w2 * n1)); [ring|rewrite C0, C2; ring].
  - transitivity (n2 * (n0 * w0 + n1 * w1 + n2 * w2) + n0 * (w2 * n0 - w0 * n2) - n1 * (w1 * n2 - w2 * n1)); [ring|rewrite C0, C1; ring].
Qed.

(** Moving along [u] until a constraint of [cs] becomes tight. *)
Lemma shoot : forall (cs : list vec) v u, (forall c, In c cs -> 0 <= vdot c v) -> (exists c, In c cs /\ vdot c u < 0) ->
  exists t c, 0 <= t /\ In c cs /\ vdot c u < 0 /\ vdot c (vpv v (vscale t u)) = 0 /\ forall c', In c' cs -> 0 <= vdot c' (vpv v (vscale t u)).
Proof.
  intros cs v u HV (c0 & I0 & N0).
  assert (LIN : forall c t, vdot c (vpv v (vscale t u)) = vdot c v + t * vdot c u) by (intros; unfold vdot, vpv, vscale; cbn; ring).
  assert (K : forall l, incl l cs -> (exists c, In c l /\ vdot c u < 0) -> exists t c, 0 <= t /\ In c l /\ vdot c u < 0 /\ vdot c v + t * vdot c u = 0 /\ forall c', In c' l -> 0 <= vdot c' v + t * vdot c' u).
  { assert (POS : forall c, In c cs -> vdot c u < 0 -> 0 <= - vdot c v / vdot c u).
    { intros c I N. specialize (HV c I). replace (- vdot c v / vdot c u) with (vdot c v / - vdot c u) by (field; lra). apply Rmult_le_pos; [assumption|]. apply Rlt_le, Rinv_0_lt_compat. lra. }
    induction l as [|c l IH]; intros HI (c1 & I1 & N1); [destruct I1|].
    destruct (Rlt_dec (vdot c u) 0) as [N|N].
    - assert (DEC : (exists c, In c l /\ vdot c u < 0) \/ forall c, In c l -> 0 <= vdot c u).
      { clear - l. induction l as [|c l [(c' & I & N)|IH]]; [right; intros c []|left; exists c'; cbn; auto|].
        destruct (Rlt_dec (vdot c u) 0); [left; exists c; cbn; auto|right; intros x [<-|I]; [lra|auto]]. }
      set (tc := - vdot c v / vdot c u). assert (TC : vdot c v + tc * vdot c u = 0) by (unfold tc; field; lra).
      assert (T0 : 0 <= tc) by (apply POS; [apply HI; now left|assumption]).
      destruct DEC as [D|D].
      + destruct IH as (t & d & T & ID & ND & ED & AD); [intros x X; apply HI; now right|exact D|].
        destruct (Rle_lt_dec tc t) as [LE|LT].
        * exists tc, c. split; [assumption|]. split; [now left|]. split; [assumption|]. split; [assumption|]. intros x [<-|X]; [lra|].
          specialize (AD x X). assert (0 <= vdot x v) by (apply HV, HI; now right).
          destruct (Rle_lt_dec 0 (vdot x u)); [assert (0 <= tc * vdot x u) by (now apply Rmult_le_pos); lra|].
          assert (t * vdot x u <= tc * vdot x u) by (apply Rmult_le_compat_neg_r || (rewrite !(Rmult_comm _ (vdot x u)); apply Rmult_le_compat_neg_l; lra)). lra.
        * exists t, d. split; [assumption|]. split; [now right|]. split; [assumption|]. split; [assumption|]. intros x [<-|X]; [|now apply AD].
          assert (tc * vdot c u <= t * vdot c u) by (rewrite !(Rmult_comm _ (vdot c u)); apply Rmult_le_compat_neg_l; lra). lra.
      + exists tc, c. split; [assumption|]. split; [now left|]. split; [assumption|]. split; [assumption|]. intros x [<-|X]; [lra|].
        assert (0 <= vdot x v) by (apply HV, HI; now right). assert (0 <= tc * vdot x u) by (apply Rmult_le_pos; auto). lra.
    - destruct IH as (t & d & T & ID & ND & ED & AD); [intros x X; apply HI; now right| |].
      + destruct I1 as [<-|I1]; [contradiction|]. eauto.
      + exists t, d. split; [assumption|]. split; [now right|]. split; [assumption|]. split; [assumption|]. intros x [<-|X]; [|now apply AD].
        assert (0 <= vdot c v) by (apply HV, HI; now left). assert (0 <= t * vdot c u) by (apply Rmult_le_pos; lra). lra. }
  destruct (K cs) as (t & c & T & I & N & E & A); [apply incl_refl|eauto|]. exists t, c.
  split; [assumption|]. split; [assumption|]. split; [assumption|]. rewrite LIN. split; [assumption|]. intros c' I'. rewrite LIN. auto.
Qed.

(** The sum of the constraints is positive on the cone, except where all of them vanish. *)
Definition vecsum (l : list vec) : vec := fold_right vpv videntity l.
Lemma vecsum_dot : forall l v, vdot (vecsum l) v = fold_right Rplus 0 (map (fun c => vdot c v) l).
Proof.
  induction l as [|c l IH]; intros v; cbn [vecsum fold_right map]; [unfold vdot, videntity; cbn; ring|].
  rewrite <- IH. change (fold_right vpv videntity l) with (vecsum l). generalize (vecsum l). intros w. unfold vdot, vpv. cbn. ring.
Qed.
Lemma sum_nonneg : forall (l : list R), (forall x, In x l -> 0 <= x) -> 0 <= fold_right Rplus 0 l /\ (fold_right Rplus 0 l = 0 -> forall x, In x l -> x = 0).
Proof.
  induction l as [|a l IH]; intros H; cbn.
  - split; [lra|]. intros _ x [].
  - destruct IH as [A B]; [intros; apply H; now right|]. assert (0 <= a) by (apply H; now left). split; [lra|]. intros E x [<-|I]; [lra|]. apply B; [lra|assumption].
Qed.

Lemma dot_sym : forall a b, vdot a b = vdot b a.
Proof. intros. unfold vdot. ring. Qed.
Lemma dot_zero_r : forall v, vdot v videntity = 0.
Proof. intros. unfold vdot, videntity. cbn. ring. Qed.
Lemma dot_self_zero : forall v, vdot v v = 0 -> v = videntity.
Proof.
  intros [a b c]. unfold vdot. cbn. intros H. assert (A := Rle_0_sqr a). assert (B := Rle_0_sqr b). assert (C := Rle_0_sqr c). unfold Rsqr in *.
  assert (Z : forall x, x * x = 0 -> x = 0) by (intros x K; apply Rmult_integral in K; tauto).
  unfold videntity. f_equal; apply Z; lra.
Qed.
Lemma cross_orth : forall a b, vdot a (vcross a b) = 0 /\ vdot b (vcross a b) = 0.
Proof. intros [] []. unfold vdot, vcross. cbn. split; ring. Qed.

(** One step: towards a tight constraint without leaving the slice and without decreasing the product with [d]. *)
Lemma tighten : forall cs v u d, (forall c, In c cs -> 0 <= vdot c v) -> u <> videntity -> vdot (vecsum cs) u = 0 ->
  (forall w, (forall c, In c cs -> vdot c w = 0) -> vdot u w = 0) -> 0 < vdot d v ->
  exists v' c t, v' = vpv v (vscale t u) /\ In c cs /\ vdot c u <> 0 /\ vdot c v' = 0 /\ (forall c', In c' cs -> 0 <= vdot c' v') /\ 0 < vdot d v'.
Proof.
  intros cs v u d HV NU SU SP HD.
  assert (K : forall w, w <> videntity -> vdot (vecsum cs) w = 0 -> (forall z, (forall c, In c cs -> vdot c z = 0) -> vdot w z = 0) -> exists c, In c cs /\ vdot c w < 0).
  { intros w NW SW SPW.
    assert (DEC : (exists c, In c cs /\ vdot c w < 0) \/ forall c, In c cs -> 0 <= vdot c w).
    { clear. induction cs as [|c l [(c' & I & N)|IH]]; [right; intros c []|left; exists c'; cbn; auto|].
      destruct (Rlt_dec (vdot c w) 0); [left; exists c; cbn; auto|right; intros x [<-|I]; [lra|auto]]. }
    destruct DEC as [D|D]; [assumption|]. exfalso. apply NW. apply dot_self_zero. apply SPW.
    rewrite vecsum_dot in SW. destruct (sum_nonneg (map (fun c => vdot c w) cs)) as [_ Z].
    - intros x I. apply in_map_iff in I as (c & <- & I). auto.
    - intros c I. apply Z; [assumption|]. apply in_map_iff. eauto. }
  destruct (Rle_lt_dec 0 (vdot d u)) as [P|N].
  - destruct (shoot cs v u HV (K u NU SU SP)) as (t & c & T & I & NC & E & A). exists (vpv v (vscale t u)), c, t.
    split; [reflexivity|]. split; [assumption|]. split; [lra|]. split; [assumption|]. split; [assumption|].
    replace (vdot d (vpv v (vscale t u))) with (vdot d v + t * vdot d u) by (unfold vdot, vpv, vscale; cbn; ring). assert (0 <= t * vdot d u) by (now apply Rmult_le_pos). lra.
  - set (w := vscale (-1) u). assert (W : forall c, vdot c w = - vdot c u) by (intros; unfold w, vdot, vscale; cbn; ring).
    assert (NW : w <> videntity). { intros E. apply NU. apply dot_self_zero. assert (G := W u). rewrite E, dot_zero_r in G. lra. }
    destruct (shoot cs v w HV) as (t & c & T & I & NC & E & A).
    { apply K; [assumption|rewrite W; lra|]. intros z HZ. rewrite dot_sym, W, dot_sym, SP; auto. lra. }
    exists (vpv v (vscale t w)), c, (- t). split; [apply vec_eq; unfold w, vpv, vscale; cbn; ring|]. split; [assumption|].
    split; [rewrite W in NC; lra|]. split; [assumption|]. split; [assumption|].
    replace (vdot d (vpv v (vscale t w))) with (vdot d v + t * vdot d w) by (unfold vdot, vpv, vscale; cbn; ring). rewrite W. assert (0 <= t * - vdot d u) by (apply Rmult_le_pos; lra). lra.
Qed.

(** Every direction of the cone is at most as good as one of the edges of the cone. *)
Lemma dot_scale : forall c l w, vdot c (vscale l w) = l * vdot c w.
Proof. intros. unfold vdot, vscale. cbn. ring. Qed.
Lemma dot_move : forall c v t u, vdot c (vpv v (vscale t u)) = vdot c v + t * vdot c u.
Proof. intros. unfold vdot, vpv, vscale. cbn. ring. Qed.
Lemma nonzero_dot : forall v, v <> videntity -> 0 < vdot v v.
Proof.
  intros [a b c] N. unfold vdot. cbn. assert (A := Rle_0_sqr a). assert (B := Rle_0_sqr b). assert (C := Rle_0_sqr c). unfold Rsqr in *.
  destruct (Rle_lt_dec (a * a + b * b + c * c) 0); [|assumption]. exfalso. apply N. apply dot_self_zero. unfold vdot. cbn. lra.
Qed.

Definition edge_axis (a1 a2 b1 b2 ax : vec) : Prop :=
  ax = vcross a1 a2 \/ ax = vcross b1 b2 \/ (exists a b, (a = a1 \/ a = a2) /\ (b = b1 \/ b = b2) /\ ax = vcross a b) \/
  (exists a, (a = a1 \/ a = a2) /\ ax = vcross a (vcross a1 a2)) \/ (exists b, (b = b1 \/ b = b2) /\ ax = vcross b (vcross b1 b2)).

Lemma cone_edge : forall a1 a2 b1 b2 d v, vcross a1 a2 <> videntity -> vcross b1 b2 <> videntity ->
  (forall c, In c [a1; a2; b1; b2] -> 0 <= vdot c v) -> 0 < vdot d v ->
  exists w l ax, (forall c, In c [a1; a2; b1; b2] -> 0 <= vdot c w) /\ 0 < vdot d w /\ w = vscale l ax /\ edge_axis a1 a2 b1 b2 ax.
Proof.
  intros a1 a2 b1 b2 d v NA NB HV HD. set (n := vcross a1 a2) in *. set (m := vcross b1 b2) in *. set (cs := [a1; a2; b1; b2]) in *.
  destruct (cross_orth a1 a2) as [N1 N2]. fold n in N1, N2.
  assert (PERP : forall w, (forall c, In c cs -> vdot c w = 0) -> exists l, w = vscale l n).
  { intros w H. apply parallel_cross; [apply H; cbn; auto|apply H; cbn; auto|assumption]. }
  assert (POS : forall w, (forall c, In c cs -> 0 <= vdot c w) -> (exists c, In c cs /\ vdot c w <> 0) -> 0 < vdot (vecsum cs) w).
  { intros w H (c & I & NZ). rewrite vecsum_dot. destruct (sum_nonneg (map (fun c => vdot c w) cs)) as [Z1 Z2].
    - intros x X. apply in_map_iff in X as (c' & <- & X). auto.
    - destruct Z1 as [Z1|Z1]; [assumption|]. exfalso. apply NZ. apply Z2; [lra|]. apply in_map_iff. eauto. }
  assert (DEC : forall w, (exists c, In c cs /\ vdot c w <> 0) \/ forall c, In c cs -> vdot c w = 0).
  { intros w. generalize cs. induction cs0 as [|c l [(c' & I & N)|IH]]; [right; intros c []|left; exists c'; cbn; auto|].
    destruct (Req_EM_T (vdot c w) 0); [right; intros x [<-|I]; auto|left; exists c; cbn; auto]. }
  set (s := vecsum cs) in *.
  assert (SP : (vdot b1 n = 0 /\ vdot b2 n = 0) \/ (vdot b1 n <> 0 \/ vdot b2 n <> 0)) by (destruct (Req_EM_T (vdot b1 n) 0), (Req_EM_T (vdot b2 n) 0); auto).
  destruct SP as [[B1 B2]|SP].
  - (* the triangles are parallel *)
    assert (CN : forall c, In c cs -> vdot c n = 0) by (intros c [<-|[<-|[<-|[<-|[]]]]]; assumption).
    assert (NN := nonzero_dot n NA).
    destruct (Rlt_dec 0 (vdot d n * vdot v n)) as [P|P].
    { exists (vscale (vdot v n) n), (vdot v n), n. split; [intros c I; rewrite dot_scale, (CN c I); lra|]. split; [rewrite dot_scale; lra|]. split; [reflexivity|now left]. }
    set (v' := vpv v (vscale (- (vdot v n / vdot n n)) n)).
    assert (V' : forall c, vdot c v' = vdot c v - vdot v n / vdot n n * vdot c n) by (intros c; unfold v'; rewrite dot_move; ring).
    assert (VC : forall c, In c cs -> vdot c v' = vdot c v) by (intros c I; rewrite V', (CN c I); ring).
    assert (VN : vdot n v' = 0) by (rewrite V', (dot_sym n v); field; lra).
    assert (VD : 0 < vdot d v').
    { rewrite V'. assert (vdot v n / vdot n n * vdot d n <= 0); [|lra]. replace (vdot v n / vdot n n * vdot d n) with (- (- (vdot d n * vdot v n) * / vdot n n)) by (field; lra).
      assert (0 <= - (vdot d n * vdot v n) * / vdot n n); [|lra]. apply Rmult_le_pos; [lra|apply Rlt_le, Rinv_0_lt_compat; lra]. }
    assert (HV' : forall c, In c cs -> 0 <= vdot c v') by (intros c I; rewrite VC by assumption; auto).
    assert (SN : vdot s n = 0).
    { unfold s. rewrite vecsum_dot. cbn [cs map fold_right]. rewrite N1, N2, B1, B2. ring. }
    assert (SV : 0 < vdot s v').
    { apply POS; [assumption|]. destruct (DEC v') as [E|E]; [assumption|]. exfalso. destruct (PERP v' E) as (l & L).
      rewrite L, dot_scale in VN. apply Rmult_integral in VN as [VN|VN]; [|lra]. rewrite L, VN, dot_scale in VD. lra. }
    assert (NS : s <> videntity) by (intros E; rewrite E, dot_sym, dot_zero_r in SV; lra).
    set (u := vcross n s). destruct (cross_orth n s) as [U1 U2]. fold u in U1, U2.
    assert (NU : u <> videntity).
    { intros E. assert (K : vdot u u = vdot n n * vdot s s - vdot s n * vdot s n) by (unfold u, vdot, vcross; cbn; ring).
      rewrite E, dot_zero_r, SN in K. assert (0 < vdot n n * vdot s s) by (apply Rmult_lt_0_compat; [assumption|now apply nonzero_dot]). lra. }
    destruct (tighten cs v' u d HV' NU U2) as (w & c & t & EW & IC & CU & CW & AW & DW).
    { intros x X. destruct (PERP x X) as (l & ->). rewrite dot_scale, (dot_sym u), U1. ring. }
    { assumption. }
    assert (NW : vdot n w = 0) by (rewrite EW, dot_move, VN, U1; ring).
    assert (CROSS : vcross c n <> videntity).
    { intros E. assert (K : vdot (vcross c n) (vcross c n) = vdot c c * vdot n n - vdot c n * vdot c n) by (unfold vdot, vcross; cbn; ring).
      rewrite E, dot_zero_r, (CN c IC) in K. assert (0 < vdot c c * vdot n n); [|lra]. apply Rmult_lt_0_compat; [|assumption]. apply nonzero_dot. intros ->. apply CU. rewrite dot_sym, dot_zero_r. reflexivity. }
    destruct (parallel_cross c n w CW NW CROSS) as (l & L).
    assert (NM : exists k, n = vscale k m) by (apply parallel_cross; assumption). destruct NM as (k & NM).
    assert (IC' : (c = a1 \/ c = a2) \/ (c = b1 \/ c = b2)) by (destruct IC as [<-|[<-|[<-|[<-|[]]]]]; auto).
    destruct IC' as [I|I].
    + exists w, l, (vcross c n). split; [assumption|]. split; [assumption|]. split; [assumption|]. right. right. right. left. exists c. auto.
    + exists w, (l * k), (vcross c m). split; [assumption|]. split; [assumption|]. split.
      * rewrite L, NM. apply vec_eq; unfold vscale, vcross; cbn; ring.
      * right. right. right. right. exists c. auto.
  - assert (ZERO : forall w, (forall c, In c cs -> vdot c w = 0) -> w = videntity).
    { intros w H. destruct (PERP w H) as (l & L). assert (l = 0).
      { assert (K1 := H b1). assert (K2 := H b2). rewrite L, dot_scale in K1, K2.
        destruct SP as [SP|SP]; [destruct (Rmult_integral _ _ (K1 ltac:(cbn; auto)))|destruct (Rmult_integral _ _ (K2 ltac:(cbn; auto)))]; auto; contradiction. }
      rewrite L, H0. apply vec_eq; unfold vscale, videntity; cbn; ring. }
    assert (SV : 0 < vdot s v).
    { apply POS; [assumption|]. destruct (DEC v) as [E|E]; [assumption|]. apply ZERO in E. rewrite E, dot_zero_r in HD. lra. }
    assert (NS : s <> videntity) by (intros E; rewrite E, dot_sym, dot_zero_r in SV; lra).
    assert (U0 : exists u0, u0 <> videntity /\ vdot s u0 = 0).
    { destruct (Req_EM_T (vx s) 0) as [E|E].
      - exists (V3 1 0 0). split; [intros K; injection K; lra|]. clearbody s. unfold vdot. cbn. lra.
      - exists (V3 (- vy s) (vx s) 0). clearbody s. split; [intros K; injection K; lra|]. unfold vdot. cbn. ring. }
    destruct U0 as (u0 & NU0 & SU0).
    destruct (tighten cs v u0 d HV NU0 SU0) as (v1 & c1 & t1 & E1 & I1 & CU1 & CV1 & HV1 & HD1).
    { intros w H. rewrite (ZERO w H). apply dot_zero_r. }
    { assumption. }
    assert (SV1 : 0 < vdot s v1) by (rewrite E1, dot_move, SU0; lra).
    set (u := vcross c1 s). destruct (cross_orth c1 s) as [U1 U2]. fold u in U1, U2.
    assert (NU : u <> videntity).
    { intros E. assert (K : vscale (vdot s v1) c1 = videntity).
      { transitivity (vpv (vcross v1 u) (vscale (vdot c1 v1) s)); [apply vec_eq; unfold u, vpv, vscale, vdot, vcross; cbn; ring|].
        rewrite E, CV1. apply vec_eq; unfold vpv, vscale, vcross, videntity; cbn; ring. }
      apply CU1. assert (Z : vdot u0 (vscale (vdot s v1) c1) = 0) by (rewrite K; apply dot_zero_r). rewrite dot_scale in Z.
      rewrite dot_sym. destruct (Rmult_integral _ _ Z); [lra|assumption]. }
    destruct (tighten cs v1 u d HV1 NU U2) as (w & c2 & t2 & E2 & I2 & CU2 & CV2 & HV2 & HD2).
    { intros x H. rewrite (ZERO x H). apply dot_zero_r. }
    { assumption. }
    assert (CW : vdot c1 w = 0) by (rewrite E2, dot_move, CV1, U1; ring).
    assert (CROSS : vcross c1 c2 <> videntity).
    { intros E. apply CU2. transitivity (- vdot s (vcross c1 c2)); [unfold u, vdot, vcross; cbn; ring|]. rewrite E, dot_zero_r. ring. }
    destruct (parallel_cross c1 c2 w CW CV2 CROSS) as (l & L).
    assert (SELF : forall c, vcross c c = videntity) by (intros c; apply vec_eq; unfold vcross, videntity; cbn; ring).
    assert (SWAP : forall l x y, vscale l (vcross x y) = vscale (- l) (vcross y x)) by (intros; apply vec_eq; unfold vscale, vcross; cbn; ring).
    assert (IC : ((c1 = a1 \/ c1 = a2) \/ (c1 = b1 \/ c1 = b2)) /\ ((c2 = a1 \/ c2 = a2) \/ (c2 = b1 \/ c2 = b2))).
    { split; [destruct I1 as [<-|[<-|[<-|[<-|[]]]]]|destruct I2 as [<-|[<-|[<-|[<-|[]]]]]]; auto. }
    destruct IC as [[IA1|IB1] [IA2|IB2]].
    + destruct IA1 as [-> | ->], IA2 as [-> | ->]; try (exfalso; apply CROSS, SELF).
      * exists w, l, n. repeat (split; [assumption|]). now left.
      * exists w, (- l), n. split; [assumption|]. split; [assumption|]. split; [rewrite L; apply SWAP|now left].
    + exists w, l, (vcross c1 c2). repeat (split; [assumption|]). right. right. left. exists c1, c2. auto.
    + exists w, (- l), (vcross c2 c1). split; [assumption|]. split; [assumption|]. split; [rewrite L; apply SWAP|]. right. right. left. exists c2, c1. auto.
    + destruct IB1 as [-> | ->], IB2 as [-> | ->]; try (exfalso; apply CROSS, SELF).
      * exists w, l, m. repeat (split; [assumption|]). right. now left.
      * exists w, (- l), m. split; [assumption|]. split; [assumption|]. split; [rewrite L; apply SWAP|right; now left].
Qed.

(** The axes of the edges are among the axes tried. *)
Definition edge_of (t : tri3) (a : vec) : Prop := exists l, a = vscale l (vmv (p2 t) (p1 t)) \/ a = vscale l (vmv (p3 t) (p2 t)) \/ a = vscale l (vmv (p1 t) (p3 t)).

Lemma axis_listed : forall p q a1 a2 b1 b2 ax, edge_of p a1 -> edge_of p a2 -> edge_of q b1 -> edge_of q b2 -> vcross a1 a2 = normal p -> vcross b1 b2 = normal q ->
  edge_axis a1 a2 b1 b2 ax -> exists l a, In a (contact_axes p q) /\ ax = vscale l a.
Proof.
  intros p q a1 a2 b1 b2 ax EA1 EA2 EB1 EB2 NA NB H. unfold contact_axes. cbn zeta. fold (normal p) (normal q).
  destruct H as [->|[->|[(a & b & A & B & ->)|[(a & A & ->)|(b & B & ->)]]]].
  - exists 1, (normal p). split; [cbn; auto|]. rewrite NA. apply vec_eq; unfold vscale; cbn; ring.
  - exists 1, (normal q). split; [cbn; auto|]. rewrite NB. apply vec_eq; unfold vscale; cbn; ring.
  - assert (EA : edge_of p a) by (destruct A as [-> | ->]; assumption). assert (EB : edge_of q b) by (destruct B as [-> | ->]; assumption).
    destruct EA as (l & EA), EB as (k & EB). exists (l * k).
    destruct EA as [->|[->| ->]], EB as [->|[->| ->]];
      match goal with |- exists a, _ /\ vcross (vscale _ ?x) (vscale _ ?y) = _ => exists (vcross x y) end;
      (split; [cbn; auto 20|apply vec_eq; unfold vscale, vcross; cbn; ring]).
  - assert (EA : edge_of p a) by (destruct A as [-> | ->]; assumption). rewrite NA. destruct EA as (l & EA). exists l.
    destruct EA as [->|[->| ->]]; match goal with |- exists a, _ /\ vcross (vscale _ ?x) ?y = _ => exists (vcross x y) end;
      (split; [cbn; auto 20|apply vec_eq; unfold vscale, vcross; cbn; ring]).
  - assert (EB : edge_of q b) by (destruct B as [-> | ->]; assumption). rewrite NB. destruct EB as (l & EB). exists l.
    destruct EB as [->|[->| ->]]; match goal with |- exists a, _ /\ vcross (vscale _ ?x) ?y = _ => exists (vcross x y) end;
      (split; [cbn; auto 20|apply vec_eq; unfold vscale, vcross; cbn; ring]).
Qed.

(** A strictly separating axis is found. *)
Definition corner (t : tri3) (x : vec) : Prop := x = p1 t \/ x = p2 t \/ x = p3 t.
Lemma max3_in : forall a b c, max3 a b c = a \/ max3 a b c = b \/ max3 a b c = c.
Proof. intros a b c. unfold max3. cbn zeta. destruct (rlt a b); [destruct (rlt b c)|destruct (rlt a c)]; auto. Qed.
Lemma min3_in : forall a b c, min3 a b c = a \/ min3 a b c = b \/ min3 a b c = c.
Proof. intros a b c. unfold min3. cbn zeta. destruct (rlt b a); [destruct (rlt c b)|destruct (rlt c a)]; auto. Qed.

Lemma separates : forall p q w l ax, w = vscale l ax -> (forall x y, corner p x -> corner q y -> vdot w y < vdot w x) -> project6 ax p q = false.
Proof.
  intros p q w l ax -> H.
  assert (D : forall x, vdot (vscale l ax) x = l * vdot ax x) by (intros; unfold vdot, vscale; cbn; ring).
  unfold project6. cbn zeta.
  assert (K : forall x y, corner p x -> corner q y -> l * vdot ax y < l * vdot ax x) by (intros x y X Y; rewrite <- !D; auto).
  assert (MP : exists x, corner p x /\ min3 (vdot ax (p1 p)) (vdot ax (p2 p)) (vdot ax (p3 p)) = vdot ax x) by (unfold corner; destruct (min3_in (vdot ax (p1 p)) (vdot ax (p2 p)) (vdot ax (p3 p))) as [->|[->| ->]]; eauto).
  assert (XP : exists x, corner p x /\ max3 (vdot ax (p1 p)) (vdot ax (p2 p)) (vdot ax (p3 p)) = vdot ax x) by (unfold corner; destruct (max3_in (vdot ax (p1 p)) (vdot ax (p2 p)) (vdot ax (p3 p))) as [->|[->| ->]]; eauto).
  assert (MQ : exists x, corner q x /\ min3 (vdot ax (p1 q)) (vdot ax (p2 q)) (vdot ax (p3 q)) = vdot ax x) by (unfold corner; destruct (min3_in (vdot ax (p1 q)) (vdot ax (p2 q)) (vdot ax (p3 q))) as [->|[->| ->]]; eauto).
  assert (XQ : exists x, corner q x /\ max3 (vdot ax (p1 q)) (vdot ax (p2 q)) (vdot ax (p3 q)) = vdot ax x) by (unfold corner; destruct (max3_in (vdot ax (p1 q)) (vdot ax (p2 q)) (vdot ax (p3 q))) as [->|[->| ->]]; eauto).
  destruct MP as (xp & CP & ->), XP as (yp & DP & ->), MQ as (xq & CQ & ->), XQ as (yq & DQ & ->).
  destruct (Rtotal_order l 0) as [N|[E|P]].
  - destruct (rlt (vdot ax yq) (vdot ax xp)); [reflexivity|]. rewrite (proj2 (rlt_true _ _)); [reflexivity|].
    specialize (K yp xq DP CQ). destruct (Rlt_le_dec (vdot ax yp) (vdot ax xq)) as [|LE]; [assumption|].
    assert (l * vdot ax yp <= l * vdot ax xq) by (apply Rmult_le_compat_neg_l; lra). lra.
  - exfalso. specialize (K xp xq CP CQ). rewrite E in K. lra.
  - rewrite (proj2 (rlt_true _ _)); [reflexivity|]. specialize (K xp yq CP DQ). apply (Rmult_lt_reg_l l); assumption.
Qed.

Lemma contact_exact : forall p q, normal p <> videntity -> normal q <> videntity -> forallb (fun ax => project6 ax p q) (contact_axes p q) = true ->
  exists x, in_tri p x /\ in_tri q x.
Proof.
  intros p q NP NQ H. destruct (separate p q) as [(v & V)|]; [exfalso|assumption].
  assert (VD : forall x y, corner p x -> corner q y -> 0 < vdot v (vmv x y)).
  { intros x y X Y. apply V. unfold diffs. apply in_flat_map. exists x. split; [destruct X as [->|[->| ->]]; cbn; auto|]. apply in_map_iff. exists y. split; [reflexivity|destruct Y as [->|[->| ->]]; cbn; auto]. }
  (* the lowest corner of p and the highest of q *)
  assert (LOW : forall t, normal t <> videntity -> forall f : vec -> R, exists x a1 a2, corner t x /\ (forall y, corner t y -> f x <= f y) /\
     edge_of t a1 /\ edge_of t a2 /\ vcross a1 a2 = normal t /\ (forall y, corner t y -> y = x \/ y = vpv x a1 \/ y = vpv x a2) /\ corner t (vpv x a1) /\ corner t (vpv x a2)).
  { intros t _ f.
    assert (M1 : forall x, vscale 1 x = x) by (intros x; apply vec_eq; unfold vscale; cbn; ring).
    assert (ADD : forall x y, vpv x (vmv y x) = y) by (intros x y; apply vec_eq; unfold vpv, vmv; cbn; ring).
    assert (NEG : forall x y, vmv y x = vscale (-1) (vmv x y)) by (intros x y; apply vec_eq; unfold vscale, vmv; cbn; ring).
    assert (G : forall x y z, corner t x -> (forall w, corner t w -> w = x \/ w = y \/ w = z) -> corner t y -> corner t z -> f x <= f y -> f x <= f z ->
       edge_of t (vmv y x) -> edge_of t (vmv z x) -> vcross (vmv y x) (vmv z x) = normal t -> exists x a1 a2, corner t x /\ (forall y, corner t y -> f x <= f y) /\
     edge_of t a1 /\ edge_of t a2 /\ vcross a1 a2 = normal t /\ (forall y, corner t y -> y = x \/ y = vpv x a1 \/ y = vpv x a2) /\ corner t (vpv x a1) /\ corner t (vpv x a2)).
    { intros x y z CX ALL CY CZ FY FZ EY EZ EN. exists x, (vmv y x), (vmv z x). rewrite !ADD. split; [assumption|]. split; [|auto 10].
      intros w W. destruct (ALL w W) as [->|[->| ->]]; lra. }
    assert (C1 : corner t (p1 t)) by (left; reflexivity). assert (C2 : corner t (p2 t)) by (right; left; reflexivity). assert (C3 : corner t (p3 t)) by (right; right; reflexivity).
    assert (E12 : edge_of t (vmv (p2 t) (p1 t))) by (exists 1; rewrite !M1; auto).
    assert (E23 : edge_of t (vmv (p3 t) (p2 t))) by (exists 1; rewrite !M1; auto).
    assert (E31 : edge_of t (vmv (p1 t) (p3 t))) by (exists 1; rewrite !M1; auto).
    assert (E21 : edge_of t (vmv (p1 t) (p2 t))) by (exists (-1); left; apply NEG).
    assert (E32 : edge_of t (vmv (p2 t) (p3 t))) by (exists (-1); right; left; apply NEG).
    assert (E13 : edge_of t (vmv (p3 t) (p1 t))) by (exists (-1); right; right; apply NEG).
    destruct (Rle_lt_dec (f (p1 t)) (f (p2 t))) as [A|A], (Rle_lt_dec (f (p1 t)) (f (p3 t))) as [B|B], (Rle_lt_dec (f (p2 t)) (f (p3 t))) as [D|D]; try lra;
      first [ (apply (G (p1 t) (p2 t) (p3 t)); [assumption|intros w [->|[->| ->]]; auto|assumption|assumption|lra|lra|assumption|assumption|apply vec_eq; unfold normal, vcross, vmv; cbn; ring])
            | (apply (G (p2 t) (p3 t) (p1 t)); [assumption|intros w [->|[->| ->]]; auto|assumption|assumption|lra|lra|assumption|assumption|apply vec_eq; unfold normal, vcross, vmv; cbn; ring])
            | (apply (G (p3 t) (p1 t) (p2 t)); [assumption|intros w [->|[->| ->]]; auto|assumption|assumption|lra|lra|assumption|assumption|apply vec_eq; unfold normal, vcross, vmv; cbn; ring]) ]. }
  destruct (LOW p NP (fun x => vdot v x)) as (x & a1 & a2 & CX & MX & EA1 & EA2 & NA & ALLX & CXA & CXB).
  destruct (LOW q NQ (fun x => - vdot v x)) as (y & b1 & b2 & CY & MY & EB1 & EB2 & NB & ALLY & CYA & CYB).
  (* the edges of q reversed *)
  set (b1' := vscale (-1) b1). set (b2' := vscale (-1) b2).
  assert (REV : forall w b, vdot w (vscale (-1) b) = - vdot w b) by (intros; rewrite dot_scale; ring).
  assert (DPV : forall w x a, vdot w (vpv x a) = vdot w x + vdot w a) by (intros; unfold vdot, vpv; cbn; ring).
  destruct (cone_edge a1 a2 b1' b2' (vmv x y) v) as (w & l & ax & HW & DW & EW & AX).
  - rewrite NA. assumption.
  - replace (vcross b1' b2') with (vcross b1 b2); [rewrite NB; assumption|]. apply vec_eq; unfold b1', b2', vcross, vscale; cbn; ring.
  - assert (K1 := MX _ CXA). assert (K2 := MX _ CXB). assert (K3 := MY _ CYA). assert (K4 := MY _ CYB). cbn beta in K1, K2, K3, K4. rewrite DPV in K1, K2, K3, K4.
    intros c [<-|[<-|[<-|[<-|[]]]]]; rewrite dot_sym; unfold b1', b2'; rewrite ?REV; lra.
  - rewrite dot_sym. now apply VD.
  - destruct (axis_listed p q a1 a2 b1' b2' ax) as (k & a & IA & EA); auto.
    + destruct EB1 as (k & [->|[->| ->]]); exists (- k); unfold b1'; [left|right; left|right; right]; apply vec_eq; unfold vscale; cbn; ring.
    + destruct EB2 as (k & [->|[->| ->]]); exists (- k); unfold b2'; [left|right; left|right; right]; apply vec_eq; unfold vscale; cbn; ring.
    + rewrite <- NB. apply vec_eq; unfold b1', b2', vcross, vscale; cbn; ring.
    + rewrite forallb_forall in H. specialize (H a IA). rewrite (separates p q w (l * k) a) in H; [discriminate| |].
      * rewrite EW, EA. apply vec_eq; unfold vscale; cbn; ring.
      * assert (W1 := HW a1 ltac:(cbn; auto)). assert (W2 := HW a2 ltac:(cbn; auto)). assert (W3 := HW b1' ltac:(cbn; auto)). assert (W4 := HW b2' ltac:(cbn; auto)).
        rewrite dot_sym in W1, W2, W3, W4. unfold b1', b2' in W3, W4. rewrite REV in W3, W4.
        assert (DD : vdot (vmv x y) w = vdot w x - vdot w y) by (unfold vdot, vmv; cbn; ring). rewrite DD in DW.
        intros x' y' CX' CY'. destruct (ALLX x' CX') as [->|[->| ->]], (ALLY y' CY') as [->|[->| ->]]; rewrite ?DPV; lra.
Qed.

Theorem tri_contact_exact : forall P Q, normal P <> videntity -> normal Q <> videntity -> tri_contact P Q = true -> exists x, in_tri P x /\ in_tri Q x.
Proof.
  intros P Q NP NQ H. unfold tri_contact in H. cbn zeta in H. apply contact_exact in H.
  - destruct H as (x & HP & HQ). exists (vpv x (p1 P)).
    assert (B : forall a o, vmv (vmv a o) (vscale (-1) o) = a) by (intros; apply vec_eq; unfold vmv, vscale; cbn; ring).
    apply (in_tri_shift _ _ (vscale (-1) (p1 P))) in HP, HQ. cbn [p1 p2 p3] in HP, HQ. rewrite !B in HP, HQ.
    replace (vmv x (vscale (-1) (p1 P))) with (vpv x (p1 P)) in HP, HQ by (apply vec_eq; unfold vmv, vpv, vscale; cbn; ring).
    destruct P, Q. auto.
  - intros E. apply NP. rewrite <- E. apply vec_eq; unfold normal, vcross, vmv; cbn; ring.
  - intros E. apply NQ. rewrite <- E. apply vec_eq; unfold normal, vcross, vmv; cbn; ring.
Qed.

(** Moving keeps the area and the points. *)
Lemma orthonormal_dot : forall R a b, orthonormal R -> vdot (mxv R a) (mxv R b) = vdot a b.
Proof.
  intros [r00 r01 r02 r10 r11 r12 r20 r21 r22] [a0 a1 a2] [b0 b1 b2] (H0 & H1 & H2 & H3 & H4 & H5). unfold vdot, mxv. cbn in *.
  transitivity (a0 * b0 * (r00 * r00 + r10 * r10 + r20 * r20) + a1 * b1 * (r01 * r01 + r11 * r11 + r21 * r21) + a2 * b2 * (r02 * r02 + r12 * r12 + r22 * r22) +
    (a0 * b1 + a1 * b0) * (r00 * r01 + r10 * r11 + r20 * r21) + (a0 * b2 + a2 * b0) * (r00 * r02 + r10 * r12 + r20 * r22) + (a1 * b2 + a2 * b1) * (r01 * r02 + r11 * r12 + r21 * r22)); [ring|].
  rewrite H0, H1, H2, H3, H4, H5. ring.
Qed.
Lemma normal_move : forall x t, orthonormal (x_R x) -> normal t <> videntity -> normal (move x t) <> videntity.
Proof.
  intros x t HO N E. apply N. apply dot_self_zero.
  assert (LAG : forall a b, vdot (vcross a b) (vcross a b) = vdot a a * vdot b b - vdot a b * vdot a b) by (intros; unfold vdot, vcross; cbn; ring).
  assert (K : vdot (normal (move x t)) (normal (move x t)) = 0) by (rewrite E; apply dot_zero_r).
  unfold normal in *. rewrite LAG in *. unfold move in K. cbn zeta in K. cbn [p1 p2 p3] in K.
  assert (D : forall a b, vmv (mxvpv (x_R x) a (x_T x)) (mxvpv (x_R x) b (x_T x)) = mxv (x_R x) (vmv a b)) by (intros; apply vec_eq; unfold vmv, mxvpv, vpv, mxv; cbn; ring).
  rewrite !D, !orthonormal_dot in K by assumption. exact K.
Qed.
Lemma in_tri_unmove : forall x t p, in_tri (move x t) p -> exists q, in_tri t q /\ p = at_pose x q.
Proof.
  intros x t p (a & b & c & A & B & C & S1 & X & Y & Z).
  exists (V3 (a * vx (p1 t) + b * vx (p2 t) + c * vx (p3 t)) (a * vy (p1 t) + b * vy (p2 t) + c * vy (p3 t)) (a * vz (p1 t) + b * vz (p2 t) + c * vz (p3 t))).
  split; [exists a, b, c; cbn; auto 10|]. assert (K : c = 1 - a - b) by lra. unfold move in X, Y, Z. cbn in X, Y, Z. unfold mxvpv, vpv, mxv in X, Y, Z. cbn in X, Y, Z.
  apply vec_eq; unfold at_pose; cbn; [rewrite X|rewrite Y|rewrite Z]; rewrite K; ring.
Qed.
