From Coq Require Import Reals List Bool Lra Lia.
From Verif Require Import QuatModel QuatSpec RpyModel JointModel KinModel CrvModel CrvSpec CrvProofs GeoModel GeoSpec.
Import ListNotations.
Open Scope R_scope.

Ltac geo := unfold vadd, vsub, vscale, vdot, vcross, inner, diff, outer, at_line, span_point, opposite, times, mapply in *; cbn [vx vy vz p_pos p_dir1 p_dir2 ip_n ip_d] in *.

(** Squared lengths. *)
Lemma inner_nonneg a : 0 <= inner a a.
Proof. unfold inner. pose proof (Rle_0_sqr (vx a)). pose proof (Rle_0_sqr (vy a)). pose proof (Rle_0_sqr (vz a)). unfold Rsqr in *. lra. Qed.
Lemma inner_zero a : inner a a = 0 -> a = origin.
Proof.
  intros H. unfold inner in H. pose proof (Rle_0_sqr (vx a)). pose proof (Rle_0_sqr (vy a)). pose proof (Rle_0_sqr (vz a)). unfold Rsqr in *.
  apply veq; unfold origin; cbn [vx vy vz]; apply Rsqr_0_uniq; unfold Rsqr; lra.
Qed.
Lemma inner_pos a : a <> origin -> 0 < inner a a.
Proof. intros N. destruct (inner_nonneg a) as [H|H]; [exact H|]. destruct N. apply inner_zero. symmetry. exact H. Qed.
Lemma distance_inner a b : distance a b = sqrt (inner (diff a b) (diff a b)). Proof. reflexivity. Qed.
(** The foot of a perpendicular is the nearest point. *)
Lemma foot x c p : inner (diff p c) (diff x c) = 0 -> distance p c <= distance p x.
Proof.
  intros H. rewrite !distance_inner. apply sqrt_le_1_alt. replace (diff p x) with (Vec (vx (diff p c) - vx (diff x c)) (vy (diff p c) - vy (diff x c)) (vz (diff p c) - vz (diff x c))).
  2:{ unfold diff. apply veq; cbn [vx vy vz]; ring. }
  set (u := diff p c) in *. set (w := diff x c) in *. clearbody u w. pose proof (inner_nonneg w). unfold inner in *. cbn [vx vy vz]. nra.
Qed.

(** Rays and triangles. *)
Definition det_of (dir a b c : vec3) : R := vdot (vsub b a) (vcross dir (vsub c a)).
Lemma det_inner dir a b c : det_of dir a b c = - inner dir (outer (diff b a) (diff c a)).
Proof. unfold det_of. geo. ring. Qed.
Lemma det_parallel dir a b c : det_of dir a b c = 0 <-> parallel dir a b c.
Proof. rewrite det_inner. unfold parallel. split; intros H; lra. Qed.
Lemma xlt_fin x y : xlt (Fin x) (Fin y) = true <-> x < y.
Proof. cbn [xlt]. destruct (Rlt_dec x y); split; intros; (assumption || discriminate || contradiction || reflexivity). Qed.
Lemma bary a b c x : in_triangle a b c x <-> exists u v, 0 <= u /\ 0 <= v /\ u + v <= 1 /\ x = vadd a (vadd (vscale u (vsub b a)) (vscale v (vsub c a))).
Proof.
  split.
  - intros (s & t & u & S0 & T0 & U0 & E & ->). exists t, u. split; [exact T0|]. split; [exact U0|]. split; [lra|]. replace s with (1 - t - u) by lra. apply veq; geo; ring.
  - intros (u & v & U0 & V0 & L & ->). exists (1 - u - v), u, v. split; [lra|]. split; [exact U0|]. split; [exact V0|]. split; [ring|]. apply veq; geo; ring.
Qed.
Section Ray.
Variables pos dir a b c : vec3.
Let e1 := vsub b a.
Let e2 := vsub c a.
Let P := vcross dir e2.
Let T := vsub pos a.
Let Q := vcross T e1.
Let det := vdot e1 P.
(** Cramer's rule. *)
Lemma cramer : det <> 0 -> at_line pos dir (vdot e2 Q * (1 / det)) = vadd a (vadd (vscale (vdot T P * (1 / det)) e1) (vscale (vdot dir Q * (1 / det)) e2)).
Proof.
  intros N. assert (K : forall x y, det * x = det * y -> x = y) by (intros x y H; apply (Rmult_eq_reg_l det); assumption).
  assert (I : det * (1 / det) = 1) by (field; exact N). set (i := 1 / det) in *. clearbody i.
  apply veq; apply K; unfold at_line, vadd, vscale; cbn [vx vy vz].
  - transitivity (det * vx pos + (det * i) * (vdot e2 Q * vx dir)); [ring|]. transitivity (det * vx a + (det * i) * (vdot T P * vx e1 + vdot dir Q * vx e2)); [|ring]. rewrite I. unfold det, P, Q, T, e1, e2. geo. ring.
  - transitivity (det * vy pos + (det * i) * (vdot e2 Q * vy dir)); [ring|]. transitivity (det * vy a + (det * i) * (vdot T P * vy e1 + vdot dir Q * vy e2)); [|ring]. rewrite I. unfold det, P, Q, T, e1, e2. geo. ring.
  - transitivity (det * vz pos + (det * i) * (vdot e2 Q * vz dir)); [ring|]. transitivity (det * vz a + (det * i) * (vdot T P * vz e1 + vdot dir Q * vz e2)); [|ring]. rewrite I. unfold det, P, Q, T, e1, e2. geo. ring.
Qed.
Lemma cramer_unique t u v : det <> 0 -> at_line pos dir t = vadd a (vadd (vscale u e1) (vscale v e2)) ->
  vdot e2 Q * (1 / det) = t /\ vdot T P * (1 / det) = u /\ vdot dir Q * (1 / det) = v.
Proof.
  intros N E. assert (ET : T = vsub (vadd (vscale u e1) (vscale v e2)) (vscale t dir)).
  { clear -E. unfold T. clearbody e1 e2. unfold at_line, vsub, vadd, vscale in *. cbn [vx vy vz] in *. injection E as E1 E2 E3. apply veq; cbn [vx vy vz]; lra. }
  assert (A : vdot e2 Q = t * det /\ vdot T P = u * det /\ vdot dir Q = v * det).
  { unfold Q. rewrite ET. unfold det, P. clearbody e1 e2. split; [|split]; geo; ring. }
  destruct A as (A1 & A2 & A3). rewrite A1, A2, A3. split; [|split]; field; exact N.
Qed.
Lemma ray_regular zs t : det <> 0 -> (intersects_triangle zs pos dir a b c = Some (Fin t) <-> meets pos dir a b c t).
Proof.
  intros N. unfold intersects_triangle. fold e1 e2. fold P. fold T. fold Q. fold det.
  assert (F : (if Rlt_dec (-0) det then true else false) && (if Rlt_dec det 0 then true else false) = false).
  { destruct (Rlt_dec (-0) det); [|reflexivity]. destruct (Rlt_dec det 0); [lra|reflexivity]. }
  cbv zeta. rewrite F. destruct (Req_EM_T det 0) as [Z|_]; [contradiction|]. cbn [xmul xadd]. set (u := vdot T P * (1 / det)). set (v := vdot dir Q * (1 / det)). set (t' := vdot e2 Q * (1 / det)).
  assert (C : at_line pos dir t' = vadd a (vadd (vscale u e1) (vscale v e2))) by (apply cramer, N). unfold meets. rewrite bary. fold e1 e2. split.
  - destruct (xlt (Fin u) (Fin 0)) eqn:X1; [discriminate|]. destruct (xlt (Fin 1) (Fin u)) eqn:X2; [discriminate|]. cbn [orb].
    destruct (xlt (Fin v) (Fin 0)) eqn:X3; [discriminate|]. destruct (xlt (Fin 1) (Fin (u + v))) eqn:X4; [discriminate|]. cbn [orb]. destruct (xlt (Fin 0) (Fin t')) eqn:X5; [|discriminate]. intros E. injection E as <-.
    apply xlt_fin in X5. assert (0 <= u) by (apply Rnot_lt_le; intros H; apply xlt_fin in H; congruence). assert (0 <= v) by (apply Rnot_lt_le; intros H0; apply xlt_fin in H0; congruence).
    assert (u + v <= 1) by (apply Rnot_lt_le; intros H1; apply xlt_fin in H1; congruence). split; [exact X5|]. exists u, v. auto.
  - intros (TP & u' & v' & U0 & V0 & L & E). destruct (cramer_unique t u' v' N E) as (E1 & E2 & E3). fold t' in E1. fold u in E2. fold v in E3. rewrite E1, E2, E3.
    destruct (xlt (Fin u') (Fin 0)) eqn:X1; [apply xlt_fin in X1; lra|]. destruct (xlt (Fin 1) (Fin u')) eqn:X2; [apply xlt_fin in X2; lra|]. cbn [orb].
    destruct (xlt (Fin v') (Fin 0)) eqn:X3; [apply xlt_fin in X3; lra|]. destruct (xlt (Fin 1) (Fin (u' + v'))) eqn:X4; [apply xlt_fin in X4; lra|]. cbn [orb].
    destruct (xlt (Fin 0) (Fin t)) eqn:X5; [reflexivity|]. assert (X : xlt (Fin 0) (Fin t) = true) by (apply xlt_fin, TP). congruence.
Qed.
Lemma ray_regular_finite zs x : det <> 0 -> intersects_triangle zs pos dir a b c = Some x -> exists t, x = Fin t.
Proof.
  intros N. unfold intersects_triangle. fold e1 e2. fold P. fold T. fold Q. fold det. cbv zeta. destruct (_ && _); [discriminate|]. destruct (Req_EM_T det 0) as [Z|_]; [contradiction|]. cbn [xmul xadd].
  destruct (_ || _); [discriminate|]. destruct (_ || _); [discriminate|]. destruct (xlt (Fin 0) _); [|discriminate]. intros E. injection E as <-. eexists. reflexivity.
Qed.
(** With a zero determinant the only result that can be reported is infinity. *)
Lemma ray_singular zs x : det = 0 -> intersects_triangle zs pos dir a b c = Some x -> x = PInf.
Proof.
  intros N. unfold intersects_triangle. fold e1 e2. fold P. fold T. fold Q. fold det. cbv zeta. destruct (_ && _); [discriminate|]. destruct (Req_EM_T det 0) as [_|Z]; [|contradiction].
  destruct (_ || _); [discriminate|]. destruct (_ || _); [discriminate|]. set (t := xmul (vdot e2 Q) (if zs then PInf else NInf)).
  assert (C : t = PInf \/ t = NInf \/ t = NaN). { unfold t. destruct zs; cbn [xmul]; destruct (Rlt_dec 0 _); auto; destruct (Rlt_dec _ 0); auto. }
  destruct C as [->|[->| ->]]; cbn [xlt]; try discriminate. intros E. injection E as <-. reflexivity.
Qed.
(** ... and only if the line is parallel to the edge e2. *)
Lemma ray_singular_edge zs x : det = 0 -> intersects_triangle zs pos dir a b c = Some x -> P = origin.
Proof.
  intros D H. destruct (inner_nonneg P) as [PP|PZ]; [exfalso|apply inner_zero; symmetry; exact PZ].
  revert H. unfold intersects_triangle. fold e1 e2. fold P. fold T. fold Q. fold det. cbv zeta. destruct (_ && _); [discriminate|]. destruct (Req_EM_T det 0) as [_|Z]; [|contradiction].
  (* e2 x (dir x e2) etc.: with T.P = 0 and e1.P = 0 the vector Q is a multiple of P, and P is orthogonal to dir and e2. *)
  assert (E2P : vdot e2 P = 0) by (unfold P; clearbody e2; geo; ring). assert (DP : vdot dir P = 0) by (unfold P; clearbody e2; geo; ring).
  destruct (Req_EM_T (vdot T P) 0) as [TP|TP].
  - (* |P|^2 (e2 . Q) = 0 *)
    assert (K : inner P P * vdot e2 Q = 0).
    { transitivity ((vdot T P) * vdot e2 (vcross P e1) - (vdot e1 P) * vdot e2 (vcross P T) + (vdot e2 P) * vdot T (vcross e1 P) + 0).
      - unfold Q. clearbody P T e1 e2. geo. ring.
      - fold det. rewrite TP, D, E2P. ring. }
    assert (Q0 : vdot e2 Q = 0) by (apply Rmult_integral in K; destruct K as [K|K]; [lra|exact K]). rewrite Q0.
    replace (xmul 0 (if zs then PInf else NInf)) with NaN by (destruct zs; cbn [xmul]; destruct (Rlt_dec 0 0); try lra; reflexivity).
    destruct (_ || _); [discriminate|]. destruct (_ || _); [discriminate|]. cbn [xlt]. discriminate.
  - assert (U : xlt (xmul (vdot T P) (if zs then PInf else NInf)) (Fin 0) || xlt (Fin 1) (xmul (vdot T P) (if zs then PInf else NInf)) = true).
    { destruct zs; cbn [xmul]; destruct (Rlt_dec 0 (vdot T P)); try reflexivity; destruct (Rlt_dec (vdot T P) 0); try reflexivity; lra. }
    rewrite U. discriminate.
Qed.
End Ray.
