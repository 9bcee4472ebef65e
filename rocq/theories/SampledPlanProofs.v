From Coq Require Import Reals List Bool ZArith Lra Lia.
From Verif Require Import AngleModel SampledModel SampledSpec SampledProofs SampledPlanModel.
From Verif Require TreeModel PlannerModel PlannerSpec PlannerProofs.
Import ListNotations.
Open Scope R_scope.

Lemma steps_enough : forall d s, 0 <= d -> 0 < s -> d <= INR (steps d s) * s /\ (2 <= steps d s)%nat.
Proof.
  intros d s Hd Hs. unfold steps. split; [|lia].
  destruct (archimed (d / s)) as (Hu & _).
  assert (0 <= d / s) by (apply Rmult_le_pos; [assumption|left; now apply Rinv_0_lt_compat]).
  assert (Hz : (0 <= up (d / s))%Z) by (apply le_IZR; lra).
  rewrite !S_INR, INR_IZR_INZ, Z2Nat.id by assumption.
  apply Rle_trans with (d / s * s); [right; field; lra|]. apply Rmult_le_compat_r; lra.
Qed.

Lemma pack_id : forall n (v : vec n), pack n (proj1_sig v) = v.
Proof.
  intros n (q & H). unfold pack. cbn.
  assert (E : resize n q = q).
  { unfold resize. apply Nat.eqb_eq in H. subst n. rewrite firstn_app, firstn_all, Nat.sub_diag. cbn. apply app_nil_r. }
  generalize (resize_length n q). rewrite E. intros p. f_equal. apply (Eqdep_dec.UIP_dec Bool.bool_dec).
Qed.

Lemma pack_fst : forall n q, length q = n -> proj1_sig (pack n q) = q.
Proof. intros n q H. cbn. unfold resize. subst n. rewrite firstn_app, firstn_all, Nat.sub_diag. cbn. apply app_nil_r. Qed.

Lemma vec_sized : forall ds (v : vec (length ds)), sized ds (proj1_sig v).
Proof. intros ds (q & H). cbn. now apply Nat.eqb_eq. Qed.

Lemma fos_sized : forall ds q1 q2 f l g, forward_on_segment ds q1 q2 f l g -> Forall (sized ds) l.
Proof.
  intros ds q1 q2 f l g H. induction H; constructor; [|assumption].
  match goal with H : at_fraction _ _ _ _ _ |- _ => apply at_fraction_sized in H; tauto end.
Qed.

Lemma last_map : forall {A B} (f : A -> B) l d, last (map f l) (f d) = f (last l d).
Proof. intros A B f l d. induction l as [|x [|y l] IH]; cbn in *; auto. Qed.

Lemma last_cons_default : forall {A} (l : list A) a d, last (a :: l) d = last l a.
Proof.
  intros A l. induction l as [|b l IH]; intros a d; [reflexivity|].
  change (last (a :: b :: l) d) with (last (b :: l) d). now rewrite IH, IH.
Qed.

Section Instance.
Context (ds : list dim) (coll constr inside : config -> bool) (dcd sp : R).
Context (Hr : regular ds) (Hdcd : 0 < dcd) (Hsp : 0 < sp).
Notation cs := (sampled_cspace ds coll constr inside dcd sp).
Notation free := (fun q => (coll q && constr q)%bool).

Definition near (a b : PlannerModel.cfg cs) : Prop := calc_dist ds (proj1_sig a) (proj1_sig b) < 1e-6.

Lemma path_valid_inst : forall a b : vec (length ds),
  PlannerModel.path_valid cs a b = sampled_path_valid ds free dcd max_depth (proj1_sig a) (proj1_sig b).
Proof. reflexivity. Qed.

Lemma create_path_inst : forall a b : vec (length ds), exists l,
  PlannerModel.create_path cs a b = a :: map (pack (length ds)) l /\
  forward_on_segment ds (proj1_sig a) (proj1_sig b) 0 (proj1_sig a :: l) 1 /\
  calc_dist ds (last l (proj1_sig a)) (proj1_sig b) < 1e-6.
Proof.
  intros a b. destruct (steps_enough (calc_dist ds (proj1_sig a) (proj1_sig b)) sp (dist_nonneg _ _ _) Hsp) as (F1 & F2).
  destruct (create_path_ok ds sp (proj1_sig a) (proj1_sig b) _ Hr (vec_sized _ a) (vec_sized _ b) Hsp F1 F2)
    as (l & E & P1 & P2 & P3).
  exists l. split; [|split; [assumption|]].
  - cbn [PlannerModel.create_path sampled_cspace]. rewrite E. cbn [map]. now rewrite pack_id.
  - destruct P3 as [P|P]; [|assumption]. rewrite P, dist_self. lra.
Qed.

Lemma create_path_until_inst : forall a b : vec (length ds), exists l len,
  PlannerModel.create_path_until cs a b = (a :: map (pack (length ds)) l, if Req_EM_T len 1 then true else false) /\
  (exists m q g, chain ds (accepted free inside (proj1_sig b)) dcd (proj1_sig a) m q /\
     forward_on_segment ds (proj1_sig a) (proj1_sig b) 0 m g /\
     forward_on_segment ds (proj1_sig a) (proj1_sig b) 0 (proj1_sig a :: l) g /\ g <= 1 /\
     at_fraction g ds (proj1_sig a) (proj1_sig b) q /\ incl l m) /\
  (len = 1 -> last l (proj1_sig a) = proj1_sig b \/ calc_dist ds (proj1_sig a) (proj1_sig b) = 0 /\ l = []).
Proof.
  intros a b. destruct (steps_enough (calc_dist ds (proj1_sig a) (proj1_sig b)) dcd (dist_nonneg _ _ _) Hdcd) as (F1 & F2).
  destruct (create_path_until_ok _ ds free inside dcd sp (proj1_sig a) (proj1_sig b) Hr (vec_sized _ a) (vec_sized _ b) Hdcd (Rlt_le _ _ Hsp) F1)
    as (l & len & E & P2 & (m & q & g & P3 & Q1 & Q2 & P4 & P5 & P6 & P7) & P8 & P9 & P10).
  exists l, len. split; [|split; [exists m, q, g; auto 8|assumption]].
  cbn [PlannerModel.create_path_until sampled_cspace]. rewrite E. cbn [map]. now rewrite pack_id.
Qed.

Lemma last_sized : forall f l g q1 q2, sized ds q1 -> forward_on_segment ds q1 q2 f (q1 :: l) g -> sized ds (last l q1).
Proof.
  intros f l g q1 q2 H1 H. apply fos_sized in H. rewrite Forall_forall in H.
  destruct l as [|x l]; [assumption|]. apply H. right.
  destruct (exists_last (l := x :: l)) as (l' & z & E); [discriminate|]. rewrite E, last_last. apply in_or_app. right. now left.
Qed.

Lemma sampled_contract : PlannerSpec.path_contract cs near.
Proof.
  constructor.
  - intros a b. destruct (create_path_inst a b) as (l & E & _). eexists. exact E.
  - intros a b _. destruct (create_path_inst a b) as (l & E & P1 & P2). rewrite E.
    change (PlannerModel.cfg cs) with (vec (length ds)) in *.
    rewrite last_cons_default. rewrite <- (pack_id _ a) at 1. rewrite last_map. unfold near.
    rewrite pack_fst; [assumption|]. apply (last_sized 0 l 1 (proj1_sig a) (proj1_sig b)); [apply vec_sized|assumption].
  - intros a b. destruct (create_path_until_inst a b) as (l & len & E & _). rewrite E. eexists. reflexivity.
  - intros a b. destruct (create_path_until_inst a b) as (l & len & E & (m & q & g & _ & _ & Q & _) & P). rewrite E. cbn [fst snd].
    intros _ L. destruct (Req_EM_T len 1) as [L1|L1]; [|discriminate]. specialize (P L1).
    change (PlannerModel.cfg cs) with (vec (length ds)) in *.
    rewrite last_cons_default. rewrite <- (pack_id _ a) at 1. rewrite last_map. unfold near.
    rewrite pack_fst; [|apply (last_sized 0 l g (proj1_sig a) (proj1_sig b)); [apply vec_sized|assumption]].
    destruct P as [P|(P & ->)]; [rewrite P, dist_self; lra|]. cbn. rewrite P. lra.
Qed.

Lemma consecutive_pack : forall a l x y, Forall (sized ds) l ->
  PlannerSpec.consecutive x y (a :: map (pack (length ds)) l) ->
  exists l1 l2, proj1_sig a :: l = l1 ++ proj1_sig x :: proj1_sig y :: l2 /\ l <> [].
Proof.
  intros a l x y Hl (l1 & l2 & E).
  assert (E' : map (@proj1_sig _ _) (a :: map (pack (length ds)) l) = map (@proj1_sig _ _) (l1 ++ x :: y :: l2)) by now rewrite E.
  rewrite map_app in E'. cbn [map] in E'. rewrite map_map in E'.
  rewrite (map_ext_in _ (fun q => q)), map_id in E'.
  - exists (map (@proj1_sig _ _) l1), (map (@proj1_sig _ _) l2). split; [exact E'|].
    intros ->. destruct l1 as [|? [|]]; discriminate.
  - intros q Hq. apply pack_fst. rewrite Forall_forall in Hl. now apply Hl.
Qed.

Lemma validated_covered : forall x y : vec (length ds), PlannerSpec.validated_step cs x y ->
  covered ds free (1.001 * dcd) (proj1_sig x) (proj1_sig y).
Proof.
  intros x y [(q & c & Hv & Hc)|(q & c & Hc)].
  - change (PlannerModel.cfg cs) with (vec (length ds)) in *.
    destruct (create_path_inst q c) as (l & E & P1 & P2). rewrite E in Hc.
    destruct (consecutive_pack q l x y) as (l1 & l2 & El & Hne); [|assumption|].
    { apply fos_sized in P1. now inversion P1. }
    rewrite path_valid_inst in Hv.
    destruct (path_valid_sound ds free dcd max_depth _ _ Hr Hdcd (vec_sized _ q) (vec_sized _ c) Hv) as (Hf & m & C & F).
    destruct m as [|w m].
    + (* no intermediate configuration: start and goal coincide *)
      assert (Eq2 : proj1_sig q = proj1_sig c) by (inversion C; reflexivity). rewrite El in P1. destruct (fos_consecutive _ _ _ _ _ _ _ _ _ P1) as (u & v & Hu & Huv & Hv' & Hx & Hy).
      intros z (h & Hh & Hz). exists (proj1_sig c). split; [assumption|].
      assert (Hz' : at_fraction (u + h * (v - u)) ds (proj1_sig q) (proj1_sig c) z) by (eapply at_fraction_between; eauto; lra).
      assert (0 <= h * (v - u)) by (apply Rmult_le_pos; lra).
      assert (0 <= (1 - h) * (v - u)) by (apply Rmult_le_pos; lra).
      rewrite (dist_between ds (u + h * (v - u)) 1 (proj1_sig q) (proj1_sig c) z (proj1_sig c)); auto; try lra.
      * rewrite Eq2, dist_self. lra.
      * apply at_fraction_1; apply vec_sized.
    + rewrite El in P1. eapply (segment_covered ds (fun q => free q = true) free (1.001 * dcd)); try eassumption.
      * apply vec_sized.
      * apply vec_sized.
      * auto.
      * apply at_fraction_1; apply vec_sized.
      * lra.
      * discriminate.
  - change (PlannerModel.cfg cs) with (vec (length ds)) in *.
    destruct (create_path_until_inst q c) as (l & len & E & (m & p & g & P3 & Q1 & Q2 & P4 & P5 & P7) & P).
    rewrite E in Hc. cbn [fst] in Hc.
    destruct (consecutive_pack q l x y) as (l1 & l2 & El & Hne); [|assumption|].
    { apply fos_sized in Q2. now inversion Q2. }
    rewrite El in Q2.
    intros z Hz. edestruct (segment_covered ds (accepted free inside (proj1_sig c)) free dcd) as (w & Hw & D); try eassumption.
    + apply vec_sized.
    + apply vec_sized.
    + now intros w0 (? & _).
    + intros ->. destruct l as [|x0 l]; [contradiction|]. apply (P7 x0). now left.
    + exists w. split; [assumption|]. lra.
Qed.
End Instance.

Lemma sampled_rrt_solution : forall ds coll constr inside dcd sp max mode step s inp s',
  regular ds -> 0 < dcd -> 0 < sp ->
  let cs := sampled_cspace ds coll constr inside dcd sp in
  PlannerSpec.rrt_run cs max mode step s ->
  PlannerModel.rrt_plan cs mode step inp s = PlannerModel.Ok (true, s') ->
  exists path start goal,
    PlannerModel.r_start_cfg cs s = Some start /\ PlannerModel.r_goal_cfg cs s = Some goal /\
    PlannerModel.rrt_get_solution cs s' = PlannerModel.Ok (Some path, s') /\
    hd_error path = Some start /\ calc_dist ds (proj1_sig (last path start)) (proj1_sig goal) < 1e-6 /\
    forall x y, PlannerSpec.consecutive x y path ->
      covered ds (fun q => coll q && constr q)%bool (1.001 * dcd) (proj1_sig x) (proj1_sig y).
Proof.
  intros ds coll constr inside dcd sp max mode step s inp s' Hr Hd Hs cs Hrun Hp.
  destruct (PlannerProofs.rrt_plan_ok cs _ (sampled_contract ds coll constr inside dcd sp Hr Hd Hs) max mode step s inp Hrun)
    as [E|(b & s1 & E & Hb & _)].
  - unfold cs in *. rewrite E in Hp. discriminate.
  - fold cs in E. rewrite E in Hp. injection Hp as -> ->.
    destruct (Hb eq_refl) as (path & start & goal & H1 & H2 & H3 & H4 & H5 & H6).
    exists path, start, goal. repeat (split; [assumption|]). intros x y Hxy.
    apply (validated_covered ds coll constr inside dcd sp Hr Hd Hs). now apply H6.
Qed.

Lemma sampled_birrt_solution : forall ds coll constr inside dcd sp max m1 m2 step planned s inp s',
  regular ds -> 0 < dcd -> 0 < sp ->
  let cs := sampled_cspace ds coll constr inside dcd sp in
  PlannerSpec.birrt_run cs max m1 m2 step planned s ->
  PlannerModel.birrt_plan cs m1 m2 step inp s = PlannerModel.Ok (true, s') ->
  exists path start goal,
    PlannerModel.r_start_cfg cs (PlannerModel.b_rrt cs s) = Some start /\
    PlannerModel.r_goal_cfg cs (PlannerModel.b_rrt cs s) = Some goal /\
    PlannerModel.birrt_get_solution cs s' = PlannerModel.Ok (Some path, s') /\
    hd_error path = Some start /\ last path start = goal /\
    forall x y, PlannerSpec.consecutive x y path ->
      let ok a b := covered ds (fun q => coll q && constr q)%bool (1.001 * dcd) a (proj1_sig b) in
      ok (proj1_sig x) y \/ ok (proj1_sig y) x \/
      exists x', calc_dist ds (proj1_sig x') (proj1_sig x) < 1e-6 /\ ok (proj1_sig y) x'.
Proof.
  intros ds coll constr inside dcd sp max m1 m2 step planned s inp s' Hr Hd Hs cs Hrun Hp.
  destruct (PlannerProofs.birrt_plan_ok cs _ (sampled_contract ds coll constr inside dcd sp Hr Hd Hs) max m1 m2 step planned s inp Hrun)
    as [E|(b & s1 & E & Hb & _)].
  - unfold cs in *. rewrite E in Hp. discriminate.
  - fold cs in E. rewrite E in Hp. injection Hp as -> ->.
    destruct (Hb eq_refl) as (path & start & goal & H1 & H2 & H3 & H4 & H5 & H6).
    exists path, start, goal. repeat (split; [assumption|]). intros x y Hxy ok.
    assert (V := validated_covered ds coll constr inside dcd sp Hr Hd Hs).
    destruct (H6 x y Hxy) as [H|[H|(x' & Hx & H)]].
    + left. now apply V.
    + right. left. now apply V.
    + right. right. exists x'. split; [|now apply V]. unfold near in Hx.
      destruct Hx as [Hx|Hx]; [assumption|]. now rewrite dist_sym.
Qed.

(** A one-step plan on any C-space. *)
Section OneStep.
Context (cs : PlannerModel.cspace) (a b : PlannerModel.cfg cs) (step : PlannerModel.num cs).
Context (Ha : PlannerModel.coll_free cs a = true) (Ha' : PlannerModel.in_boundary cs a = true).
Context (Hb : PlannerModel.coll_free cs b = true) (Hb' : PlannerModel.in_boundary cs b = true).
Context (Hv : PlannerModel.path_valid cs a b = true) (Hc : PlannerModel.create_path cs a b = [a; b]).

Definition one_input (k : nat) : PlannerModel.cycle_input cs := PlannerModel.CycleInput cs true b false false.

Lemma one_step_plan : exists s s', PlannerSpec.rrt_run cs 4 PlannerModel.eConnectCompletePath step s /\
  PlannerModel.rrt_plan cs PlannerModel.eConnectCompletePath step one_input s = PlannerModel.Ok (true, s').
Proof.
  destruct (TreeModel.pool_new (C := PlannerModel.cfg cs) 4) as [p|] eqn:Ep; [|discriminate].
  pose (s0 := PlannerModel.rrt_set_max cs (PlannerModel.rrt_new cs p) 3).
  assert (R0 : PlannerSpec.rrt_run cs 4 PlannerModel.eConnectCompletePath step s0).
  { apply PlannerSpec.rr_max, PlannerSpec.rr_new. exact Ep. }
  assert (E1 : exists s1, PlannerModel.rrt_set_start cs s0 a = PlannerModel.Ok (true, s1) /\
            exists s2, PlannerModel.rrt_set_goal cs s1 b = (true, s2) /\
            exists s3, PlannerModel.rrt_plan cs PlannerModel.eConnectCompletePath step one_input s2 = PlannerModel.Ok (true, s3)).
  { injection Ep as <-. eexists. split.
    - unfold PlannerModel.rrt_set_start. rewrite Ha, Ha'. cbv. reflexivity.
    - eexists. split.
      + unfold PlannerModel.rrt_set_goal. rewrite Hb, Hb'. reflexivity.
      + eexists. cbv -[PlannerModel.path_valid PlannerModel.create_path]. rewrite Hv.
        cbv -[PlannerModel.path_valid PlannerModel.create_path]. rewrite Hc. cbv. reflexivity. }
  destruct E1 as (s1 & E1 & s2 & E2 & s3 & E3). exists s2, s3. split; [|exact E3].
  eapply PlannerSpec.rr_goal; [|exact E2]. eapply PlannerSpec.rr_start; [|exact E1]. exact R0.
Qed.
End OneStep.

Definition rail_space := sampled_cspace [Dim Linear 1] (fun _ => true) (fun _ => true) (fun _ => true) 0.1 0.1.

Lemma rail_plan : exists s s', PlannerSpec.rrt_run rail_space 4 PlannerModel.eConnectCompletePath 0.1 s /\
  PlannerModel.rrt_plan rail_space PlannerModel.eConnectCompletePath 0.1 (one_input rail_space (pack 1 [0.05])) s =
  PlannerModel.Ok (true, s').
Proof.
  assert (D : calc_dist [Dim Linear 1] [0] [0.05] = 0.05).
  { rewrite dist1_linear, Rabs_left; lra. }
  apply (one_step_plan rail_space (pack 1 [0]) (pack 1 [0.05]) 0.1); try reflexivity.
  - unfold rail_space. rewrite path_valid_inst. apply path_valid_complete; try reflexivity; try lra.
    + intros d [<-|[]]. discriminate.
    + rewrite !pack_fst by reflexivity. rewrite D.
      assert (1 <= 2 ^ max_depth) by (apply pow_R1_Rle; lra). lra.
  - unfold rail_space. cbn [PlannerModel.create_path sampled_cspace]. rewrite !pack_fst by reflexivity. rewrite D.
    unfold steps, sampled_create_path. rewrite D.
    destruct (Req_EM_T 0.05 0); [lra|]. destruct (Rlt_dec 0.05 0.1); [|lra].
    cbn [create_path_loop]. rewrite dist_self. destruct (Rle_dec 0 (0.1 * 1.05)); [|lra].
    reflexivity.
Qed.
