(** C89 and C90: the grasp planner and its evaluation. *)
From Coq Require Import List ZArith QArith Bool Arith Lia.
From Verif Require Import GplModel GplSpec GplProofs.
Import ListNotations.
Open Scope Z_scope.

(** C89.  What [plan] returns is the number of grasps it appended to the grasp set and to the list of planned grasps, at most as many as
    asked for; each of them is sound; they are numbered on; fewer than asked for only after the time ran out. *)
Theorem C89_plan : forall (W C P J : Type) (e : env W C P J) fuel nr limit obstacles p m p',
  plan e fuel nr limit obstacles p = Some (m, p') ->
  exists new, grasp_set p' = grasp_set p ++ new /\ planned p' = planned p ++ new /\ m = Z.of_nat (length new) /\
    (0 <= nr -> m <= nr) /\
    (forall g, In g new -> sound e obstacles (min_quality p) (force_closure p) g) /\
    map g_number new = seq (length (grasp_set p) + 1) (length new) /\
    (0 < limit -> m < nr -> exists t, (ticks p < t)%nat /\ clock e (ticks p) + limit < clock e t).
Proof.
  intros W C P J e fuel nr limit obs p m p' H. unfold plan in H. destruct (plan_loop_ok e _ _ _ _ _ _ _ _ _ H) as (new & A & B & D & S & N & _ & _ & M & X & _).
  cbn [grasp_set planned min_quality force_closure ticks] in *. exists new. split; [exact A|]. split; [exact B|]. split; [lia|]. split; [exact M|]. split; [apply Forall_forall, S|]. split; [exact N|].
  intros L ML. destruct (X ML) as (t & T & TO). exists t. split; [lia|]. unfold timeout in TO. apply orb_prop in TO as [TO|TO]; [apply Z.leb_le in TO; lia|apply Z.ltb_lt in TO; exact TO].
Qed.
(** It ends as soon as the clock has passed the limit. *)
Theorem C89_ends : forall (W C P J : Type) (e : env W C P J) nr limit obstacles p k,
  (forall t, (k <= t)%nat -> clock e (ticks p) + limit < clock e t) -> exists fuel r, plan e fuel nr limit obstacles p = Some r.
Proof.
  intros W C P J e nr limit obs p k T. exists (S k). unfold plan.
  destruct (plan_loop e (S k) nr (clock e (ticks p)) limit obs 0 _) as [r|] eqn:E; [exists r; reflexivity|]. exfalso. revert E. apply (plan_loop_ends e nr _ limit obs k); [|cbn [ticks]; lia].
  intros t L. unfold timeout. rewrite (proj2 (Z.ltb_lt _ _) (T t L)). apply orb_true_r.
Qed.
(** More fuel changes nothing. *)
Theorem C89_fuel : forall (W C P J : Type) (e : env W C P J) fuel more nr limit obstacles p r,
  plan e fuel nr limit obstacles p = Some r -> plan e (fuel + more) nr limit obstacles p = Some r.
Proof.
  intros W C P J e fuel more nr limit obs p r. unfold plan. set (st := clock e (ticks p)). clearbody st. match goal with |- context [plan_loop e fuel _ _ _ _ _ ?q] => generalize q end. generalize 0.
  induction fuel as [|fuel IH]; intros made q H; [discriminate H|]. cbn [Nat.add plan_loop] in *. destruct (negb _ && _); [|exact H].
  match goal with |- context [plan_grasp e obs ?q1] => destruct (plan_grasp e obs q1) as [[g|] q2] end; apply IH, H.
Qed.
(** A time out of zero does not switch the time limit off: nothing is planned. *)
Theorem C89_zero_timeout_refuted : forall (W C P J : Type) (e : env W C P J) fuel nr limit obstacles p, limit <= 0 ->
  exists p', plan e (S fuel) nr limit obstacles p = Some (0, p') /\ grasp_set p' = grasp_set p /\ planned p' = planned p /\ eval p' = eval p /\ world p' = world p.
Proof.
  intros W C P J e fuel nr limit obs p L. unfold plan. cbn [plan_loop]. unfold timeout at 1. rewrite (proj2 (Z.leb_le _ _) L). cbn [orb negb andb].
  eexists. split; [reflexivity|]. cbn. auto.
Qed.
(** After a retreat the hand may start to close inside an obstacle. *)
Definition retreating : env nat nat nat nat :=
  Env (fun _ => (1%nat, true)) (fun w => (w =? 6)%nat) (fun _ => false) (fun w => if (4 <=? w)%nat then (S w, [w; w]) else (2%nat, [])) (fun _ => [])
      (fun w => S w) (fun w => S w) (fun _ => 1%Q) (fun _ => true) (fun w => w) (fun w => w) (fun t => Z.of_nat t).
Theorem C89_retreat_refuted : exists p', plan_grasp retreating true (create 0%nat [] 0%Q true) = (Some (Grasp 1 7%nat 7%nat 1%Q), p') /\
  forall before after cs, closes retreating before after cs -> tcp_pose retreating after = 7%nat -> (2 <= length cs)%nat -> hits_obstacle retreating before = true.
Proof.
  eexists. split; [reflexivity|]. intros before after cs (A & ->) T L. cbn [tcp_pose retreating] in T. subst after. cbn [close retreating] in *. destruct (4 <=? before)%nat; cbn [fst snd] in T; [|discriminate T].
  injection T as ->. reflexivity.
Qed.
(** The number in the name may be in use when grasps were removed from the set. *)
Theorem C89_names_refuted : exists (set : list (grasp nat nat)) g p', plan_grasp retreating true (create 0%nat set 0%Q true) = (Some g, p') /\ In (g_number g) (map g_number set).
Proof. exists [Grasp 2 0%nat 0%nat 0%Q]. do 2 eexists. split; [reflexivity|]. left. reflexivity. Qed.

(** C90.  The evaluation: counters and lists agree at all times, and a valid entry is made for every grasp that is returned. *)
Theorem C90_fresh : forall (W C P J : Type) (w : W) set minq fc, consistent (eval (@create W C P J w set minq fc)) /\ consistent no_evaluation.
Proof. intros. unfold consistent. cbn. split; repeat split; auto; lia. Qed.
Theorem C90_plan : forall (W C P J : Type) (e : env W C P J) fuel nr limit obstacles p m p', consistent (eval p) ->
  plan e fuel nr limit obstacles p = Some (m, p') -> consistent (eval p') /\ count (valids (eval p')) = count (valids (eval p)) + m.
Proof.
  intros W C P J e fuel nr limit obs p m p' K H. unfold plan in H. destruct (plan_loop_ok e _ _ _ _ _ _ _ _ _ H) as (new & _ & _ & D & _ & _ & KK & V & _). cbn [eval] in *. split; [apply KK, K|lia].
Qed.
Theorem C90_plan_grasp : forall (W C P J : Type) (e : env W C P J) obstacles p r p', consistent (eval p) -> plan_grasp e obstacles p = (r, p') ->
  consistent (eval p') /\ n_generated (eval p') = n_generated (eval p) + 1 /\
  match r with
  | Some g => n_valid (eval p') = n_valid (eval p) + 1 /\ scores (eval p') = scores (eval p) ++ [g_quality g] /\ valids (eval p') = valids (eval p) ++ [true]
  | None => n_valid (eval p') = n_valid (eval p) /\ valids (eval p') = valids (eval p) ++ [false]
  end.
Proof.
  intros W C P J e obs p r p' K H. destruct (plan_grasp_ok e _ _ _ _ H) as (_ & _ & (v & ms & E & V) & _). rewrite E. split; [apply record_consistent, K|]. split; [reflexivity|].
  destruct r as [g|]; [rewrite V; cbn; auto|]. destruct v; cbn; auto. exfalso. eapply V. reflexivity.
Qed.
(** The averages: computed without running over a list, and what their names say. *)
Lemma csv_loop_ok x : forall n i a, consistent x -> (i + n = length (times x))%nat ->
  exists s, csv_loop n i x a = Some s /\ t_acc s = t_acc a + zsum (skipn i (times x)) /\ (s_acc s == s_acc a + valid_sum (skipn i (scores x)) (skipn i (valids x)))%Q /\
    k_valid s = k_valid a + count (skipn i (valids x)) /\ k_power s = k_power a + Z.of_nat n /\ k_prec s = k_prec a.
Proof.
  induction n as [|n IH]; intros i a K L.
  - exists a. pose proof K as (_ & _ & LS & LV & _). rewrite !skipn_all2 by lia. cbn. split; [reflexivity|]. split; [lia|]. split; [ring|]. split; [lia|]. split; [lia|reflexivity].
  - pose proof K as (_ & _ & LS & LV & LP & _ & FP & _). cbn [csv_loop].
    assert (SK : forall {A} (l : list A), (i < length l)%nat -> exists y, nth_error l i = Some y /\ skipn i l = y :: skipn (S i) l).
    { intros A l H. destruct (nth_error l i) as [y|] eqn:E; [|apply nth_error_None in E; lia]. exists y. split; [reflexivity|]. clear -E. revert i E. induction l as [|z l IHl]; intros [|i] E; try discriminate E; cbn in *; [congruence|]. apply IHl, E. }
    destruct (SK _ (times x)) as (t & -> & ST); [lia|]. destruct (SK _ (valids x)) as (v & -> & SV); [lia|]. destruct (SK _ (scores x)) as (s & -> & SS); [lia|]. destruct (SK _ (powers x)) as (w & EW & _); [lia|]. rewrite EW.
    assert (WT : w = true). { rewrite Forall_forall in FP. symmetry. apply FP. apply nth_error_In in EW. exact EW. } subst w.
    match goal with |- context [csv_loop n (S i) x ?b] => destruct (IH (S i) b K ltac:(lia)) as (r & E & A1 & A2 & A3 & A4 & A5) end.
    cbn [t_acc s_acc k_valid k_power k_prec] in *. exists r. split; [exact E|]. rewrite ST, SV, SS. cbn [zsum valid_sum count].
    split; [lia|]. split; [rewrite A2; destruct v; ring|]. split; [destruct v; lia|]. split; [lia|exact A5].
Qed.
Theorem C90_averages : forall x, consistent x -> exists t p q s, csv x = Some (t, p, q, s) /\
  (t * inject_Z (n_generated x) == inject_Z (zsum (times x)))%Q /\ (n_generated x <> 0 -> (p == 1)%Q) /\ (q == 0)%Q /\
  (n_valid x <> 0 -> (s * inject_Z (n_valid x) == valid_sum (scores x) (valids x))%Q) /\ (n_valid x = 0 -> (s == 0)%Q).
Proof.
  intros x K. destruct (csv_loop_ok x (length (times x)) 0 (Sums 0 0 0 0 0) K eq_refl) as (a & E & A1 & A2 & A3 & A4 & A5). cbn [skipn t_acc s_acc k_valid k_power k_prec] in *.
  pose proof K as (_ & G & _ & _ & _ & V & _). unfold csv. rewrite E. do 4 eexists. split; [reflexivity|]. rewrite G.
  assert (CN : forall l, 0 <= count l) by (induction l as [|[] l IHl]; cbn [count]; lia). pose proof (CN (valids x)) as VP. rewrite <- V in VP. replace (k_valid a) with (n_valid x) by lia.
  assert (NZ : forall z, z <> 0 -> ~ (inject_Z z == 0)%Q) by (intros z Z0 Q0; apply Z0; unfold Qeq in Q0; cbn in Q0; lia).
  destruct (Nat.ltb_spec 0 (length (times x))) as [L|L].
  - assert (NN : ~ (inject_Z (Z.of_nat (length (times x))) == 0)%Q) by (apply NZ; lia). split; [|split; [|split; [|split]]].
    + rewrite A1. replace (0 + zsum (times x)) with (zsum (times x)) by lia. field. exact NN.
    + intros _. rewrite A4. replace (0 + Z.of_nat (length (times x))) with (Z.of_nat (length (times x))) by lia. field. exact NN.
    + rewrite A5. unfold Qdiv. cbn [inject_Z]. ring.
    + intros VN. destruct (Z.ltb_spec 0 (n_valid x)) as [VL|VL]; [|lia]. rewrite A2. field. apply NZ. exact VN.
    + intros V0. rewrite V0. reflexivity.
  - assert (L0 : length (times x) = 0%nat) by lia. rewrite L0. pose proof K as (_ & _ & _ & LV & _). assert (VZ : valids x = []) by (destruct (valids x); [reflexivity|cbn in LV; lia]).
    assert (TZ : times x = []) by (destruct (times x); [reflexivity|cbn in L0; lia]). rewrite VZ in V. cbn [count] in V. rewrite V, TZ. cbn.
    split; [reflexivity|]. split; [lia|]. split; [reflexivity|]. split; [lia|]. reflexivity.
Qed.
(** The demanded quality shown with the evaluation is not the one in use after it was changed, or after the evaluation was cleared. *)
Theorem C90_minimum_refuted : forall (W C P J : Type) (w : W) set,
  let p := set_parameters (1#2)%Q false (@create W C P J w set (1#4)%Q true) in
  min_quality p = (1#2)%Q /\ eval_min (eval p) = (1#4)%Q /\ force_closure p = false /\ fc_check (eval p) = true /\
  eval_min (eval (clear_evaluation (@create W C P J w set (1#4)%Q true))) = 0%Q.
Proof. intros. cbn. auto. Qed.

(** Cases: a planner that finds a grasp at each attempt until the time runs out. *)
Example C89_case : exists p', plan retreating 20 2 100 true (create 0%nat [] (1#2)%Q true) = Some (2, p') /\ map g_number (grasp_set p') = [1; 2]%nat /\
  map g_quality (planned p') = [1; 1]%Q /\ valids (eval p') = [true; true].
Proof. eexists. split; [vm_compute; reflexivity|]. cbn. auto. Qed.
Example C89_case_clock : forall t, (6 <= t)%nat -> clock retreating 0 + 5 < clock retreating t.
Proof. intros t L. cbn [clock retreating]. lia. Qed.
Example C90_case : exists m p', plan retreating 20 2 100 true (create 0%nat [] (1#2)%Q true) = Some (m, p') /\ consistent (eval p') /\ n_valid (eval p') = 2.
Proof. do 2 eexists. split; [vm_compute; reflexivity|]. split; [unfold consistent; cbn; repeat split; auto; lia|reflexivity]. Qed.

Print Assumptions C89_plan.
Print Assumptions C89_ends.
Print Assumptions C90_plan.
Print Assumptions C90_averages.
