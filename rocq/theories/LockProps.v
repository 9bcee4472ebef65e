(** C41: updates of a robot seen by other threads. *)
From Coq Require Import Reals List Bool Arith Lia Lra.
From Verif Require Import QuatModel RpyModel JointModel KinModel KinSpec KinProofs KinProps LockModel LockSpec LockProofs LockRobot.
Import ListNotations.
Open Scope nat_scope.

(** C41.  Any number of threads call, on a thread-safe robot, setJointValue of nodes, setJointValues of node sets and configurations, and,
    holding the write lock, Robot::setJointValues and setGlobalPose; others read under the read lock.  However their steps are
    interleaved, everything that is seen under a read lock is the result of whole calls, one after the other, that take the calls of each
    thread in its order; so every pose seen is that of forward kinematics for the joint values seen.  All that is seen under
    one read lock is the same robot. *)
Theorem C41_locked : forall depth fuel rank r0 ls sched c, length (nodes r0) <= depth -> tree r0 -> posed r0 -> prop_inside r0 -> prop_falls r0 rank -> (forall x, rank x < fuel) ->
  (forall ks k, In ks ls -> In k ks -> keeps_lock k /\ fits r0 k) ->
  run (steps true depth fuel r0) sched (start r0 ls) = Some c ->
  (forall i n s, In (i, n, s) (seen c) -> posed s /\ exists l, taken ls l /\ in_turn (S depth) fuel r0 (map snd l) s) /\
  (forall i n s s', In (i, n, s) (seen c) -> In (i, n, s') (seen c) -> s = s').
Proof.
  intros depth fuel rank r0 ls sched c D T P PI PF RK OK E. pose proof (run_inv depth fuel r0 ls OK sched c E) as IV.
  assert (LK : forall i n s, In (i, n, s) (seen c) -> exists done k rest ks m, taken ls done /\ nth_error ls i = Some ks /\ ks = of_thread i done ++ k :: rest /\ length rest = n /\ k = Reads m /\ s = writes_all robot call (steps true depth fuel r0) r0 done).
  { intros i n s I. destruct (i_seen _ _ _ _ _ _ IV i n s I) as (done & k & rest & pre & post & ks & TK & Ek & Ks & Ln & Pk & Es).
    destruct (look_reads true depth fuel r0 k) as (m & M); [rewrite Pk; apply in_or_app; right; left; reflexivity|]. exists done, k, rest, ks, m. repeat (split; [assumption|]). rewrite Es. apply reader_writes.
    pose proof (reads_reader true depth fuel r0 m) as R. rewrite <- M, Pk in R. apply reader_app in R. apply R. }
  split.
  - intros i n s I. destruct (LK i n s I) as (done & k & rest & ks & m & TK & _ & _ & _ & _ & ->).
    destruct (all_in_turn depth fuel rank r0 ls D T P PI PF RK OK done) as (A & _ & B); [intros j k' J; apply (taken_in ls done j k' TK J)|]. split; [exact B|]. exists done. split; [exact TK|exact A].
  - intros i n s s' I I'. destruct (LK i n s I) as (done & k & rest & ks & m & TK & Ek & Ks & Ln & M & _). apply (i_same _ _ _ _ _ _ IV i n s s' ks k I I' Ek).
    + rewrite Ks, <- Ln. apply nth_rest.
    + rewrite M. apply reads_reader.
Qed.

(** C41.  These threads never lock each other out: some thread can go on until all calls have returned. *)
Theorem C41_progress : forall depth fuel r0 ls sched c, (forall ks k, In ks ls -> In k ks -> keeps_lock k /\ fits r0 k) ->
  run (steps true depth fuel r0) sched (start r0 ls) = Some c ->
  (forall i t, nth_error (threads c) i = Some t -> cur t = [] /\ todo t = []) \/ exists i c', step (steps true depth fuel r0) i c = Some c'.
Proof.
  intros depth fuel r0 ls sched c OK E. apply (inv_live robot call (steps true depth fuel r0) r0 ls); [|apply (run_inv depth fuel r0 ls OK sched c E)].
  intros ks k I J. apply closed_steps. apply (OK ks k I J).
Qed.

Lemma slide_value : forall q, (-100 <= q <= 100)%R -> set_value (free 0) q = Some (free q).
Proof. intros q H. unfold set_value, free; cbn [limitless enforce limit_lo limit_hi]. destruct (Rlt_dec q (-100)); [lra|]. destruct (Rlt_dec 100 q); [lra|]. reflexivity. Qed.
(** The same schedules for any object. *)
Lemma torn_once : forall (S C : Type) (prog : C -> list (act S)) k1 k2 f rest rest2 s0, prog k1 = Lock :: Unlock :: Write f :: rest -> prog k2 = Lock :: Lock :: Look :: rest2 ->
  run prog [0; 0; 0; 0; 1; 1; 1; 1] (start s0 [[k1]; [k2]]) = Some (Conf (f s0) (Some (1, 2)) [Th rest []; Th rest2 []] [(1, 0, f s0)]).
Proof.
  intros S C prog k1 k2 f rest rest2 s0 E1 E2. unfold start. cbn [map]. cbn [run]. unfold step at 1. cbn [threads nth_error cur todo update]. rewrite E1. cbn.
  rewrite E2. reflexivity.
Qed.
Lemma torn_twice : forall (S C : Type) (prog : C -> list (act S)) k1 k2 f g rest rest2 s0, prog k1 = Lock :: Unlock :: Write f :: Write g :: rest -> prog k2 = Lock :: Lock :: Look :: Unlock :: Lock :: Look :: rest2 ->
  run prog [0; 0; 0; 0; 1; 1; 1; 1; 1; 0; 1; 1] (start s0 [[k1]; [k2]]) = Some (Conf (g (f s0)) (Some (1, 2)) [Th rest []; Th rest2 []] [(1, 0, f s0); (1, 0, g (f s0))]).
Proof.
  intros S C prog k1 k2 f g rest rest2 s0 E1 E2. unfold start. cbn [map]. cbn [run]. unfold step at 1. cbn [threads nth_error cur todo update]. rewrite E1. cbn.
  rewrite E2. reflexivity.
Qed.
Lemma torn_free : forall (S C : Type) (prog : C -> list (act S)) k1 k2 f rest rest2 s0, prog k1 = Write f :: rest -> prog k2 = Look :: rest2 ->
  run prog [0; 0; 1; 1] (start s0 [[k1]; [k2]]) = Some (Conf (f s0) None [Th rest []; Th rest2 []] [(1, 0, f s0)]).
Proof.
  intros S C prog k1 k2 f rest rest2 s0 E1 E2. unfold start. cbn [map]. cbn [run]. unfold step at 1. cbn [threads nth_error cur todo update]. rewrite E1. cbn.
  rewrite E2. reflexivity.
Qed.
(** C41.  Robot::setJointValues only touches the lock: a reader that holds the read lock sees a robot with the new joint value and the old
    pose. *)
Theorem C41_set_joint_values_refuted : exists sched c s, run (steps true 2 1 (arm [] [])) sched (start (arm [] []) [[RobotSet [(0, 5%R)]]; [Reads 1]]) = Some c /\
  In (1, 0, s) (seen c) /\ ~ posed s.
Proof.
  set (s := w_value 0 5 (arm [] [])). eexists. eexists. exists s. split; [apply torn_once; reflexivity|]. split; [left; reflexivity|].
  assert (E : s = set_nodes (arm [] []) (update (nodes (arm [] [])) 0 (with_joint (free 5)))).
  { unfold s, w_value, set_value_at; cbn [node_at arm nodes nth_error n_joint]. rewrite slide_value by lra. reflexivity. }
  intros P. rewrite E in P. match type of P with posed ?r => assert (F := fk_root r _ eq_refl) end. destruct (P _ _ F) as (n & En & PN). clear F P. injection En as <-. revert PN.
  cbn [n_pose with_joint rpose set_nodes arm transform n_kind n_local n_joint n_offset value free]. rewrite px_slide, !pmul_pid_l. intros PN. apply (f_equal ppos) in PN. apply (f_equal vx) in PN. cbn [px ppos vx] in PN. lra.
Qed.
(** C41.  The same holds for Robot::setGlobalPose: of two nodes read under one read lock the first has been moved and the second has not. *)
Theorem C41_set_global_pose_refuted : exists sched c s s', run (steps true 2 1 (arm [] [])) sched (start (arm [] []) [[RobotPose (px 7)]; [Reads 2]]) = Some c /\
  In (1, 0, s) (seen c) /\ In (1, 0, s') (seen c) /\ s <> s' /\ ppos (node_pose s' 0) = Vec 7 0 0 /\ ppos (node_pose s' 1) = Vec 1 0 0 /\ ~ posed s'.
Proof.
  eexists. eexists. exists (w_pose (px 7) (arm [] [])), (w_root 0 (w_pose (px 7) (arm [] []))).
  assert (E : node_pose (w_root 0 (w_pose (px 7) (arm [] []))) 0 = px 7).
  { unfold node_pose, w_root, w_pose; cbn [node_at nodes arm nth_error set_pose set_nodes update with_pose n_pose place n_kind n_local n_joint value free n_offset rpose]. rewrite px_slide, pmul_pid_r, px_mul. f_equal. ring. }
  split; [apply torn_twice; reflexivity|]. split; [left; reflexivity|]. split; [right; left; reflexivity|]. split; [|split; [rewrite E; reflexivity|split; [reflexivity|]]].
  - intros X. apply (f_equal (fun r => vx (ppos (node_pose r 0)))) in X. rewrite E in X. unfold node_pose in X; cbn in X. lra.
  - intros P. assert (F := fk_child _ 0 1 _ _ (fk_root (w_root 0 (w_pose (px 7) (arm [] []))) _ eq_refl) (or_introl eq_refl) eq_refl). destruct (P _ _ F) as (n & En & PN). clear F P. injection En as <-. revert PN.
    cbn [w_root w_pose node_at nodes arm nth_error root set_pose set_nodes update with_pose n_pose rpose transform n_kind n_local n_joint value free n_offset]. rewrite px_slide, pmul_pid_l, !px_mul. intros PN. apply (f_equal ppos) in PN. apply (f_equal vx) in PN. cbn [px ppos vx] in PN. lra.
Qed.
(** C41.  After setThreadsafe(false) there is no lock at all, and even setJointValue of a node can be seen halfway. *)
Theorem C41_unsafe_refuted : exists sched c s, run (steps false 2 1 (arm [] [])) sched (start (arm [] []) [[NodeSet 0 5%R]; [Reads 1]]) = Some c /\ In (1, 0, s) (seen c) /\ ~ posed s.
Proof.
  set (s := w_value 0 5 (arm [] [])). eexists. eexists. exists s. split; [apply torn_free; reflexivity|]. split; [left; reflexivity|].
  assert (E : s = set_nodes (arm [] []) (update (nodes (arm [] [])) 0 (with_joint (free 5)))).
  { unfold s, w_value, set_value_at; cbn [node_at arm nodes nth_error n_joint]. rewrite slide_value by lra. reflexivity. }
  intros P. rewrite E in P. match type of P with posed ?r => assert (F := fk_root r _ eq_refl) end. destruct (P _ _ F) as (n & En & PN). clear F P. injection En as <-. revert PN.
  cbn [n_pose with_joint rpose set_nodes arm transform n_kind n_local n_joint n_offset value free]. rewrite px_slide, !pmul_pid_l. intros PN. apply (f_equal ppos) in PN. apply (f_equal vx) in PN. cbn [px ppos vx] in PN. lra.
Qed.

(** C41.  Alone, each call does what the sequential model of C35 says. *)
Theorem C41_sequential : forall safe depth fuel r k r', tree r -> effect (S depth) fuel k r = Some r' -> fold_left (fun s a => match a with Write f => f s | _ => s end) (steps safe depth fuel r k) r = r'.
Proof. intros safe depth fuel r k r' T E. apply (steps_effect safe depth fuel r k r' T E). Qed.

(** A writer and a reader that has to wait for it. *)
Lemma whole_first : forall (S C : Type) (prog : C -> list (act S)) k1 k2 f g h rest2 s0, prog k1 = [Lock; Lock; Unlock; Write f; Write g; Write h; Unlock] -> prog k2 = Lock :: Lock :: Look :: rest2 ->
  run prog ([0; 0; 0; 0; 0; 1; 0; 0; 0; 1; 1; 1]) (start s0 [[k1]; [k2]]) = Some (Conf (h (g (f s0))) (Some (1, 2)) [Th [] []; Th rest2 []] [(1, 0, h (g (f s0)))]) /\
  run prog ([0; 0; 0; 0; 0; 1; 1]) (start s0 [[k1]; [k2]]) = None.
Proof.
  intros S C prog k1 k2 f g h rest2 s0 E1 E2. unfold start. cbn [map]. split; cbn [run app]; unfold step at 1; cbn [threads nth_error cur todo update]; rewrite E1; cbn; rewrite E2; reflexivity.
Qed.
Example C41_witness : let r := arm [(1%nat, 2%R)] [] in let ls := [[HeldPose (px 7)]; [Reads 1]] in
  length (nodes r) <= 2 /\ tree r /\ posed r /\ prop_inside r /\ prop_falls r (fun x => 1 - x) /\ (forall x, 1 - x < 2) /\ (forall ks k, In ks ls -> In k ks -> keeps_lock k /\ fits r k) /\
  exists sched c s, run (steps true 2 2 r) sched (start r ls) = Some c /\ In (1, 0, s) (seen c).
Proof.
  cbv zeta. split; [cbn; lia|]. split; [apply arm_tree|]. split; [apply arm_posed|].
  destruct C35_witness as (_ & _ & PI & PF & _). split; [exact PI|]. split; [exact PF|]. split; [intros x; lia|]. split.
  - intros ks k [<-|[<-|[]]] [<-|[]]; split; exact Logic.I.
  - eexists. eexists. eexists. split; [apply whole_first; reflexivity|]. left. reflexivity.
Qed.
Example C41_fits_witness : let r := arm [(1%nat, 2%R)] [] in forall k, In k [NodeSet 0 5%R; SetSet (Some 0) [(0, 3%R); (1, 4%R)]; SetSet None [(1, 1%R)]; ConfigSet [(1, 1%R)]; HeldSet [(0, 1%R)]; HeldPose (px 7); Reads 3] -> keeps_lock k /\ fits r k.
Proof.
  intros r k I. assert (W : desc r (root r) 1) by (apply d_step with 0; [constructor|left; reflexivity]).
  repeat (destruct I as [<-|I]; [split; [exact Logic.I|]; cbn [fits]; try exact Logic.I|]); [| |destruct I].
  - constructor.
  - split; [constructor|]. intros x [<-|[<-|[]]]; [constructor|exact W].
Qed.

Print Assumptions C41_locked.
Print Assumptions C41_progress.
Print Assumptions C41_set_joint_values_refuted.
Print Assumptions C41_set_global_pose_refuted.
Print Assumptions C41_unsafe_refuted.
Print Assumptions C41_sequential.
