(** C62, C63 and C64: the loops of the IK solvers. *)
From Coq Require Import Reals List Bool Arith ZArith Lia Lra.
From Verif Require Import QuatModel QuatSpec RpyModel JointModel JointSpec KinModel KinSpec KinProofs KinProps JacModel JacSpec JacProofs JacProps GraspModel GraspSpec GraspProps IkModel IkSpec IkProofs.
Import ListNotations.
Open Scope R_scope.

(** C62.  solveIK of DifferentialIK ends, after at most the given number of steps.  If it returns true, every tcp is at its goal, it is so for
    the first time after the start, and only the joints of the node set were moved. *)
Theorem C62_success : forall depth fuel angle theta improve min_change s gs max r,
  ready depth fuel s r -> rigid r -> is_least_angle angle -> (forall g, In g gs -> goal_ok r g) -> (forall k r, length (theta k r) = length (s_nodes s)) ->
  exists o, compute_steps depth fuel angle theta improve min_change s gs max r = Some o /\ (o_steps o <= Z.to_nat max)%nat /\ moved_only s r (o_robot o) /\
    (o_ok o = true -> all_reached gs (o_robot o) /\ walk depth fuel theta s r (o_steps o) (o_robot o) /\ (1 <= o_steps o)%nat /\
      forall i ri, (1 <= i < o_steps o)%nat -> walk depth fuel theta s r i ri -> ~ all_reached gs ri).
Proof.
  intros depth fuel angle theta improve min_change s gs max r Y RG AN GO TL.
  destruct (compute_steps_ok depth fuel angle theta improve min_change s gs r Y TL max) as (o & E & (ST & EA & (v & L & P) & O)). exists o. split; [exact E|]. split; [exact ST|].
  split; [apply (put_moved s r v); auto; apply Y|]. intros OK. rewrite OK in O. destruct O as (S1 & W & C).
  assert (ALL : forall r', led s r r' -> tree r' /\ posed r' /\ rigid r' /\ forall g, In g gs -> goal_ok r' g).
  { intros r' (v' & L' & (S & P' & _)). split; [apply (shape_tree r r' S), Y|]. split; [exact P'|]. split; [apply (rigid_shape _ _ S RG)|]. intros g I. destruct (GO g I) as (D & G). split; [|exact G].
    rewrite (shape_root _ _ S). now apply (shape_desc _ _ _ _ S). }
  destruct (ALL (o_robot o)) as (A1 & A2 & A3 & A4); [exists v; auto|]. split; [apply (check_reached angle); auto; apply AN|]. split; [exact W|]. split; [exact S1|].
  intros i ri LI WI. destruct (walk_put depth fuel theta s r Y TL i ri WI) as (v' & L' & P'). destruct (ALL ri) as (B1 & B2 & B3 & B4); [exists v'; auto|].
  apply (check_not_reached angle); auto. apply (EA i ri); [lia|lia|exact WI].
Qed.

(** C62.  If it returns false, the goals were reached after no step, and the robot is where it was after the last step before the one that
    made it give up; with checkImprovements no step but the first made the mean distance larger. *)
Theorem C62_failure : forall depth fuel angle theta improve min_change s gs max r o,
  ready depth fuel s r -> rigid r -> is_least_angle angle -> (forall g, In g gs -> goal_ok r g) -> (forall k r, length (theta k r) = length (s_nodes s)) ->
  compute_steps depth fuel angle theta improve min_change s gs max r = Some o -> o_ok o = false ->
  (forall i ri, (1 <= i <= o_steps o)%nat -> walk depth fuel theta s r i ri -> ~ all_reached gs ri) /\
  exists j rj, walk depth fuel theta s r j rj /\ same_robot rj (o_robot o) /\ (j <= o_steps o <= S j)%nat /\
    gives_up depth fuel theta s gs improve min_change max j rj /\
    (improve = true -> forall i ri ri', (1 <= i < j)%nat -> walk depth fuel theta s r i ri -> walk depth fuel theta s r (S i) ri' -> mean_distance gs ri' <= mean_distance gs ri).
Proof.
  intros depth fuel angle theta improve min_change s gs max r o Y RG AN GO TL E OK.
  destruct (compute_steps_ok depth fuel angle theta improve min_change s gs r Y TL max) as (o' & E' & (ST & EA & (v & L & P) & O)). rewrite E in E'. injection E' as <-. rewrite OK in O.
  assert (NR : forall i ri, walk depth fuel theta s r i ri -> check_tolerances angle ri gs = false -> ~ all_reached gs ri).
  { intros i ri WI. destruct (walk_put depth fuel theta s r Y TL i ri WI) as (v' & L' & (S & P' & _)). apply check_not_reached; [exact AN|apply (shape_tree r ri S), Y|exact P'|apply (rigid_shape _ _ S RG)|].
    intros g I. destruct (GO g I) as (D & G). split; [|exact G]. rewrite (shape_root _ _ S). now apply (shape_desc _ _ _ _ S). }
  split; [intros i ri LI WI; apply (NR i ri WI), (EA i ri); [lia| |exact WI]; destruct (Nat.eq_dec i (o_steps o)); [right; auto|left; lia]|].
  destruct O as (j & rj & W & LJ & SR & IM & GU). exists j, rj. split; [exact W|]. split; [exact SR|]. split; [exact LJ|]. split.
  - destruct GU as [GU|(GU1 & GU2)]; [left; exact GU|]. right. split; [exact GU1|]. destruct GU2 as [N|(d & r2 & F & PU & C & RE)]; [left; exact N|]. right. exists d, r2. split; [exact F|]. split; [exact PU|].
    split; [apply (NR (S j) r2); [econstructor; eassumption|exact C]|]. now rewrite !mean_ok in RE.
  - intros I i ri ri' LI WI WI'. rewrite <- !mean_ok. apply (IM I i); assumption.
Qed.

(** A robot with one joint that slides along x. *)
Definition slider (q : R) : robot := Robot [Node None [] (Prismatic (Vec 1 0 0)) pid 0 (free q) (px q) []] 0 pid.
Definition the_joint : node_set := Set_ [0%nat] (Some 0%nat).
Lemma slider_tree : forall q, tree (slider q).
Proof. intros q. apply single_tree; reflexivity. Qed.
Lemma slider_posed : forall q, posed (slider q).
Proof. intros q. apply single_posed; [reflexivity|]. cbn [n_pose transform n_kind n_local n_joint n_offset value free]. rewrite px_slide, !pmul_pid_l. f_equal. ring. Qed.
Lemma slider_rigid : forall q, rigid (slider q).
Proof. intros q. split; [apply mid_rotation|]. intros x n E. destruct x as [|x]; [|destruct x; discriminate]. injection E as <-. split; [apply mid_rotation|exact I]. Qed.
Lemma free_good : forall q, -100 <= q <= 100 -> good_joint (free q).
Proof. intros q B. unfold good_joint, free; cbn. split; [lra|]. split; [discriminate|]. left. exact B. Qed.
Lemma slider_ready : forall q, -100 <= q <= 100 -> ready 2 1 the_joint (slider q).
Proof.
  intros q B. split; cbn [the_joint s_nodes s_root].
  - cbn. lia.
  - lia.
  - apply slider_tree.
  - apply slider_posed.
  - repeat constructor. intros [].
  - intros x [<-|[]]. constructor.
  - split; [constructor|]. split; [intros x [<-|[]]; constructor|]. intros n [= <-]. reflexivity.
  - intros x n [<-|[]] [= <-]. now apply free_good.
Qed.
Lemma slider_put : forall q v, -100 <= v <= 100 -> put 2 1 (slider q) the_joint [v] = Some (slider v).
Proof.
  intros q v B. unfold put, set_joint_values, set_values; cbn [the_joint s_nodes s_root combine fold_left fst snd]. unfold set_value_at; cbn [node_at slider nodes nth_error n_joint].
  assert (SV : set_value (free q) v = Some (free v)).
  { unfold set_value, free; cbn [limitless enforce limit_lo limit_hi]. destruct (Rlt_dec v (-100)); [lra|]. destruct (Rlt_dec 100 v); [lra|]. reflexivity. }
  rewrite SV. cbn -[pmul vscale free px mid Rplus].
  assert (PE : pmul (pmul pid pid) (Pose mid (vscale (value (free v) + 0) (Vec 1 0 0))) = px v) by (rewrite px_slide, !pmul_pid_l; f_equal; cbn [value free]; ring).
  unfold set_pose, set_nodes; cbn -[pmul vscale free px mid Rplus]. rewrite PE. reflexivity.
Qed.
(** Steps that take the joint a multiple of the way to 10. *)
Definition towards (f : R) (k : nat) (r : robot) : list (option R) := [Some (f * (10 - vx (ppos (node_pose r 0))))].
Definition to_10 : goal := Goal 0 (px 10) only_x 1 1.
Lemma slider_error : forall q, error_position (slider q) to_10 = Rabs (10 - q).
Proof. intros q. rewrite <- sqrt_Rsqr_abs. unfold error_position, to_10; cbn. f_equal. unfold Rsqr. ring. Qed.
Lemma slider_check : forall q, check_tolerances angle_of (slider q) [to_10] = if Rlt_dec 1 (Rabs (10 - q)) then false else true.
Proof.
  intros q. unfold check_tolerances. cbn [forallb]. rewrite slider_error. change (error_rotation angle_of (slider q) to_10) with 0. cbn [g_pos g_rot to_10].
  destruct (Rlt_dec 1 0); [lra|]. destruct (Rlt_dec 1 (Rabs (10 - q))); reflexivity.
Qed.
Lemma slider_step : forall f q k, -100 <= q + f * (10 - q) <= 100 -> exists d, finite (towards f k (slider q)) = Some d /\ put 2 1 (slider q) the_joint (plus2 (values (slider q) the_joint) d) = Some (slider (q + f * (10 - q))).
Proof.
  intros f q k B. eexists. split; [reflexivity|]. unfold values, plus2; cbn [the_joint s_nodes map combine node_at slider nodes nth_error n_joint value free fst snd node_pose n_pose px ppos vx].
  now rewrite <- (slider_put q (q + f * (10 - q)) B).
Qed.
Lemma slider_goal : forall q, goal_ok (slider q) to_10.
Proof. intros q. split; [constructor|]. split; [apply mid_rotation|cbn; lra]. Qed.
Lemma slider_hyps : forall q f, -100 <= q <= 100 -> ready 2 1 the_joint (slider q) /\ rigid (slider q) /\ is_least_angle angle_of /\ (forall g, In g [to_10] -> goal_ok (slider q) g) /\
  (forall k r, length (towards f k r) = length (s_nodes the_joint)).
Proof. intros q f B. split; [now apply slider_ready|]. split; [apply slider_rigid|]. split; [apply angle_of_ok|]. split; [intros g [<-|[]]; apply slider_goal|reflexivity]. Qed.
(** One step of the loop. *)
Lemma slider_loop : forall f improve c n k q best last, -100 <= q + f * (10 - q) <= 100 -> c <= 0 -> -100 <= best <= 100 ->
  loop 2 1 angle_of (towards f) improve c the_joint [to_10] (S n) k (slider q) [best] last =
  let q1 := q + f * (10 - q) in
  if Rlt_dec 1 (Rabs (10 - q1)) then
    if improve && match last with Some l => if Rlt_dec l (Rabs (10 - q1)) then true else false | None => false end then Some (Outcome false (slider best) (S k))
    else loop 2 1 angle_of (towards f) improve c the_joint [to_10] n (S k) (slider q1) [q1] (Some (Rabs (10 - q1)))
  else Some (Outcome true (slider q1) (S k)).
Proof.
  intros f improve c n k q best last B C BB. cbv zeta. set (q1 := q + f * (10 - q)) in *. cbn [loop]. destruct (slider_step f q k B) as (d & F & P). fold q1 in P. rewrite F, P, slider_check.
  destruct (Rlt_dec 1 (Rabs (10 - q1))); [|reflexivity].
  destruct (Rlt_dec (norm d) c) as [N|_]; [exfalso; unfold norm in N; assert (H := sqrt_pos (fold_left (fun a x => a + x * x) d 0)); lra|].
  assert (M : mean_error (slider q1) [to_10] = Rabs (10 - q1)) by (unfold mean_error; cbn [fold_left length INR]; rewrite slider_error; field). rewrite M.
  replace (failed (put 2 1 (slider q1) the_joint [best]) (S k)) with (Some (Outcome false (slider best) (S k))) by (rewrite slider_put by exact BB; reflexivity).
  destruct (improve && _); [reflexivity|]. f_equal. unfold values, plus2; cbn [the_joint s_nodes map node_at slider nodes nth_error n_joint value free]. injection F as <-. cbn. unfold q1. reflexivity.
Qed.
(** All steps at once: half the way, and the whole way. *)
Example C62_witness : (forall f, ready 2 1 the_joint (slider 0) /\ rigid (slider 0) /\ is_least_angle angle_of /\ (forall g, In g [to_10] -> goal_ok (slider 0) g) /\
    (forall k r, length (towards f k r) = length (s_nodes the_joint))) /\
  compute_steps 2 1 angle_of (towards 1) true 0 the_joint [to_10] 50 (slider 0) = Some (Outcome true (slider (0 + 1 * (10 - 0))) 1) /\
  compute_steps 2 1 angle_of (towards (1 / 2)) true 0 the_joint [to_10] 1 (slider 0) = Some (Outcome false (slider (0 + 1 / 2 * (10 - 0))) 1).
Proof.
  split; [intros f; apply slider_hyps; lra|]. split.
  - unfold compute_steps. change (Z.to_nat 50) with (S 49). change (values (slider 0) the_joint) with [0]. rewrite slider_loop by lra. cbv zeta. destruct (Rlt_dec 1 (Rabs (10 - (0 + 1 * (10 - 0))))) as [H|_]; [|reflexivity].
    replace (10 - (0 + 1 * (10 - 0))) with 0 in H by ring. rewrite Rabs_R0 in H. lra.
  - unfold compute_steps. change (Z.to_nat 1) with (S 0). change (values (slider 0) the_joint) with [0]. rewrite slider_loop by lra. cbv zeta. destruct (Rlt_dec 1 (Rabs (10 - (0 + 1 / 2 * (10 - 0))))) as [_|H].
    + cbn [andb loop]. rewrite slider_put by lra. reflexivity.
    + exfalso. apply H. rewrite Rabs_right; lra.
Qed.

(** C62.  A goal that is reached from the start does not make it return true: the first check is ignored. *)
Theorem C62_at_goal_refuted : exists r o, (forall f, ready 2 1 the_joint r /\ rigid r /\ is_least_angle angle_of /\ (forall g, In g [to_10] -> goal_ok r g) /\ (forall k r, length (towards f k r) = length (s_nodes the_joint))) /\
  all_reached [to_10] r /\ compute_steps 2 1 angle_of (towards 1) true 0 the_joint [to_10] 0 r = Some o /\ o_ok o = false.
Proof.
  exists (slider 10). eexists. split; [intros f; apply slider_hyps; lra|]. split.
  - apply (check_reached angle_of); [apply angle_of_ok|apply slider_tree|apply slider_posed|apply slider_rigid|intros g [<-|[]]; apply slider_goal|].
    rewrite slider_check. replace (10 - 10) with 0 by ring. rewrite Rabs_R0. destruct (Rlt_dec 1 0); [lra|reflexivity].
  - split; [unfold compute_steps; cbn [Z.to_nat loop]; change (values (slider 10) the_joint) with [10]; rewrite slider_put by lra; reflexivity|reflexivity].
Qed.
(** C62.  checkImprovements does not keep the result from being farther from the goal than the start. *)
Theorem C62_worse_refuted : exists r o, (ready 2 1 the_joint r /\ rigid r /\ is_least_angle angle_of /\ (forall g, In g [to_10] -> goal_ok r g) /\ (forall k r, length (towards 3 k r) = length (s_nodes the_joint))) /\
  compute_steps 2 1 angle_of (towards 3) true 0 the_joint [to_10] 50 r = Some o /\ o_ok o = false /\ mean_distance [to_10] r < mean_distance [to_10] (o_robot o).
Proof.
  exists (slider 0), (Outcome false (slider (0 + 3 * (10 - 0))) 2). split; [apply slider_hyps; lra|]. split.
  - unfold compute_steps. change (Z.to_nat 50) with (S (S 48)). change (values (slider 0) the_joint) with [0]. rewrite slider_loop by lra. cbv zeta. destruct (Rlt_dec 1 (Rabs (10 - (0 + 3 * (10 - 0))))) as [_|H].
    + cbn [andb]. rewrite slider_loop by lra. cbv zeta.
      replace (10 - (0 + 3 * (10 - 0) + 3 * (10 - (0 + 3 * (10 - 0))))) with 40 by ring. replace (10 - (0 + 3 * (10 - 0))) with (-20) by ring. rewrite (Rabs_right 40), (Rabs_left (-20)) by lra.
      destruct (Rlt_dec 1 40); [|lra]. cbn [andb]. destruct (Rlt_dec (- (-20)) 40); [|lra]. reflexivity.
    + exfalso. apply H. rewrite Rabs_left; lra.
  - split; [reflexivity|]. rewrite <- !mean_ok. unfold mean_error; cbn [fold_left length INR o_robot]. rewrite !slider_error. rewrite (Rabs_right (10 - 0)), (Rabs_left (10 - _)) by lra. lra.
Qed.

(** C63.  GenericIKSolver::solve with a pose ends and moves only the joints of the node set.  True: the tcp is at the pose and there is no
    collision.  A pose that is not reachable: false, and the robot is as before.  False otherwise: all attempts failed and the robot is where
    one of them ended; namely the nearest of the random ones, if that is nearer than the robot was at the beginning, and the first one otherwise. *)
Theorem C63_solve : forall w p m max r, world_ok w r -> rotation (prot p) -> 0 <= x_max_rot w ->
  let g := the_goal w p m in let n := Z.to_nat (Z.max 1 max) in
  exists b r', generic_solve w p m max r = Some (b, r') /\ moved_only (x_set w) r r' /\
    (b = true -> reached g (node_pose r' (x_tcp w)) /\ free_of_collision w r') /\
    (x_reach w p = false -> b = false /\ r' = r) /\
    (b = false -> x_reach w p = true ->
      (forall i, (i < n)%nat -> exists e, ended w g r i e) /\
      exists i e, (i < n)%nat /\ ended w g r i e /\ same_robot e r' /\
        ((i = 0%nat /\ forall j ej, (1 <= j < n)%nat -> ended w g r j ej -> distance g r <= distance g ej) \/
         ((1 <= i)%nat /\ distance g e < distance g r /\ forall j ej, (1 <= j < n)%nat -> ended w g r j ej -> distance g e <= distance g ej))).
Proof.
  intros w p m max r K RP MR g n. destruct (generic_ok w r K p m max r RP MR eq_refl) as (b & r' & E & (v & L & P) & A & B & C). assert (Y := k_ready _ _ K).
  exists b, r'. split; [exact E|]. split; [apply (put_moved _ r v); auto; apply Y|]. split; [exact A|]. split; [exact B|].
  intros BF RE. destruct (C BF RE) as (best & be & e & BO & EL & PB). cbv zeta in *. fold g n in BO, EL. split.
  - intros i LI. clear - LI EL. assert (LI' : (i <= n - 1)%nat) by lia. clear LI. revert i LI'. induction EL as [e T|k e r1 e' EL IH J T]; intros i LI; [exists e; replace i with 0%nat by lia; constructor; exact T|].
    destruct (Nat.eq_dec i (S k)) as [->|N]; [exists e'; econstructor; eassumption|apply IH; lia].
  - destruct BO as (k & e1 & LK & EK & -> & CASE & MIN). exists k, e1. split; [exact LK|]. split; [exact EK|].
    split; [apply (put_rel_unique (x_set w) r (values e1 (x_set w))); auto using values_length; [apply Y|apply (led_values _ _ _ _ _ Y), (ended_led w r K p m k e1 RP MR EK)]|].
    destruct CASE as [(-> & ->)|(K1 & -> & LT)]; [left|right]; auto.
Qed.

Definition slider_world (f u : R) : world := World 2 1 angle_of (fun _ => towards f) (fun _ => [u]) None (fun _ => true) the_joint 0 1 1 1 None.
Lemma slider_world_ok : forall f u q, -100 <= q <= 100 -> world_ok (slider_world f u) (slider q).
Proof.
  intros f u q B. split; cbn [slider_world x_depth x_fuel x_set x_tcp x_angle x_theta x_random x_translational].
  - now apply slider_ready.
  - apply slider_rigid.
  - constructor.
  - apply angle_of_ok.
  - reflexivity.
  - reflexivity.
  - exact I.
Qed.
Lemma slider_try : forall f u i q, -100 <= q <= 100 -> -100 <= q + f * (10 - q) <= 100 ->
  try_solve (slider_world f u) i to_10 (slider q) = Some (if Rlt_dec 1 (Rabs (10 - (q + f * (10 - q)))) then false else true, slider (q + f * (10 - q))).
Proof.
  intros f u i q B B1. unfold try_solve, compute_steps. cbn [slider_world x_depth x_fuel x_angle x_theta x_set x_loops x_collide]. change (Z.to_nat 1) with (S 0). change (values (slider q) the_joint) with [q].
  rewrite slider_loop by (try exact B; try exact B1; lra). cbv zeta. destruct (Rlt_dec 1 (Rabs (10 - (q + f * (10 - q))))); [|reflexivity]. cbn [andb loop]. rewrite slider_put by exact B1. reflexivity.
Qed.
Lemma slider_random : forall f u i q, -100 <= -100 + 200 * u <= 100 -> joints_random (slider_world f u) i (slider q) = Some (slider (-100 + (100 - -100) * u)).
Proof.
  intros f u i q B. unfold joints_random. cbn [slider_world x_depth x_fuel x_set x_random x_translational]. unfold random_values; cbn [the_joint s_nodes combine map fst snd node_at slider nodes nth_error n_joint free limit_lo limit_hi].
  fold the_joint. rewrite slider_put by lra. reflexivity.
Qed.
Lemma slider_mean : forall q, mean_error (slider q) [to_10] = Rabs (10 - q).
Proof. intros q. unfold mean_error; cbn [fold_left length INR]; rewrite slider_error; field. Qed.
(** C63.  The result of a failure need be neither the nearest of the attempts nor as near as the robot was: the first attempt counts as the
    best with the distance the robot had before it. *)
Theorem C63_best_refuted : exists w p m r r' e, world_ok w r /\ rotation (prot p) /\ 0 <= x_max_rot w /\ let g := the_goal w p m in
  generic_solve w p m 2 r = Some (false, r') /\ ended w g r 1 e /\ distance g e < distance g r' /\ distance g r < distance g r'.
Proof.
  exists (slider_world 3 (13 / 25)), (px 10), only_x, (slider 0), (slider (0 + 3 * (10 - 0))). set (u := -100 + (100 - -100) * (13 / 25)). assert (U : u = 4) by (unfold u; field). exists (slider (u + 3 * (10 - u))).
  split; [apply slider_world_ok; lra|]. split; [apply mid_rotation|]. split; [cbn; lra|]. cbv zeta. change (the_goal (slider_world 3 (13 / 25)) (px 10) only_x) with to_10.
  assert (T0 : try_solve (slider_world 3 (13 / 25)) 0 to_10 (slider 0) = Some (false, slider (0 + 3 * (10 - 0)))).
  { rewrite slider_try by lra. destruct (Rlt_dec 1 _) as [|H]; [reflexivity|]. exfalso. apply H. rewrite Rabs_left; lra. }
  assert (J : joints_random (slider_world 3 (13 / 25)) 1 (slider (0 + 3 * (10 - 0))) = Some (slider u)) by (apply slider_random; lra).
  assert (T1 : try_solve (slider_world 3 (13 / 25)) 1 to_10 (slider u) = Some (false, slider (u + 3 * (10 - u)))).
  { rewrite slider_try by lra. destruct (Rlt_dec 1 _) as [|H]; [reflexivity|]. exfalso. apply H. rewrite Rabs_left; lra. }
  split; [|split; [|split]].
  - unfold generic_solve. fold (the_goal (slider_world 3 (13 / 25)) (px 10) only_x). change (the_goal (slider_world 3 (13 / 25)) (px 10) only_x) with to_10. change (x_reach (slider_world 3 (13 / 25)) (px 10)) with true.
    cbn [negb]. rewrite T0. change (Z.to_nat (2 - 1)) with 1%nat. cbn [restarts]. rewrite J, T1, !slider_mean. destruct (Rlt_dec (Rabs (10 - (u + 3 * (10 - u)))) (Rabs (10 - 0))) as [H|_].
    + exfalso. rewrite U in H. rewrite Rabs_left, Rabs_right in H by lra. lra.
    + cbn [slider_world x_depth x_fuel x_set]. change (values (slider (0 + 3 * (10 - 0))) the_joint) with [0 + 3 * (10 - 0)]. rewrite slider_put by lra. reflexivity.
  - apply e_next with (slider (0 + 3 * (10 - 0))) (slider u); [constructor; exact T0|exact J|exact T1].
  - rewrite <- !mean_one, !slider_mean. rewrite U. rewrite (Rabs_left (10 - (4 + _))), (Rabs_left (10 - _)) by lra. lra.
  - rewrite <- !mean_one, !slider_mean. rewrite (Rabs_right (10 - 0)), (Rabs_left (10 - _)) by lra. lra.
Qed.
Example C63_witness : world_ok (slider_world 1 (1 / 2)) (slider 0) /\ rotation (prot (px 10)) /\ 0 <= x_max_rot (slider_world 1 (1 / 2)) /\
  generic_solve (slider_world 1 (1 / 2)) (px 10) only_x 5 (slider 0) = Some (true, slider (0 + 1 * (10 - 0))).
Proof.
  split; [apply slider_world_ok; lra|]. split; [apply mid_rotation|]. split; [cbn; lra|]. unfold generic_solve. change (Goal _ (px 10) only_x _ _) with to_10. change (x_reach _ (px 10)) with true. cbn [negb].
  rewrite slider_try by lra. destruct (Rlt_dec 1 _) as [H|_]; [|reflexivity]. exfalso. replace (10 - (0 + 1 * (10 - 0))) with 0 in H by ring. rewrite Rabs_R0 in H. lra.
Qed.

(** C64.  solveNoRNSUpdate leaves the robot as it was; the values it returns take the robot to the pose, without a collision. *)
Theorem C64_no_update : forall w depth fuel s max p m r, calls_ok w depth fuel s r -> rotation (prot p) ->
  exists l r2, solve_no_update depth fuel s (call w max 0) p m r = Some (l, r2) /\ same_robot r r2 /\
    (l <> [] -> exists r1 r1', put depth fuel r s l = Some r1' /\ same_robot r1 r1' /\
      reached (the_goal (w 0%nat) p m) (node_pose r1' (x_tcp (w 0%nat))) /\ free_of_collision (w 0%nat) r1).
Proof.
  intros w depth fuel s max p m r C RP. assert (Y := calls_ready _ _ _ _ _ C). unfold solve_no_update. destruct (call_ok w depth fuel s r max 0 p m r C (led_refl _ _ _ _ Y) RP) as (b & r1 & E & L & OK). rewrite E.
  destruct (restored depth fuel s r r1 Y L) as (r2 & E2 & S2 & _). rewrite E2. do 2 eexists. split; [reflexivity|]. split; [exact S2|]. destruct b; [intros _|congruence].
  destruct (OK eq_refl) as (RE & CF). destruct (led_put depth fuel s r r (values r1 s) Y (led_refl _ _ _ _ Y) (values_length _ _)) as (r1' & E1 & P1). exists r1, r1'. split; [exact E1|].
  assert (S1 : same_robot r1 r1') by (apply (put_rel_unique s r (values r1 s)); auto using values_length; [apply Y|apply (led_values _ _ _ _ _ Y L)]). split; [exact S1|]. split; [|exact CF].
  rewrite (same_pose r1 r1' _ S1); [exact RE|]. apply (led_desc s r r1 _ L). destruct (C 0%nat) as (K & _). apply (k_tcp _ _ K).
Qed.
(** C64.  solve with an object and a grasp: true means the tcp is at the grasp's pose without a collision; false leaves the robot as it was. *)
Theorem C64_grasp : forall w depth fuel s max p m r, calls_ok w depth fuel s r -> rotation (prot p) ->
  exists b r2, solve_grasp depth fuel s (call w max 0) p m r = Some (b, r2) /\ moved_only s r r2 /\
    (b = true -> reached (the_goal (w 0%nat) p m) (node_pose r2 (x_tcp (w 0%nat))) /\ exists r1, same_robot r1 r2 /\ free_of_collision (w 0%nat) r1) /\
    (b = false -> same_robot r r2).
Proof.
  intros w depth fuel s max p m r C RP. assert (Y := calls_ready _ _ _ _ _ C). unfold solve_grasp. destruct (call_ok w depth fuel s r max 0 p m r C (led_refl _ _ _ _ Y) RP) as (b & r1 & E & L & OK). rewrite E. destruct b.
  - destruct (OK eq_refl) as (RE & CF). destruct (apply_same depth fuel s r1 (led_ready _ _ _ _ _ Y L)) as (r2 & E2 & S2 & P2). rewrite E2. cbn [option_map]. do 2 eexists. split; [reflexivity|].
    split; [apply (put_moved s r (values r1 s)); auto using values_length; [apply Y|apply (led_step depth fuel s r r1); auto using values_length]|]. split; [intros _|discriminate].
    split; [|exists r1; auto]. rewrite (same_pose r1 r2 _ S2); [exact RE|]. apply (led_desc s r r1 _ L). destruct (C 0%nat) as (K & _). apply (k_tcp _ _ K).
  - destruct (restored depth fuel s r r1 Y L) as (r2 & E2 & S2 & P2). rewrite E2. cbn [option_map]. do 2 eexists. split; [reflexivity|]. split; [apply (put_moved s r (values r s)); auto using values_length; apply Y|]. split; [discriminate|auto].
Qed.
(** C64.  solve with an object that has a set of grasps for the end effector ends after at most as many calls as there are grasps.  A grasp it
    returns is a copy, which is not in the object's set, of one that is, and the tcp is at its pose without a collision.  Null: every
    grasp of the object was tried, and the robot is as it was. *)
Theorem C64_object : forall w debug depth fuel s max target h fresh gs m pick n r, calls_ok w depth fuel s r -> (forall g, rotation (prot (target g))) ->
  GraspSpec.proper h gs -> (forall g, In g (grasps gs) -> (g < fresh)%nat) -> (length (grasps gs) <= n)%nat ->
  exists og r2 h', solve_object debug depth fuel s (call w max) target h fresh (Some gs) m pick n r = Some (og, r2, h') /\
    match og with
    | Some g' => (fresh <= g')%nat /\ ~ In g' (grasps gs) /\ (exists g, In g (grasps gs) /\ h' g' = h g) /\ moved_only s r r2 /\
        exists k r1, reached (the_goal (w k) (target (h' g')) m) (node_pose r2 (x_tcp (w k))) /\ same_robot r1 r2 /\ free_of_collision (w k) r1
    | None => same_robot r r2 /\ forall g, In g (grasps gs) -> tried w max target h m r (length (grasps gs)) g
    end.
Proof.
  intros w debug depth fuel s max target h fresh gs m pick n r C RT PR FR LN. assert (Y := calls_ready _ _ _ _ _ C). unfold solve_object.
  destruct (C44_clone debug h fresh gs PR FR) as (h' & gs' & E & PR' & _ & _ & OLD & LE & SAME). rewrite E.
  destruct (all_ok w depth fuel s r max target h' m pick C RT n 0 gs' r) as (og & r2 & E2 & H); [apply PR'|lia|now apply (put_rel_refl depth fuel)|]. rewrite E2. cbn [option_map fst snd]. exists og, r2, h'. split; [reflexivity|]. destruct og as [g'|].
  - destruct H as (I & k & r1 & RE & SR & CF & (v & L & P)). assert (FG : (fresh <= g')%nat) by (destruct (le_lt_dec fresh g') as [|LT]; [assumption|]; exfalso; apply (OLD g' LT), I).
    split; [exact FG|]. split; [intros I'; specialize (FR g' I'); lia|]. split; [|split; [apply (put_moved s r v); auto; apply Y|exists k, r1; auto]].
    apply In_nth_error in I. destruct I as (i & I). assert (LT : (i < length (grasps gs))%nat) by (rewrite <- LE; apply nth_error_Some; congruence).
    destruct (nth_error (grasps gs) i) as [g|] eqn:G; [|apply nth_error_None in G; lia]. exists g. split; [apply (nth_error_In _ i G)|]. apply (SAME i g g' G I).
  - destruct H as (SR & TR). split; [exact SR|]. intros g I. apply In_nth_error in I. destruct I as (i & I). assert (LT : (i < length (grasps gs'))%nat) by (rewrite LE; apply nth_error_Some; congruence).
    destruct (nth_error (grasps gs') i) as [g'|] eqn:G; [|apply nth_error_None in G; lia]. destruct (TR g' (nth_error_In _ i G)) as (k & r1 & r1' & LK & S1 & GS). rewrite (SAME i g g' I G) in GS. exists k, r1, r1'. split; [lia|]. auto.
Qed.
(** C64.  An object without grasps for the end effector ends the program: clone is called through a null pointer before the check for one. *)
Lemma no_grasp_set : forall w debug depth fuel s max target h fresh m pick n r, solve_object debug depth fuel s (call w max) target h fresh None m pick n r = None.
Proof. reflexivity. Qed.

Lemma slider_calls : forall f u q, -100 <= q <= 100 -> calls_ok (fun _ => slider_world f u) 2 1 the_joint (slider q).
Proof. intros f u q B i. split; [now apply slider_world_ok|]. repeat split; cbn; lra. Qed.
(** The first grasp is out of reach, the second is at 10. *)
Definition where_ (g : grasp) : pose := px (if rest g =? 1 then 10 else 500).
Example C64_witness : calls_ok (fun _ => slider_world 1 (1 / 2)) 2 1 the_joint (slider 0) /\ (forall g, rotation (prot (where_ g))) /\ GraspSpec.proper h0 (GSet [0; 1]%nat 1 1) /\
  (forall g, In g (grasps (GSet [0; 1]%nat 1 1)) -> (g < 2)%nat) /\ exists r2 h',
  solve_object true 2 1 the_joint (call (fun _ => slider_world 1 (1 / 2)) 1) where_ h0 2 (Some (GSet [0; 1]%nat 1 1)) only_x (fun _ => 1%nat) 2 (slider 0) = Some (Some 3%nat, r2, h') /\ h' 3%nat = h0 1%nat.
Proof.
  split; [apply slider_calls; lra|]. split; [intros g; apply mid_rotation|]. split; [split; [repeat constructor; cbn; intuition discriminate|cbn; intros g [<-|[<-|[]]]; auto]|]. split; [cbn; intros g [<-|[<-|[]]]; lia|].
  assert (CL : clone true h0 2 (GSet [0; 1]%nat 1 1) = Some (clone_grasp (clone_grasp h0 0 2) 1 3, GSet [2; 3]%nat 1 1, 4%nat)) by reflexivity.
  destruct (apply_same 2 1 the_joint (slider (0 + 1 * (10 - 0)))) as (r2 & E2 & _); [apply slider_ready; lra|].
  unfold solve_object. rewrite CL. eexists r2, _. split.
  cbn [solve_all grasps length Nat.eqb]. unfold sample_solution. change (length (grasps (GSet [2; 3]%nat 1 1)) =? 0)%nat with false. cbv iota.
  change (get_at (GSet [2; 3]%nat 1 1) (1 mod length (grasps (GSet [2; 3]%nat 1 1)))) with (Some 3%nat). cbv iota. unfold call at 1.
  change (where_ (clone_grasp (clone_grasp h0 0 2) 1 3 3)) with (px 10).
  assert (G := C63_witness). destruct G as (_ & _ & _ & G). unfold generic_solve in *. change (Goal _ (px 10) only_x _ _) with to_10 in *. change (x_reach _ (px 10)) with true in *. cbn [negb] in *.
  destruct (try_solve (slider_world 1 (1 / 2)) 0 to_10 (slider 0)) as [[b r1]|] eqn:T; [|discriminate]. rewrite slider_try in T by lra. destruct (Rlt_dec 1 _) as [H|_]; [exfalso; replace (10 - (0 + 1 * (10 - 0))) with 0 in H by ring; rewrite Rabs_R0 in H; lra|].
  injection T as <- <-. rewrite E2. cbn [option_map fst snd]. reflexivity.
  reflexivity.
Qed.

Print Assumptions C62_success.
Print Assumptions C62_failure.
Print Assumptions C62_at_goal_refuted.
Print Assumptions C62_worse_refuted.
Print Assumptions C63_solve.
Print Assumptions C63_best_refuted.
Print Assumptions C64_no_update.
Print Assumptions C64_grasp.
Print Assumptions C64_object.
