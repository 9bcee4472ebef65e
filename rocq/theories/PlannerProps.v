(** C09, C10, C11, C45: the planners Rrt and BiRrt. *)
From Coq Require Import List ZArith Bool PeanoNat.
From Verif Require Import TreeModel TreeSpec PlannerModel PlannerSpec PlannerProofs.
Import ListNotations.

(** C09. Whatever happened to the planner object before, and whatever samples, stop requests and
    clock readings occur during planning, [plan] either throws (no free node left in the C-space) or
    returns.  If it reports success, [getSolution] delivers a path from the start configuration to
    (near) the goal configuration all of whose steps were validated; if it reports failure there is
    no stored solution, or nothing was planned at all. *)
Theorem C09_rrt_solution : forall cs near max mode step s inp,
  path_contract cs near -> rrt_run cs max mode step s ->
  rrt_plan cs mode step inp s = Throw \/
  exists b s', rrt_plan cs mode step inp s = Ok (b, s') /\
    (b = true -> exists path start goal,
       r_start_cfg cs s = Some start /\ r_goal_cfg cs s = Some goal /\
       rrt_get_solution cs s' = Ok (Some path, s') /\
       hd_error path = Some start /\ near (last path start) goal /\
       forall x y, consecutive x y path -> validated_step cs x y) /\
    (b = false -> r_sol cs s' = None \/ s' = s).
Proof. intros cs near max mode step s inp H. exact (rrt_plan_ok cs near H max mode step s inp). Qed.
Print Assumptions C09_rrt_solution.

Example C09_witness : path_contract line eq /\ rrt_run line 6 eConnectCompletePath 1 st2 /\
  exists s', rrt_plan line eConnectCompletePath 1 goal_always st2 = Ok (true, s') /\ r_sol line s' = Some [1; 5].
Proof. split; [apply line_contract|]. split; [apply st2_run|]. eexists. split; vm_compute; reflexivity. Qed.

(** C09. After a plan that FAILED, [getSolution] may deliver a path, namely to the goal of an earlier
    plan: here the goal is 20, planning fails, and the path ends in 5. *)
Theorem C09_solution_after_failure_refuted : exists cs near max mode step s inp s' path s'' (start goal : cfg cs),
  path_contract cs near /\ rrt_run cs max mode step s /\
  rrt_plan cs mode step inp s = Ok (false, s') /\ r_goal_cfg cs s = Some goal /\
  rrt_get_solution cs s' = Ok (Some path, s'') /\ hd_error path = Some start /\ ~ near (last path start) goal.
Proof.
  exists line, eq, 6, eConnectCompletePath, 1, st4, goal_always, st5, [1; 5], (rrt_with_sol line st5 (Some [1; 5])), 1, 20.
  split; [apply line_contract|]. split; [apply st4_run|].
  repeat (split; [vm_compute; reflexivity|]). vm_compute. discriminate.
Qed.
Print Assumptions C09_solution_after_failure_refuted.

(** C09. After a successful plan, setting a new start and a failing plan, [getSolution] dereferences
    a null pointer. *)
Theorem C09_solution_null_pointer_refuted : exists cs near max mode step s,
  path_contract cs near /\ rrt_run cs max mode step s /\ rrt_get_solution cs s = Undef.
Proof.
  exists line, eq, 6, eConnectCompletePath, 1, st7. split; [apply line_contract|]. split; [apply st7_run|].
  vm_compute. reflexivity.
Qed.
Print Assumptions C09_solution_null_pointer_refuted.

(** C09. A query whose goal is the start is not solved: if a path from a configuration to itself has
    one point only, going for the goal in the first cycle ends the search without a solution. *)
Theorem C09_start_is_goal_refuted : exists cs near max mode step s inp s',
  path_contract cs near /\ rrt_run cs max mode step s /\ r_start_ok cs s = true /\ r_goal_ok cs s = true /\
  r_start_cfg cs s = r_goal_cfg cs s /\ rrt_plan cs mode step inp s = Ok (false, s') /\ r_cycles cs s' = 1 /\
  1 < r_max cs s.
Proof.
  exists line, eq, 6, eConnectCompletePath, 1, (snd (rrt_set_goal line st1 1)), goal_always. eexists.
  split; [apply line_contract|]. split.
  { eapply (rr_goal _ _ _ _ st1 1 true); [apply st1_run|vm_compute; reflexivity]. }
  split; [vm_compute; reflexivity|]. split; [vm_compute; reflexivity|]. split; [vm_compute; reflexivity|].
  split; [vm_compute; reflexivity|]. split; [vm_compute; reflexivity|]. vm_compute. apply le_S, le_n.
Qed.
Print Assumptions C09_start_is_goal_refuted.

(** C10. The same for BiRrt, as long as [setGoal] is only called before [plan] (or after [reset]): the
    solution ends exactly in the goal, and every step was validated in one direction, except that at
    the meeting point of the trees one end of a validated step is only near the path point. *)
Theorem C10_birrt_solution : forall cs near max m1 m2 step planned s inp,
  path_contract cs near -> birrt_run cs max m1 m2 step planned s ->
  birrt_plan cs m1 m2 step inp s = Throw \/
  exists b s', birrt_plan cs m1 m2 step inp s = Ok (b, s') /\
    (b = true -> exists path start goal,
       r_start_cfg cs (b_rrt cs s) = Some start /\ r_goal_cfg cs (b_rrt cs s) = Some goal /\
       birrt_get_solution cs s' = Ok (Some path, s') /\
       hd_error path = Some start /\ last path start = goal /\
       forall x y, consecutive x y path -> bi_step cs near x y) /\
    (b = false -> r_sol cs (b_rrt cs s') = None \/ s' = s).
Proof.
  intros cs near max m1 m2 step planned s inp H. exact (birrt_plan_ok cs near H max m1 m2 step planned s inp).
Qed.
Print Assumptions C10_birrt_solution.

(** C10. In these histories [getSolution] never fails or hangs. *)
Theorem C10_birrt_get_solution_safe : forall cs near max m1 m2 step planned s,
  path_contract cs near -> birrt_run cs max m1 m2 step planned s ->
  exists o s', birrt_get_solution cs s = Ok (o, s').
Proof.
  intros cs near max m1 m2 step planned s H. exact (birrt_get_solution_safe cs near H max m1 m2 step planned s).
Qed.
Print Assumptions C10_birrt_get_solution_safe.

Example C10_witness : path_contract line eq /\
  birrt_run line 6 eConnectCompletePath eConnectCompletePath 1 false bt2 /\
  exists s', birrt_plan line eConnectCompletePath eConnectCompletePath 1 (sample_always 3 false) bt2 = Ok (true, s') /\
    r_sol line (b_rrt line s') = Some [1; 3; 5].
Proof. split; [apply line_contract|]. split; [apply bt2_run|]. eexists. split; vm_compute; reflexivity. Qed.

(** C10. Setting a new goal after a plan and planning again: success is reported, the current goal is
    7, and the solution ends in the old goal 5. *)
Theorem C10_new_goal_refuted : exists cs near max m1 m2 step s c s1 inp s2 path,
  path_contract cs near /\ birrt_run cs max m1 m2 step true s /\
  birrt_set_goal cs s c = Ok (true, s1) /\ birrt_plan cs m1 m2 step inp s1 = Ok (true, s2) /\
  birrt_get_solution cs s2 = Ok (Some path, s2) /\ last path c <> c.
Proof.
  exists line, eq, 6, eConnectCompletePath, eConnectCompletePath, 1, bt3, 7, bt4, (sample_always 4 false), bt5, [1; 3; 4; 5].
  split; [apply line_contract|]. split; [apply bt3_run|].
  repeat (split; [vm_compute; reflexivity|]). vm_compute. discriminate.
Qed.
Print Assumptions C10_new_goal_refuted.

(** C10. After a plan that failed, [getSolution] delivers a path from start to goal one of whose steps
    is invalid: here 3 -> 15 leads through the wall. *)
Theorem C10_solution_after_failure_refuted : exists cs near max m1 m2 step s inp s1 path s2 x y,
  path_contract cs near /\ birrt_run cs max m1 m2 step false s /\
  birrt_plan cs m1 m2 step inp s = Ok (false, s1) /\
  birrt_get_solution cs s1 = Ok (Some path, s2) /\ consecutive x y path /\
  path_valid cs x y = false /\ path_valid cs y x = false.
Proof.
  exists wall, eq, 6, eConnectCompletePath, eConnectCompletePath, 1, wt2, wall_samples, wt3, [1; 3; 15],
    (birrt_with_sol wall wt3 (Some [1; 3; 15])), 3, 15.
  split; [apply wall_contract|]. split; [apply wt2_run|].
  split; [vm_compute; reflexivity|]. split; [vm_compute; reflexivity|]. split; [|split; vm_compute; reflexivity].
  exists [1], []. reflexivity.
Qed.
Print Assumptions C10_solution_after_failure_refuted.

(** C11. [plan] returns (or throws because the C-space is full): it never runs for ever and never
    dereferences a null pointer; it performs at most [maxCycles] cycles (one, if [maxCycles] is 0), and
    the tree never has more nodes than the C-space has configurations. *)
Theorem C11_rrt_terminates : forall cs near max mode step s inp,
  path_contract cs near -> rrt_run cs max mode step s ->
  rrt_plan cs mode step inp s = Throw \/
  exists b s', rrt_plan cs mode step inp s = Ok (b, s') /\
    (s' = s \/ r_cycles cs s' <= Nat.max 1 (r_max cs s)) /\
    length (t_nodes (r_tree cs s')) <= max.
Proof. intros cs near max mode step s inp H. exact (rrt_terminates cs near H max mode step s inp). Qed.
Print Assumptions C11_rrt_terminates.

Theorem C11_birrt_terminates : forall cs near max m1 m2 step planned s inp,
  path_contract cs near -> birrt_run cs max m1 m2 step planned s ->
  birrt_plan cs m1 m2 step inp s = Throw \/
  exists b s', birrt_plan cs m1 m2 step inp s = Ok (b, s') /\
    (s' = s \/ r_cycles cs (b_rrt cs s') <= Nat.max 1 (r_max cs (b_rrt cs s))) /\
    length (t_nodes (r_tree cs (b_rrt cs s'))) + length (t_nodes (b_tree2 cs s')) <= max.
Proof.
  intros cs near max m1 m2 step planned s inp H. exact (birrt_terminates cs near H max m1 m2 step planned s inp).
Qed.
Print Assumptions C11_birrt_terminates.

(** The cycle limit is met: sampling 20, which is unreachable, three cycles are performed. *)
Example C11_witness : rrt_run line 6 eConnectCompletePath 1 st2 /\ r_max line st2 = 3 /\
  exists s', rrt_plan line eConnectCompletePath 1 (sample_always 20 false) st2 = Ok (false, s') /\ r_cycles line s' = 3.
Proof. split; [apply st2_run|]. split; [vm_compute; reflexivity|]. eexists. split; vm_compute; reflexivity. Qed.

(** C45. If the planning timeout does not strike, [plan] leaves the "update visualization" status of the
    robot as it was. *)
Theorem C45_visualization_status : forall cs near max mode step s inp b s',
  path_contract cs near -> rrt_run cs max mode step s -> (forall k, ci_timeout cs (inp k) = false) ->
  rrt_plan cs mode step inp s = Ok (b, s') -> r_vis cs s' = r_vis cs s.
Proof. intros cs near max mode step s inp b s' H. exact (rrt_vis_ok cs near H max mode step s inp b s'). Qed.
Print Assumptions C45_visualization_status.

Theorem C45_visualization_status_birrt : forall cs near max m1 m2 step planned s inp b s',
  path_contract cs near -> birrt_run cs max m1 m2 step planned s -> (forall k, ci_timeout cs (inp k) = false) ->
  birrt_plan cs m1 m2 step inp s = Ok (b, s') -> r_vis cs (b_rrt cs s') = r_vis cs (b_rrt cs s).
Proof.
  intros cs near max m1 m2 step planned s inp b s' H.
  exact (birrt_vis_ok cs near H max m1 m2 step planned s inp b s').
Qed.
Print Assumptions C45_visualization_status_birrt.

(** C45. A timeout leaves the visualization updates switched off. *)
Theorem C45_timeout_refuted : exists cs near max mode step s inp s',
  path_contract cs near /\ rrt_run cs max mode step s /\ r_vis cs s = true /\
  rrt_plan cs mode step inp s = Ok (false, s') /\ r_vis cs s' = false.
Proof.
  exists line, eq, 6, eConnectCompletePath, 1, st2, (sample_always 3 true). eexists.
  split; [apply line_contract|]. split; [apply st2_run|]. split; [vm_compute; reflexivity|].
  split; vm_compute; reflexivity.
Qed.
Print Assumptions C45_timeout_refuted.
