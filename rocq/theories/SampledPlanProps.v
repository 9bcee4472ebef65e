(** C48: the planners on CSpaceSampled. *)
From Coq Require Import Reals List Bool ZArith Lra.
From Verif Require Import AngleModel SampledModel SampledSpec SampledProofs SampledPlanModel SampledPlanProofs.
From Verif Require PlannerModel PlannerSpec PlannerProofs.
Import ListNotations.
Open Scope R_scope.

(** C48. CSpaceSampled (positive sampling sizes, no limitless translational joint) satisfies what C09 and
    C10 ask of a C-space, with "near" meaning a distance below 1e-6. *)
Theorem C48_sampled_contract : forall ds coll constr inside dcd sp,
  regular ds -> 0 < dcd -> 0 < sp ->
  PlannerSpec.path_contract (sampled_cspace ds coll constr inside dcd sp)
    (fun a b => calc_dist ds (proj1_sig a) (proj1_sig b) < 1e-6).
Proof. intros ds coll constr inside dcd sp. exact (sampled_contract ds coll constr inside dcd sp). Qed.
Print Assumptions C48_sampled_contract.

(** C48. If Rrt::plan on CSpaceSampled reports success, the solution leads from the start configuration to
    less than 1e-6 from the goal, and every configuration on the straight segments between its points
    is within 1.001 collision sampling sizes of a configuration that was checked to be free of
    collisions and to satisfy the constraints. *)
Theorem C48_rrt_solution_checked : forall ds coll constr inside dcd sp max mode step s inp s',
  regular ds -> 0 < dcd -> 0 < sp ->
  let cs := sampled_cspace ds coll constr inside dcd sp in
  PlannerSpec.rrt_run cs max mode step s ->
  PlannerModel.rrt_plan cs mode step inp s = PlannerModel.Ok (true, s') ->
  exists path start goal,
    PlannerModel.r_start_cfg cs s = Some start /\ PlannerModel.r_goal_cfg cs s = Some goal /\
    PlannerModel.rrt_get_solution cs s' = PlannerModel.Ok (Some path, s') /\
    hd_error path = Some start /\ calc_dist ds (proj1_sig (last path start)) (proj1_sig goal) < 1e-6 /\
    forall x y, PlannerSpec.consecutive x y path ->
      covered ds (fun q => coll q && constr q)%bool (1.001 * dcd) (proj1_sig x) (proj1_sig y).
Proof. exact sampled_rrt_solution. Qed.
Print Assumptions C48_rrt_solution_checked.

(** C48. The same for BiRrt; a step may be covered in the opposite direction (which differs only for a
    limitless joint turning by exactly pi), and at the meeting point of the trees one end of the
    covered segment is less than 1e-6 from the path point. *)
Theorem C48_birrt_solution_checked : forall ds coll constr inside dcd sp max m1 m2 step planned s inp s',
  regular ds -> 0 < dcd -> 0 < sp ->
  let cs := sampled_cspace ds coll constr inside dcd sp in
  PlannerSpec.birrt_run cs max m1 m2 step planned s ->
  PlannerModel.birrt_plan cs m1 m2 step inp s = PlannerModel.Ok (true, s') ->
  exists path start goal,
    PlannerModel.r_start_cfg cs (PlannerModel.b_rrt cs s) = Some start /\
    PlannerModel.r_goal_cfg cs (PlannerModel.b_rrt cs s) = Some goal /\
    PlannerModel.birrt_get_solution cs s' = PlannerModel.Ok (Some path, s') /\
    hd_error path = Some start /\ last path start = goal /\
    forall x y, PlannerSpec.consecutive x y path ->
      let ok a b := covered ds (fun q => coll q && constr q)%bool (1.001 * dcd) a (proj1_sig b) in
      ok (proj1_sig x) y \/ ok (proj1_sig y) x \/
      exists x', calc_dist ds (proj1_sig x') (proj1_sig x) < 1e-6 /\ ok (proj1_sig y) x'.
Proof. exact sampled_birrt_solution. Qed.
Print Assumptions C48_birrt_solution_checked.

Example C48_witness : exists s s', PlannerSpec.rrt_run rail_space 4 PlannerModel.eConnectCompletePath 0.1 s /\
  PlannerModel.rrt_plan rail_space PlannerModel.eConnectCompletePath 0.1 (one_input rail_space (pack 1 [0.05])) s =
  PlannerModel.Ok (true, s').
Proof. exact rail_plan. Qed.
