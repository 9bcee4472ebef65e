(** Model of the loops of the IK solvers, VirtualRobot/IK/DifferentialIK.cpp, GenericIKSolver.cpp and AdvancedIKSolver.cpp, on the
    kinematic tree of KinModel.  Over the real numbers (rounding is left out).  The step of the joints (pseudo inverse times error) is an
    argument [theta]; so are the angle of a rotation (Eigen::AngleAxis), the random numbers, the collision checks and the reachability.
    The locks, visualisation and printing are left out. *)
From Coq Require Import Reals List Bool Arith ZArith.
From Verif Require Import QuatModel QuatSpec RpyModel JointModel KinModel JacModel GraspModel.
Import ListNotations.
Open Scope R_scope.

(** The members targets, modes, tolerancePosition and toleranceRotation of one tcp, DifferentialIK.h. *)
Record goal := Goal { g_tcp : nat; g_target : pose; g_mode : selection; g_pos : R; g_rot : R }.
(** A node set: its nodes and its kinematic root. *)
Record node_set := Set_ { s_nodes : list nat; s_root : option nat }.

(** RobotNodeSet::getJointValues, RobotNodeSet.cpp 343-347. *)
Definition values (r : robot) (s : node_set) : list R :=
  map (fun x => match node_at r x with Some n => value (n_joint n) | None => 0 end) (s_nodes s).
(** Robot::setJointValues(rns, values), Robot.cpp 1031-1035, which is RobotNodeSet::setJointValues. *)
Definition put (depth fuel : nat) (r : robot) (s : node_set) (vs : list R) : option robot :=
  set_joint_values depth fuel r (s_root s) (combine (s_nodes s) vs).

(** getErrorPosition(tcp), DifferentialIK.cpp 768-799. *)
Definition error_position (r : robot) (g : goal) : R :=
  let m := g_mode g in
  if negb (s_position m) && s_orientation m then 0
  else let p := vsub (ppos (g_target g)) (ppos (node_pose r (g_tcp g))) in
       sqrt ((if s_x m then vx p * vx p else 0) + (if s_y m then vy p * vy p else 0) + (if s_z m then vz p * vz p else 0)).
(** getErrorRotation(tcp), 801-816. *)
Definition error_rotation (angle : mat3 -> R) (r : robot) (g : goal) : R :=
  if negb (s_orientation (g_mode g)) then 0
  else angle (prot (pmul (g_target g) (inverted (node_pose r (g_tcp g))))).
(** getMeanErrorPosition, 818-834. *)
Definition mean_error (r : robot) (gs : list goal) : R :=
  match gs with [] => 0 | _ => fold_left (fun a g => a + error_position r g) gs 0 / INR (length gs) end.
(** checkTolerances, 836-860. *)
Definition check_tolerances (angle : mat3 -> R) (r : robot) (gs : list goal) : bool :=
  forallb (fun g => negb ((if Rlt_dec (g_pos g) (error_position r g) then true else false) ||
                          (if Rlt_dec (g_rot g) (error_rotation angle r g) then true else false))) gs.

(** All entries are numbers: none is NaN or infinite. *)
Fixpoint finite (l : list (option R)) : option (list R) :=
  match l with [] => Some [] | None :: _ => None | Some x :: l => option_map (cons x) (finite l) end.
Definition norm (l : list R) : R := sqrt (fold_left (fun a x => a + x * x) l 0).
Definition plus2 (a b : list R) : list R := map (fun p => fst p + snd p) (combine a b).

(** The result of a solver: what it returns, the robot, and the number of steps. *)
Record outcome := Outcome { o_ok : bool; o_robot : robot; o_steps : nat }.
Definition failed (o : option robot) (k : nat) : option outcome := match o with Some r => Some (Outcome false r k) | None => None end.
(** The loop of computeSteps, DifferentialIK.cpp 881-948.  [n]: the steps left, [k]: the variable step, [best]: jvBest, [last]: lastDist (None for
    FLT_MAX).  [theta k r]: the result of computeStep; None stands for a value that makes the sum of line 887 NaN or infinite.
    None: the update of the poses does not end. *)
Fixpoint loop (depth fuel : nat) (angle : mat3 -> R) (theta : nat -> robot -> list (option R)) (improve : bool) (min_change : R)
    (s : node_set) (gs : list goal) (n k : nat) (r : robot) (best : list R) (last : option R) : option outcome :=
  match n with
  | O => failed (put depth fuel r s best) k
  | S n =>
      match finite (theta k r) with
      | None => Some (Outcome false r (S k))
      | Some d =>
          let jv := plus2 (values r s) d in
          match put depth fuel r s jv with
          | None => None
          | Some r1 =>
              if check_tolerances angle r1 gs then Some (Outcome true r1 (S k))
              else if Rlt_dec (norm d) min_change then failed (put depth fuel r1 s best) (S k)
              else if improve && match last with Some l => if Rlt_dec l (mean_error r1 gs) then true else false | None => false end
                   then failed (put depth fuel r1 s best) (S k)
              else loop depth fuel angle theta improve min_change s gs n (S k) r1 jv (Some (mean_error r1 gs))
          end
      end
  end.
(** computeSteps and solveIK, 867-954. *)
Definition compute_steps (depth fuel : nat) (angle : mat3 -> R) (theta : nat -> robot -> list (option R)) (improve : bool) (min_change : R)
    (s : node_set) (gs : list goal) (max_steps : Z) (r : robot) : option outcome :=
  loop depth fuel angle theta improve min_change s gs (Z.to_nat max_steps) 0 r (values r s) None.

(** The members of GenericIKSolver and AdvancedIKSolver, and the rest of the world: [x_theta i]: the steps of the attempt [i],
    [x_random i]: the random numbers before it, [x_collide]: cdm->isInCollision (None: no cdm), [x_reach]: checkReachable. *)
Record world := World { x_depth : nat; x_fuel : nat; x_angle : mat3 -> R; x_theta : nat -> nat -> robot -> list (option R); x_random : nat -> list R;
  x_collide : option (robot -> bool); x_reach : pose -> bool; x_set : node_set; x_tcp : nat; x_max_pos : R; x_max_rot : R; x_loops : Z;
  x_translational : option (nat * R) }.
(** setJointsRandom, GenericIKSolver.cpp 87-106. *)
Definition random_values (r : robot) (s : node_set) (rs : list R) : list R :=
  map (fun xr => match node_at r (fst xr) with
                 | Some n => limit_lo (n_joint n) + (limit_hi (n_joint n) - limit_lo (n_joint n)) * snd xr
                 | None => 0 end) (combine (s_nodes s) rs).
Definition joints_random (w : world) (i : nat) (r : robot) : option robot :=
  match put (x_depth w) (x_fuel w) r (x_set w) (random_values r (x_set w) (x_random w i)) with
  | None => None
  | Some r => match x_translational w with None => Some r | Some (x, q) => set_joint_value (x_depth w) (x_fuel w) r x q end
  end.
(** trySolve, 118-137. *)
Definition try_solve (w : world) (i : nat) (g : goal) (r : robot) : option (bool * robot) :=
  match compute_steps (x_depth w) (x_fuel w) (x_angle w) (x_theta w i) true 0 (x_set w) [g] (x_loops w) r with
  | None => None
  | Some o => Some (o_ok o && match x_collide w with Some c => negb (c (o_robot o)) | None => true end, o_robot o)
  end.
(** The loop over the random starts, 54-74, with [n] starts left. *)
Fixpoint restarts (w : world) (g : goal) (n i : nat) (best : list R) (best_error : R) (r : robot) : option (bool * robot) :=
  match n with
  | O => match put (x_depth w) (x_fuel w) r (x_set w) best with None => None | Some r => Some (false, r) end
  | S n =>
      match joints_random w i r with
      | None => None
      | Some r =>
          match try_solve w i g r with
          | None => None
          | Some (true, r) => Some (true, r)
          | Some (false, r) =>
              if Rlt_dec (mean_error r [g]) best_error then restarts w g n (S i) (values r (x_set w)) (mean_error r [g]) r
              else restarts w g n (S i) best best_error r
          end
      end
  end.
(** GenericIKSolver::solve(pose, selection, maxLoops), 30-75. *)
Definition generic_solve (w : world) (p : pose) (m : selection) (max_loops : Z) (r : robot) : option (bool * robot) :=
  let g := Goal (x_tcp w) p m (x_max_pos w) (x_max_rot w) in
  let best_error := mean_error r [g] in
  if negb (x_reach w p) then Some (false, r)
  else match try_solve w 0 g r with
       | None => None
       | Some (true, r) => Some (true, r)
       | Some (false, r) => restarts w g (Z.to_nat (max_loops - 1)) 1 (values r (x_set w)) best_error r
       end.

(** AdvancedIKSolver, with [solve] for the virtual methods solve and _sampleSolution (GenericIKSolver.cpp 153-157). *)
Notation solver := (pose -> selection -> robot -> option (bool * robot)).
(** solveNoRNSUpdate, AdvancedIKSolver.cpp 74-88. *)
Definition solve_no_update (depth fuel : nat) (s : node_set) (solve : solver) (p : pose) (m : selection) (r : robot) : option (list R * robot) :=
  match solve p m r with
  | None => None
  | Some (ok, r1) =>
      match put depth fuel r1 s (values r s) with None => None | Some r2 => Some (if ok then values r1 s else [], r2) end
  end.
(** solve(object, grasp, selection, maxLoops), 161-184; [p]: the pose of the tcp for the grasp.  applyJointValues puts all nodes at the poses
    of their joint values. *)
Definition solve_grasp (depth fuel : nat) (s : node_set) (solve : solver) (p : pose) (m : selection) (r : robot) : option (bool * robot) :=
  match solve p m r with
  | None => None
  | Some (true, r1) => option_map (fun r2 => (true, r2)) (apply_joint_values depth r1)
  | Some (false, r1) => option_map (fun r2 => (false, r2)) (put depth fuel r1 s (values r s))
  end.
(** sampleSolution, 187-225; [pick]: rand().  Result: the grasp, the set of grasps and the robot. *)
Definition sample_solution (depth fuel : nat) (s : node_set) (solve : solver) (target : grasp -> pose) (h : heap) (m : selection) (remove_it : bool)
    (pick : nat) (gs : gset) (r : robot) : option (option nat * gset * robot) :=
  if length (grasps gs) =? 0 then Some (None, gs, r)
  else match get_at gs (pick mod length (grasps gs)) with
       | None => None
       | Some g =>
           match solve (target (h g)) m r with
           | None => None
           | Some (true, r1) => Some (Some g, gs, r1)
           | Some (false, r1) =>
               match put depth fuel r1 s (values r s) with
               | None => None
               | Some r2 => Some (None, if remove_it then fst (remove gs g) else gs, r2)
               end
           end
       end.
(** The loop of solve(object, selection, maxLoops), 143-153.  [solve i] and [pick i]: those of the round [i].  None also if it does not end within
    [n] rounds. *)
Fixpoint solve_all (depth fuel : nat) (s : node_set) (solve : nat -> solver) (target : grasp -> pose) (h : heap) (m : selection) (pick : nat -> nat)
    (n i : nat) (gs : gset) (r : robot) : option (option nat * robot) :=
  if length (grasps gs) =? 0 then Some (None, r)
  else match n with
       | O => None
       | S n =>
           match sample_solution depth fuel s (solve i) target h m true (pick i) gs r with
           | None => None
           | Some (Some g, _, r) => option_map (fun r => (Some g, r)) (apply_joint_values depth r)
           | Some (None, gs, r) => solve_all depth fuel s solve target h m pick n (S i) gs r
           end
       end.
(** solve(object, selection, maxLoops), 100-159.  [object_grasps]: getGraspSet(eef); without such a set the call of clone is one through a null
    pointer (None).  The grasps are cloned at the addresses from [fresh] on, the result has the heap with the clones. *)
Definition solve_object (debug : bool) (depth fuel : nat) (s : node_set) (solve : nat -> solver) (target : grasp -> pose) (h : heap) (fresh : nat)
    (object_grasps : option gset) (m : selection) (pick : nat -> nat) (n : nat) (r : robot) : option (option nat * robot * heap) :=
  match object_grasps with
  | None => None
  | Some gs =>
      match clone debug h fresh gs with
      | None => None
      | Some (h', gs', _) => option_map (fun gr => (fst gr, snd gr, h')) (solve_all depth fuel s solve target h' m pick n 0 gs' r)
      end
  end.
