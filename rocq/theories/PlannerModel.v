(** Model of the RRT planners: MotionPlanning/Planner/MotionPlanner.cpp, Rrt.cpp and BiRrt.cpp.

    The planners use the C-space through virtual methods; the model takes these methods as a record
    of functions (class [CSpace], [CSpaceSampled] or a user's class).  Validity answers are functions
    of the configurations: the collision checker is deterministic and [requestStop] of the C-space is
    not modelled here.  Random numbers, clock and the asynchronous [stopExecution] enter as an
    arbitrary input per planning cycle.  [assert]s are compiled out ([NDEBUG]): dereferencing a null
    pointer is the outcome [Undef].  An exception ends the history of the planner object. *)
From Coq Require Import List ZArith Bool PeanoNat.
From Verif Require Import TreeModel.
Import ListNotations.

(** The methods of the C-space that the planners call (CSpace.h, CSpaceSampled.h). *)
Record cspace := CSpaceI
  { cfg : Type;                                   (* Eigen::VectorXf *)
    num : Type;                                   (* float *)
    ltb : num -> num -> bool;                     (* operator< *)
    leb : num -> num -> bool;                     (* operator<= *)
    ndiv : num -> num -> num;                     (* operator/ *)
    calc_dist : cfg -> cfg -> num;                (* calcDist(c1, c2) *)
    calc_dist2 : cfg -> cfg -> num;               (* calcDist2(c1, c2, true) *)
    interpolate : cfg -> cfg -> num -> cfg;       (* interpolate(q1, q2, step) *)
    path_valid : cfg -> cfg -> bool;              (* isPathValid(q1, q2) *)
    create_path : cfg -> cfg -> list cfg;         (* createPath(start, goal)->getData() *)
    create_path_until : cfg -> cfg -> list cfg * bool;
                        (* createPathUntilInvalid(start, goal, d): the path, and d == 1.0f *)
    coll_free : cfg -> bool;                      (* isCollisionFree *)
    in_boundary : cfg -> bool }.                  (* isInBoundary *)

(** Result of running C++ code: a value, a thrown exception, or undefined behaviour (null pointer),
    or an endless loop. *)
Inductive outcome (A : Type) : Type := Ok (a : A) | Throw | Undef | Diverge.
Arguments Ok {A}. Arguments Throw {A}. Arguments Undef {A}. Arguments Diverge {A}.

Section Planner.
Context (cs : cspace).

(** [Rrt::RrtMethod] and [Rrt::ExtensionResult], Rrt.h:51-64. *)
Inductive rrt_mode := eExtend | eConnect | eConnectCompletePath.
Inductive ext_result := eError | eFailed | eSuccess | ePartial.

(** Distance of the query to the node with this ID; [None] (a node that was never filled) does not
    occur for tree nodes and counts as smallest. *)
Definition node_dist2 (p : pool (cfg cs)) (c : cfg cs) (id : nat) : option (num cs) :=
  option_map (calc_dist2 cs c) (node_cfg p id).

Definition oltb (a b : option (num cs)) : bool :=
  match a, b with
  | Some x, Some y => ltb cs x y
  | None, Some _ => true
  | _, None => false
  end.

(** [CSpaceTree::getNearestNeighbor], CSpaceTree.cpp:292-330, with the configuration of the node. *)
Definition nearest_node (p : pool (cfg cs)) (t : tree) (c : cfg cs) : outcome (nat * cfg cs) :=
  match nearest oltb (node_dist2 p c) t with
  | None => Undef
  | Some id =>
      match node_cfg p id with
      | None => Undef
      | Some q => Ok (id, q)
      end
  end.

(** [CSpaceTree::appendPath(node, config, &last)], CSpaceTree.cpp:236-250. *)
Definition append_path_to (p : pool (cfg cs)) (t : tree) (nn : nat) (q c : cfg cs) (last : Z)
  : outcome (bool * pool (cfg cs) * tree * Z) :=
  let res := create_path cs q c in
  if length res <=? 1 then Ok (false, p, t, last)
  else
    match tree_append_path p t nn (tl res) with
    | None => Throw
    | Some (id, p, t) => Ok (true, p, t, Z.of_nat id)
    end.

(** [CSpaceTree::appendPathUntilCollision], CSpaceTree.cpp:188-210. *)
Definition append_path_until (p : pool (cfg cs)) (t : tree) (nn : nat) (q c : cfg cs) (last : Z)
  : outcome (bool * pool (cfg cs) * tree * Z) :=
  let '(res, complete) := create_path_until cs q c in
  if length res <=? 1 then Ok (false, p, t, last)
  else
    match tree_append_path p t nn (tl res) with
    | None => Throw
    | Some (id, p, t) => Ok (complete, p, t, Z.of_nat id)
    end.

(** [Rrt::extend], Rrt.cpp:253-303; [step] is [extendStepSize]. *)
Definition rrt_extend (step : num cs) (p : pool (cfg cs)) (t : tree) (c : cfg cs) (last : Z)
  : outcome (ext_result * pool (cfg cs) * tree * Z) :=
  match nearest_node p t c with
  | Ok (nn, q) =>
      let total := calc_dist cs q c in
      let reached := leb cs total step in
      let target := if reached then c else interpolate cs q c (ndiv cs step total) in
      if path_valid cs q target then
        match append_path_to p t nn q target last with
        | Ok (true, p, t, last) => Ok (if reached then eSuccess else ePartial, p, t, last)
        | Ok (false, p, t, last) => Ok (eError, p, t, last)
        | Throw => Throw | Undef => Undef | Diverge => Diverge
        end
      else Ok (eFailed, p, t, last)
  | Throw => Throw | Undef => Undef | Diverge => Diverge
  end.

(** [Rrt::connectComplete], Rrt.cpp:306-326. *)
Definition rrt_connect_complete (p : pool (cfg cs)) (t : tree) (c : cfg cs) (last : Z)
  : outcome (ext_result * pool (cfg cs) * tree * Z) :=
  match nearest_node p t c with
  | Ok (nn, q) =>
      if path_valid cs q c then
        match append_path_to p t nn q c last with
        | Ok (true, p, t, last) => Ok (eSuccess, p, t, last)
        | Ok (false, p, t, last) => Ok (eError, p, t, last)
        | Throw => Throw | Undef => Undef | Diverge => Diverge
        end
      else Ok (eFailed, p, t, last)
  | Throw => Throw | Undef => Undef | Diverge => Diverge
  end.

(** [Rrt::connectUntilCollision], Rrt.cpp:328-349. *)
Definition rrt_connect_until (p : pool (cfg cs)) (t : tree) (c : cfg cs) (last : Z)
  : outcome (ext_result * pool (cfg cs) * tree * Z) :=
  match nearest_node p t c with
  | Ok (nn, q) =>
      match append_path_until p t nn q c last with
      | Ok (true, p, t, last') => Ok (eSuccess, p, t, last')
      | Ok (false, p, t, last') => Ok (if (last =? last')%Z then eFailed else ePartial, p, t, last')
      | Throw => Throw | Undef => Undef | Diverge => Diverge
      end
  | Throw => Throw | Undef => Undef | Diverge => Diverge
  end.

(** The [switch] over the mode, Rrt.cpp:114-130, 163-179 and BiRrt.cpp:142-158, 175-191. *)
Definition rrt_grow (mode : rrt_mode) (step : num cs) (p : pool (cfg cs)) (t : tree) (c : cfg cs) (last : Z)
  : outcome (ext_result * pool (cfg cs) * tree * Z) :=
  match mode with
  | eExtend => rrt_extend step p t c last
  | eConnect => rrt_connect_until p t c last
  | eConnectCompletePath => rrt_connect_complete p t c last
  end.

(** Inputs of one planning cycle: does [RandomFloat() <= extendGoToGoal] hold, the random
    configuration, did another thread set [stopSearch], has the timeout passed. *)
Record cycle_input := CycleInput
  { ci_to_goal : bool; ci_sample : cfg cs; ci_stop : bool; ci_timeout : bool }.

(** The planner object: fields of [MotionPlanner] (MotionPlanner.h) and [Rrt] (Rrt.h:101-118);
    [r_vis] is the robot's "update visualization" flag. *)
Record rrt := Rrt
  { r_pool : pool (cfg cs); r_tree : tree; r_start : option nat; r_goal : option nat; r_last : Z;
    r_start_cfg : option (cfg cs); r_goal_cfg : option (cfg cs); r_start_ok : bool; r_goal_ok : bool;
    r_sol : option (list (cfg cs)); r_max : nat; r_cycles : nat; r_vis : bool }.

(** [Rrt::Rrt] and [MotionPlanner::MotionPlanner], Rrt.cpp:17-44, MotionPlanner.cpp:7-35, on a C-space
    with the given pool. *)
Definition rrt_new (p : pool (cfg cs)) : rrt :=
  Rrt p tree_empty None None (-1) None None false false None (N.to_nat 50000) 0 true.

(** [MotionPlanner::setMaxCycles], MotionPlanner.cpp:177-180. *)
Definition rrt_set_max (s : rrt) (n : nat) : rrt :=
  Rrt (r_pool s) (r_tree s) (r_start s) (r_goal s) (r_last s) (r_start_cfg s) (r_goal_cfg s)
      (r_start_ok s) (r_goal_ok s) (r_sol s) n (r_cycles s) (r_vis s).

(** [Rrt::setStart], Rrt.cpp:401-418 with [MotionPlanner::setStart], MotionPlanner.cpp:98-124. *)
Definition rrt_set_start (s : rrt) (c : cfg cs) : outcome (bool * rrt) :=
  if (coll_free cs c && in_boundary cs c)%bool then
    match tree_append_node (r_pool s) (if 0 <? length (t_nodes (r_tree s)) then tree_reset (r_tree s) else r_tree s) c (-1) with
    | None => Throw
    | Some (id, p, t) =>
        Ok (true, Rrt p t (Some id) (r_goal s) (r_last s) (Some c) (r_goal_cfg s) true (r_goal_ok s)
                      (r_sol s) (r_max s) (r_cycles s) (r_vis s))
    end
  else Ok (false, Rrt (r_pool s) (r_tree s) (r_start s) (r_goal s) (r_last s) (Some c) (r_goal_cfg s)
                      false (r_goal_ok s) (r_sol s) (r_max s) (r_cycles s) (r_vis s)).

(** [Rrt::setGoal], Rrt.cpp:421-429 with [MotionPlanner::setGoal], MotionPlanner.cpp:127-153. *)
Definition rrt_set_goal (s : rrt) (c : cfg cs) : bool * rrt :=
  let ok := (coll_free cs c && in_boundary cs c)%bool in
  (ok, Rrt (r_pool s) (r_tree s) (r_start s) (r_goal s) (r_last s) (r_start_cfg s) (Some c)
           (r_start_ok s) ok (r_sol s) (r_max s) (r_cycles s) (r_vis s)).

(** [Rrt::reset], Rrt.cpp:507-517 with [MotionPlanner::reset], MotionPlanner.cpp:193-207.  The
    solution, the tree's last ID and [maxCycles] are kept.  The configurations are overwritten by a
    vector of length one, which nobody reads while the flags are false. *)
Definition rrt_reset (s : rrt) : rrt :=
  Rrt (pool_reset (r_pool s)) (tree_reset (r_tree s)) None None (r_last s) None None false false
      (r_sol s) (r_max s) 0 (r_vis s).

(** The loop of [Rrt::createSolution], Rrt.cpp:456-482: the IDs pushed to [tmpSol] after [act].
    [None]: endless; [Some None]: failure. *)
Fixpoint rrt_walk (fuel : nat) (p : pool (cfg cs)) (t : tree) (start act : nat) : option (option (list nat)) :=
  match fuel with
  | O => None
  | S fuel =>
      match node_parent p act with
      | None => Some None
      | Some next =>
          if (next <? 0)%Z then
            if Nat.eqb act start then Some (Some []) else Some None
          else
            match tree_get t next with
            | None => Some None
            | Some act' =>
                if Nat.eqb act' start then Some (Some [act'])
                else
                  match rrt_walk fuel p t start act' with
                  | Some (Some l) => Some (Some (act' :: l))
                  | r => r
                  end
            end
      end
  end.

(** Reading the configurations of tree nodes, Rrt.cpp:489-492. *)
Fixpoint tree_cfgs (p : pool (cfg cs)) (t : tree) (ids : list nat) : option (list (cfg cs)) :=
  match ids with
  | [] => Some []
  | id :: ids =>
      match tree_get t (Z.of_nat id) with
      | None => None
      | Some id =>
          match node_cfg p id, tree_cfgs p t ids with
          | Some c, Some l => Some (c :: l)
          | _, _ => None
          end
      end
  end.

Definition rrt_with_sol (s : rrt) (sol : option (list (cfg cs))) : rrt :=
  Rrt (r_pool s) (r_tree s) (r_start s) (r_goal s) (r_last s) (r_start_cfg s) (r_goal_cfg s)
      (r_start_ok s) (r_goal_ok s) sol (r_max s) (r_cycles s) (r_vis s).

(** [Rrt::createSolution], Rrt.cpp:432-505.  The fuel of the walk is the number of nodes plus one;
    a longer walk has visited a node twice and never ends. *)
Definition rrt_create_solution (s : rrt) : outcome (bool * rrt) :=
  match r_goal s with
  | None => Ok (false, s)
  | Some g =>
      match node_parent (r_pool s) g with
      | None => Ok (false, s)
      | Some par =>
          if (par <? 0)%Z then Ok (false, s)
          else
            match tree_get (r_tree s) (Z.of_nat g), r_start s with
            | Some g, Some start =>
                match rrt_walk (S (length (t_nodes (r_tree s)))) (r_pool s) (r_tree s) start g with
                | None => Diverge
                | Some None => Ok (false, s)
                | Some (Some l) =>
                    match tree_cfgs (r_pool s) (r_tree s) (rev (g :: l)) with
                    | None => Undef
                    | Some path => Ok (true, rrt_with_sol s (Some path))
                    end
                end
            | _, _ => Undef
            end
      end
  end.

(** [MotionPlanner::getSolution], MotionPlanner.cpp:183-191. *)
Definition rrt_get_solution (s : rrt) : outcome (option (list (cfg cs)) * rrt) :=
  match r_sol s with
  | Some path => Ok (Some path, s)
  | None =>
      match rrt_create_solution s with
      | Ok (_, s) => Ok (r_sol s, s)
      | Throw => Throw | Undef => Undef | Diverge => Diverge
      end
  end.

Definition rrt_with_tree (s : rrt) (p : pool (cfg cs)) (t : tree) (last : Z) (goal : option nat) : rrt :=
  Rrt p t (r_start s) goal last (r_start_cfg s) (r_goal_cfg s) (r_start_ok s) (r_goal_ok s)
      (r_sol s) (r_max s) (S (r_cycles s)) (r_vis s).

(** The body of the planning loop, Rrt.cpp:108-187: new state, [found], [stopSearch]. *)
Definition rrt_cycle (mode : rrt_mode) (step : num cs) (s : rrt) (i : cycle_input)
  : outcome (rrt * bool * bool) :=
  match (if ci_to_goal i then r_goal_cfg s else Some (ci_sample i)) with
  | None => Undef
  | Some c =>
      match rrt_grow mode step (r_pool s) (r_tree s) c (r_last s) with
      | Ok (res, p, t, last) =>
          if ci_to_goal i then
            match res with
            | eSuccess =>
                match pool_get p last with
                | None => Ok (rrt_with_tree s p t last None, false, true)
                | Some g => Ok (rrt_with_tree s p t last (Some g), true, ci_stop i)
                end
            | eError => Ok (rrt_with_tree s p t last (r_goal s), false, true)
            | _ => Ok (rrt_with_tree s p t last (r_goal s), false, ci_stop i)
            end
          else
            Ok (rrt_with_tree s p t last (r_goal s), false,
                match res with eError => true | _ => ci_stop i end)
      | Throw => Throw | Undef => Undef | Diverge => Diverge
      end
  end.

(** The [do ... while] loop, Rrt.cpp:106-198; returns the state, [found] and whether the timeout
    left the function.  [Diverge] stands for out of fuel. *)
Fixpoint rrt_loop (fuel : nat) (mode : rrt_mode) (step : num cs) (inp : nat -> cycle_input) (s : rrt)
  : outcome (rrt * bool * bool) :=
  match fuel with
  | O => Diverge
  | S fuel =>
      let i := inp (r_cycles s) in
      match rrt_cycle mode step s i with
      | Ok (s, found, stop) =>
          if ci_timeout i then Ok (s, found, true)
          else if (negb stop && (r_cycles s <? r_max s) && negb found)%bool
               then rrt_loop fuel mode step inp s
               else Ok (s, found, false)
      | Throw => Throw | Undef => Undef | Diverge => Diverge
      end
  end.

Definition rrt_with_vis (s : rrt) (vis : bool) : rrt :=
  Rrt (r_pool s) (r_tree s) (r_start s) (r_goal s) (r_last s) (r_start_cfg s) (r_goal_cfg s)
      (r_start_ok s) (r_goal_ok s) (r_sol s) (r_max s) (r_cycles s) vis.

(** The state when the loop is entered, Rrt.cpp:83-101. *)
Definition rrt_begin (s : rrt) : rrt :=
  Rrt (r_pool s) (r_tree s) (r_start s) (r_goal s) (r_last s) (r_start_cfg s) (r_goal_cfg s)
      (r_start_ok s) (r_goal_ok s) None (r_max s) 0 false.

(** [Rrt::plan], Rrt.cpp:50-251. *)
Definition rrt_plan (mode : rrt_mode) (step : num cs) (inp : nat -> cycle_input) (s : rrt)
  : outcome (bool * rrt) :=
  if (r_start_ok s && r_goal_ok s)%bool then
    match rrt_loop (Nat.max 1 (r_max s)) mode step inp (rrt_begin s) with
    | Ok (s', found, timeout) =>
        if timeout then Ok (false, s')
        else
          let s' := if r_vis s then rrt_with_vis s' true else s' in
          if found then
            match rrt_create_solution s' with
            | Ok (_, s') => Ok (true, s')
            | Throw => Throw | Undef => Undef | Diverge => Diverge
            end
          else Ok (false, s')
    | Throw => Throw | Undef => Undef | Diverge => Diverge
    end
  else Ok (false, s).

(** ** BiRrt *)

(** The planner object: [b_rrt] holds the fields inherited from [Rrt], then [tree2] and
    [lastAddedID2] (BiRrt.h). *)
Record birrt := BiRrt { b_rrt : rrt; b_tree2 : tree; b_last2 : Z }.

(** [BiRrt::BiRrt], BiRrt.cpp:20-26. *)
Definition birrt_new (p : pool (cfg cs)) : birrt := BiRrt (rrt_new p) tree_empty (-1).

(** [BiRrt::setStart], BiRrt.cpp:374-377. *)
Definition birrt_set_start (s : birrt) (c : cfg cs) : outcome (bool * birrt) :=
  match rrt_set_start (b_rrt s) c with
  | Ok (b, r) => Ok (b, BiRrt r (b_tree2 s) (b_last2 s))
  | Throw => Throw | Undef => Undef | Diverge => Diverge
  end.

Definition birrt_set_max (s : birrt) (n : nat) : birrt :=
  BiRrt (rrt_set_max (b_rrt s) n) (b_tree2 s) (b_last2 s).

Definition rrt_with_pool_goal (s : rrt) (p : pool (cfg cs)) (goal : option nat) : rrt :=
  Rrt p (r_tree s) (r_start s) goal (r_last s) (r_start_cfg s) (r_goal_cfg s) (r_start_ok s) (r_goal_ok s)
      (r_sol s) (r_max s) (r_cycles s) (r_vis s).

(** [BiRrt::setGoal], BiRrt.cpp:379-395. *)
Definition birrt_set_goal (s : birrt) (c : cfg cs) : outcome (bool * birrt) :=
  let '(ok, r) := rrt_set_goal (b_rrt s) c in
  if ok then
    let '(p, t2) :=
      match r_goal r with
      | Some g => tree_remove (r_pool r) (b_tree2 s) g
      | None => (r_pool r, b_tree2 s)
      end in
    match tree_append_node p t2 c (-1) with
    | None => Throw
    | Some (id, p, t2) => Ok (true, BiRrt (rrt_with_pool_goal r p (Some id)) t2 (b_last2 s))
    end
  else Ok (false, BiRrt r (b_tree2 s) (b_last2 s)).

(** [BiRrt::reset], BiRrt.cpp:397-405. *)
Definition birrt_reset (s : birrt) : birrt :=
  BiRrt (rrt_reset (b_rrt s)) (tree_reset (b_tree2 s)) (b_last2 s).

(** The [while] loops of [BiRrt::createSolution], BiRrt.cpp:325-331 and 336-342: the IDs of the proper
    ancestors of [act].  [None]: null pointer; [Some None]: endless. *)
Fixpoint birrt_walk (fuel : nat) (p : pool (cfg cs)) (t : tree) (act : nat) : outcome (list nat) :=
  match fuel with
  | O => Diverge
  | S fuel =>
      match node_parent p act with
      | None => Ok []
      | Some next =>
          if (next <? 0)%Z then Ok []
          else
            match tree_get t next with
            | None => Undef
            | Some act' =>
                match birrt_walk fuel p t act' with
                | Ok l => Ok (act' :: l)
                | r => r
                end
            end
      end
  end.

Definition birrt_with_sol (s : birrt) (sol : option (list (cfg cs))) : birrt :=
  BiRrt (rrt_with_sol (b_rrt s) sol) (b_tree2 s) (b_last2 s).

(** [BiRrt::createSolution], BiRrt.cpp:289-372. *)
Definition birrt_create_solution (s : birrt) : outcome (bool * birrt) :=
  let r := b_rrt s in
  match tree_get (r_tree r) (r_last r), tree_get (b_tree2 s) (b_last2 s) with
  | Some a, Some b =>
      match birrt_walk (S (length (t_nodes (r_tree r)))) (r_pool r) (r_tree r) a,
            birrt_walk (S (length (t_nodes (b_tree2 s)))) (r_pool r) (b_tree2 s) b with
      | Ok l1, Ok l2 =>
          match tree_cfgs (r_pool r) (r_tree r) (rev (a :: l1)), tree_cfgs (r_pool r) (b_tree2 s) l2 with
          | Some c1, Some c2 => Ok (true, birrt_with_sol s (Some (c1 ++ c2)))
          | _, _ => Undef
          end
      | Diverge, _ => Diverge
      | _, Diverge => Diverge
      | _, _ => Undef
      end
  | _, _ => Ok (false, birrt_with_sol s None)
  end.

(** [MotionPlanner::getSolution] on a [BiRrt]. *)
Definition birrt_get_solution (s : birrt) : outcome (option (list (cfg cs)) * birrt) :=
  match r_sol (b_rrt s) with
  | Some path => Ok (Some path, s)
  | None =>
      match birrt_create_solution s with
      | Ok (_, s) => Ok (r_sol (b_rrt s), s)
      | Throw => Throw | Undef => Undef | Diverge => Diverge
      end
  end.

(** Storing the result of a growth step of [tree] ([first = true]) or [tree2]. *)
Definition birrt_put (s : birrt) (first : bool) (p : pool (cfg cs)) (t : tree) (last : Z) : birrt :=
  let r := b_rrt s in
  if first then
    BiRrt (Rrt p t (r_start r) (r_goal r) last (r_start_cfg r) (r_goal_cfg r) (r_start_ok r) (r_goal_ok r)
               (r_sol r) (r_max r) (r_cycles r) (r_vis r)) (b_tree2 s) (b_last2 s)
  else
    BiRrt (Rrt p (r_tree r) (r_start r) (r_goal r) (r_last r) (r_start_cfg r) (r_goal_cfg r) (r_start_ok r)
               (r_goal_ok r) (r_sol r) (r_max r) (r_cycles r) (r_vis r)) t last.

Definition birrt_side_tree (s : birrt) (first : bool) : tree :=
  if first then r_tree (b_rrt s) else b_tree2 s.
Definition birrt_side_last (s : birrt) (first : bool) : Z :=
  if first then r_last (b_rrt s) else b_last2 s.

Definition birrt_grow (mode1 mode2 : rrt_mode) (step : num cs) (s : birrt) (first : bool) (c : cfg cs)
  : outcome (ext_result * birrt) :=
  match rrt_grow (if first then mode1 else mode2) step (r_pool (b_rrt s)) (birrt_side_tree s first) c
                 (birrt_side_last s first) with
  | Ok (res, p, t, last) => Ok (res, birrt_put s first p t last)
  | Throw => Throw | Undef => Undef | Diverge => Diverge
  end.

Definition birrt_count (s : birrt) (goal : option nat) : birrt :=
  let r := b_rrt s in
  BiRrt (Rrt (r_pool r) (r_tree r) (r_start r) goal (r_last r) (r_start_cfg r) (r_goal_cfg r) (r_start_ok r)
             (r_goal_ok r) (r_sol r) (r_max r) (S (r_cycles r)) (r_vis r)) (b_tree2 s) (b_last2 s).

(** The body of the planning loop, BiRrt.cpp:117-219; [first] = not switched. *)
Definition birrt_cycle (mode1 mode2 : rrt_mode) (step : num cs) (s : birrt) (first : bool) (i : cycle_input)
  : outcome (birrt * bool * bool) :=
  match birrt_grow mode1 mode2 step s first (ci_sample i) with
  | Ok (resA, s) =>
      let stopA := match resA with eError => true | _ => ci_stop i end in
      match resA with
      | ePartial | eSuccess =>
          match tree_get (birrt_side_tree s first) (birrt_side_last s first) with
          | None => Undef
          | Some n =>
              match node_cfg (r_pool (b_rrt s)) n with
              | None => Undef
              | Some c =>
                  match birrt_grow mode1 mode2 step s (negb first) c with
                  | Ok (resB, s) =>
                      match resB with
                      | eSuccess =>
                          match tree_get (birrt_side_tree s (negb first)) (birrt_side_last s (negb first)) with
                          | None => Ok (birrt_count s None, false, true)
                          | Some g => Ok (birrt_count s (Some g), true, stopA)
                          end
                      | eError => Ok (birrt_count s (r_goal (b_rrt s)), false, true)
                      | _ => Ok (birrt_count s (r_goal (b_rrt s)), false, stopA)
                      end
                  | Throw => Throw | Undef => Undef | Diverge => Diverge
                  end
              end
          end
      | _ => Ok (birrt_count s (r_goal (b_rrt s)), false, stopA)
      end
  | Throw => Throw | Undef => Undef | Diverge => Diverge
  end.

(** The [do ... while] loop, BiRrt.cpp:115-231. *)
Fixpoint birrt_loop (fuel : nat) (mode1 mode2 : rrt_mode) (step : num cs) (inp : nat -> cycle_input)
         (first : bool) (s : birrt) : outcome (birrt * bool * bool) :=
  match fuel with
  | O => Diverge
  | S fuel =>
      let i := inp (r_cycles (b_rrt s)) in
      match birrt_cycle mode1 mode2 step s first i with
      | Ok (s, found, stop) =>
          if ci_timeout i then Ok (s, found, true)
          else if (negb stop && (r_cycles (b_rrt s) <? r_max (b_rrt s)) && negb found)%bool
               then birrt_loop fuel mode1 mode2 step inp (negb first) s
               else Ok (s, found, false)
      | Throw => Throw | Undef => Undef | Diverge => Diverge
      end
  end.

Definition birrt_with_vis (s : birrt) (vis : bool) : birrt :=
  BiRrt (rrt_with_vis (b_rrt s) vis) (b_tree2 s) (b_last2 s).

(** [BiRrt::plan], BiRrt.cpp:32-285. *)
Definition birrt_plan (mode1 mode2 : rrt_mode) (step : num cs) (inp : nat -> cycle_input) (s : birrt)
  : outcome (bool * birrt) :=
  if (r_start_ok (b_rrt s) && r_goal_ok (b_rrt s))%bool then
    match birrt_loop (Nat.max 1 (r_max (b_rrt s))) mode1 mode2 step inp true
                     (BiRrt (rrt_begin (b_rrt s)) (b_tree2 s) (b_last2 s)) with
    | Ok (s', found, timeout) =>
        if timeout then Ok (false, s')
        else
          let s' := if r_vis (b_rrt s) then birrt_with_vis s' true else s' in
          if found then
            match birrt_create_solution s' with
            | Ok (_, s') => Ok (true, s')
            | Throw => Throw | Undef => Undef | Diverge => Diverge
            end
          else Ok (false, s')
    | Throw => Throw | Undef => Undef | Diverge => Diverge
    end
  else Ok (false, s).

End Planner.
