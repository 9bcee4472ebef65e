(** Model of VirtualRobot/IK/ConstrainedIK.cpp (the list of constraints, initialize, solve), of the step of
    VirtualRobot/IK/ConstrainedHierarchicalIK.cpp and of the error bookkeeping of VirtualRobot/IK/Constraint.cpp.

    Simplifications: a constraint (a shared pointer) is a natural number; numbers are exact (Z, Q).  What the robot and the
    constraints contain is an arbitrary type of worlds.  Seeds (only reported by a warning here) and the construction of a
    reduced robot are left out. *)
From Coq Require Import ZArith QArith List Bool.
Import ListNotations.
Open Scope Z_scope.

(** The members of a ConstrainedIK (IK/ConstrainedIK.h:76-93).  The maps priorities and hardConstraints are only read by
    operator[], which answers 0 and false for an absent key: they are functions with these default values. *)
Record ik := Ik {
  cons : list nat;
  prio : nat -> Z;
  hard : nat -> bool;
  max_iter : Z;
  cur : Z;
  running : bool }.

Definition upd {A} (f : nat -> A) (c : nat) (a : A) : nat -> A := fun x => if Nat.eqb x c then a else f x.

(** The constructor (IK/ConstrainedIK.cpp:5-27) *)
Definition new_ik (m : Z) : ik := Ik [] (fun _ => 0) (fun _ => false) m 0 false.

(** ConstrainedIK::addConstraint (IK/ConstrainedIK.cpp:29-38); [srt] is std::sort with the comparison by priorities. *)
Definition add_constraint (srt : (nat -> Z) -> list nat -> list nat) (k : ik) (c : nat) (p : Z) (h : bool) : ik :=
  let l := cons k ++ [c] in
  let pr := upd (prio k) c p in
  Ik (srt pr l) pr (upd (hard k) c h) (max_iter k) (cur k) (running k).

(** std::find and vector::erase (IK/ConstrainedIK.cpp:42-46) *)
Fixpoint erase_first (c : nat) (l : list nat) : list nat :=
  match l with
  | [] => []
  | x :: l' => if Nat.eqb x c then l' else x :: erase_first c l'
  end.

(** ConstrainedIK::removeConstraint (IK/ConstrainedIK.cpp:40-50) *)
Definition remove_constraint (k : ik) (c : nat) : ik :=
  if existsb (Nat.eqb c) (cons k) then
    Ik (erase_first c (cons k)) (upd (prio k) c 0) (upd (hard k) c false) (max_iter k) (cur k) (running k)
  else k.

(** ConstrainedIK::getConstraints (IK/ConstrainedIK.cpp:52-55) *)
Definition get_constraints (k : ik) : list nat := cons k.

(** The calls that change the list of constraints. *)
Inductive op := Add (c : nat) (p : Z) (h : bool) | Remove (c : nat).

Definition apply_op srt (k : ik) (o : op) : ik :=
  match o with
  | Add c p h => add_constraint srt k c p h
  | Remove c => remove_constraint k c
  end.

Definition run_ops srt (ops : list op) (m : Z) : ik := fold_left (apply_op srt) ops (new_ik m).

Definition set_running (b : bool) (k : ik) : ik := Ik (cons k) (prio k) (hard k) (max_iter k) (cur k) b.
Definition set_cur (i : Z) (k : ik) : ik := Ik (cons k) (prio k) (hard k) (max_iter k) i (running k).

Section World.
(** Worlds; solveStep(); checkTolerances() of a constraint; initialize() and getRobotPoseForConstraint() of a constraint;
    setGlobalPose. *)
Variables (W P : Type).
Variable solve_step : W -> W * bool.
Variable tolerances : nat -> W -> bool.
Variable c_init : nat -> W -> W.
Variable wants : nat -> W -> option P.
Variable set_pose : P -> W -> W.

(** The loop over the constraints in ConstrainedIK::initialize (IK/ConstrainedIK.cpp:74-78): the world, the pose asked for
    last, and how many constraints asked. *)
Fixpoint init_loop (l : list nat) (w : W) (p : option P) (moves : Z) : W * option P * Z :=
  match l with
  | [] => (w, p, moves)
  | c :: l' =>
      let w1 := c_init c w in
      match wants c w1 with
      | Some q => init_loop l' w1 (Some q) (moves + 1)
      | None => init_loop l' w1 p moves
      end
  end.

(** ConstrainedIK::initialize (IK/ConstrainedIK.cpp:67-94) *)
Definition initialize (k : ik) (w : W) : bool * ik * W :=
  match init_loop (cons k) w None 0 with
  | (w1, p, moves) =>
      if moves =? 1 then
        (true, set_cur 0 (set_running true k), match p with Some q => set_pose q w1 | None => w1 end)
      else if 1 <? moves then (false, k, w1)
      else (true, set_cur 0 (set_running true k), w1)
  end.

(** The loop of ConstrainedIK::solve (IK/ConstrainedIK.cpp:96-141); [None]: out of fuel. *)
Fixpoint solve_loop (fuel : nat) (stepwise : bool) (k : ik) (w : W) : option (bool * ik * W) :=
  match fuel with
  | O => None
  | S f =>
      if cur k <? max_iter k then
        let (w1, ok) := solve_step w in
        if negb ok then Some (false, set_running false k, w1)
        else if forallb (fun c => negb (hard k c) || tolerances c w1) (cons k)
        then Some (true, set_running false k, w1)
        else
          let k1 := set_cur (cur k + 1) k in
          if stepwise then Some (false, k1, w1) else solve_loop f stepwise k1 w1
      else Some (false, set_running false k, w)
  end.

Definition solve (stepwise : bool) (k : ik) (w : W) : option (bool * ik * W) :=
  solve_loop (S (Z.to_nat (max_iter k - cur k))) stepwise k w.

End World.

Section Hierarchical.
(** The robot and what is computed from it: the step of the HierarchicalIK, the length of the error of a constraint, and
    adding a step to the joint values. *)
Variable R : Type.
Variable delta : R -> list Q.
Variable error_of : nat -> R -> Q.
Variable move : list Q -> R -> R.
Variables (stall_eps raise_eps : Q).

(** The world of a ConstrainedHierarchicalIK: the robot, lastDelta (no entries at first) and lastError of each
    constraint. *)
Record hworld := Hw { robot : R; last_delta : list Q; last_error : nat -> Q }.

(** Constraint::initialize (IK/Constraint.cpp:13-18).  lastLastError is only used inside one call. *)
Definition h_init (c : nat) (w : hworld) : hworld := Hw (robot w) (last_delta w) (upd (last_error w) c (-1)%Q).

Fixpoint squared_distance (a b : list Q) : Q :=
  match a, b with
  | x :: a', y :: b' => ((x - y) * (x - y) + squared_distance a' b')%Q
  | _, _ => 0%Q
  end.

(** (delta - lastDelta).norm() < stallEpsilon, without the square root *)
Definition close (a b : list Q) : bool :=
  negb (Qle_bool stall_eps 0) && negb (Qle_bool (stall_eps * stall_eps) (squared_distance a b)).

(** The loop over the hard constraints with Constraint::getErrorDifference (IK/Constraint.cpp:26-38) in
    ConstrainedHierarchicalIK::solveStep (IK/ConstrainedHierarchicalIK.cpp:40-55) *)
Fixpoint raise_loop (l : list nat) (hd : nat -> bool) (r : R) (le : nat -> Q) : (nat -> Q) * bool :=
  match l with
  | [] => (le, true)
  | c :: l' =>
      if hd c then
        let before := le c in
        let now := error_of c r in
        let le1 := upd le c now in
        let diff := if Qle_bool before 0 then 0%Q else (before - now)%Q in
        if negb (Qle_bool (- raise_eps) diff) then (le1, false) else raise_loop l' hd r le1
      else raise_loop l' hd r le
  end.

(** ConstrainedHierarchicalIK::solveStep (IK/ConstrainedHierarchicalIK.cpp:25-61), after initialize *)
Definition h_step (k : ik) (w : hworld) : hworld * bool :=
  let d := delta (robot w) in
  match last_delta w with
  | _ :: _ =>
      if close d (last_delta w) then (w, false)
      else
        let (le, ok) := raise_loop (cons k) (hard k) (robot w) (last_error w) in
        if ok then (Hw (move d (robot w)) d le, true) else (Hw (robot w) d le, false)
  | [] =>
      let (le, ok) := raise_loop (cons k) (hard k) (robot w) (last_error w) in
      if ok then (Hw (move d (robot w)) d le, true) else (Hw (robot w) d le, false)
  end.
End Hierarchical.
