(** Model of planning in a thread of its own, MotionPlanning/Planner/PlanningThread.cpp, and of path processing,
    MotionPlanning/PostProcessing/PathProcessingThread.cpp, which is the same with a path as result.  One controlling thread makes calls;
    every accepted start adds a working thread.  All steps are interleaved in any order.  What the planner does is given by the
    schedule: at each pass of its loop whether it goes on, and its result in the end.  Exceptions are left out. *)
From Coq Require Import List Bool Arith.
Import ListNotations.

Section Threads.
(** Results of planner->plan(true) or pathProcessor->optimize(steps). *)
Context {A : Type}.

(** A working thread: before the planner begins; in its loop; after it with the result; holding the mutex for the last lines; ended. *)
Inductive worker := WNew | WPlan | WEnd (res : A) | WHold (res : A) | WGone.
(** Calls: start, isRunning, interrupt(wait) (stop and the destructor are interrupt(true)), and the result: getProcessedPath. *)
Inductive ucall := Start | IsRunning | Interrupt (wait : bool) | Result.
(** The controlling thread: between calls; holding the mutex before and after the lines that need it; before stopExecution; in join. *)
Inductive control := CIdle | CHold (k : ucall) | CRel (k : ucall) (running : bool) | CStop (wait : bool) | CJoin.
(** What can be observed.  [Over i]: working thread i has put down that it is finished. *)
Inductive event := Started (i : nat) | Refused | Begin (i : nat) | Loop (i : nat) | End (i : nat) (res : A) | Over (i : nat)
  | Answer (b : bool) | Got (r : option A) | Request | Returned (wait : bool).
(** threadStarted, the result (plannerFinished, resultPath), the stop flag of the planner, the mutex (true: taken), planningThread, the
    threads, the calls still to come, and all that happened. *)
Record state := State { started : bool; result : option A; stop : bool; taken : bool; handle : option nat; workers : list worker; ctl : control;
                        calls : list ucall; log : list event }.
(** The constructor, PlanningThread.cpp 13-19. *)
Definition init (l : list ucall) : state := State false None false false None [] CIdle l [].

(** boost::mutex: None if it is taken. *)
Definition lock (s : state) (c : control) (l : list ucall) : option state :=
  if taken s then None else Some (State (started s) (result s) (stop s) true (handle s) (workers s) c l (log s)).
Definition unlock (s : state) (c : control) (e : list event) : state :=
  State (started s) (result s) (stop s) false (handle s) (workers s) c (calls s) (log s ++ e).
Definition set_worker (l : list worker) (i : nat) (w : worker) : list worker := firstn i l ++ w :: skipn (S i) l.

(** A step of the controlling thread.  None: it waits, or has no more calls. *)
Definition control_step (s : state) : option state :=
  match ctl s with
  | CIdle => match calls s with [] => None | k :: l => lock s (CHold k) l end
  (* start, 27-42 *)
  | CHold Start =>
      if started s then Some (State (started s) (result s) (stop s) (taken s) (handle s) (workers s) (CRel Start true) (calls s) (log s ++ [Refused]))
      else Some (State true None (stop s) (taken s) (Some (length (workers s))) (workers s ++ [WNew]) (CRel Start false) (calls s) (log s ++ [Started (length (workers s))]))
  (* isRunning, 73-77; in interrupt, 46 *)
  | CHold k => Some (State (started s) (result s) (stop s) (taken s) (handle s) (workers s) (CRel k (started s)) (calls s) (log s))
  | CRel Start _ => Some (unlock s CIdle [])
  | CRel IsRunning b => Some (unlock s CIdle [Answer b])
  (* getProcessedPath, PathProcessingThread.cpp 118-126 *)
  | CRel Result b => Some (unlock s CIdle [Got (if b then None else result s)])
  (* interrupt, 44-65 *)
  | CRel (Interrupt w) b => Some (if b then unlock s (CStop w) [] else unlock s CIdle [Returned w])
  | CStop w => Some (State (started s) (result s) true (taken s) (handle s) (workers s) (if w then CJoin else CIdle) (calls s) (log s ++ Request :: (if w then [] else [Returned w])))
  (* planningThread.join(), 63 *)
  | CJoin => let back := Some (State (started s) (result s) (stop s) (taken s) None (workers s) CIdle (calls s) (log s ++ [Returned true])) in
             match handle s with
             | None => back
             | Some i => match nth_error (workers s) i with Some WGone => back | _ => None end
             end
  end.
(** A step of working thread i, workingMethod, 84-99.  The planner begins by taking back the stop flag (Rrt.cpp 88, BiRrt.cpp 88,
    GraspIkRrt.cpp 208, GraspRrt.cpp 132, ShortcutProcessor.cpp 144), and looks at it after every pass of its loop (Rrt.cpp 198 and so on). *)
Definition work_step (i : nat) (more : bool) (res : A) (s : state) : option state :=
  let go w stop e := Some (State (started s) (result s) stop (taken s) (handle s) (set_worker (workers s) i w) (ctl s) (calls s) (log s ++ [e])) in
  match nth_error (workers s) i with
  | None => None
  | Some WNew => go WPlan false (Begin i)
  | Some WPlan => if negb (stop s) && more then go WPlan (stop s) (Loop i) else go (WEnd res) (stop s) (End i res)
  | Some (WEnd r) => if taken s then None
                     else Some (State (started s) (result s) (stop s) true (handle s) (set_worker (workers s) i (WHold r)) (ctl s) (calls s) (log s))
  | Some (WHold r) => Some (State false (Some r) (stop s) false (handle s) (set_worker (workers s) i WGone) (ctl s) (calls s) (log s ++ [Over i]))
  | Some WGone => None
  end.
(** A schedule: who makes the next step, and what the planner decides. *)
Inductive choice := Control | Work (i : nat) (more : bool) (res : A).
Definition step (c : choice) (s : state) : option state := match c with Control => control_step s | Work i more res => work_step i more res s end.
Fixpoint run (l : list choice) (s : state) : option state := match l with [] => Some s | c :: l => match step c s with None => None | Some s => run l s end end.
End Threads.
Arguments worker : clear implicits. Arguments event : clear implicits. Arguments state : clear implicits. Arguments choice : clear implicits.
