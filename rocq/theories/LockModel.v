(** Model of the locking of a robot, VirtualRobot/Robot.cpp, Nodes/RobotNode.cpp, RobotNodeSet.cpp, RobotConfig.cpp and
    Nodes/ConditionedLock.h: threads that call methods of one robot, interleaved step by step.  A call is a list of steps; the steps
    on the robot are the single assignments of joint values and poses.  Kinematic structure and propagation do not change.  (A pose
    is assigned at once; the 16 numbers of the matrix are not separate steps.) *)
From Coq Require Import Reals List Bool Arith.
From Verif Require Import RpyModel JointModel KinModel.
Import ListNotations.
Open Scope nat_scope.

(** A step of a thread on a shared object of type S: the recursive mutex (ConditionedLock.h 6-31; ReadLock and WriteLock are the same
    type), an assignment, and looking at the object. *)
Inductive act (S : Type) := Lock | Unlock | Write (f : S -> S) | Look.
Arguments Lock {S}. Arguments Unlock {S}. Arguments Write {S} f. Arguments Look {S}.
(** A thread: the steps left of its current call, and the calls it makes after that. *)
Record thread (S C : Type) := Th { cur : list (act S); todo : list C }.
Arguments Th {S C}. Arguments cur {S C}. Arguments todo {S C}.
(** The shared object, the owner of the mutex with the number of its locks, the threads, and all that was looked at: the thread, the
    number of calls it had left, and the object. *)
Record conf (S C : Type) := Conf { shared : S; owner : option (nat * nat); threads : list (thread S C); seen : list (nat * nat * S) }.
Arguments Conf {S C}. Arguments shared {S C}. Arguments owner {S C}. Arguments threads {S C}. Arguments seen {S C}.

(** One step of thread i; None: it is at its end, or waits for the mutex.  (Unlocking without having locked is undefined and does not
    occur in the calls below; it is None as well.) *)
Definition step {S C : Type} (prog : C -> list (act S)) (i : nat) (c : conf S C) : option (conf S C) :=
  match nth_error (threads c) i with
  | None => None
  | Some t =>
      let go s o rest see := Some (Conf s o (update (threads c) i (fun t => Th rest (todo t))) (seen c ++ see)) in
      match cur t with
      | [] => match todo t with
              | [] => None
              | k :: l => Some (Conf (shared c) (owner c) (update (threads c) i (fun _ => Th (prog k) l)) (seen c))
              end
      | Lock :: p => match owner c with
                     | None => go (shared c) (Some (i, 1)) p []
                     | Some (j, d) => if j =? i then go (shared c) (Some (i, d + 1)) p [] else None
                     end
      | Unlock :: p => match owner c with
                       | Some (j, 1) => if j =? i then go (shared c) None p [] else None
                       | Some (j, d) => if j =? i then go (shared c) (Some (i, d - 1)) p [] else None
                       | None => None
                       end
      | Write f :: p => go (f (shared c)) (owner c) p []
      | Look :: p => go (shared c) (owner c) p [(i, length (todo t), shared c)]
      end
  end.
(** A schedule is the list of the threads that make the next step. *)
Fixpoint run {S C : Type} (prog : C -> list (act S)) (sched : list nat) (c : conf S C) : option (conf S C) :=
  match sched with [] => Some c | i :: sched => match step prog i c with None => None | Some c => run prog sched c end end.

(** ** The calls on a robot *)

(** setJointValueNoUpdate, RobotNode.cpp 178-212. *)
Definition w_value (x : nat) (q : R) (r : robot) : robot := match set_value_at r x q with Some r => r | None => r end.
(** The propagated value, RobotNode.cpp 271: factor times the value of node x. *)
Definition w_prop (x y : nat) (f : R) (r : robot) : robot := w_value y (match node_at r x with Some n => value (n_joint n) | None => 0 end * f)%R r.
(** updateTransformationMatrices(parentPose) for a child; the pose is passed by reference, SceneObject.cpp 137, RobotNode.cpp 305-313. *)
Definition w_child (p x : nat) (r : robot) : robot := match node_at r x with Some n => set_pose r x (place n (node_pose r p)) | None => r end.
(** The same for the root with the pose of the robot, Robot.cpp 332-335. *)
Definition w_root (x : nat) (r : robot) : robot := match node_at r x with Some n => set_pose r x (place n (rpose r)) | None => r end.
(** updateTransformationMatrices(), RobotNode.cpp 214-235. *)
Definition w_base (x : nat) (r : robot) : robot := match node_at r x with Some n => set_pose r x (place n (base_pose r x n)) | None => r end.
(** this->globalPose = globalPose, Robot.cpp 671. *)
Definition w_pose (g : pose) (r : robot) : robot := Robot (nodes r) (root r) g.

Notation step_on := (act robot).
(** The children of x and all below, SceneObject.cpp 134-138 and RobotNode.cpp 305-313; [r] gives the structure. *)
Fixpoint below (depth : nat) (r : robot) (x : nat) : list step_on :=
  match depth with O => [] | S depth => flat_map (fun c => Write (w_child x c) :: below depth r c) (kids r x) end.
(** A lock that is held during the steps in between; [safe] is use_mutex, ConditionedLock.h 12-27, Robot.cpp 957-979. *)
Definition held (safe : bool) (p : list step_on) : list step_on := if safe then Lock :: p ++ [Unlock] else p.
(** WriteLock(mutex, use_mutex); as a statement: an unnamed object, destroyed at once. *)
Definition passing (safe : bool) : list step_on := held safe [].
(** updatePose(), RobotNode.cpp 246-277, with the propagated joint values by setJointValue, 145-152; the pose of the parent is read under
    the lock of getGlobalPose, 892-896. *)
Definition props (r : robot) (x : nat) : list (nat * R) := match node_at r x with Some n => n_prop n | None => [] end.
Fixpoint update_steps (safe : bool) (depth fuel : nat) (r : robot) (x : nat) : list step_on :=
  match fuel with
  | O => []
  | S fuel => passing safe ++ Write (w_base x) :: below depth r x ++
              flat_map (fun yf => match node_at r (fst yf) with
                                  | None => []
                                  | Some _ => held safe (Write (w_prop x (fst yf) (snd yf)) :: update_steps safe depth fuel r (fst yf))
                                  end) (props r x)
  end.
(** rootNode->updatePose(globalPose), Robot.cpp 332-335. *)
Definition apply_steps (depth : nat) (r : robot) : list step_on := Write (w_root (root r)) :: below depth r (root r).
Definition value_steps (qs : list (nat * R)) : list step_on := map (fun xq => Write (w_value (fst xq) (snd xq))) qs.

(** Calls: RobotNode::setJointValue; RobotNodeSet::setJointValues with or without kinematic root; RobotConfig::setJointValues;
    Robot::setJointValues; Robot::setGlobalPose; the last two by a caller that holds the lock of getWriteLock; and reading [n] times
    under the lock of getReadLock. *)
Inductive call :=
| NodeSet (x : nat) (q : R) | SetSet (k : option nat) (qs : list (nat * R)) | ConfigSet (qs : list (nat * R))
| RobotSet (qs : list (nat * R)) | RobotPose (g : pose) | HeldSet (qs : list (nat * R)) | HeldPose (g : pose) | Reads (n : nat).
Definition steps (safe : bool) (depth fuel : nat) (r : robot) (k : call) : list step_on :=
  match k with
  (* RobotNode.cpp 145-152 *)
  | NodeSet x q => held safe (Write (w_value x q) :: update_steps safe depth fuel r x)
  (* RobotNodeSet.cpp 413-435, 437-457, and applyJointValues, Robot.cpp 419-423 *)
  | SetSet (Some k) qs => held safe (value_steps qs ++ update_steps safe depth fuel r k)
  | SetSet None qs => held safe (value_steps qs ++ passing safe ++ apply_steps depth r)
  (* RobotConfig.cpp 168-187, 258-299 *)
  | ConfigSet qs => held safe (value_steps qs ++ passing safe ++ apply_steps depth r)
  (* Robot.cpp 993-1029, 1064-1075 *)
  | RobotSet qs => passing safe ++ value_steps qs ++ apply_steps depth r
  (* Robot.cpp 668-677 *)
  | RobotPose g => passing safe ++ Write (w_pose g) :: apply_steps depth r
  | HeldSet qs => held safe (passing safe ++ value_steps qs ++ apply_steps depth r)
  | HeldPose g => held safe (passing safe ++ Write (w_pose g) :: apply_steps depth r)
  (* Robot.cpp 957-967, RobotNode.cpp 892-896: each getter locks again *)
  | Reads n => held safe (concat (repeat (held safe [Look]) n))
  end.
(** Threads that have not begun. *)
Definition start {S C : Type} (s : S) (l : list (list C)) : conf S C := Conf s None (map (fun ks => Th [] ks) l) [].
