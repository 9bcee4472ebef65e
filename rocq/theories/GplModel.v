(** Model of GraspPlanning/GraspPlanner/GenericGraspPlanner.cpp, GraspPlanner.cpp and GraspPlannerEvaluation.cpp.  The hand and the
    objects around it (the world), the approach generator, the collision checker, the closing of the fingers, the quality measure and the
    clock are arguments.  That the measure's answers depend only on the contacts set last is C88. *)
From Coq Require Import List ZArith QArith Bool Arith.
Import ListNotations.
Open Scope Z_scope.

(** What the planner calls.  [random_pose] is setEEFToRandomApproachPose; [retreat] is updateEEFPose with the step of the retreat
    along the current approach direction (GenericGraspPlanner.cpp:96, 103, 168); [static] are the contacts addStaticPartContacts appends. *)
Record env (W C P J : Type) := Env {
  random_pose : W -> W * bool;
  hits_obstacle : W -> bool;
  hits_object : W -> bool;
  close : W -> W * list C;
  static : W -> list C;
  open_hand : W -> W;
  retreat : W -> W;
  score : list C -> Q;
  closure : list C -> bool;
  tcp_pose : W -> P;
  joints : W -> J;
  clock : nat -> Z }.
Arguments Env {W C P J}.
Arguments random_pose {W C P J}. Arguments hits_obstacle {W C P J}. Arguments hits_object {W C P J}. Arguments close {W C P J}.
Arguments static {W C P J}. Arguments open_hand {W C P J}. Arguments retreat {W C P J}. Arguments score {W C P J}. Arguments closure {W C P J}.
Arguments tcp_pose {W C P J}. Arguments joints {W C P J}. Arguments clock {W C P J}.

(** [Grasp], as far as the planner fills it in, GenericGraspPlanner.cpp:191-202, 247: the number in the name "Grasp n", the pose, the joint
    values and the quality. *)
Record grasp (P J : Type) := Grasp { g_number : nat; g_pose : P; g_joints : J; g_quality : Q }.
Arguments Grasp {P J}. Arguments g_number {P J}. Arguments g_pose {P J}. Arguments g_joints {P J}. Arguments g_quality {P J}.

(** [GraspPlannerEvaluation], GraspPlannerEvaluation.h:33-61 and its constructor, GraspPlannerEvaluation.cpp:28-39. *)
Record evaluation := Evaluation { n_generated : Z; n_valid : Z; n_collision : Z; n_fc : Z; n_contacts : Z; n_precision : Z; n_power : Z;
  times : list Z; scores : list Q; valids : list bool; powers : list bool; fc_check : bool; eval_min : Q }.
Definition no_evaluation : evaluation := Evaluation 0 0 0 0 0 0 0 [] [] [] [] false 0.

Record planner (W C P J : Type) := Planner { world : W; grasp_set : list (grasp P J); planned : list (grasp P J); eval : evaluation;
  contacts : list C; ticks : nat; min_quality : Q; force_closure : bool; retreat_on_low : bool }.
Arguments Planner {W C P J}. Arguments world {W C P J}. Arguments grasp_set {W C P J}. Arguments planned {W C P J}. Arguments eval {W C P J}.
Arguments contacts {W C P J}. Arguments ticks {W C P J}. Arguments min_quality {W C P J}. Arguments force_closure {W C P J}. Arguments retreat_on_low {W C P J}.

Section Planner.
Context {W C P J : Type} (e : env W C P J).

(** The constructor, GenericGraspPlanner.cpp:21-36, with a grasp set that may hold grasps already. *)
Definition create (w : W) (set : list (grasp P J)) (minq : Q) (fc : bool) : planner W C P J :=
  Planner w set [] (Evaluation 0 0 0 0 0 0 0 [] [] [] [] fc minq) [] 0 minq fc true.
(** [setParameters], [setRetreatOnLowContacts], [clearEvaluation], GenericGraspPlanner.cpp:296-305, GraspPlanner.cpp:28-31. *)
Definition set_parameters (minq : Q) (fc : bool) (p : planner W C P J) : planner W C P J :=
  Planner (world p) (grasp_set p) (planned p) (eval p) (contacts p) (ticks p) minq fc (retreat_on_low p).
Definition set_retreat (b : bool) (p : planner W C P J) : planner W C P J :=
  Planner (world p) (grasp_set p) (planned p) (eval p) (contacts p) (ticks p) (min_quality p) (force_closure p) b.
Definition clear_evaluation (p : planner W C P J) : planner W C P J :=
  Planner (world p) (grasp_set p) (planned p) no_evaluation (contacts p) (ticks p) (min_quality p) (force_closure p) (retreat_on_low p).

(** [moveEEFAway], GenericGraspPlanner.cpp:83-120. *)
Fixpoint move_away (loops : nat) (w : W) : W * bool :=
  match loops with
  | O => (w, false)
  | S n =>
      let w := retreat e (open_hand e w) in
      if hits_object e w then (w, false)
      else let '(w, cs) := close e w in
           if (2 <=? length cs)%nat then (open_hand e w, true) else move_away n w
  end.

(** closeActors and addStaticPartContacts, GenericGraspPlanner.cpp:160-162, 170-171. *)
Definition grip (w : W) : W * list C := let '(w, cs) := close e w in (w, cs ++ static e w).

(** The entries of the evaluation one attempt adds, GenericGraspPlanner.cpp:206-286. *)
Inductive verdict := Collision | FewContacts | NoClosure | LowQuality (s : Q) | Good (s : Q).
Definition record (v : verdict) (ms : Z) (x : evaluation) : evaluation :=
  let s := match v with LowQuality s | Good s => s | _ => 0%Q end in
  let ok := match v with Good _ => true | _ => false end in
  Evaluation (n_generated x + 1)
    (match v with Good _ => n_valid x + 1 | _ => n_valid x end)
    (match v with Collision => n_collision x + 1 | _ => n_collision x end)
    (match v with NoClosure | LowQuality _ => n_fc x + 1 | _ => n_fc x end)
    (match v with FewContacts => n_contacts x + 1 | _ => n_contacts x end)
    (n_precision x)
    (match v with Good _ => n_power x + 1 | _ => n_power x end)
    (times x ++ [ms]) (scores x ++ [s]) (valids x ++ [ok]) (powers x ++ [true]) (fc_check x) (eval_min x).

(** [planGrasp], GenericGraspPlanner.cpp:122-289.  The clock is read at the start and when the time of the attempt is recorded. *)
Definition plan_grasp (obstacles : bool) (p : planner W C P J) : option (grasp P J) * planner W C P J :=
  let start := clock e (ticks p) in
  let '(w, ok) := random_pose e (world p) in
  let ok := ok && negb (obstacles && hits_obstacle e w) in
  let '(w, cs, ok) :=
    if ok then
      let '(w, cs) := grip w in
      let '(w, cs) :=
        if retreat_on_low p && (length cs <? 2)%nat then
          let '(w, moved) := move_away 10 w in
          if moved then grip w else (w, cs)
        else (w, cs) in
      (w, cs, negb (obstacles && hits_obstacle e w))
    else (w, [], false) in
  let q := score e cs in
  let v := if negb ok then Collision
           else if (length cs <? 2)%nat then FewContacts
           else if force_closure p && negb (closure e cs) then NoClosure
           else if negb (Qle_bool (min_quality p) q) then LowQuality q
           else Good q in
  let ms := clock e (S (ticks p)) - start in
  (match v with Good q => Some (Grasp (length (grasp_set p) + 1) (tcp_pose e w) (joints e w) q) | _ => None end,
   Planner w (grasp_set p) (planned p) (record v ms (eval p)) cs (S (S (ticks p))) (min_quality p) (force_closure p) (retreat_on_low p)).

(** [timeout], GenericGraspPlanner.cpp:307-311 (the clock is read only if the time out is positive). *)
Definition timeout (start limit now : Z) : bool := (limit <=? 0) || (start + limit <? now).
(** [plan], GenericGraspPlanner.cpp:41-81.  The result is nothing when the fuel runs out. *)
Fixpoint plan_loop (fuel : nat) (nr start limit : Z) (obstacles : bool) (made : Z) (p : planner W C P J) : option (Z * planner W C P J) :=
  match fuel with
  | O => None
  | S fuel =>
      let out := timeout start limit (clock e (ticks p)) in
      let p := Planner (world p) (grasp_set p) (planned p) (eval p) (contacts p) (S (ticks p)) (min_quality p) (force_closure p) (retreat_on_low p) in
      if negb out && (made <? nr) then
        match plan_grasp obstacles p with
        | (Some g, p) =>
            plan_loop fuel nr start limit obstacles (made + 1)
              (Planner (world p) (grasp_set p ++ [g]) (planned p ++ [g]) (eval p) (contacts p) (ticks p) (min_quality p) (force_closure p) (retreat_on_low p))
        | (None, p) => plan_loop fuel nr start limit obstacles made p
        end
      else Some (made, p)
  end.
Definition plan (fuel : nat) (nr limit : Z) (obstacles : bool) (p : planner W C P J) : option (Z * planner W C P J) :=
  let start := clock e (ticks p) in
  plan_loop fuel nr start limit obstacles 0
    (Planner (world p) (grasp_set p) (planned p) (eval p) (contacts p) (S (ticks p)) (min_quality p) (force_closure p) (retreat_on_low p)).
End Planner.

(** The averages of [toCSVString], GraspPlannerEvaluation.cpp:67-101: duration, share of power grasps, of precision grasps, score of
    the valid grasps.  [at] of a vector throws beyond its end: nothing is returned then.  Division of the sums is exact. *)
Record sums := Sums { t_acc : Z; s_acc : Q; k_valid : Z; k_power : Z; k_prec : Z }.
Fixpoint csv_loop (n i : nat) (x : evaluation) (a : sums) : option sums :=
  match n with
  | O => Some a
  | S n =>
      match nth_error (times x) i, nth_error (valids x) i, nth_error (scores x) i, nth_error (powers x) i with
      | Some t, Some v, Some s, Some w =>
          csv_loop n (S i) x (Sums (t_acc a + t) (if v then s_acc a + s else s_acc a)%Q (if v then k_valid a + 1 else k_valid a)
                                   (if w then k_power a + 1 else k_power a) (if w then k_prec a else k_prec a + 1))
      | _, _, _, _ => None
      end
  end.
Definition csv (x : evaluation) : option (Q * Q * Q * Q) :=
  let n := length (times x) in
  match csv_loop n 0 x (Sums 0 0 0 0 0) with
  | None => None
  | Some a =>
      let k := inject_Z (Z.of_nat n) in
      let some := (0 <? n)%nat in
      Some (if some then (inject_Z (t_acc a) / k)%Q else 0%Q, if some then (inject_Z (k_power a) / k)%Q else 0%Q,
            if some then (inject_Z (k_prec a) / k)%Q else 0%Q, if 0 <? k_valid a then (s_acc a / inject_Z (k_valid a))%Q else 0%Q)
  end.
