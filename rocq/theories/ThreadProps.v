(** C42: planning and path processing in a working thread.  Every theorem holds for every list of calls of the controlling thread and for every
    interleaving of the threads; a schedule also decides how often the planner's loop runs and what its result is. *)
From Coq Require Import List Bool Arith Lia.
From Verif Require Import ThreadModel ThreadSpec ThreadProofs.
Import ListNotations.

(** Every accepted start makes one working thread run the planner once, and the runs follow one another: a run begins only after the run before
    it is over. *)
Theorem C42_once : forall A calls sched (s : state A), run sched (init calls) = Some s -> in_order (log s).
Proof. intros A. exact run_order. Qed.
(** A start is accepted exactly when no run is under way. *)
Theorem C42_start : forall A calls sched (s : state A), run sched (init calls) = Some s ->
  (forall l1 l2 i, log s = l1 ++ Started i :: l2 -> running l1 = false) /\ (forall l1 l2, log s = l1 ++ Refused :: l2 -> running l1 = true).
Proof. intros A cs l s E. pose proof (i_sound s (reachable cs l s E)) as S. split; [exact (s_started _ S)|exact (s_refused _ S)]. Qed.
(** isRunning answers truly, and the result read is that of the last run: none while a run is under way or before the first. *)
Theorem C42_answers : forall A calls sched (s : state A), run sched (init calls) = Some s ->
  (forall l1 l2 b, log s = l1 ++ Answer b :: l2 -> b = running l1) /\ (forall l1 l2 r, log s = l1 ++ Got r :: l2 -> r = if running l1 then None else last_result l1).
Proof. intros A cs l s E. pose proof (i_sound s (reachable cs l s E)) as S. split; [exact (s_answer _ S)|exact (s_got _ S)]. Qed.
(** When a stop that waits returns, no run is under way; and when no run is under way no working thread has anything left to do with the object. *)
Theorem C42_stop : forall A calls sched (s : state A), run sched (init calls) = Some s ->
  (forall l1 l2, log s = l1 ++ Returned true :: l2 -> running l1 = false) /\ (running (log s) = false -> Forall (eq WGone) (workers s)).
Proof. intros A cs l s E. split; [exact (s_returned _ (i_sound s (reachable cs l s E)))|apply (run_gone cs l s E)]. Qed.
(** A request to stop made since the planner began is honoured: its loop does not go round again, and a waiting stop returns within four steps
    of whichever threads the scheduler picks. *)
Theorem C42_honoured : forall A calls sched (s : state A), run sched (init calls) = Some s ->
  (forall l1 l2 i, log s = l1 ++ Loop i :: l2 -> asked l1 = false)
  /\ (ctl s = CJoin -> asked (log s) = true -> begun (log s) = true -> forall sched' s', run sched' s = Some s' -> 4 <= length sched' -> exists e, log s' = log s ++ e /\ In (Returned true) e).
Proof. intros A cs l s E. split; [exact (s_loop _ (i_sound s (reachable cs l s E)))|]. intros H1 H2 H3 l' s' R L. apply (run_stops cs l s l' s'); assumption. Qed.
(** Nothing gets stuck: some thread can go on until all calls are made and all threads are gone. *)
Theorem C42_progress : forall A (a : A) calls0 sched (s : state A), run sched (init calls0) = Some s ->
  (exists c s', step c s = Some s') \/ (calls s = [] /\ ctl s = CIdle /\ Forall (eq WGone) (workers s)).
Proof. intros A. exact run_progress. Qed.
(** But a request that comes before the planner has begun is taken back by it: the planner's loop can then go round any number of times while
    stop waits. *)
Theorem C42_lost_refuted : forall A n (a : A), exists sched (s : state A),
  run sched (init [Start; Interrupt true]) = Some s /\ log s = [Started 0; Request; Begin 0] ++ repeat (Loop 0) n /\ ctl s = CJoin.
Proof. intros A. exact lost. Qed.
Print Assumptions C42_once.
Print Assumptions C42_honoured.
Print Assumptions C42_progress.
Print Assumptions C42_lost_refuted.

(** A run stopped after one pass, its result read, then a second run refused a third start. *)
Example C42_history : exists s, run
  ([Control; Control; Control; Work 0 true 7; Work 0 true 7; Control; Control; Control; Control] ++ [Work 0 true 7; Work 0 true 7; Work 0 true 7; Control]
   ++ [Control; Control; Control] ++ [Control; Control; Control; Control; Control; Control; Control; Control; Control])
  (init [Start; Interrupt true; Result; Start; Start; IsRunning]) = Some s
  /\ log s = [Started 0; Begin 0; Loop 0; Request; End 0 7; Over 0; Returned true; Got (Some 7); Started 1; Refused; Answer true] /\ workers s = [WGone; WNew].
Proof. eexists. vm_compute. repeat split. Qed.
Example C42_waits : exists s, run [Control; Control; Control; Work 0 true 7; Work 0 true 7; Control; Control; Control; Control] (init [Start; Interrupt true]) = Some s
  /\ ctl s = CJoin /\ asked (log s) = true /\ begun (log s) = true /\ running (log s) = true.
Proof. eexists. vm_compute. repeat split. Qed.
