(** C127-C129: the constraint solver. *)
From Coq Require Import ZArith QArith Qabs List Bool Permutation Lia.
From Verif Require Import CikModel CikSpec CikProofs.
Import ListNotations.
Open Scope Z_scope.

(** * C127: the list of constraints *)

(** After any history of calls in which no constraint is added while it is there, getConstraints() has every constraint
    that was added and not removed, once, with the priority and the hardness said last, higher priorities first. *)
Theorem C127_registry srt ops m : sorts srt -> no_doubles ops ->
  let k := run_ops srt ops m in
  NoDup (get_constraints k) /\
  (forall c, In c (get_constraints k) <-> said ops c <> None) /\
  (forall c p h, said ops c = Some (p, h) -> prio k c = p /\ hard k c = h) /\
  (forall c, said ops c = None -> hard k c = false) /\
  (forall l1 a l2 b l3, get_constraints k = l1 ++ a :: l2 ++ b :: l3 -> prio k b <= prio k a).
Proof.
  intros SO ND. destruct (registry srt ops m SO ND) as (A & B & C & D & _). cbn zeta in *. unfold get_constraints.
  split; [exact A|]. split; [exact B|]. split; [|split; [|exact D]].
  - intros c p h E. specialize (C c). now rewrite E in C.
  - intros c E. specialize (C c). now rewrite E in C.
Qed.

(** Removing what is not there changes nothing. *)
Theorem C127_remove_absent k c : ~ In c (get_constraints k) -> remove_constraint k c = k.
Proof.
  intros NI. unfold remove_constraint. destruct (existsb (Nat.eqb c) (cons k)) eqn:E; [|reflexivity].
  apply existsb_exists in E. destruct E as (x & I & EX). apply Nat.eqb_eq in EX. subst x. contradiction.
Qed.

(** A function that sorts. *)
Fixpoint insert (pr : nat -> Z) (c : nat) (l : list nat) : list nat :=
  match l with
  | [] => [c]
  | x :: l' => if pr x <=? pr c then c :: x :: l' else x :: insert pr c l'
  end.
Definition insertion_sort (pr : nat -> Z) (l : list nat) : list nat := fold_right (insert pr) [] l.
(** The same, from the other end: it puts equal priorities the other way round. *)
Definition insertion_sort_r (pr : nat -> Z) (l : list nat) : list nat := insertion_sort pr (rev l).

Lemma insert_perm pr c l : Permutation (c :: l) (insert pr c l).
Proof.
  induction l as [|x l IH]; cbn; [auto|]. destruct (pr x <=? pr c); [auto|].
  eapply perm_trans; [apply perm_swap|]. now constructor.
Qed.
Lemma insert_ordered pr c l : ordered pr l -> ordered pr (insert pr c l).
Proof.
  induction l as [|x l IH]; intros O; cbn.
  - apply ordered_cons; [exact O|]. intros b [].
  - destruct (ordered_tail _ _ _ O) as [T B]. destruct (Z.leb_spec (pr x) (pr c)) as [L|L].
    + apply ordered_cons; [exact O|]. intros b [->|I]; [exact L|]. specialize (B b I). lia.
    + apply ordered_cons; [now apply IH|]. intros b I.
      apply (Permutation_in _ (Permutation_sym (insert_perm pr c l))) in I. destruct I as [->|I]; [lia|now apply B].
Qed.
Lemma insertion_sorts : sorts insertion_sort.
Proof.
  intros pr l. induction l as [|x l [IP IO]]; cbn.
  - split; [constructor|]. intros l1 a l2 b l3 E. destruct l1; discriminate.
  - split; [eapply perm_trans; [apply perm_skip, IP|apply insert_perm]|].
    apply (insert_ordered pr x). exact IO.
Qed.
Lemma insertion_sorts_r : sorts insertion_sort_r.
Proof.
  intros pr l. destruct (insertion_sorts pr (rev l)) as [A B]. split; [|exact B].
  eapply perm_trans; [apply Permutation_rev|exact A].
Qed.

(** A constraint that was added twice and removed once stays in the list, but is no longer hard. *)
Theorem C127_added_twice_refuted :
  ~ (forall srt ops m c, sorts srt ->
       (forall c' p h, In (Add c' p h) ops -> h = true) ->
       In c (get_constraints (run_ops srt ops m)) -> hard (run_ops srt ops m) c = true).
Proof.
  intros H. specialize (H insertion_sort [Add 7%nat 5 true; Add 7%nat 5 true; Remove 7%nat] 10 7%nat insertion_sorts).
  cut (false = true); [discriminate|]. apply H.
  - intros c' p h [E|[E|[E|[]]]]; congruence.
  - now left.
Qed.

(** Constraints with equal priorities need not stay in the order in which they were added: std::sort is not stable. *)
Theorem C127_equal_priorities_refuted :
  ~ (forall srt ops m, sorts srt -> no_doubles ops ->
       forall l1 a l2 b l3 pa ha pb hb before between after,
       ops = before ++ Add a pa ha :: between ++ Add b pb hb :: after -> pa = pb ->
       get_constraints (run_ops srt ops m) <> l1 ++ b :: l2 ++ a :: l3).
Proof.
  intros H.
  apply (H insertion_sort_r [Add 1%nat 5 true; Add 2%nat 5 true] 10 insertion_sorts_r) with
    (l1 := []) (a := 1%nat) (l2 := []) (b := 2%nat) (l3 := []) (pa := 5) (ha := true) (pb := 5) (hb := true)
    (before := []) (between := []) (after := []); [|reflexivity|reflexivity|reflexivity].
  intros before c p h after E. destruct before as [|o [|o' before]].
  - reflexivity.
  - injection E as <- <- <- <- <-. reflexivity.
  - apply (f_equal (@length op)) in E. cbn in E. rewrite app_length in E. cbn in E. lia.
Qed.

Example C127_witness :
  let ops := [Add 1%nat 2 true; Add 2%nat 9 false; Add 3%nat 5 true; Remove 1%nat; Add 1%nat 7 false] in
  get_constraints (run_ops insertion_sort ops 10) = [2; 1; 3]%nat /\
  said ops 1%nat = Some (7, false) /\ no_doubles ops.
Proof.
  split; [reflexivity|]. split; [reflexivity|]. intros before c p h after E.
  destruct before as [|o0 [|o1 [|o2 [|o3 [|o4 before]]]]]; cbn in E.
  1-5: injection E; intros; subst; try reflexivity; discriminate.
  apply (f_equal (@length op)) in E. cbn in E. rewrite app_length in E. cbn in E. lia.
Qed.

(** * C128: solving *)

(** solve() always answers.  It does [n] steps, at most as many as iterations are left.  All but the last one succeeded
    and left a hard constraint open.  It answers true after a successful step after which all hard constraints are met, and
    false after a failed step or when no iterations are left.  Afterwards the solver is not running, and only the number of
    iterations has changed. *)
Theorem C128_solve W (solve_step : W -> W * bool) (tolerances : nat -> W -> bool) k w :
  exists b k' w' n, solve W solve_step tolerances false k w = Some (b, k', w') /\
  stopped k k' (cur k') /\ (n <= left_over k)%nat /\ w' = world W solve_step n w /\
  (forall i, (0 < i < n)%nat -> ~ met W tolerances k (world W solve_step i w)) /\
  (forall i, (S i < n)%nat -> succeeds W solve_step i w) /\
  if b then (0 < n)%nat /\ succeeds W solve_step (n - 1) w /\ met W tolerances k w' /\ cur k' = cur k + Z.of_nat n - 1
  else ((0 < n)%nat /\ ~ succeeds W solve_step (n - 1) w /\ cur k' = cur k + Z.of_nat n - 1) \/
       (n = left_over k /\ cur k' = cur k + Z.of_nat n /\
        ((0 < n)%nat -> succeeds W solve_step (n - 1) w /\ ~ met W tolerances k w')).
Proof.
  destruct (solve_total W solve_step tolerances k w) as (b & k' & w' & E & EN).
  pose proof (ending_stopped _ _ _ _ _ _ _ _ EN) as ST.
  destruct EN as (n & LE & EW & _ & NM & SS & C). exists b, k', w', n. subst w'.
  split; [exact E|]. split; [exact ST|]. split; [exact LE|]. split; [reflexivity|]. split; [exact NM|]. split; [exact SS|].
  destruct C as [(-> & P & S1 & M & CC)|[(-> & P & S1 & CC)|(-> & EN & P & CC)]].
  - split; [exact P|]. split; [exact S1|]. split; [exact M|]. lia.
  - left. split; [exact P|]. split; [exact S1|]. lia.
  - right. split; [exact EN|]. split; [exact CC|]. exact P.
Qed.

(** It answers true exactly if some number of successful steps, not more than the iterations left and at least one, leads to
    a world where all hard constraints are met. *)
Theorem C128_succeeds_iff W (solve_step : W -> W * bool) (tolerances : nat -> W -> bool) k w :
  (exists k' w', solve W solve_step tolerances false k w = Some (true, k', w')) <->
  (exists n, (0 < n <= left_over k)%nat /\ (forall i, (i < n)%nat -> succeeds W solve_step i w) /\
             met W tolerances k (world W solve_step n w)).
Proof.
  destruct (C128_solve W solve_step tolerances k w) as (b & k' & w' & n & E & _ & LE & -> & NM & SS & C).
  split.
  - intros (k1 & w1 & E1). rewrite E1 in E. injection E as <- _ _. destruct C as (P & S1 & M & _).
    exists n. split; [lia|]. split; [|exact M]. intros i L.
    destruct (Nat.eq_dec i (n - 1)) as [->|NE]; [exact S1|]. apply SS. lia.
  - intros (n0 & L0 & S0 & M0). destruct b; [now exists k', (world W solve_step n w)|]. exfalso.
    destruct C as [(P & S1 & _)|(EN & _ & C)].
    + destruct (Nat.lt_ge_cases n0 n) as [L|L]; [now apply (NM n0)|]. apply S1, S0. lia.
    + destruct (Nat.eq_dec n0 n) as [->|NE]; [|apply (NM n0); [lia|exact M0]].
      destruct (C ltac:(lia)) as [_ C2]. now apply C2.
Qed.

(** Solving step by step, by solve(true) again and again as long as the solver is running, gives the same as solve(). *)
Theorem C128_stepwise W (solve_step : W -> W * bool) (tolerances : nat -> W -> bool) k w b k' w' :
  running k = true ->
  (stepping W solve_step tolerances k w b k' w' <-> solve W solve_step tolerances false k w = Some (b, k', w')).
Proof.
  intros R. split; [now apply stepping_solve|]. now apply (solve_stepping W solve_step tolerances (left_over k)).
Qed.

(** initialize() initializes all constraints in turn.  If none asks to move the robot, nothing else happens; if one asks,
    the robot gets that pose; in both cases the iterations start again and the solver is running.  If several ask, it
    fails, and the solver stays as it was. *)
Theorem C128_initialize W P (c_init : nat -> W -> W) (wants : nat -> W -> option P) (set_pose : P -> W -> W) k w :
  (forall c c' w, wants c (c_init c' w) = wants c w) ->
  let w1 := initialized c_init (get_constraints k) w in
  let k1 := Ik (cons k) (prio k) (hard k) (max_iter k) 0 true in
  ((forall c, In c (get_constraints k) -> wants c w = None) ->
     initialize W P c_init wants set_pose k w = (true, k1, w1)) /\
  (forall before c after p, get_constraints k = before ++ c :: after -> wants c w = Some p ->
     (forall c', In c' (before ++ after) -> wants c' w = None) ->
     initialize W P c_init wants set_pose k w = (true, k1, set_pose p w1)) /\
  (forall before c between d after p q, get_constraints k = before ++ c :: between ++ d :: after ->
     wants c w = Some p -> wants d w = Some q ->
     initialize W P c_init wants set_pose k w = (false, k, w1)).
Proof.
  intros ST. cbn zeta. unfold get_constraints, initialize. rewrite init_loop_spec by exact ST.
  assert (NO : forall l, (forall c, In c l -> wants c w = None) -> filter (asks W P wants w) l = []).
  { induction l as [|x l IH]; intros H; cbn; [reflexivity|]. unfold asks at 1. rewrite (H x) by now left.
    apply IH. intros c I. apply H. now right. }
  assert (FO : forall l a, (forall c, In c l -> wants c w = None) ->
     fold_left (fun a c => match wants c w with Some q => Some q | None => a end) l a = a).
  { induction l as [|x l IH]; intros a H; cbn; [reflexivity|]. rewrite (H x) by now left.
    apply IH. intros c I. apply H. now right. }
  split; [|split].
  - intros H. rewrite (NO _ H), (FO _ _ H). reflexivity.
  - intros before c after p E WC H.
    assert (AC : asks W P wants w c = true) by (unfold asks; now rewrite WC).
    assert (HB : forall c', In c' before -> wants c' w = None) by (intros x I; apply H; apply in_or_app; auto).
    assert (HA : forall c', In c' after -> wants c' w = None) by (intros x I; apply H; apply in_or_app; auto).
    assert (EL : length (filter (asks W P wants w) (cons k)) = 1%nat).
    { rewrite E, filter_app. cbn [filter]. now rewrite AC, (NO _ HB), (NO _ HA). }
    assert (EP : fold_left (fun a c => match wants c w with Some q => Some q | None => a end) (cons k) None = Some p).
    { rewrite E, fold_left_app. cbn [fold_left]. now rewrite WC, FO. }
    rewrite EL, EP. reflexivity.
  - intros before c between d after p q E WC WD.
    assert (AC : asks W P wants w c = true) by (unfold asks; now rewrite WC).
    assert (AD : asks W P wants w d = true) by (unfold asks; now rewrite WD).
    assert (EL : (2 <= length (filter (asks W P wants w) (cons k)))%nat).
    { rewrite E, filter_app. cbn [filter]. rewrite AC, filter_app. cbn [filter]. rewrite AD, app_length. cbn [length].
      rewrite app_length. cbn [length]. lia. }
    destruct (Z.eqb_spec (0 + Z.of_nat (length (filter (asks W P wants w) (cons k)))) 1) as [A|A]; [lia|].
    destruct (Z.ltb_spec 1 (0 + Z.of_nat (length (filter (asks W P wants w) (cons k))))) as [B|B]; [reflexivity|lia].
Qed.

(** A counter that has to reach 3: two more iterations are not enough, five are. *)
Example C128_witness :
  let step := fun n : nat => (S n, true) in
  let tol := fun (_ n : nat) => Nat.leb 3 n in
  let k m := set_running true (run_ops insertion_sort [Add 1%nat 0 true] m) in
  solve nat step tol false (k 5) 0%nat = Some (true, set_running false (set_cur 2 (k 5)), 3%nat) /\
  solve nat step tol false (k 2) 0%nat = Some (false, set_running false (set_cur 2 (k 2)), 2%nat) /\
  running (k 5) = true /\
  initialize nat nat (fun _ w => w) (fun c _ => if Nat.eqb c 1 then Some 8%nat else None) (fun p _ => p) (k 5) 0%nat
    = (true, k 5, 8%nat) /\
  fst (fst (initialize nat nat (fun _ w => w) (fun c _ => Some c) (fun p _ => p)
    (run_ops insertion_sort [Add 1%nat 0 true; Add 2%nat 0 true] 5) 0%nat)) = false.
Proof. repeat split. Qed.

(** * C129: the steps by priorities *)

(** A failed step leaves the robot as it was.  A step succeeds only if it differs from the step before (if there was one) by
    at least the stall epsilon and if no hard constraint's error has risen by more than the raise epsilon over a positive
    error recorded before; then the robot is moved by the step, and the errors are recorded. *)
Theorem C129_step R delta error_of move stall_eps raise_eps k (w w' : hworld R) b :
  NoDup (get_constraints k) ->
  h_step R delta error_of move stall_eps raise_eps k w = (w', b) ->
  if b then
    robot R w' = move (delta (robot R w)) (robot R w) /\ last_delta R w' = delta (robot R w) /\
    (last_delta R w <> [] -> (0 < stall_eps)%Q ->
       (stall_eps * stall_eps <= distance_sq (delta (robot R w)) (last_delta R w))%Q) /\
    (forall c, In c (get_constraints k) -> hard k c = true ->
       last_error R w' c = error_of c (robot R w) /\
       ((0 < last_error R w c)%Q -> (error_of c (robot R w) <= last_error R w c + raise_eps)%Q))
  else robot R w' = robot R w.
Proof.
  intros ND E. destruct b.
  - destruct (h_step_true R delta error_of move stall_eps raise_eps _ _ _ ND E) as (A & B & C & D).
    split; [exact A|]. split; [exact B|]. split.
    + intros NE PO. specialize (C NE). unfold close in C. apply andb_false_iff in C. destruct C as [C|C].
      * apply negb_false_iff, Qle_bool_iff in C. exfalso. now apply (Qlt_not_le _ _ PO).
      * apply negb_false_iff, Qle_bool_iff in C. now rewrite squared_distance_spec in C.
    + intros c I H. destruct (D c) as [D1 _]. now apply D1.
  - exact (h_step_false R delta error_of move stall_eps raise_eps _ _ _ E).
Qed.

(** A step that repeats the one before fails. *)
Theorem C129_stall R delta error_of move stall_eps raise_eps k (w : hworld R) :
  (0 < stall_eps)%Q -> last_delta R w <> [] ->
  (distance_sq (delta (robot R w)) (last_delta R w) < stall_eps * stall_eps)%Q ->
  h_step R delta error_of move stall_eps raise_eps k w = (w, false).
Proof.
  intros PO NE L. rewrite <- squared_distance_spec in L. unfold h_step.
  assert (C : close stall_eps (delta (robot R w)) (last_delta R w) = true).
  { unfold close. apply andb_true_iff. split; apply negb_true_iff;
      (destruct (Qle_bool _ _) eqn:E; [apply Qle_bool_iff in E; exfalso|reflexivity]);
      [now apply (Qlt_not_le _ _ PO)|now apply (Qlt_not_le _ _ L)]. }
  destruct (last_delta R w); [congruence|]. now rewrite C.
Qed.

(** After initialize() the errors recorded before do not count: the first step of a solver that has not done a step before
    succeeds, whatever the errors are. *)
Theorem C129_first_step R delta error_of move stall_eps raise_eps k (w : hworld R) :
  NoDup (get_constraints k) -> (0 <= raise_eps)%Q -> last_delta R w = [] ->
  exists w', h_step R delta error_of move stall_eps raise_eps k (initialized (h_init R) (get_constraints k) w) = (w', true) /\
    robot R w' = move (delta (robot R w)) (robot R w).
Proof.
  intros ND PO NL. unfold get_constraints in *. destruct (h_initialized R (cons k) w) as (A & B & C & _). unfold h_step.
  rewrite B, NL.
  destruct (raise_loop _ _ _ _ _ _ _) as [le ok] eqn:E. assert (T : ok = true).
  { change ok with (snd (le, ok)). rewrite <- E. apply raise_loop_fresh; [exact PO|exact ND|].
    intros c I. rewrite C by exact I. discriminate. }
  rewrite T. eexists. split; [reflexivity|]. cbn. now rewrite A.
Qed.

(** While solve() runs, the robot goes from each configuration to the one given by the step there, and the error of no hard
    constraint rises by more than the raise epsilon from one configuration to the next, except for the last step, and unless
    it was zero. *)
Theorem C129_solve R delta error_of move stall_eps raise_eps tolerances srt ops m k k' (w w' : hworld R) :
  sorts srt -> no_doubles ops -> k = set_running true (run_ops srt ops m) ->
  let step := h_step R delta error_of move stall_eps raise_eps k in
  let conf i := robot R (world _ step i w) in
  solve _ step tolerances false k w = Some (true, k', w') ->
  exists n, (0 < n <= Z.to_nat m)%nat /\ robot R w' = conf n /\
    (forall i, (i < n)%nat -> conf (S i) = move (delta (conf i)) (conf i)) /\
    (forall i c, (S i < n)%nat -> In c (get_constraints k) -> hard k c = true ->
       (0 < error_of c (conf i))%Q -> (error_of c (conf (S i)) <= error_of c (conf i) + raise_eps)%Q).
Proof.
  intros SO NDB -> step conf E. destruct (registry srt ops m SO NDB) as (ND & _ & _ & _ & HM & HC & _). cbn zeta in *.
  set (k := set_running true (run_ops srt ops m)) in *.
  assert (NDk : NoDup (cons k)) by exact ND.
  assert (LO : left_over k = Z.to_nat m) by (unfold left_over, k; cbn; rewrite HM, HC; f_equal; lia).
  destruct (C128_solve _ step tolerances k w) as (b & k1 & w1 & n & E1 & _ & LE & -> & NM & SS & C).
  rewrite E1 in E. injection E as -> -> <-. destruct C as (P & S1 & M & _).
  assert (SU : forall i, (i < n)%nat -> succeeds _ step i w).
  { intros i L. destruct (Nat.eq_dec i (n - 1)) as [->|NE]; [exact S1|]. apply SS. lia. }
  exists n. split; [lia|]. split; [reflexivity|]. split.
  - intros i L. destruct (h_run R delta error_of move stall_eps raise_eps k w n NDk SU i L) as [A _]. exact A.
  - intros i c L I H PO. now apply (h_run_errors R delta error_of move stall_eps raise_eps k w n NDk SU i c).
Qed.

(** A robot with one joint that has to go to 0; half of the way in each step. *)
Definition to_zero (r : Q) : list Q := [(- r / 2)%Q].
Definition shift (d : list Q) (r : Q) : Q := match d with x :: _ => Qred (r + x) | [] => r end.
Definition size (c : nat) (r : Q) : Q := Qabs r.
Definition at_zero (c : nat) (w : hworld Q) : bool := Qle_bool (Qabs (robot Q w)) (1 # 4).
Definition fresh (r : Q) : hworld Q := Hw Q r [] (fun _ => (-1)%Q).
Definition one_hard (m : Z) : ik := run_ops insertion_sort [Add 1%nat 0 true] m.
Definition init_then_solve (m : Z) (w : hworld Q) : option (bool * ik * hworld Q) :=
  match initialize _ unit (h_init Q) (fun _ _ => None) (fun _ w => w) (one_hard m) w with
  | (true, k, w1) => solve _ (h_step Q to_zero size shift (1 # 1000) (1 # 10) k) at_zero false k w1
  | (false, k, w1) => Some (false, k, w1)
  end.

(** A solver used for a second time can fail although the robot is at the goal: initialize() does not forget the last step. *)
Theorem C129_used_again_refuted :
  ~ (forall m w b k' w', 0 < m -> init_then_solve m w = Some (b, k', w') -> (forall c, at_zero c w = true) -> b = true) /\
  exists k1 w1 k2 w2, init_then_solve 10 (fresh 0) = Some (true, k1, w1) /\ robot Q w1 = 0%Q /\
    init_then_solve 10 w1 = Some (false, k2, w2) /\ robot Q w2 = 0%Q.
Proof.
  split.
  - intros H.
    specialize (H 10 (Hw Q 0%Q [0%Q] (fun _ => (-1)%Q))).
    destruct (init_then_solve 10 (Hw Q 0%Q [0%Q] (fun _ => (-1)%Q))) as [[[b k'] w']|] eqn:E; [|vm_compute in E; discriminate E].
    specialize (H b k' w' ltac:(lia) eq_refl (fun _ => eq_refl)). subst b. vm_compute in E. discriminate E.
  - do 4 eexists. split; [vm_compute; reflexivity|]. split; [reflexivity|]. split; [vm_compute; reflexivity|]. reflexivity.
Qed.

(** A robot that a more important task moves away from 0 by a hundred, and half of the way back afterwards. *)
Definition pushed (r : Q) : list Q := [if Qeq_bool r 0 then 100%Q else (- r / 2)%Q].

(** In a run of successful steps right after initialize(), the error of a hard constraint may rise by any amount from exactly
    zero: without the condition on zero, the bound in C129_solve is false. *)
Theorem C129_rise_from_zero_refuted :
  ~ (forall k (w : hworld Q) n, NoDup (get_constraints k) ->
       let step := h_step Q pushed size shift (1 # 1000) (1 # 10) k in
       let w1 := initialized (h_init Q) (get_constraints k) w in
       let conf i := robot Q (world _ step i w1) in
       (forall i, (i < n)%nat -> succeeds _ step i w1) ->
       forall i c, (S i < n)%nat -> In c (get_constraints k) -> hard k c = true ->
       (size c (conf (S i)) <= size c (conf i) + (1 # 10))%Q).
Proof.
  intros H. specialize (H (one_hard 10) (fresh 0) 2%nat ltac:(constructor; [intros []|constructor])). cbn zeta in H.
  assert (S2 : forall i, (i < 2)%nat -> succeeds _ (h_step Q pushed size shift (1 # 1000) (1 # 10) (one_hard 10)) i
     (initialized (h_init Q) (get_constraints (one_hard 10)) (fresh 0))).
  { intros [|[|i]] L; [vm_compute; reflexivity|vm_compute; reflexivity|lia]. }
  specialize (H S2 0%nat 1%nat ltac:(lia) ltac:(now left) eq_refl). vm_compute in H. now apply H.
Qed.

(** From 3 the robot gets within 1/4 in four steps. *)
Example C129_witness :
  (exists k' w', init_then_solve 10 (fresh 3) = Some (true, k', w') /\ robot Q w' = (3 # 16)%Q /\ cur k' = 3) /\
  no_doubles [Add 1%nat 0 true] /\ NoDup (get_constraints (one_hard 10)).
Proof.
  split; [do 2 eexists; split; [vm_compute; reflexivity|split; reflexivity]|]. split.
  - intros before c p h after E. destruct before as [|o before]; [reflexivity|].
    apply (f_equal (@length op)) in E. cbn in E. rewrite app_length in E. cbn in E. lia.
  - constructor; [intros []|constructor].
Qed.

Print Assumptions C127_registry.
Print Assumptions C127_remove_absent.
Print Assumptions C127_added_twice_refuted.
Print Assumptions C127_equal_priorities_refuted.
Print Assumptions C128_solve.
Print Assumptions C128_succeeds_iff.
Print Assumptions C128_stepwise.
Print Assumptions C128_initialize.
Print Assumptions C129_step.
Print Assumptions C129_stall.
Print Assumptions C129_first_step.
Print Assumptions C129_solve.
Print Assumptions C129_used_again_refuted.
Print Assumptions C129_rise_from_zero_refuted.
