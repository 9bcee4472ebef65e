(** Proofs for C42. *)
From Coq Require Import List Bool Arith Lia.
From Verif Require Import ThreadModel ThreadSpec.
Import ListNotations.

Section Proofs.
Context {A : Type}.
Notation state := (state A). Notation event := (event A). Notation worker := (worker A).

Definition holds (c : control) : bool := match c with CHold _ | CRel _ _ => true | _ => false end.
Definition has_mutex (w : worker) : bool := match w with WHold _ => true | _ => false end.
(** The last run, as far as it has come. *)
Definition so_far (m : nat) (w : worker) (t : list event) : Prop :=
  match w with
  | WNew => t = [Started m]
  | WPlan => t = [Started m; Begin m]
  | WEnd r | WHold r => t = [Started m; Begin m; End m r]
  | WGone => False
  end.
Inductive phase (s : state) : Prop :=
| rest : forall rs, started s = false -> workers s = repeat WGone (length rs) -> filter life (log s) = whole_runs rs -> result s = nth_error (rev rs) 0 -> taken s = holds (ctl s) ->
    (forall i, handle s = Some i -> S i = length rs) -> phase s
| busy : forall rs w t, started s = true -> workers s = repeat WGone (length rs) ++ [w] -> filter life (log s) = whole_runs rs ++ t -> so_far (length rs) w t -> result s = None ->
    taken s = holds (ctl s) || has_mutex w -> holds (ctl s) && has_mutex w = false -> handle s = Some (length rs) -> phase s.
Record sound (l : list event) : Prop := {
  s_answer : forall l1 l2 b, l = l1 ++ Answer b :: l2 -> b = running l1;
  s_refused : forall l1 l2, l = l1 ++ Refused :: l2 -> running l1 = true;
  s_started : forall l1 l2 i, l = l1 ++ Started i :: l2 -> running l1 = false;
  s_got : forall l1 l2 r, l = l1 ++ Got r :: l2 -> r = if running l1 then None else last_result l1;
  s_returned : forall l1 l2, l = l1 ++ Returned true :: l2 -> running l1 = false;
  s_loop : forall l1 l2 i, l = l1 ++ Loop i :: l2 -> asked l1 = false }.
Record inv (s : state) : Prop := {
  i_phase : phase s;
  i_sound : sound (log s);
  i_stop : stop s = asked (log s);
  i_rel : forall k b, ctl s = CRel k b -> k <> Start -> b = started s }.

Lemma whole_snoc : forall (rs : list A) r, whole_runs (rs ++ [r]) = whole_runs rs ++ one_run (length rs, r).
Proof.
  intros rs r. unfold whole_runs. rewrite app_length. cbn [length]. rewrite seq_app. cbn [seq plus].
  assert (C : forall (l l' : list nat) (a a' : list A), length l = length a -> combine (l ++ l') (a ++ a') = combine l a ++ combine l' a').
  { induction l as [|x l IH]; intros l' [|y a] a' E; try discriminate; [reflexivity|]. cbn [app combine]. rewrite IH by (injection E; auto). reflexivity. }
  rewrite C by apply seq_length. rewrite flat_map_app. cbn [combine flat_map]. rewrite app_nil_r. reflexivity.
Qed.
Lemma running_whole : forall l (rs : list A), filter life l = whole_runs rs -> running l = false /\ last_result l = nth_error (rev rs) 0.
Proof.
  intros l rs E. unfold running, last_result. rewrite E. destruct rs as [|r rs _] using rev_ind; [split; reflexivity|]. rewrite whole_snoc, rev_app_distr, rev_app_distr. cbn. split; reflexivity.
Qed.
Lemma running_cut : forall l (rs : list A) w t, filter life l = whole_runs rs ++ t -> so_far (length rs) w t -> running l = true.
Proof.
  intros l rs w t E C. unfold running. rewrite E, rev_app_distr. destruct w; cbn [so_far] in C; subst; try destruct C; reflexivity.
Qed.
Lemma phase_running : forall s, phase s -> running (log s) = started s /\ (started s = false -> last_result (log s) = result s).
Proof.
  intros s [rs S W F R T H|rs w t S W F C R T M H].
  - destruct (running_whole _ _ F) as [E1 E2]. rewrite S, E1, E2, R. auto.
  - rewrite (running_cut _ _ _ _ F C), S. split; [reflexivity|discriminate].
Qed.
Lemma snoc_split : forall (l l1 l2 : list event) e e', l ++ [e] = l1 ++ e' :: l2 -> (l2 = [] /\ l1 = l /\ e' = e) \/ exists l3, l = l1 ++ e' :: l3.
Proof.
  intros l l1 l2 e e' E. destruct l2 as [|x l2 _] using rev_ind.
  - left. apply app_inj_tail in E. destruct E as [-> ->]. auto.
  - right. rewrite app_comm_cons, app_assoc in E. apply app_inj_tail in E. destruct E as [-> _]. exists l2. reflexivity.
Qed.
Lemma sound_snoc : forall l e, sound l ->
  match e with
  | Answer b => b = running l
  | Refused => running l = true
  | Started _ => running l = false
  | Got r => r = if running l then None else last_result l
  | Returned true => running l = false
  | Loop _ => asked l = false
  | _ => True
  end -> sound (l ++ [e]).
Proof.
  intros l e S H. split.
  - intros l1 l2 b E. apply snoc_split in E. destruct E as [(-> & -> & <-)|(l3 & E)]; [exact H|apply (s_answer l S l1 l3 b E)].
  - intros l1 l2 E. apply snoc_split in E. destruct E as [(-> & -> & <-)|(l3 & E)]; [exact H|apply (s_refused l S l1 l3 E)].
  - intros l1 l2 i E. apply snoc_split in E. destruct E as [(-> & -> & <-)|(l3 & E)]; [exact H|apply (s_started l S l1 l3 i E)].
  - intros l1 l2 r E. apply snoc_split in E. destruct E as [(-> & -> & <-)|(l3 & E)]; [exact H|apply (s_got l S l1 l3 r E)].
  - intros l1 l2 E. apply snoc_split in E. destruct E as [(-> & -> & <-)|(l3 & E)]; [exact H|apply (s_returned l S l1 l3 E)].
  - intros l1 l2 i E. apply snoc_split in E. destruct E as [(-> & -> & <-)|(l3 & E)]; [exact H|apply (s_loop l S l1 l3 i E)].
Qed.
Lemma asked_snoc : forall (l : list event) e, asked (l ++ [e]) = match e with Request => true | Begin _ => false | _ => asked l end.
Proof. intros l e. unfold asked. rewrite fold_left_app. reflexivity. Qed.
Lemma life_snoc : forall (l : list event) e, filter life (l ++ [e]) = if life e then filter life l ++ [e] else filter life l.
Proof. intros l e. rewrite filter_app. cbn [filter]. destruct (life e); [reflexivity|apply app_nil_r]. Qed.
Lemma inv_init : forall l, inv (init l).
Proof.
  intros l. split; cbn [init log stop ctl].
  - apply rest with (@nil A); try reflexivity. intros i [=].
  - split; intros l1 l2; try intros x; destruct l1; discriminate.
  - reflexivity.
  - discriminate.
Qed.
Lemma last_worker : forall n (w : worker), nth_error (repeat WGone n ++ [w]) n = Some w.
Proof. intros n w. rewrite nth_error_app2 by (rewrite repeat_length; lia). rewrite repeat_length, Nat.sub_diag. reflexivity. Qed.
Lemma early_worker : forall n (w x : worker) i, nth_error (repeat WGone n ++ [w]) i = Some x -> x = WGone \/ (i = n /\ x = w).
Proof.
  intros n w x i E. destruct (lt_dec i n) as [L|L].
  - rewrite nth_error_app1 in E by (rewrite repeat_length; exact L). left. apply nth_error_In in E. apply repeat_spec in E. exact E.
  - destruct (Nat.eq_dec i n) as [->|N]; [rewrite last_worker in E; right; split; congruence|]. exfalso. assert (H : nth_error (repeat (@WGone A) n ++ [w]) i <> None) by congruence. apply nth_error_Some in H. rewrite app_length, repeat_length in H. cbn in H. lia.
Qed.
Lemma set_last : forall n (w x : worker), set_worker (repeat WGone n ++ [w]) n x = repeat WGone n ++ [x].
Proof.
  intros n w x. unfold set_worker. rewrite firstn_app, repeat_length, Nat.sub_diag, firstn_all2 by (rewrite repeat_length; lia). cbn [firstn]. rewrite app_nil_r. f_equal.
  rewrite skipn_all2; [reflexivity|]. rewrite app_length, repeat_length. cbn [length]. lia.
Qed.
Lemma repeat_snoc : forall (w : worker) n, repeat w n ++ [w] = repeat w (S n).
Proof. intros w n. induction n as [|n IH]; [reflexivity|]. cbn [repeat app] in *. rewrite IH. reflexivity. Qed.

(** Steps of the controlling thread that do not change the runs. *)
Lemma phase_same : forall s s', phase s -> started s' = started s -> workers s' = workers s -> filter life (log s') = filter life (log s) -> result s' = result s ->
  (taken s = holds (ctl s) -> taken s' = holds (ctl s')) -> (forall w, has_mutex w = true -> taken s = holds (ctl s) || has_mutex w -> holds (ctl s) = false -> taken s' = true /\ holds (ctl s') = false) ->
  (handle s' = handle s \/ (started s = false /\ handle s' = None)) -> phase s'.
Proof.
  intros s s' P E1 E2 E3 E4 T1 T2 HD. destruct P as [rs S W F R T H|rs w t S W F C R T M H].
  - apply rest with rs; try congruence; [apply T1, T|]. intros i E. destruct HD as [HD|[_ HD]]; [apply H; congruence|congruence].
  - destruct HD as [HD|[HD _]]; [|congruence]. destruct (has_mutex w) eqn:EM.
    + rewrite andb_true_r in M. destruct (T2 w EM) as [X Y]; [rewrite EM; exact T|exact M|]. apply busy with rs w t; try congruence; [rewrite X, Y, EM; reflexivity|rewrite Y; reflexivity].
    + rewrite orb_false_r in T. apply busy with rs w t; try congruence; [rewrite EM, orb_false_r; apply T1, T|rewrite EM, andb_false_r; reflexivity].
Qed.
Lemma inv_control : forall s s', inv s -> control_step s = Some s' -> inv s'.
Proof.
  intros s s' [P S ST RL] E. destruct (phase_running s P) as [RUN LAST]. unfold control_step in E. destruct (ctl s) as [|k|k b|w|] eqn:EC.
  - (* a call begins *)
    destruct (calls s) as [|k l]; [discriminate|]. unfold lock in E. destruct (taken s) eqn:ET; [discriminate|]. injection E as <-. split; cbn [log stop ctl]; [|exact S|exact ST|discriminate].
    apply (phase_same s); cbn [started workers log result taken ctl handle holds]; auto. intros w MW T _. rewrite ET, MW, orb_true_r in T. discriminate.
  - assert (Q : forall k, k <> Start -> Some (State (started s) (result s) (stop s) (taken s) (handle s) (workers s) (CRel k (started s)) (calls s) (log s)) = Some s' -> inv s').
    { intros k' N F. injection F as <-. split; cbn [log stop ctl started]; [|exact S|exact ST|intros k0 b [= _ <-] _; reflexivity].
      apply (phase_same s); cbn [started workers log result taken ctl handle holds]; auto; [intros T; rewrite T, EC; reflexivity|]. intros w MW T H. rewrite EC in H. discriminate. }
    destruct k as [| |w|]; try (refine (Q _ _ E); discriminate). clear Q. destruct (started s) eqn:ES; injection E as <-.
    + split; cbn [log stop ctl]; [|apply sound_snoc; [exact S|exact RUN]|rewrite asked_snoc; exact ST|intros k b [= <- _] N; contradiction].
      apply (phase_same s); cbn [started workers log result taken ctl handle holds]; auto; [rewrite life_snoc; reflexivity|intros T; rewrite T, EC; reflexivity|]. intros w MW T H. rewrite EC in H. discriminate.
    + destruct P as [rs P1 W F R T H|rs w t P1 W F C R T M H]; [|congruence].
      assert (LW : length (workers s) = length rs) by (rewrite W; apply repeat_length). split; cbn [log stop ctl]; [|apply sound_snoc; [exact S|exact RUN]|rewrite asked_snoc; exact ST|intros k b [= <- _] N; contradiction].
      apply busy with rs WNew [Started (length rs)]; cbn [started workers log result taken ctl handle holds has_mutex so_far]; try reflexivity.
      * rewrite W. reflexivity.
      * rewrite life_snoc, LW, F. reflexivity.
      * rewrite T, EC. reflexivity.
      * rewrite LW. reflexivity.
  - (* and gives the mutex back *)
    assert (U : forall c e, holds c = false -> (forall x, e <> [x] \/ life x = false) -> e = [] \/ (exists x, e = [x] /\ life x = false /\ sound (log s ++ [x]) /\ asked (log s ++ [x]) = asked (log s)) -> (forall k b, c <> CRel k b) -> inv (unlock s c e)).
    { intros c e HC _ HE NR. split; cbn [unlock log stop ctl].
      - apply (phase_same s); cbn [unlock started workers log result taken ctl handle]; auto.
        + destruct HE as [->|(x & -> & LX & _)]; [rewrite app_nil_r; reflexivity|]. rewrite life_snoc, LX. reflexivity.
        + intros w MW T H. rewrite EC in H. discriminate.
      - destruct HE as [->|(x & -> & LX & SX & _)]; [rewrite app_nil_r; exact S|exact SX].
      - destruct HE as [->|(x & -> & LX & _ & AX)]; [rewrite app_nil_r; exact ST|rewrite AX; exact ST].
      - intros k0 b0 X. exfalso. apply (NR k0 b0 X). }
    assert (ON : forall (x : event), (forall y, [x] <> [y] \/ life y = false) \/ True) by auto. clear ON.
    destruct k as [| |w|]; injection E as <-.
    + apply U; [reflexivity|intros x; left; discriminate|left; reflexivity|discriminate].
    + assert (B : b = started s) by (apply (RL IsRunning b eq_refl); discriminate). apply U; [reflexivity| |right; exists (Answer b); split; [reflexivity|split; [reflexivity|split; [apply sound_snoc; [exact S|congruence]|rewrite asked_snoc; reflexivity]]]|discriminate].
      intros x. destruct (life x) eqn:L; [left; intros [= <-]; discriminate|right; reflexivity].
    + assert (B : b = started s) by (apply (RL (Interrupt w) b eq_refl); discriminate). destruct b.
      * apply U; [reflexivity|intros x; left; discriminate|left; reflexivity|discriminate].
      * apply U; [reflexivity| |right; exists (Returned w); split; [reflexivity|split; [reflexivity|split; [apply sound_snoc; [exact S|destruct w; [congruence|exact I]]|rewrite asked_snoc; reflexivity]]]|discriminate].
        intros x. destruct (life x) eqn:L; [left; intros [= <-]; discriminate|right; reflexivity].
    + assert (B : b = started s) by (apply (RL Result b eq_refl); discriminate). apply U; [reflexivity| |right; exists (Got (if b then None else result s)); split; [reflexivity|split; [reflexivity|split; [apply sound_snoc; [exact S|]|rewrite asked_snoc; reflexivity]]]|discriminate].
      * intros x. destruct (life x) eqn:L; [left; intros [= <-]; discriminate|right; reflexivity].
      * rewrite RUN, <- B. destruct b; [reflexivity|]. symmetry. apply LAST. congruence.
  - (* stopExecution *)
    injection E as <-. split; cbn [log stop ctl].
    + apply (phase_same s); cbn [started workers log result taken ctl handle]; auto.
      * rewrite filter_app. destruct w; cbn [filter life]; rewrite app_nil_r; reflexivity.
      * intros T. rewrite T, EC. destruct w; reflexivity.
      * intros v MV T H. rewrite T, MV, orb_true_r. split; [reflexivity|destruct w; reflexivity].
    + assert (S1 : sound (log s ++ [Request])) by (apply sound_snoc; [exact S|exact I]). destruct w; [exact S1|]. change (log s ++ Request :: [Returned false]) with (log s ++ [Request] ++ [Returned false]). rewrite app_assoc. apply sound_snoc; [exact S1|exact I].
    + destruct w; [rewrite asked_snoc; reflexivity|]. change (log s ++ Request :: [Returned false]) with (log s ++ [Request] ++ [Returned false]). rewrite app_assoc, !asked_snoc. reflexivity.
    + destruct w; discriminate.
  - (* join *)
    assert (OFF : (handle s = None \/ exists i, handle s = Some i /\ nth_error (workers s) i = Some WGone) -> started s = false).
    { intros HH. destruct P as [rs P1 W F R T H|rs v t P1 W F C R T M H]; [exact P1|]. exfalso. destruct HH as [HH|(i & H1 & H2)]; [congruence|]. assert (i = length rs) by congruence. subst i. rewrite W, last_worker in H2. injection H2 as ->. exact C. }
    assert (BACK : started s = false -> inv (State (started s) (result s) (stop s) (taken s) None (workers s) CIdle (calls s) (log s ++ [Returned true]))).
    { intros SF. split; cbn [log stop ctl]; [|apply sound_snoc; [exact S|congruence]|rewrite asked_snoc; exact ST|discriminate].
      apply (phase_same s); cbn [started workers log result taken ctl handle]; auto; [rewrite life_snoc; reflexivity|intros T; rewrite T, EC; reflexivity|]. intros v MV T H. rewrite T, MV, orb_true_r. auto. }
    destruct (handle s) as [i|] eqn:EH.
    + destruct (nth_error (workers s) i) as [v|] eqn:EW; [|discriminate]. destruct v; try discriminate. injection E as <-. apply BACK, OFF. right. exists i. auto.
    + injection E as <-. apply BACK, OFF. left. reflexivity.
Qed.
Lemma inv_work : forall i more res s s', inv s -> work_step i more res s = Some s' -> inv s'.
Proof.
  intros i more res s s' [P S ST RL] E. destruct (phase_running s P) as [RUN LAST]. unfold work_step in E. destruct (nth_error (workers s) i) as [w|] eqn:EW; [|discriminate].
  assert (NG : w = WGone \/ started s = true) by (destruct P as [rs P1 W F R T H|]; [left; rewrite W in EW; apply nth_error_In, repeat_spec in EW; exact EW|right; assumption]).
  destruct NG as [->|ON]; [discriminate|]. destruct P as [rs P1 W F R T H|rs v t P1 W F C R T M H]; [congruence|].
  assert (NW : w = WGone \/ (i = length rs /\ w = v)) by (rewrite W in EW; apply early_worker in EW; exact EW). destruct NW as [->|[-> ->]]; [discriminate|].
  destruct v as [| |r|r|]; cbn [so_far has_mutex] in *.
  - injection E as <-. split; cbn [log stop ctl started]; [|apply sound_snoc; [exact S|exact I]|rewrite asked_snoc; reflexivity|intros k b X N; rewrite ON; symmetry; rewrite <- ON; symmetry; apply (RL k b X N)].
    apply busy with rs WPlan [Started (length rs); Begin (length rs)]; cbn [started workers log result taken ctl handle has_mutex so_far]; auto.
    + rewrite W. apply set_last.
    + rewrite life_snoc, F, C. cbn [life]. rewrite <- app_assoc. reflexivity.
  - destruct (negb (stop s) && more) eqn:EL; injection E as <-.
    + apply andb_true_iff in EL. destruct EL as [EL _]. apply negb_true_iff in EL. split; cbn [log stop ctl started]; [|apply sound_snoc; [exact S|congruence]|rewrite asked_snoc; exact ST|exact RL].
      apply busy with rs WPlan t; cbn [started workers log result taken ctl handle has_mutex so_far]; auto; [rewrite W; apply set_last|]. rewrite life_snoc. exact F.
    + split; cbn [log stop ctl started]; [|apply sound_snoc; [exact S|exact I]|rewrite asked_snoc; exact ST|exact RL].
      apply busy with rs (WEnd res) (t ++ [End (length rs) res]); cbn [started workers log result taken ctl handle has_mutex so_far]; auto.
      * rewrite W. apply set_last.
      * rewrite life_snoc, F. cbn [life]. rewrite app_assoc. reflexivity.
      * rewrite C. reflexivity.
  - destruct (taken s) eqn:ET; [discriminate|]. rewrite orb_false_r in T. injection E as <-. split; cbn [log stop ctl started]; [|exact S|exact ST|exact RL].
    apply busy with rs (WHold r) t; cbn [started workers log result taken ctl handle has_mutex so_far]; auto.
    + rewrite W. apply set_last.
    + rewrite <- T. reflexivity.
    + rewrite <- T. reflexivity.
  - injection E as <-. rewrite andb_true_r in M. split; cbn [log stop ctl started]; [|apply sound_snoc; [exact S|exact I]|rewrite asked_snoc; exact ST|].
    + apply rest with (rs ++ [r]); cbn [started workers log result taken ctl handle]; auto.
      * rewrite W, set_last, repeat_snoc, app_length. cbn [length]. rewrite Nat.add_1_r. reflexivity.
      * rewrite life_snoc, F, C, whole_snoc. cbn [life]. rewrite <- app_assoc. reflexivity.
      * rewrite rev_app_distr. reflexivity.
      * intros j X. rewrite H in X. injection X as <-. rewrite app_length. cbn. lia.
    + intros k b X. rewrite X in M. discriminate.
  - discriminate.
Qed.
Lemma inv_run : forall l s s', inv s -> run l s = Some s' -> inv s'.
Proof.
  induction l as [|c l IH]; intros s s' I E; cbn [run] in E; [injection E as <-; exact I|]. destruct (step c s) as [t|] eqn:F; [|discriminate]. apply (IH t s'); [|exact E].
  destruct c as [|i more res]; [apply (inv_control s t I F)|apply (inv_work i more res s t I F)].
Qed.
Lemma reachable : forall cs l (s : state), run l (init cs) = Some s -> inv s.
Proof. intros cs l s E. apply (inv_run l (init cs) s); [apply inv_init|exact E]. Qed.

Lemma run_order : forall cs l (s : state), run l (init cs) = Some s -> in_order (log s).
Proof.
  intros cs l s E. destruct (i_phase s (reachable cs l s E)) as [rs S W F R T H|rs w t S W F C R T M H].
  - exists rs, []. rewrite app_nil_r. split; [exact F|left; reflexivity].
  - exists rs, t. split; [exact F|]. destruct w as [| |r|r|]; cbn [so_far] in C; unfold cut; try tauto; right; right; right; exists r; exact C.
Qed.
Lemma run_gone : forall cs l (s : state), run l (init cs) = Some s -> running (log s) = false -> Forall (eq WGone) (workers s).
Proof.
  intros cs l s E N. pose proof (i_phase s (reachable cs l s E)) as P. destruct (phase_running s P) as [RUN _]. destruct P as [rs S W F R T H|rs w t S W F C R T M H]; [|congruence].
  rewrite W. apply Forall_forall. intros x X. symmetry. apply (repeat_spec _ _ _ X).
Qed.
Lemma run_progress : forall (a : A) cs l (s : state), run l (init cs) = Some s -> (exists c s', step c s = Some s') \/ (calls s = [] /\ ctl s = CIdle /\ Forall (eq WGone) (workers s)).
Proof.
  intros a cs l s E. pose proof (reachable cs l s E) as I. pose proof (i_phase s I) as P.
  assert (ML : forall c, (exists s', step c s = Some s') -> (exists c s', step c s = Some s') \/ (calls s = [] /\ ctl s = CIdle /\ Forall (eq WGone) (workers s))) by (intros c X; left; exists c; exact X).
  destruct P as [rs S W F R T H|rs w t S W F C R T M H].
  - destruct (ctl s) as [|k|k b|w|] eqn:EC; cbn [holds] in T.
    + destruct (calls s) as [|k cl] eqn:EL; [right; split; [reflexivity|split; [reflexivity|rewrite W; apply Forall_forall; intros x X; symmetry; apply (repeat_spec _ _ _ X)]]|].
      apply (ML Control). cbn [step]. unfold control_step, lock. rewrite EC, EL, T. eexists; reflexivity.
    + apply (ML Control). cbn [step]. unfold control_step. rewrite EC. destruct k; try (eexists; reflexivity). destruct (started s); eexists; reflexivity.
    + apply (ML Control). cbn [step]. unfold control_step. rewrite EC. destruct k; eexists; reflexivity.
    + apply (ML Control). cbn [step]. unfold control_step. rewrite EC. eexists; reflexivity.
    + apply (ML Control). cbn [step]. unfold control_step. rewrite EC. destruct (handle s) as [i|] eqn:EH; [|eexists; reflexivity]. rewrite W.
      assert (N : nth_error (repeat (@WGone A) (length rs)) i = Some WGone) by (rewrite <- (H i eq_refl); clear; induction i as [|i IH]; [reflexivity|exact IH]). rewrite N. eexists; reflexivity.
  - destruct (holds (ctl s)) eqn:HC.
    + apply (ML Control). cbn [step]. unfold control_step. destruct (ctl s) as [|k|k b|v|] eqn:EC; try discriminate; destruct k; try (eexists; reflexivity). destruct (started s); eexists; reflexivity.
    + apply (ML (Work (length rs) false a)). cbn [step]. unfold work_step. rewrite W, last_worker. destruct w as [| |r|r|]; cbn [so_far has_mutex orb] in *; try (eexists; reflexivity).
      * rewrite andb_false_r. eexists; reflexivity.
      * rewrite T. eexists; reflexivity.
      * destruct C.
Qed.
(** While stop() waits for a planner that has seen the request, few steps remain. *)
Definition left_to_do (w : worker) : nat := match w with WPlan => 4 | WEnd _ => 3 | WHold _ => 2 | _ => 1 end.
Inductive waiting (s : state) : nat -> Prop :=
| w_busy : forall n w, ctl s = CJoin -> stop s = true -> workers s = repeat WGone n ++ [w] -> w <> WNew -> handle s = Some n -> waiting s (left_to_do w)
| w_rest : forall n, ctl s = CJoin -> workers s = repeat WGone n -> (forall i, handle s = Some i -> i < n) -> waiting s 1.
Lemma waiting_step : forall c s s' k, waiting s k -> step c s = Some s' -> (exists e, log s' = log s ++ e /\ In (Returned true) e) \/ (exists e k', log s' = log s ++ e /\ waiting s' k' /\ k' < k).
Proof.
  intros c s s' k W E. destruct W as [n w EC ES EW NW EH|n EC EW EH]; destruct c as [|i more res]; cbn [step] in E.
  - unfold control_step in E. rewrite EC, EH, EW, last_worker in E. destruct w; try discriminate. injection E as <-. left. exists [Returned true]. split; [reflexivity|left; reflexivity].
  - right. unfold work_step in E. rewrite ES in E. destruct (nth_error (workers s) i) as [x|] eqn:X; [|discriminate]. rewrite EW in X. apply early_worker in X. destruct X as [->|[-> ->]]; [discriminate|]. destruct w as [| |r|r|].
    + contradiction.
    + cbn [negb andb] in E. injection E as <-. exists [End n res], 3. split; [reflexivity|split; [|cbn; lia]]. apply (w_busy _ n (WEnd res)); cbn; auto; [rewrite EW; apply set_last|discriminate].
    + destruct (taken s); [discriminate|]. injection E as <-. exists [], 2. split; [cbn; rewrite app_nil_r; reflexivity|split; [|cbn; lia]]. apply (w_busy _ n (WHold r)); cbn; auto; [rewrite EW; apply set_last|discriminate].
    + injection E as <-. exists [Over n], 1. split; [reflexivity|split; [|cbn; lia]]. apply (w_busy _ n WGone); cbn; auto; [rewrite EW; apply set_last|discriminate].
    + discriminate.
  - unfold control_step in E. rewrite EC in E. left. exists [Returned true]. destruct (handle s) as [i|]; [destruct (nth_error (workers s) i) as [[]|]; try discriminate|]; injection E as <-; (split; [reflexivity|left; reflexivity]).
  - exfalso. unfold work_step in E. destruct (nth_error (workers s) i) as [x|] eqn:X; [|discriminate]. rewrite EW in X. apply nth_error_In, repeat_spec in X. subst x. discriminate.
Qed.
Lemma step_log : forall c (s s' : state), step c s = Some s' -> exists e, log s' = log s ++ e.
Proof.
  intros c s s' E. destruct c as [|i more res]; cbn [step] in E.
  - unfold control_step, lock, unlock in E. destruct (ctl s) as [|k|k b|w|].
    + destruct (calls s); [discriminate|]. destruct (taken s); [discriminate|]. injection E as <-. exists []. symmetry. apply app_nil_r.
    + destruct k; try (injection E as <-; exists []; symmetry; apply app_nil_r). destruct (started s); injection E as <-; eexists; reflexivity.
    + destruct k; try destruct b; injection E as <-; eexists; reflexivity.
    + injection E as <-; eexists; reflexivity.
    + destruct (handle s) as [i|]; [destruct (nth_error (workers s) i) as [[]|]; try discriminate|]; injection E as <-; eexists; reflexivity.
  - unfold work_step in E. destruct (nth_error (workers s) i) as [[]|]; try discriminate; try (injection E as <-; eexists; reflexivity).
    + destruct (negb (stop s) && more); injection E as <-; eexists; reflexivity.
    + destruct (taken s); [discriminate|]. injection E as <-. exists []. symmetry. apply app_nil_r.
Qed.
Lemma run_log : forall l (s s' : state), run l s = Some s' -> exists e, log s' = log s ++ e.
Proof.
  induction l as [|c l IH]; intros s s' E; cbn [run] in E; [injection E as <-; exists []; symmetry; apply app_nil_r|]. destruct (step c s) as [t|] eqn:F; [|discriminate].
  destruct (step_log c s t F) as [e1 E1]. destruct (IH t s' E) as [e2 E2]. exists (e1 ++ e2). rewrite E2, E1, app_assoc. reflexivity.
Qed.
Lemma waiting_run : forall l s s' k, waiting s k -> run l s = Some s' -> k <= length l -> exists e, log s' = log s ++ e /\ In (Returned true) e.
Proof.
  induction l as [|c l IH]; intros s s' k W E L; cbn [run length] in *.
  - exfalso. destruct W as [n w ? ? ? ? ?|]; [destruct w; cbn in L; lia|lia].
  - destruct (step c s) as [t|] eqn:F; [|discriminate]. destruct (waiting_step c s t k W F) as [(e & E1 & I)|(e & k' & E1 & W' & LT)].
    + destruct (run_log l t s' E) as [e2 E2]. exists (e ++ e2). rewrite E2, E1, app_assoc. split; [reflexivity|apply in_or_app; left; exact I].
    + destruct (IH t s' k' W' E) as (e2 & E2 & I); [lia|]. exists (e ++ e2). rewrite E2, E1, app_assoc. split; [reflexivity|apply in_or_app; right; exact I].
Qed.
Lemma run_stops : forall cs l (s : state) l' s', run l (init cs) = Some s -> ctl s = CJoin -> asked (log s) = true -> begun (log s) = true -> run l' s = Some s' -> 4 <= length l' -> exists e, log s' = log s ++ e /\ In (Returned true) e.
Proof.
  intros cs l s l' s' E EC AS BG E' L. pose proof (reachable cs l s E) as I. pose proof (i_stop s I) as ST. rewrite AS in ST. destruct (i_phase s I) as [rs S W F R T H|rs w t S W F C R T M H].
  - apply (waiting_run l' s s' 1); [|exact E'|lia]. apply w_rest with (length rs); auto. intros i X. rewrite <- (H i X). lia.
  - apply (waiting_run l' s s' (left_to_do w)); [|exact E'|destruct w; cbn; lia]. apply w_busy with (length rs); auto. intros ->. cbn [so_far] in C. subst t. unfold begun in BG. rewrite F, rev_app_distr in BG. discriminate.
Qed.
Lemma loops : forall n (a : A) s i, nth_error (workers s) i = Some WPlan -> stop s = false -> exists s', run (repeat (Work i true a) n) s = Some s' /\ ctl s' = ctl s /\ log s' = log s ++ repeat (Loop i) n.
Proof.
  induction n as [|n IH]; intros a s i W ST; [exists s; cbn; rewrite app_nil_r; auto|]. cbn [repeat run step]. unfold work_step. rewrite W, ST. cbn [negb andb].
  match goal with |- exists s', run _ ?t = _ /\ _ => destruct (IH a t i) as (s' & E1 & E2 & E3) end; cbn [workers stop].
  - unfold set_worker. assert (L : i < length (workers s)) by (apply nth_error_Some; congruence). rewrite nth_error_app2 by (rewrite firstn_length; lia). rewrite firstn_length, Nat.min_l by lia. rewrite Nat.sub_diag. reflexivity.
  - reflexivity.
  - exists s'. split; [exact E1|]. cbn [ctl log] in *. rewrite E2, E3. split; [reflexivity|]. rewrite <- app_assoc. reflexivity.
Qed.
Lemma lost : forall n (a : A), exists l (s : state), run l (init [Start; Interrupt true]) = Some s /\ log s = [Started 0; Request; Begin 0] ++ repeat (Loop 0) n /\ ctl s = CJoin.
Proof.
  intros n a. assert (RA : forall (l l' : list (choice A)) s t, run l s = Some t -> run (l ++ l') s = run l' t).
  { induction l as [|c l IH]; intros l' s t E; cbn [run app] in *; [injection E as <-; reflexivity|]. destruct (step c s); [apply IH, E|discriminate]. }
  pose (pre := [Control; Control; Control; Control; Control; Control; Control; Work 0 true a]).
  destruct (run pre (init [Start; Interrupt true])) as [t|] eqn:E; [|discriminate E]. pose proof E as E0. vm_compute in E0. injection E0 as <-.
  match type of E with _ = Some ?t => destruct (loops n a t 0 eq_refl eq_refl) as (s' & E1 & E2 & E3) end.
  exists (pre ++ repeat (Work 0 true a) n), s'. rewrite (RA _ _ _ _ E). auto.
Qed.
End Proofs.
