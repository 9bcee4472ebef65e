(** Proofs about the grasp planner. *)
From Coq Require Import List ZArith QArith Bool Arith Lia.
From Verif Require Import GplModel GplSpec.
Import ListNotations.
Open Scope Z_scope.

Lemma count_app a b : count (a ++ b) = count a + count b.
Proof. induction a as [|x a IH]; [reflexivity|]. cbn [app count]. rewrite IH. lia. Qed.
Lemma record_consistent v ms x : consistent x -> consistent (record v ms x).
Proof.
  intros (A & B & C & D & E & F & G & H & I & K & L & M). unfold consistent, record.
  cbn [n_generated n_valid n_collision n_fc n_contacts n_precision n_power times scores valids powers]. rewrite !app_length, count_app. cbn [length count].
  split; [destruct v; lia|]. split; [lia|]. split; [lia|]. split; [lia|]. split; [lia|]. split; [destruct v; lia|].
  split; [apply Forall_app; split; [exact G|constructor; [reflexivity|constructor]]|]. destruct v; lia.
Qed.

Section P.
Context {W C P J : Type} (e : env W C P J).
Implicit Types p : planner W C P J.

Lemma move_away_true n w w2 : move_away e n w = (w2, true) ->
  exists w1 w', w' = retreat e (open_hand e w1) /\ hits_object e w' = false /\ (2 <= length (snd (close e w')))%nat /\ w2 = open_hand e (fst (close e w')).
Proof.
  revert w. induction n as [|n IH]; intros w H; cbn [move_away] in H; [discriminate H|].
  destruct (hits_object e (retreat e (open_hand e w))) eqn:O; [discriminate H|].
  destruct (close e (retreat e (open_hand e w))) as [w3 cs] eqn:K. destruct (Nat.leb_spec 2 (length cs)) as [L|L].
  - injection H as <-. exists w, (retreat e (open_hand e w)). rewrite K. cbn [fst snd]. auto.
  - apply (IH _ H).
Qed.
Lemma grip_closes w w' cs : grip e w = (w', cs) -> closes e w w' cs.
Proof. unfold grip, closes. destruct (close e w) as [v c]. intros H. injection H as <- <-. cbn [fst snd]. auto. Qed.

Definition frame p p' : Prop := grasp_set p' = grasp_set p /\ planned p' = planned p /\ min_quality p' = min_quality p /\ force_closure p' = force_closure p /\ retreat_on_low p' = retreat_on_low p.

Lemma plan_grasp_ok obs p r p' : plan_grasp e obs p = (r, p') ->
  frame p p' /\ ticks p' = S (S (ticks p)) /\
  (exists v ms, eval p' = record v ms (eval p) /\ match r with Some g => v = Good (g_quality g) | None => forall s, v <> Good s end) /\
  match r with Some g => sound e obs (min_quality p) (force_closure p) g /\ g_number g = (length (grasp_set p) + 1)%nat | None => True end.
Proof.
  unfold plan_grasp. destruct (random_pose e (world p)) as [w0 ok0] eqn:R.
  set (ok1 := ok0 && negb (obs && hits_obstacle e w0)).
  match goal with |- context [if ok1 then ?t else ?f] => set (grab := if ok1 then t else f) end.
  assert (G : forall w cs ok, grab = (w, cs, ok) -> ok = true -> (2 <= length cs)%nat -> exists before, closes e before w cs /\ (obs = true -> hits_obstacle e w = false) /\
    ((exists w', random_pose e w' = (before, true) /\ (obs = true -> hits_obstacle e before = false)) \/
     (exists w1 w', w' = retreat e (open_hand e w1) /\ hits_object e w' = false /\ (2 <= length (snd (close e w')))%nat /\ before = open_hand e (fst (close e w'))))).
  { intros w cs ok. unfold grab. destruct ok1 eqn:O1; [|intros H ->; discriminate H]. unfold ok1 in O1. apply andb_prop in O1 as [-> O1].
    assert (OB : obs = true -> hits_obstacle e w0 = false) by (intros ->; cbn [andb] in O1; destruct (hits_obstacle e w0); [discriminate O1|reflexivity]).
    destruct (grip e w0) as [w1 cs1] eqn:G1. destruct (retreat_on_low p && (length cs1 <? 2)%nat) eqn:RL.
    - apply andb_prop in RL as [_ RL]. apply Nat.ltb_lt in RL. destruct (move_away e 10 w1) as [w2 moved] eqn:M. destruct moved.
      + destruct (grip e w2) as [w3 cs3] eqn:G3. intros H -> L. injection H as <- <- N. exists w2. split; [exact (grip_closes _ _ _ G3)|]. split.
        * intros ->. cbn [andb] in N. destruct (hits_obstacle e w3); [discriminate N|reflexivity].
        * right. exact (move_away_true _ _ _ M).
      + intros H -> L. injection H as <- <- N. lia.
    - intros H -> L. injection H as <- <- N. exists w0. split; [exact (grip_closes _ _ _ G1)|]. split.
      + intros ->. cbn [andb] in N. destruct (hits_obstacle e w1); [discriminate N|reflexivity].
      + left. exists (world p). split; [exact R|exact OB]. }
  clearbody grab. destruct grab as [[w cs] ok]. intros H. injection H as <- <-. split; [repeat split|]. split; [reflexivity|].
  cbn [eval]. specialize (G w cs ok eq_refl).
  destruct ok; cbn [negb]; [|split; [do 2 eexists; split; [reflexivity|discriminate]|exact I]].
  destruct (Nat.ltb_spec (length cs) 2) as [L|L]; [split; [do 2 eexists; split; [reflexivity|discriminate]|exact I]|].
  destruct (force_closure p && negb (closure e cs)) eqn:F; [split; [do 2 eexists; split; [reflexivity|discriminate]|exact I]|].
  destruct (Qle_bool (min_quality p) (score e cs)) eqn:Q; cbn [negb]; [|split; [do 2 eexists; split; [reflexivity|discriminate]|exact I]].
  split; [do 2 eexists; split; [reflexivity|cbn; reflexivity]|]. split; [|reflexivity].
  destruct (G eq_refl L) as (before & K & OB & O). exists before, w, cs. cbn [g_pose g_joints g_quality].
  split; [exact K|]. split; [exact L|]. split; [exact OB|]. split; [reflexivity|]. split; [reflexivity|]. split; [reflexivity|]. split; [apply Qle_bool_iff, Q|].
  split; [|exact O]. intros FC. rewrite FC in F. cbn [andb] in F. destruct (closure e cs); [reflexivity|discriminate F].
Qed.

Lemma plan_loop_ok fuel nr start limit obs : forall made p m p', plan_loop e fuel nr start limit obs made p = Some (m, p') ->
  exists new, grasp_set p' = grasp_set p ++ new /\ planned p' = planned p ++ new /\ m = made + Z.of_nat (length new) /\
    Forall (sound e obs (min_quality p) (force_closure p)) new /\ map g_number new = seq (length (grasp_set p) + 1) (length new) /\
    (consistent (eval p) -> consistent (eval p')) /\ count (valids (eval p')) = count (valids (eval p)) + Z.of_nat (length new) /\
    (made <= nr -> m <= nr) /\ (m < nr -> exists t, (ticks p <= t)%nat /\ timeout start limit (clock e t) = true) /\
    min_quality p' = min_quality p /\ force_closure p' = force_closure p /\ retreat_on_low p' = retreat_on_low p.
Proof.
  induction fuel as [|fuel IH]; intros made p m p' H; cbn [plan_loop] in H; [discriminate H|].
  destruct (negb (timeout start limit (clock e (ticks p))) && (made <? nr)) eqn:G.
  - apply andb_prop in G as [_ G]. apply Z.ltb_lt in G.
    match type of H with context [plan_grasp e obs ?pp] => set (p1 := pp) in * end.
    destruct (plan_grasp e obs p1) as [r p2] eqn:E. destruct (plan_grasp_ok _ _ _ _ E) as ((F1 & F2 & F3 & F4 & F5) & T & (v & ms & EV & VR) & SR).
    cbn [grasp_set planned min_quality force_closure retreat_on_low ticks eval p1] in *.
    destruct r as [g|].
    + destruct (IH _ _ _ _ H) as (new & A & B & D & S & N & K & V & M & X & Q1 & Q2 & Q3). cbn [grasp_set planned min_quality force_closure retreat_on_low ticks eval] in *.
      exists (g :: new). destruct SR as [SR NR]. rewrite F3, F4 in *.
      split; [rewrite A, F1, <- app_assoc; reflexivity|]. split; [rewrite B, F2, <- app_assoc; reflexivity|]. split; [cbn [length]; lia|].
      split; [constructor; assumption|]. split; [cbn [map length seq]; rewrite NR, N, F1, app_length; cbn [length]; f_equal; f_equal; lia|].
      split; [intros CO; apply K; rewrite EV; apply record_consistent, CO|].
      split; [rewrite V, EV, VR; cbn [record valids]; rewrite count_app; cbn [count length]; lia|].
      split; [intros _; apply M; lia|].
      split; [intros ML; destruct (X ML) as (t & Tt & TO); exists t; split; [lia|exact TO]|]. rewrite <- F5. auto.
    + destruct (IH _ _ _ _ H) as (new & A & B & D & S & N & K & V & M & X & Q1 & Q2 & Q3).
      exists new. rewrite F1, F2, F3, F4, F5 in *. split; [exact A|]. split; [exact B|]. split; [exact D|]. split; [exact S|]. split; [exact N|].
      split; [intros CO; apply K; rewrite EV; apply record_consistent, CO|].
      split; [rewrite V, EV; cbn [record valids]; rewrite count_app; destruct v; cbn [count]; [lia|lia|lia|lia|exfalso; eapply VR; reflexivity]|].
      split; [exact M|]. split; [intros ML; destruct (X ML) as (t & Tt & TO); exists t; split; [lia|exact TO]|]. auto.
  - injection H as <- <-. cbn [grasp_set planned eval min_quality force_closure retreat_on_low]. exists []. rewrite !app_nil_r. cbn [length map seq].
    split; [reflexivity|]. split; [reflexivity|]. split; [lia|]. split; [constructor|]. split; [reflexivity|]. split; [auto|]. split; [lia|]. split; [auto|]. split; [|auto].
    intros ML. apply andb_false_iff in G as [G|G]; [|apply Z.ltb_ge in G; lia]. exists (ticks p). split; [lia|]. destruct (timeout start limit (clock e (ticks p))); [reflexivity|discriminate G].
Qed.
Lemma plan_loop_ends nr start limit obs k : (forall t, (k <= t)%nat -> timeout start limit (clock e t) = true) ->
  forall fuel made p, (k <= ticks p + fuel)%nat -> plan_loop e (S fuel) nr start limit obs made p <> None.
Proof.
  intros T. induction fuel as [|fuel IH]; intros made p L; cbn [plan_loop].
  - rewrite T by lia. discriminate.
  - destruct (negb (timeout start limit (clock e (ticks p))) && (made <? nr)); [|discriminate].
    match goal with |- context [plan_grasp e obs ?pp] => set (p1 := pp) end.
    destruct (plan_grasp e obs p1) as [r p2] eqn:E. destruct (plan_grasp_ok _ _ _ _ E) as (_ & TT & _). cbn [ticks p1] in TT.
    destruct r as [g|]; (apply IH; cbn [ticks]; lia).
Qed.
End P.
