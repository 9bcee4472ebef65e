(** Proofs for C41: the steps of the calls on a robot. *)
From Coq Require Import Reals List Bool Arith Lia.
From Verif Require Import RpyModel JointModel KinModel KinSpec KinProofs LockModel LockSpec LockProofs.
Import ListNotations.
Open Scope nat_scope.

Notation wr := (writes robot).
(** ** Locks are taken and given back in pairs *)
Definition nest (p : list step_on) : Prop := forall d q, inside robot (S d) q -> inside robot (S d) (p ++ q).
Lemma nest_nil : nest [].
Proof. intros d q H. exact H. Qed.
Lemma nest_app : forall p q, nest p -> nest q -> nest (p ++ q).
Proof. intros p q P Q d l H. rewrite <- app_assoc. apply P, Q, H. Qed.
Lemma nest_write : forall f p, nest p -> nest (Write f :: p).
Proof. intros f p P d q H. cbn [app inside]. apply P, H. Qed.
Lemma nest_look : forall p, nest p -> nest (Look :: p).
Proof. intros p P d q H. cbn [app inside]. apply P, H. Qed.
Lemma nest_held : forall b p, nest p -> nest (held b p).
Proof. intros [|] p P d q H; cbn [held]; [|apply P, H]. cbn [app inside]. rewrite <- app_assoc. apply P. cbn [app inside]. exact H. Qed.
Lemma nest_flat : forall A (f : A -> list step_on) l, (forall x, In x l -> nest (f x)) -> nest (flat_map f l).
Proof. intros A f. induction l as [|x l IH]; intros H; cbn [flat_map]; [apply nest_nil|]. apply nest_app; [apply H; left; reflexivity|]. apply IH. intros y I. apply H. right. exact I. Qed.
Lemma nest_below : forall depth r x, nest (below depth r x).
Proof. induction depth as [|depth IH]; intros r x; cbn [below]; [apply nest_nil|]. apply nest_flat. intros c _. apply nest_write, IH. Qed.
Lemma nest_update : forall b depth fuel r x, nest (update_steps b depth fuel r x).
Proof.
  intros b depth. induction fuel as [|fuel IH]; intros r x; cbn [update_steps]; [apply nest_nil|]. apply nest_app; [apply nest_held, nest_nil|]. apply nest_write. apply nest_app; [apply nest_below|].
  apply nest_flat. intros [y f] _. destruct (node_at r _); [|apply nest_nil]. apply nest_held, nest_write, IH.
Qed.
Lemma nest_values : forall qs, nest (value_steps qs).
Proof. induction qs as [|x qs IH]; cbn; [apply nest_nil|]. apply nest_write, IH. Qed.
Lemma nest_apply : forall depth r, nest (apply_steps depth r).
Proof. intros depth r. apply nest_write, nest_below. Qed.
Lemma closed_held : forall p, nest p -> closed robot (held true p).
Proof. intros p P. exists (p ++ [Unlock]). split; [reflexivity|]. apply (P 0). cbn. reflexivity. Qed.
Lemma closed_steps : forall depth fuel r k, keeps_lock k -> closed robot (steps true depth fuel r k).
Proof.
  intros depth fuel r [x q|[k|] qs|qs|qs|g|qs|g|n] K; cbn [steps]; try destruct K; apply closed_held; repeat first [apply nest_app | apply nest_write | apply nest_held | apply nest_update | apply nest_values | apply nest_below | apply nest_nil].
  induction n as [|n IH]; cbn [repeat concat]; [apply nest_nil|]. apply nest_app; [apply nest_held, nest_look, nest_nil|exact IH].
Qed.

(** ** Who looks, who writes *)
Definition silent (p : list step_on) : Prop := ~ In Look p.
Lemma silent_app : forall p q, silent p -> silent q -> silent (p ++ q).
Proof. intros p q P Q I. apply in_app_or in I. destruct I; contradiction. Qed.
Lemma silent_write : forall f p, silent p -> silent (Write f :: p).
Proof. intros f p P [I|I]; [discriminate|contradiction]. Qed.
Lemma silent_nil : silent [].
Proof. intros []. Qed.
Lemma silent_held : forall b p, silent p -> silent (held b p).
Proof. intros [|] p P; [|exact P]. intros [I|I]; [discriminate|]. apply in_app_or in I. destruct I as [I|[I|[]]]; [contradiction|discriminate]. Qed.
Lemma silent_flat : forall A (f : A -> list step_on) l, (forall x, silent (f x)) -> silent (flat_map f l).
Proof. intros A f l H I. apply in_flat_map in I. destruct I as (x & _ & I). apply (H x I). Qed.
Lemma silent_below : forall depth r x, silent (below depth r x).
Proof. induction depth as [|depth IH]; intros r x; cbn [below]; [apply silent_nil|]. apply silent_flat. intros c. apply silent_write, IH. Qed.
Lemma silent_update : forall b depth fuel r x, silent (update_steps b depth fuel r x).
Proof.
  intros b depth. induction fuel as [|fuel IH]; intros r x; cbn [update_steps]; [apply silent_nil|]. apply silent_app; [apply silent_held, silent_nil|]. apply silent_write. apply silent_app; [apply silent_below|].
  apply silent_flat. intros [y f]. destruct (node_at r _); [|apply silent_nil]. apply silent_held, silent_write, IH.
Qed.
Lemma silent_values : forall qs, silent (value_steps qs).
Proof. induction qs as [|x qs IH]; cbn; [apply silent_nil|]. apply silent_write, IH. Qed.
Lemma reads_reader : forall b depth fuel r n, reader robot (steps b depth fuel r (Reads n)).
Proof.
  intros b depth fuel r n f I. assert (N : forall m, ~ In (Write f) (concat (repeat (held b [Look]) m))).
  { induction m as [|m IH]; cbn [repeat concat]; [intros []|]. intros J. apply in_app_or in J. destruct J as [J|J]; [|contradiction]. destruct b; cbn in J; intuition discriminate. }
  cbn [steps] in I. destruct b; cbn [held] in I; [|apply (N n I)]. destruct I as [I|I]; [discriminate|]. apply in_app_or in I. destruct I as [I|[I|[]]]; [apply (N n I)|discriminate].
Qed.
Lemma look_reads : forall b depth fuel r k, In Look (steps b depth fuel r k) -> exists n, k = Reads n.
Proof.
  intros b depth fuel r k I. destruct k as [x q|[k|] qs|qs|qs|g|qs|g|n]; [| | | | | | | |exists n; reflexivity]; exfalso; revert I; cbn [steps apply_steps];
    repeat first [apply silent_held | apply silent_app | apply silent_write | apply silent_update | apply silent_values | apply silent_below | apply silent_nil].
Qed.

(** ** The steps depend on the structure only *)
Lemma below_same : forall depth r r' x, (forall y, kids r' y = kids r y) -> below depth r' x = below depth r x.
Proof. induction depth as [|depth IH]; intros r r' x K; cbn [below]; [reflexivity|]. rewrite K. apply flat_map_ext. intros c. rewrite (IH r r' c K). reflexivity. Qed.
Definition alike (r r' : robot) : Prop := same_nodes but_joint r r'.
Lemma alike_shape : forall r r', alike r r' <-> same_shape (at_pose r (rpose r')) r'.
Proof. intros r r'. split; [intros A; split; [exact A|reflexivity]|intros [A _]; exact A]. Qed.
Lemma alike_kids : forall r r' x, alike r r' -> kids r' x = kids r x.
Proof. intros r r' x A. apply alike_shape in A. rewrite (shape_kids _ _ x A). reflexivity. Qed.
Lemma alike_of_shape : forall r r', same_shape r r' -> alike r r'.
Proof. intros r r' [A _]. exact A. Qed.
Lemma alike_trans : forall a b c, alike a b -> alike b c -> alike a c.
Proof.
  intros a b c [R1 H1] [R2 H2]. split; [congruence|]. intros x. specialize (H1 x). specialize (H2 x). unfold but_joint in *.
  destruct (node_at a x), (node_at b x), (node_at c x); try contradiction; try exact I. congruence.
Qed.
Lemma alike_props : forall r r' x, alike r r' -> props r' x = props r x.
Proof. intros r r' x [_ A]. specialize (A x). unfold props. destruct (node_at r x), (node_at r' x); try contradiction; [|reflexivity]. apply but_joint_fields in A. tauto. Qed.
Lemma update_steps_same : forall b depth fuel r r' x, alike r r' -> update_steps b depth fuel r' x = update_steps b depth fuel r x.
Proof.
  intros b depth. induction fuel as [|fuel IH]; intros r r' x A; cbn [update_steps]; [reflexivity|]. rewrite (below_same depth r r' x) by (intros y; apply alike_kids, A). rewrite (alike_props r r' x A).
  do 3 f_equal. apply flat_map_ext. intros [y f]. cbn [fst snd]. rewrite (IH r r' y A). pose proof (proj2 A y) as H. destruct (node_at r y), (node_at r' y); try contradiction; reflexivity.
Qed.
Lemma steps_same : forall b depth fuel r r' k, alike r r' -> steps b depth fuel r' k = steps b depth fuel r k.
Proof.
  intros b depth fuel r r' k A. assert (AP : apply_steps depth r' = apply_steps depth r).
  { unfold apply_steps. rewrite (proj1 A), (below_same depth r r') by (intros y; apply alike_kids, A). reflexivity. }
  destruct k as [x q|[k|] qs|qs|qs|g|qs|g|n]; cbn [steps]; rewrite ?AP, ?(update_steps_same b depth fuel r r' _ A); reflexivity.
Qed.

(** ** Without interruption the steps have the effect of the sequential model *)
Lemma wr_cons : forall f p r, wr (Write f :: p) r = wr p (f r).
Proof. reflexivity. Qed.
Lemma wr_app : forall p q r, wr (p ++ q) r = wr q (wr p r).
Proof. intros p q r. apply writes_app. Qed.
Lemma wr_held : forall b p r, wr (held b p) r = wr p r.
Proof. intros [|] p r; [|reflexivity]. cbn [held]. change (wr (Lock :: p ++ [Unlock]) r) with (wr (p ++ [Unlock]) r). rewrite wr_app. reflexivity. Qed.
Lemma wr_passing : forall b p r, wr (passing b ++ p) r = wr p r.
Proof. intros b p r. rewrite wr_app. unfold passing. rewrite wr_held. reflexivity. Qed.
Lemma fold_none : forall A (f : option robot -> A -> option robot) l, (forall a, f None a = None) -> fold_left f l None = None.
Proof. intros A f l H. induction l as [|a l IH]; [reflexivity|]. cbn [fold_left]. rewrite H. exact IH. Qed.
Lemma down_frame : forall depth r x p r', update_down depth r x p = Some r' -> same_nodes but_pose r r' /\ forall z, ~ desc r x z -> node_at r' z = node_at r z.
Proof.
  induction depth as [|depth IH]; intros r x p r' E; [discriminate|]. cbn [update_down] in E. destruct (node_at r x) as [n|] eqn:En.
  2:{ injection E as <-. split; [apply same_refl|reflexivity]. }
  assert (L : forall l rc, (forall c, In c l -> In c (kids r x)) -> same_nodes but_pose r rc -> (forall z, ~ desc r x z -> node_at rc z = node_at r z) ->
    fold_left (fun o c => match o with Some r => update_down depth r c (place n p) | None => None end) l (Some rc) = Some r' -> same_nodes but_pose r r' /\ forall z, ~ desc r x z -> node_at r' z = node_at r z).
  { induction l as [|c l IHl]; intros rc IN SS F E'; cbn [fold_left] in E'; [injection E' as <-; auto|].
    destruct (update_down depth rc c (place n p)) as [rd|] eqn:Ed; [|rewrite fold_none in E' by reflexivity; discriminate]. destruct (IH rc c _ rd Ed) as [S1 F1].
    apply (IHl rd); [intros c' I; apply IN; right; exact I|apply (same_trans r rc rd SS S1)| |exact E']. intros z NZ. rewrite F1, (F z NZ); [reflexivity|].
    intros D. apply NZ. apply (same_desc r rc c z SS) in D. apply desc_trans with c; [|exact D]. apply d_step with x; [constructor|]. apply IN. left. reflexivity. }
  apply (L (n_children n) (set_pose r x (place n p))); [intros c I; unfold kids; rewrite En; exact I|apply same_set_pose| |exact E].
  intros z NZ. rewrite node_set_pose. destruct (Nat.eqb_spec x z) as [<-|]; [exfalso; apply NZ; constructor|reflexivity].
Qed.
Lemma down_steps : forall depth r x p n r', tree r -> node_at r x = Some n -> update_down (S depth) r x p = Some r' -> wr (below depth r x) (set_pose r x (place n p)) = r'.
Proof.
  induction depth as [|depth IH]; intros r x p n r' T En E; rewrite (down_S _ r x p n En) in E.
  - cbn [below]. destruct (n_children n) as [|c l]; [injection E as <-; reflexivity|]. cbn [fold_left update_down] in E. rewrite fold_none in E by reflexivity. discriminate.
  - cbn [below]. assert (K : kids r x = n_children n) by (unfold kids; rewrite En; reflexivity). rewrite K. set (g := place n p) in *.
    assert (L : forall l rc, (forall c, In c l -> In c (kids r x)) -> same_nodes but_pose r rc -> node_pose rc x = g ->
      fold_left (fun o c => match o with Some r => update_down (S depth) r c g | None => None end) l (Some rc) = Some r' -> wr (flat_map (fun c => Write (w_child x c) :: below depth r c) l) rc = r').
    { induction l as [|c l IHl]; intros rc IN SS G E'; cbn [fold_left] in E'; [injection E' as <-; reflexivity|]. cbn [flat_map app]. rewrite wr_cons, wr_app.
      destruct (update_down (S depth) rc c g) as [rd|] eqn:Ed; [|rewrite fold_none in E' by reflexivity; discriminate].
      assert (I : In c (kids r x)) by (apply IN; left; reflexivity). destruct (kid_node r x c T I) as (nc & Enc). destruct (same_node r rc c nc SS Enc) as (nc' & Enc' & _).
      destruct (down_frame _ _ _ _ _ Ed) as [S1 F1].
      assert (X : wr (below depth r c) (w_child x c rc) = rd).
      { unfold w_child. rewrite Enc', G. rewrite <- (below_same depth r rc c) by (intros y; apply same_kids, SS). apply (IH rc c g nc' rd (same_tree r rc SS T) Enc' Ed). }
      rewrite X. apply (IHl rd); [intros c' I'; apply IN; right; exact I'|apply (same_trans r rc rd SS S1)| |exact E'].
      unfold node_pose. rewrite F1; [exact G|]. intros D. apply (same_desc r rc c x SS) in D. apply (t_acyclic r T x c I D). }
    apply (L (n_children n) (set_pose r x g)); [intros c I; rewrite K; exact I|apply same_set_pose| |exact E].
    unfold node_pose. rewrite node_set_pose, Nat.eqb_refl, En. reflexivity.
Qed.
Lemma value_step : forall r x q r', set_value_at r x q = Some r' -> w_value x q r = r'.
Proof. intros r x q r' E. unfold w_value. rewrite E. reflexivity. Qed.
Lemma values_steps : forall qs r r', set_values r qs = Some r' -> wr (value_steps qs) r = r'.
Proof.
  induction qs as [|[x q] qs IH]; intros r r' E; [injection E as <-; reflexivity|]. unfold value_steps. cbn [map fst snd]. rewrite wr_cons. fold (value_steps qs).
  unfold set_values in E. cbn [fold_left fst snd] in E. destruct (set_value_at r x q) as [r1|] eqn:F; [|rewrite fold_none in E by reflexivity; discriminate]. rewrite (value_step r x q r1 F). apply IH, E.
Qed.
Lemma apply_steps_ok : forall depth r r', tree r -> apply_joint_values (S depth) r = Some r' -> wr (apply_steps depth r) r = r'.
Proof.
  intros depth r r' T E. destruct (t_root r T) as (n & En & _). unfold apply_steps. rewrite wr_cons. unfold w_root. rewrite En. apply (down_steps depth r (root r) (rpose r) n r' T En E).
Qed.
Lemma update_steps_ok : forall b depth fuel r x r', tree r -> update_pose (S depth) fuel r x = Some r' -> wr (update_steps b depth fuel r x) r = r'.
Proof.
  intros b depth. induction fuel as [|fuel IH]; intros r x r' T E; [discriminate|]. rewrite update_pose_S in E. cbn [update_steps]. rewrite wr_passing, wr_cons. destruct (node_at r x) as [n|] eqn:En.
  - unfold w_base. rewrite En. rewrite wr_app. destruct (update_down (S depth) r x (base_pose r x n)) as [r1|] eqn:E1; [|discriminate]. rewrite (down_steps depth r x _ n r1 T En E1).
    unfold props. rewrite En. pose proof (down_shape _ _ _ _ _ E1) as S1.
    assert (L : forall l rc, same_shape r rc -> fold_left (prop_step (S depth) fuel x) l (Some rc) = Some r' ->
      wr (flat_map (fun yf => match node_at r (fst yf) with None => [] | Some _ => held b (Write (w_prop x (fst yf) (snd yf)) :: update_steps b depth fuel r (fst yf)) end) l) rc = r').
    { induction l as [|[y f] l IHl]; intros rc SS E'; [injection E' as <-; reflexivity|]. cbn [fold_left] in E'. cbn [flat_map]. rewrite wr_app. cbn [fst snd].
      unfold prop_step in E' at 2. cbn [fst snd] in E'. destruct (node_at rc y) as [m|] eqn:Em.
      - destruct (shape_node rc r y m (shape_sym _ _ SS) Em) as (m0 & Em0 & _). rewrite Em0. rewrite wr_held, wr_cons.
        destruct (set_value_at rc y _) as [rv|] eqn:Ev; [|fold (prop_step (S depth) fuel x) in E'; rewrite prop_step_none in E'; discriminate]. unfold w_prop. rewrite (value_step _ _ _ _ Ev).
        destruct (set_value_at_ok rc y (match node_at rc x with Some n => value (n_joint n) | None => 0 end * f)%R) as (rv' & Ev' & Sv & _). rewrite Ev in Ev'. injection Ev' as <-.
        destruct (update_pose (S depth) fuel rv y) as [ru|] eqn:Eu; [|rewrite prop_step_none in E'; discriminate].
        pose proof (shape_trans _ _ _ SS Sv) as Srv. rewrite <- (update_steps_same b depth fuel r rv y) by (apply alike_of_shape, Srv). rewrite (IH rv y ru (shape_tree _ _ Srv T) Eu).
        apply IHl; [|exact E']. apply (shape_trans _ _ _ Srv).
        clear - Eu. revert rv y ru Eu. induction fuel as [|fuel IH]; intros rv y ru Eu; [discriminate|]. rewrite update_pose_S in Eu. destruct (node_at rv y) as [k|]; [|injection Eu as <-; apply shape_refl].
        destruct (update_down (S depth) rv y _) as [r2|] eqn:E2; [|discriminate]. apply (shape_trans _ _ _ (down_shape _ _ _ _ _ E2)). revert Eu. generalize (n_prop k) as l. clear E2. intros l. revert r2.
        induction l as [|[z h] l IHl]; intros r2 Eu; [injection Eu as <-; apply shape_refl|]. cbn [fold_left] in Eu. unfold prop_step in Eu at 2. cbn [fst snd] in Eu. destruct (node_at r2 z); [|apply IHl, Eu].
        destruct (set_value_at_ok r2 z (match node_at r2 y with Some n => value (n_joint n) | None => 0 end * h)%R) as (r3 & E3 & S3 & _). rewrite E3 in Eu. destruct (update_pose (S depth) fuel r3 z) as [r4|] eqn:E4; [|rewrite prop_step_none in Eu; discriminate].
        apply (shape_trans _ _ _ S3). apply (shape_trans _ _ _ (IH r3 z r4 E4)). apply IHl, Eu.
      - destruct (node_at r y) as [m0|] eqn:Em0; [destruct (shape_node r rc y m0 SS Em0) as (m1 & Em1 & _); congruence|]. apply IHl; [exact SS|exact E']. }
    apply L; assumption.
  - injection E as <-. unfold w_base. rewrite En. unfold props. rewrite En. cbn [flat_map]. rewrite app_nil_r. destruct depth as [|depth]; [reflexivity|]. cbn [below]. unfold kids. rewrite En. reflexivity.
Qed.
Lemma steps_effect : forall b depth fuel r k r', tree r -> effect (S depth) fuel k r = Some r' -> wr (steps b depth fuel r k) r = r'.
Proof.
  intros b depth fuel r k r' T E.
  assert (SV : forall qs r1, robot_set_joint_values (S depth) r qs = Some r1 -> wr (value_steps qs ++ apply_steps depth r) r = r1).
  { intros qs r1 F. unfold robot_set_joint_values in F. destruct (set_values_ok qs r) as (r2 & E2 & S2 & _). rewrite E2 in F. rewrite wr_app, (values_steps qs r r2 E2).
    assert (AP : apply_steps depth r2 = apply_steps depth r). { unfold apply_steps. rewrite (shape_root _ _ S2), (below_same depth r r2) by (intros y; apply shape_kids, S2). reflexivity. }
    rewrite <- AP. apply apply_steps_ok; [apply (shape_tree _ _ S2 T)|exact F]. }
  assert (GP : forall g r1, set_global_pose (S depth) r g = Some r1 -> wr (Write (w_pose g) :: apply_steps depth r) r = r1).
  { intros g r1 F. rewrite wr_cons. replace (apply_steps depth r) with (apply_steps depth (at_pose r g)) by (unfold apply_steps; rewrite (below_same depth r (at_pose r g)) by reflexivity; reflexivity). apply apply_steps_ok; [apply tree_at_pose, T|exact F]. }
  destruct k as [x q|[k|] qs|qs|qs|g|qs|g|n]; cbn [steps effect] in *; rewrite ?wr_held, ?wr_passing.
  - unfold set_joint_value in E. destruct (set_value_at_ok r x q) as (r1 & E1 & S1 & _). rewrite E1 in E. rewrite wr_cons, (value_step _ _ _ _ E1). rewrite <- (update_steps_same b depth fuel r r1 x) by (apply alike_of_shape, S1).
    apply update_steps_ok; [apply (shape_tree _ _ S1 T)|exact E].
  - unfold set_joint_values in E. destruct (set_values_ok qs r) as (r1 & E1 & S1 & _). rewrite E1 in E. rewrite wr_app, (values_steps qs r r1 E1). rewrite <- (update_steps_same b depth fuel r r1 k) by (apply alike_of_shape, S1).
    apply update_steps_ok; [apply (shape_tree _ _ S1 T)|exact E].
  - rewrite wr_app, wr_passing, <- wr_app. apply SV, E.
  - rewrite wr_app, wr_passing, <- wr_app. apply SV, E.
  - apply SV, E.
  - apply GP, E.
  - apply SV, E.
  - apply GP, E.
  - injection E as <-. apply reader_writes. intros f I. apply (reads_reader b depth fuel r n f). cbn [steps]. destruct b; [right; apply in_or_app; left; exact I|exact I].
Qed.

(** ** Whole calls keep the robot posed *)
Lemma prop_inside_at : forall r g, prop_inside r -> prop_inside (at_pose r g).
Proof. intros r g P x n y f E I. destruct (P x n y f E I) as [N|D]; [left; exact N|right]. apply (desc_at_pose r g), D. Qed.
Lemma effect_ok : forall depth fuel rank r0 k r, length (nodes r0) <= depth -> tree r0 -> prop_inside r0 -> prop_falls r0 rank -> (forall x, rank x < fuel) -> fits r0 k ->
  alike r0 r -> posed r -> exists r', effect (S depth) fuel k r = Some r' /\ alike r0 r' /\ posed r'.
Proof.
  intros depth fuel rank r0 k r D T PI PF RK FT A P. set (r1 := at_pose r0 (rpose r)). assert (SH : same_shape r1 r) by (apply alike_shape, A).
  assert (T1 : tree r) by (apply (shape_tree _ _ SH), tree_at_pose, T). assert (D1 : length (nodes r) < S depth) by (rewrite (shape_length _ _ SH); cbn [nodes at_pose r1]; lia).
  assert (PI1 : prop_inside r) by (apply (shape_prop_inside _ _ SH), prop_inside_at, PI). assert (PF1 : prop_falls r rank) by (apply (shape_prop_falls _ _ rank SH), PF).
  assert (DE : forall x z, desc r0 x z -> desc r x z) by (intros x z H; apply (shape_desc _ _ x z SH), (desc_at_pose r0 (rpose r)), H). assert (RT : root r = root r0) by (apply A).
  assert (SV : forall qs, exists r', robot_set_joint_values (S depth) r qs = Some r' /\ alike r0 r' /\ posed r').
  { intros qs. unfold robot_set_joint_values. destruct (set_values_ok qs r) as (r2 & E2 & S2 & _). rewrite E2. destruct (apply_ok (S depth) r2) as (r' & E' & S' & RP' & P'); [rewrite (shape_length _ _ S2); exact D1|apply (shape_tree _ _ S2 T1)|].
    exists r'. split; [exact E'|]. split; [|exact P']. apply (alike_trans r0 r r' A). apply (alike_trans r r2 r'); apply alike_of_shape; [exact S2|]. apply shape_of_same; assumption. }
  assert (UP : forall r2 x, same_shape r r2 -> posed_but r2 x -> desc r (root r) x -> exists r', update_pose (S depth) fuel r2 x = Some r' /\ alike r0 r' /\ posed r').
  { intros r2 x S2 PB DX. assert (D2 : length (nodes r2) < S depth) by (rewrite (shape_length _ _ S2); exact D1). pose proof (shape_tree _ _ S2 T1) as T2.
    destruct (update_pose_ends (S depth) rank fuel r2 x D2 T2 (shape_prop_falls _ _ rank S2 PF1) (RK x)) as (r' & E' & S').
    destruct (update_pose_posed (S depth) fuel r2 x r' D2 T2 (shape_prop_inside _ _ S2 PI1) PB) as [P' _]; [rewrite (shape_root _ _ S2); apply (shape_desc _ _ _ x S2), DX|exact E'|].
    exists r'. split; [exact E'|]. split; [|exact P']. apply (alike_trans r0 r r' A), alike_of_shape, (shape_trans _ _ _ S2 S'). }
  assert (GP : forall g, exists r', set_global_pose (S depth) r g = Some r' /\ alike r0 r' /\ posed r').
  { intros g. destruct (set_global_pose_ok (S depth) r g D1 T1) as (r' & E' & [R' S'] & _ & P'). exists r'. split; [exact E'|]. split; [|exact P']. apply (alike_trans r0 r r' A).
    split; [exact R'|]. intros x. specialize (S' x). destruct (node_at r x), (node_at r' x); try exact S'. apply but_pose_joint, S'. }
  destruct k as [x q|[k|] qs|qs|qs|g|qs|g|n]; cbn [effect fits] in *; try (apply SV); try (apply GP).
  - unfold set_joint_value. destruct (set_value_at_ok r x q) as (r2 & E2 & S2 & _). rewrite E2. apply UP; [exact S2|apply (set_value_posed r r2 x q T1 P E2)|]. rewrite RT. apply DE, FT.
  - unfold set_joint_values. destruct (set_values_ok qs r) as (r2 & E2 & S2 & _). rewrite E2. destruct FT as [F1 F2]. apply UP; [exact S2| |rewrite RT; apply DE, F1]. apply (set_values_posed r r2 qs k T1 P E2). intros x I. apply DE, F2, I.
  - exists r. auto.
Qed.

Lemma in_turn_snoc : forall depth fuel l r s k s', in_turn depth fuel r l s -> effect depth fuel k s = Some s' -> in_turn depth fuel r (l ++ [k]) s'.
Proof. intros depth fuel l r s k s' H E. induction H as [r|r k' l r' s F H IH]; cbn [app]; [apply turn_cons with s'; [exact E|constructor]|]. apply turn_cons with r'; [exact F|apply IH, E]. Qed.
Section All.
Variables (depth fuel : nat) (rank : nat -> nat) (r0 : robot) (ls : list (list call)).
Hypotheses (D : length (nodes r0) <= depth) (T : tree r0) (P : posed r0) (PI : prop_inside r0) (PF : prop_falls r0 rank) (RK : forall x, rank x < fuel).
Hypothesis ok : forall ks k, In ks ls -> In k ks -> keeps_lock k /\ fits r0 k.
Notation prog := (steps true depth fuel r0).
Lemma alike_refl : forall r, alike r r.
Proof. intros r. apply alike_of_shape, shape_refl. Qed.
Lemma all_in_turn : forall l, (forall i k, In (i, k) l -> exists ks, In ks ls /\ In k ks) ->
  let s := writes_all robot call prog r0 l in in_turn (S depth) fuel r0 (map snd l) s /\ alike r0 s /\ posed s.
Proof.
  induction l as [|[i k] l IH] using rev_ind; intros H s.
  - split; [constructor|]. split; [apply alike_refl|exact P].
  - destruct IH as (A & B & C); [intros j k' I; apply (H j k'), in_or_app; auto|]. destruct (H i k) as (ks & I & J); [apply in_or_app; right; left; reflexivity|]. destruct (ok ks k I J) as [_ F].
    destruct (effect_ok depth fuel rank r0 k _ D T PI PF RK F B C) as (r' & E' & B' & C'). unfold s. rewrite writes_all_snoc.
    assert (W : wr (prog k) (writes_all robot call prog r0 l) = r').
    { rewrite <- (steps_same true depth fuel r0 _ k B). apply steps_effect; [|exact E']. apply alike_shape in B. apply (shape_tree _ _ B), tree_at_pose, T. }
    cbn [snd]. rewrite W, map_app. cbn [map snd]. split; [apply (in_turn_snoc _ _ _ _ _ _ _ A E')|auto].
Qed.
Lemma taken_in : forall l i k, taken ls l -> In (i, k) l -> exists ks, In ks ls /\ In k ks.
Proof.
  intros l i k [T1 T2] I. destruct (nth_error ls i) as [ks|] eqn:E; [|apply nth_error_None in E; specialize (T1 i k I); exfalso; clear - E T1; lia]. exists ks. split; [apply (nth_error_In _ i), E|].
  destruct (T2 i ks E) as (rest & ->). apply in_or_app. left. unfold of_thread. apply in_map_iff. exists (i, k). split; [reflexivity|]. apply filter_In. split; [exact I|apply Nat.eqb_refl].
Qed.
Lemma run_inv : forall sched c, run prog sched (start r0 ls) = Some c -> inv robot call prog r0 ls c.
Proof.
  intros sched c E. apply (inv_run robot call prog r0 ls) with sched (start r0 ls); [|apply inv_start|exact E].
  intros ks k I J. apply closed_steps. apply (ok ks k I J).
Qed.
End All.
