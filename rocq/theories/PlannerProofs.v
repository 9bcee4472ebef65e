From Coq Require Import List ZArith Bool PeanoNat Lia.
From Verif Require Import TreeModel TreeSpec TreeProofs PlannerModel PlannerSpec.
Import ListNotations.

Section P.
Context (cs : cspace) (near : cfg cs -> cfg cs -> Prop) (HC : path_contract cs near).
Notation C := (cfg cs).
Implicit Type p : pool C.

(** * Trees with validated edges *)
Definition edges_ok p (l : list nat) (root : nat) : Prop :=
  forall id n, In id l -> p_store p id = Some n ->
    id = root \/
    (exists par np, n_parent n = Z.of_nat par /\ In par l /\ p_store p par = Some np /\
       validated_step cs (n_cfg np) (n_cfg n)).

Definition good (max : nat) p (t : tree) (root : nat) (rc : C) : Prop :=
  tree_inv max p t /\ (forall x, In x (t_nodes t) -> x < max) /\ In root (t_nodes t) /\
  p_store p root = Some (CsNode rc (-1)) /\ edges_ok p (t_nodes t) root.

Definition frame p (t : tree) p' (t' : tree) : Prop :=
  exists added, p_free p = added ++ p_free p' /\ t_nodes t' = t_nodes t ++ added /\
    p_max p' = p_max p /\ forall k, ~ In k added -> p_store p' k = p_store p k.

Lemma frame_refl : forall p t, frame p t p t.
Proof. intros p t. exists []. repeat split; auto. now rewrite app_nil_r. Qed.

Lemma frame_trans : forall p t p' t' p'' t'', frame p t p' t' -> frame p' t' p'' t'' -> frame p t p'' t''.
Proof.
  intros p t p' t' p'' t'' (a & A1 & A2 & A3 & A4) (b & B1 & B2 & B3 & B4).
  exists (a ++ b). repeat split.
  - rewrite A1, B1. now rewrite app_assoc.
  - rewrite B2, A2. now rewrite app_assoc.
  - congruence.
  - intros k Hk. rewrite B4, A4; [reflexivity| |]; intros K; apply Hk, in_app_iff; auto.
Qed.

Lemma append_node_frame : forall p t c par id p' t',
  tree_append_node p t c par = Some (id, p', t') ->
  frame p t p' t' /\ In id (p_free p) /\ t_nodes t' = t_nodes t ++ [id] /\
  p_store p' id = Some (CsNode c par).
Proof.
  intros p t c par id p' t' H. unfold tree_append_node, pool_create in H.
  destruct (p_free p) as [|y free] eqn:Ef; [discriminate|]. injection H as -> <- <-.
  split; [|split; [now left|split; [reflexivity|cbn; unfold upd; now rewrite Nat.eqb_refl]]].
  exists [id]. repeat split; [now rewrite Ef|].
  intros k Hk. cbn. unfold upd. destruct (Nat.eqb_spec k id); [|reflexivity].
  subst. exfalso. apply Hk. now left.
Qed.

Lemma append_node_good : forall max p t root rc c par np id p' t',
  good max p t root rc -> In par (t_nodes t) -> p_store p par = Some np ->
  validated_step cs (n_cfg np) c ->
  tree_append_node p t c (Z.of_nat par) = Some (id, p', t') ->
  good max p' t' root rc /\ frame p t p' t' /\ In id (t_nodes t') /\
  p_store p' id = Some (CsNode c (Z.of_nat par)).
Proof.
  intros max p t root rc c par np id p' t' (HI & Hb & Hr & Hs & He) Hpar Hnp Hv H.
  pose proof (append_node_frame _ _ _ _ _ _ _ H) as (Hf & Hfree & En & Est).
  pose proof HI as (A & B & B2 & _).
  assert (Nid : ~ In id (t_nodes t)).
  { intros K. clear -B Hfree K. induction (t_nodes t); [contradiction|]. cbn in B. inversion B; subst.
    destruct K as [->|K]; [|auto]. apply H1. apply in_app_iff. now right. }
  eapply append_node_inv in H as (HI' & _ & _ & Est'); [|eassumption|right; eauto].
  split; [|repeat split; [assumption|rewrite En; apply in_app_iff; right; now left|assumption]].
  split; [assumption|]. split.
  { rewrite En. intros x Hx. apply in_app_iff in Hx as [Hx|[<-|[]]]; auto. }
  split; [rewrite En; apply in_app_iff; now left|]. split.
  { rewrite Est'. unfold upd. destruct (Nat.eqb_spec root id); [subst; contradiction|assumption]. }
  intros k n Hk Hn. rewrite En in Hk. rewrite Est' in Hn. unfold upd in Hn.
  assert (Hup : forall q nq, In q (t_nodes t) -> p_store p q = Some nq ->
     In q (t_nodes t') /\ p_store p' q = Some nq).
  { intros q nq Hq Hnq. split; [rewrite En; apply in_app_iff; now left|].
    rewrite Est'. unfold upd. destruct (Nat.eqb_spec q id); [subst; contradiction|assumption]. }
  destruct (Nat.eqb_spec k id) as [->|Nk].
  - injection Hn as <-. right. exists par, np. destruct (Hup par np Hpar Hnp). cbn. auto.
  - apply in_app_iff in Hk as [Hk|[Hk|[]]]; [|congruence].
    destruct (He k n Hk Hn) as [->|(q & nq & E1 & E2 & E3 & E4)]; [now left|right].
    exists q, nq. destruct (Hup q nq E2 E3). auto.
Qed.

Lemma append_path_good : forall path max p t root rc n nn id p' t',
  good max p t root rc -> In n (t_nodes t) -> p_store p n = Some nn ->
  adjacent (validated_step cs) (n_cfg nn :: path) ->
  tree_append_path p t n path = Some (id, p', t') ->
  good max p' t' root rc /\ frame p t p' t' /\ In id (t_nodes t') /\
  exists ni, p_store p' id = Some ni /\ n_cfg ni = last path (n_cfg nn) /\
    (path <> [] \/ (0 <= n_parent nn)%Z -> (0 <= n_parent ni)%Z).
Proof.
  induction path as [|c path IH]; intros max p t root rc n nn id p' t' HG Hn Hnn Ha H;
    cbn [tree_append_path] in H.
  - injection H as <- <- <-. split; [assumption|]. split; [apply frame_refl|]. split; [assumption|].
    exists nn. repeat split; auto. intros [K|K]; [congruence|assumption].
  - destruct (tree_append_node p t c (Z.of_nat n)) as [[[k q] u]|] eqn:E; [|discriminate].
    inversion Ha; subst.
    eapply append_node_good in E as (HG' & Hf & Hk & Hst); try eassumption.
    eapply IH in H as (HG'' & Hf' & Hid & ni & Hni & Hc & Hp); try eassumption.
    split; [assumption|]. split; [eapply frame_trans; eassumption|]. split; [assumption|].
    exists ni. split; [assumption|]. split.
    + rewrite Hc. cbn [n_cfg]. destruct path as [|c0 path]; [reflexivity|]. cbn [last]. clear.
      revert c0. induction path; intros; cbn [last]; [reflexivity|apply IHpath].
    + intros _. apply Hp. right. cbn. lia.
Qed.

(** * One growth step *)
Lemma last_default : forall (A : Type) (l : list A) d d', l <> [] -> last l d = last l d'.
Proof.
  intros A l d d' H. induction l as [|a l IH]; [congruence|]. destruct l as [|b l]; [reflexivity|].
  cbn [last] in *. apply IH. discriminate.
Qed.

Lemma last_cons_ne : forall (A : Type) (l : list A) x d, l <> [] -> last (x :: l) d = last l d.
Proof. intros A [|y l] x d H; [congruence|reflexivity]. Qed.

Lemma adjacent_of_consecutive : forall (A : Type) (R : A -> A -> Prop) l,
  (forall a b, consecutive a b l -> R a b) -> adjacent R l.
Proof.
  intros A R l. induction l as [|a l IH]; intros H; [constructor|].
  destruct l as [|b l]; [constructor|]. constructor.
  - apply H. exists [], l. reflexivity.
  - apply IH. intros x y (l1 & l2 & E). apply H. exists (a :: l1), l2. cbn. now rewrite E.
Qed.

Lemma tree_get_In : forall max p t z id, tree_inv max p t -> tree_get t z = Some id ->
  z = Z.of_nat id /\ In id (t_nodes t).
Proof.
  intros max p t z id (_ & _ & _ & _ & E & _) H. unfold tree_get in H.
  destruct (Z.leb_spec 0 z); cbn in H; [|discriminate].
  destruct (mem (Z.to_nat z) (t_keys t)) eqn:M; [|discriminate]. injection H as <-.
  apply mem_In, E in M. split; [lia|assumption].
Qed.

Lemma tree_get_Some : forall max p t id, tree_inv max p t -> In id (t_nodes t) ->
  tree_get t (Z.of_nat id) = Some id.
Proof.
  intros max p t id HI H. apply tree_inv_well_formed in HI as (_ & L & _). rewrite L.
  destruct (in_dec Nat.eq_dec id (t_nodes t)); [reflexivity|contradiction].
Qed.

Lemma good_node : forall max p t root rc id, good max p t root rc -> In id (t_nodes t) ->
  exists n, p_store p id = Some n.
Proof.
  intros max p t root rc id ((_ & _ & _ & _ & _ & F) & _) H. destruct (F id H) as (n & Hn & _). eauto.
Qed.

Lemma nn_scan_in : forall {D : Type} (lt : D -> D -> bool) (d : nat -> D) l b x,
  In (fst (nn_scan lt d b x l)) (b :: l).
Proof.
  intros D lt d l. induction l as [|y l IH]; intros b x; cbn [nn_scan]; [now left|].
  destruct (lt (d y) x).
  - right. apply IH.
  - destruct (IH b x) as [<-|K]; [now left|right; now right].
Qed.

Lemma nearest_node_good : forall max p t root rc c, good max p t root rc ->
  exists nn n, nearest_node cs p t c = Ok (nn, n_cfg n) /\ In nn (t_nodes t) /\ p_store p nn = Some n.
Proof.
  intros max p t root rc c HG. pose proof HG as (HI & _ & Hr & _).
  assert (exists nn, nearest (oltb cs) (node_dist2 cs p c) t = Some nn /\ In nn (t_nodes t)) as (nn & E & Hin).
  { unfold nearest, nearest_id. destruct (t_nodes t) as [|y l] eqn:En; [contradiction|].
    pose proof (nn_scan_in (oltb cs) (node_dist2 cs p c) l y (node_dist2 cs p c y)) as K.
    exists (fst (nn_scan (oltb cs) (node_dist2 cs p c) y (node_dist2 cs p c y) l)).
    split; [|assumption]. eapply tree_get_Some; [eassumption|]. now rewrite En. }
  destruct (good_node _ _ _ _ _ _ HG Hin) as (n & Hn). exists nn, n.
  unfold nearest_node. rewrite E. unfold node_cfg. rewrite Hn. cbn. auto.
Qed.

(** outcome of a growth step *)
Definition grown (max : nat) p t root rc (c : C) (res : ext_result) p' t' (last last' : Z) : Prop :=
  good max p' t' root rc /\ frame p t p' t' /\
  (res = eSuccess \/ res = ePartial ->
     exists id n, last' = Z.of_nat id /\ In id (t_nodes t') /\ p_store p' id = Some n /\
       (0 <= n_parent n)%Z /\ (res = eSuccess -> near (n_cfg n) c)).

Lemma append_path_to_good : forall max p t root rc nn n c last r,
  good max p t root rc -> In nn (t_nodes t) -> p_store p nn = Some n ->
  path_valid cs (n_cfg n) c = true ->
  append_path_to cs p t nn (n_cfg n) c last = r ->
  r = Throw \/ exists b p' t' last', r = Ok (b, p', t', last') /\
    good max p' t' root rc /\ frame p t p' t' /\
    (b = true -> exists id ni, last' = Z.of_nat id /\ In id (t_nodes t') /\ p_store p' id = Some ni /\
       (0 <= n_parent ni)%Z /\ near (n_cfg ni) c).
Proof.
  intros max p t root rc nn n c lst r HG Hin Hn Hv <-. unfold append_path_to.
  destruct (Nat.leb_spec (length (create_path cs (n_cfg n) c)) 1).
  - right. do 4 eexists. split; [reflexivity|]. split; [assumption|]. split; [apply frame_refl|discriminate].
  - destruct (pc_start _ _ HC (n_cfg n) c) as (l & El).
    pose proof (pc_end _ _ HC (n_cfg n) c H) as Hend. rewrite El in Hend, H |- *. cbn [tl].
    destruct (tree_append_path p t nn l) as [[[id p'] t']|] eqn:E; [right|now left].
    eapply append_path_good in E as (HG' & Hf & Hid & ni & Hni & Hc & Hp); try eassumption.
    + do 4 eexists. split; [reflexivity|]. split; [assumption|]. split; [assumption|]. intros _.
      exists id, ni. assert (l <> []) by (intros ->; cbn in H; lia).
      repeat split; auto. rewrite Hc. rewrite last_cons_ne in Hend by assumption. exact Hend.
    + apply adjacent_of_consecutive. intros a b Hab. left. exists (n_cfg n), c. rewrite El. auto.
Qed.

Lemma append_path_until_good : forall max p t root rc nn n c last r,
  good max p t root rc -> In nn (t_nodes t) -> p_store p nn = Some n ->
  append_path_until cs p t nn (n_cfg n) c last = r ->
  r = Throw \/ exists b p' t' last', r = Ok (b, p', t', last') /\
    good max p' t' root rc /\ frame p t p' t' /\
    (b = true \/ last' <> last -> exists id ni, last' = Z.of_nat id /\ In id (t_nodes t') /\
       p_store p' id = Some ni /\ (0 <= n_parent ni)%Z /\ (b = true -> near (n_cfg ni) c)).
Proof.
  intros max p t root rc nn n c lst r HG Hin Hn <-. unfold append_path_until.
  destruct (pc_until_start _ _ HC (n_cfg n) c) as (l & El).
  pose proof (pc_until_end _ _ HC (n_cfg n) c) as Hend.
  assert (Hadj : adjacent (validated_step cs) (n_cfg n :: l)).
  { apply adjacent_of_consecutive. intros a b Hab. right. exists (n_cfg n), c. now rewrite El. }
  destruct (create_path_until cs (n_cfg n) c) as [res b]. cbn [fst snd] in *. subst res.
  destruct (Nat.leb_spec (length (n_cfg n :: l)) 1).
  - right. do 4 eexists. split; [reflexivity|]. split; [assumption|]. split; [apply frame_refl|].
    intros [K|K]; [discriminate|congruence].
  - cbn [tl]. specialize (Hend H).
    destruct (tree_append_path p t nn l) as [[[id p'] t']|] eqn:E; [right|now left].
    eapply append_path_good in E as (HG' & Hf & Hid & ni & Hni & Hc & Hp); try eassumption.
    do 4 eexists. split; [reflexivity|]. split; [assumption|]. split; [assumption|]. intros _.
    exists id, ni. assert (l <> []) by (intros ->; cbn in H; lia).
    repeat split; auto. intros Hb. specialize (Hend Hb).
    rewrite Hc. rewrite last_cons_ne in Hend by assumption. exact Hend.
Qed.

Lemma grow_good : forall mode step max p t root rc c last r,
  good max p t root rc -> rrt_grow cs mode step p t c last = r ->
  r = Throw \/ exists res p' t' last', r = Ok (res, p', t', last') /\
    grown max p t root rc c res p' t' last last'.
Proof.
  intros mode step max p t root rc c lst r HG <-.
  destruct (nearest_node_good _ _ _ _ _ c HG) as (nn & n & Enn & Hin & Hn).
  assert (Hfail : forall res, res = eFailed \/ res = eError -> grown max p t root rc c res p t lst lst).
  { intros res Hres. split; [assumption|]. split; [apply frame_refl|].
    intros [->| ->]; destruct Hres; discriminate. }
  destruct mode; cbn [rrt_grow].
  - unfold rrt_extend. rewrite Enn.
    set (reached := leb cs (calc_dist cs (n_cfg n) c) step).
    set (target := if reached then c else _).
    destruct (path_valid cs (n_cfg n) target) eqn:Ev.
    + destruct (append_path_to_good _ _ _ _ _ _ _ target lst _ HG Hin Hn Ev eq_refl)
        as [->|(b & p' & t' & last' & -> & HG' & Hf & K)]; [now left|right].
      destruct b.
      * do 4 eexists. split; [reflexivity|]. split; [assumption|]. split; [assumption|]. intros _.
        destruct (K eq_refl) as (id & ni & E1 & E2 & E3 & E4 & E5). exists id, ni. repeat split; auto.
        intros Hs. subst target. destruct reached; [assumption|discriminate].
      * do 4 eexists. split; [reflexivity|]. split; [assumption|]. split; [assumption|].
        intros [?|?]; discriminate.
    + right. do 4 eexists. split; [reflexivity|]. apply Hfail. auto.
  - unfold rrt_connect_until. rewrite Enn.
    destruct (append_path_until_good _ _ _ _ _ _ _ c lst _ HG Hin Hn eq_refl)
      as [->|(b & p' & t' & last' & -> & HG' & Hf & K)]; [now left|right].
    destruct b.
    + do 4 eexists. split; [reflexivity|]. split; [assumption|]. split; [assumption|]. intros _.
      destruct (K (or_introl eq_refl)) as (id & ni & E1 & E2 & E3 & E4 & E5). exists id, ni. repeat split; auto.
    + do 4 eexists. split; [reflexivity|]. split; [assumption|]. split; [assumption|].
      destruct (Z.eqb_spec lst last'); [intros [?|?]; discriminate|]. intros _.
      destruct K as (id & ni & E1 & E2 & E3 & E4 & E5); [right; congruence|].
      exists id, ni. repeat split; auto. discriminate.
  - unfold rrt_connect_complete. rewrite Enn.
    destruct (path_valid cs (n_cfg n) c) eqn:Ev.
    + destruct (append_path_to_good _ _ _ _ _ _ _ c lst _ HG Hin Hn Ev eq_refl)
        as [->|(b & p' & t' & last' & -> & HG' & Hf & K)]; [now left|right].
      destruct b.
      * do 4 eexists. split; [reflexivity|]. split; [assumption|]. split; [assumption|]. intros _.
        destruct (K eq_refl) as (id & ni & E1 & E2 & E3 & E4 & E5). exists id, ni. repeat split; auto.
      * do 4 eexists. split; [reflexivity|]. split; [assumption|]. split; [assumption|].
        intros [?|?]; discriminate.
    + right. do 4 eexists. split; [reflexivity|]. apply Hfail. auto.
Qed.

(** * Walking up to the root *)
Definition edge p (t : tree) (x y : nat) : Prop :=
  In x (t_nodes t) /\ In y (t_nodes t) /\
  exists nx ny, p_store p x = Some nx /\ p_store p y = Some ny /\ n_parent nx = Z.of_nat y /\
    validated_step cs (n_cfg ny) (n_cfg nx).

Lemma good_step : forall max p t root rc id, good max p t root rc -> In id (t_nodes t) -> id <> root ->
  exists par, node_parent p id = Some (Z.of_nat par) /\ edge p t id par /\ before par id (t_nodes t).
Proof.
  intros max p t root rc id HG Hin Hne. pose proof HG as ((_ & _ & _ & _ & _ & F) & _ & _ & _ & He).
  destruct (F id Hin) as (n & Hn & Hb).
  destruct (He id n Hin Hn) as [?|(par & np & E1 & E2 & E3 & E4)]; [contradiction|].
  exists par. unfold node_parent. rewrite Hn. cbn. split; [now rewrite E1|]. split.
  - split; [assumption|]. split; [assumption|]. exists n, np. auto.
  - destruct Hb as [Hb|(q & Eq & Hq)]; [lia|]. rewrite E1 in Eq. apply Nat2Z.inj in Eq. now subst.
Qed.

Lemma good_NoDup : forall max p t root rc, good max p t root rc -> NoDup (t_nodes t).
Proof. intros max p t root rc ((_ & B & _) & _). eapply NoDup_app_l; eassumption. Qed.

Lemma rrt_walk_good : forall max p t root rc, good max p t root rc ->
  forall fuel id a b, t_nodes t = a ++ id :: b -> id <> root -> length a <= fuel ->
  exists l, rrt_walk cs (S fuel) p t root id = Some (Some l) /\ l <> [] /\ last l 0 = root /\
    adjacent (edge p t) (id :: l).
Proof.
  intros max p t root rc HG. pose proof (good_NoDup _ _ _ _ _ HG) as Dn.
  pose proof HG as (HI & _ & Hr & _).
  induction fuel as [|fuel IH]; intros id a b E Hne Hl.
  - destruct a; [|cbn in Hl; lia]. assert (Hin : In id (t_nodes t)) by (rewrite E; now left).
    destruct (good_step _ _ _ _ _ _ HG Hin Hne) as (par & _ & _ & Hb).
    destruct (before_length _ _ _ Hb _ _ E Dn) as (a1 & a2 & K). destruct a1; discriminate.
  - assert (Hin : In id (t_nodes t)) by (rewrite E; apply in_app_iff; right; now left).
    destruct (good_step _ _ _ _ _ _ HG Hin Hne) as (par & Epar & Hedge & Hb).
    destruct (before_length _ _ _ Hb _ _ E Dn) as (a1 & a2 & ->).
    remember (S fuel) as f. cbn [rrt_walk]. rewrite Epar.
    destruct (Z.ltb_spec (Z.of_nat par) 0); [lia|].
    pose proof Hedge as (_ & Hpar & _).
    rewrite (tree_get_Some _ _ _ _ HI Hpar).
    destruct (Nat.eqb_spec par root) as [->|Np].
    + exists [root]. repeat split; [discriminate|]. constructor; [assumption|constructor].
    + subst f. destruct (IH par a1 (a2 ++ id :: b)) as (l & -> & Hn & Hlast & Hadj).
      * rewrite E, <- app_assoc. reflexivity.
      * assumption.
      * rewrite app_length in Hl. cbn in Hl. lia.
      * exists (par :: l). repeat split; [discriminate| |].
        -- destruct l; [congruence|exact Hlast].
        -- constructor; assumption.
Qed.

Lemma birrt_walk_good : forall max p t root rc, good max p t root rc ->
  forall fuel id a b, t_nodes t = a ++ id :: b -> length a <= fuel ->
  exists l, birrt_walk cs (S fuel) p t id = Ok l /\ last (id :: l) 0 = root /\
    adjacent (edge p t) (id :: l).
Proof.
  intros max p t root rc HG. pose proof (good_NoDup _ _ _ _ _ HG) as Dn.
  pose proof HG as (HI & _ & Hr & Hroot & _).
  assert (Hroot' : forall fuel, birrt_walk cs (S fuel) p t root = Ok []).
  { intros fuel. cbn [birrt_walk]. unfold node_parent. rewrite Hroot. reflexivity. }
  induction fuel as [|fuel IH]; intros id a b E Hl.
  - destruct (Nat.eq_dec id root) as [->|Hne].
    { exists []. rewrite Hroot'. repeat split. constructor. }
    destruct a; [|cbn in Hl; lia]. assert (Hin : In id (t_nodes t)) by (rewrite E; now left).
    destruct (good_step _ _ _ _ _ _ HG Hin Hne) as (par & _ & _ & Hb).
    destruct (before_length _ _ _ Hb _ _ E Dn) as (a1 & a2 & K). destruct a1; discriminate.
  - destruct (Nat.eq_dec id root) as [->|Hne].
    { exists []. rewrite Hroot'. repeat split. constructor. }
    assert (Hin : In id (t_nodes t)) by (rewrite E; apply in_app_iff; right; now left).
    destruct (good_step _ _ _ _ _ _ HG Hin Hne) as (par & Epar & Hedge & Hb).
    destruct (before_length _ _ _ Hb _ _ E Dn) as (a1 & a2 & ->).
    remember (S fuel) as f. cbn [birrt_walk]. rewrite Epar.
    destruct (Z.ltb_spec (Z.of_nat par) 0); [lia|].
    pose proof Hedge as (_ & Hpar & _).
    rewrite (tree_get_Some _ _ _ _ HI Hpar). subst f.
    destruct (IH par a1 (a2 ++ id :: b)) as (l & -> & Hlast & Hadj).
    + rewrite E, <- app_assoc. reflexivity.
    + rewrite app_length in Hl. cbn in Hl. lia.
    + exists (par :: l). repeat split; [exact Hlast|constructor; assumption].
Qed.

(** reading configurations *)
Lemma tree_cfgs_good : forall max p t root rc, good max p t root rc -> forall ids,
  (forall x, In x ids -> In x (t_nodes t)) ->
  exists cfgs, tree_cfgs cs p t ids = Some cfgs /\
    Forall2 (fun id c => exists n, p_store p id = Some n /\ n_cfg n = c) ids cfgs.
Proof.
  intros max p t root rc HG. pose proof HG as (HI & _). induction ids as [|x ids IH]; intros H.
  - exists []. split; [reflexivity|constructor].
  - destruct IH as (l & E & F). { intros y Hy. apply H. now right. }
    destruct (good_node _ _ _ _ _ x HG) as (n & Hn); [apply H; now left|].
    exists (n_cfg n :: l). split.
    + cbn [tree_cfgs]. rewrite (tree_get_Some _ _ _ _ HI (H x (or_introl eq_refl))).
      unfold node_cfg. rewrite Hn. cbn. now rewrite E.
    + constructor; [eauto|assumption].
Qed.

Lemma adjacent_map : forall (A B : Type) (R : A -> A -> Prop) (S : B -> B -> Prop) (f : A -> B -> Prop) xs ys,
  (forall x x' y y', R x x' -> f x y -> f x' y' -> S y y') ->
  Forall2 f xs ys -> adjacent R xs -> adjacent S ys.
Proof.
  intros A B R S f xs ys HS H. induction H as [|x y xs ys Hxy H IH]; intros Ha; [constructor|].
  inversion H as [|x' y' xs' ys' Hxy' H']; subst; [constructor|].
  inversion Ha; subst. constructor; [eapply HS; eassumption|]. now apply IH.
Qed.

Lemma adjacent_In : forall (A : Type) (R : A -> A -> Prop) (Q : A -> Prop) l,
  (forall x y, R x y -> Q x /\ Q y) -> adjacent R l -> 2 <= length l -> forall x, In x l -> Q x.
Proof.
  intros A R Q l HQ H. induction H as [|a|a b l Hab Hl IH]; cbn; intros L x Hx; try lia.
  destruct Hx as [<-|Hx]; [now apply HQ in Hab|]. destruct l as [|c l].
  - destruct Hx as [<-|[]]. now apply HQ in Hab.
  - apply IH; [cbn; lia|assumption].
Qed.

Lemma Forall2_hd : forall (A B : Type) (f : A -> B -> Prop) xs ys x,
  Forall2 f xs ys -> hd_error xs = Some x -> exists y, hd_error ys = Some y /\ f x y.
Proof. intros A B f xs ys x H E. destruct H; [discriminate|]. injection E as ->. eexists. split; [reflexivity|assumption]. Qed.

Lemma Forall2_last : forall (A B : Type) (f : A -> B -> Prop) xs ys dx dy,
  Forall2 f xs ys -> xs <> [] -> f (last xs dx) (last ys dy).
Proof.
  intros A B f xs ys dx dy H. induction H as [|x y xs ys Hxy H IH]; intros Hn; [congruence|].
  destruct H; [assumption|]. apply IH. discriminate.
Qed.

(** * The state of an Rrt *)
Definition rrt_inv (max : nat) (s : rrt cs) : Prop :=
  tree_inv max (r_pool cs s) (r_tree cs s) /\ (forall x, In x (t_nodes (r_tree cs s)) -> x < max) /\
  (r_start_ok cs s = true -> exists id c, r_start cs s = Some id /\ r_start_cfg cs s = Some c /\
     good max (r_pool cs s) (r_tree cs s) id c) /\
  (r_goal_ok cs s = true -> r_goal_cfg cs s <> None).

Lemma tree_inv_empty : forall max p, p_max p = max -> NoDup (p_free p) ->
  (forall x, In x (p_free p) -> x < max) -> tree_inv max p tree_empty.
Proof.
  intros max p A B B2. repeat split; cbn; try assumption; try constructor; try tauto. intros k [].
Qed.

Lemma NoDup_app_r : forall (a b : list nat), NoDup (a ++ b) -> NoDup b.
Proof. induction a; intros b D; [assumption|]. cbn in D. inversion D; auto. Qed.

Lemma tree_inv_reset_tree : forall max p t, tree_inv max p t -> tree_inv max p tree_empty.
Proof.
  intros max p t (A & B & B2 & _). apply tree_inv_empty; try assumption. eapply NoDup_app_r; eassumption.
Qed.

Lemma tree_inv_reset_all : forall max p, p_max p = max -> tree_inv max (pool_reset p) tree_empty.
Proof.
  intros max p A. apply tree_inv_empty; cbn; [assumption|apply NoDup_rev, seq_NoDup|].
  intros x K. rewrite A in K. apply in_rev, in_seq in K. lia.
Qed.

Lemma new_root_good : forall max p t c id p' t',
  tree_inv max p t -> t_nodes t = [] ->
  tree_append_node p t c (-1) = Some (id, p', t') ->
  good max p' t' id c /\ frame p t p' t' /\ t_nodes t' = [id].
Proof.
  intros max p t c id p' t' HI E H.
  pose proof (append_node_frame _ _ _ _ _ _ _ H) as (Hf & Hfree & En & Est).
  pose proof HI as (_ & _ & B2 & _).
  eapply append_node_inv in H as (HI' & _ & _ & _); [|eassumption|left; lia].
  rewrite E in En. cbn in En. split; [|split; assumption].
  split; [assumption|]. rewrite En. split.
  { intros x [<-|[]]. auto. }
  split; [now left|]. split; [assumption|]. intros k n [<-|[]] _. now left.
Qed.

Lemma create_solution_keeps : forall s b s', rrt_create_solution cs s = Ok (b, s') ->
  s' = s \/ exists path, s' = rrt_with_sol cs s (Some path).
Proof.
  intros s b s' H. unfold rrt_create_solution in H.
  repeat match type of H with
  | context [match ?x with _ => _ end] => destruct x; try discriminate
  end; injection H as <- <-; eauto.
Qed.

Lemma inv_with_sol : forall max s o, rrt_inv max s -> rrt_inv max (rrt_with_sol cs s o).
Proof. intros max s o H. exact H. Qed.

Lemma grown_inv : forall max s id c tgt res p t last g,
  rrt_inv max s -> r_start cs s = Some id -> r_start_cfg cs s = Some c ->
  grown max (r_pool cs s) (r_tree cs s) id c tgt res p t (r_last cs s) last ->
  rrt_inv max (rrt_with_tree cs s p t last g).
Proof.
  intros max s id c tgt res p t lst g (_ & _ & _ & Hg) E1 E2 (HG & _). pose proof HG as (HI & Hb & _).
  split; [assumption|]. split; [assumption|]. split; [|assumption].
  intros _. exists id, c. cbn. auto.
Qed.

(** relation between the state at the beginning of planning and later *)
Definition same_setup (s s' : rrt cs) : Prop :=
  r_start cs s' = r_start cs s /\ r_start_cfg cs s' = r_start_cfg cs s /\
  r_goal_cfg cs s' = r_goal_cfg cs s /\ r_start_ok cs s' = r_start_ok cs s /\
  r_goal_ok cs s' = r_goal_ok cs s /\ r_max cs s' = r_max cs s /\ r_sol cs s' = r_sol cs s /\
  r_vis cs s' = r_vis cs s.

Definition goal_reached (s : rrt cs) : Prop :=
  exists g n gc, r_goal cs s = Some g /\ In g (t_nodes (r_tree cs s)) /\
    p_store (r_pool cs s) g = Some n /\ (0 <= n_parent n)%Z /\ r_goal_cfg cs s = Some gc /\ near (n_cfg n) gc.

Lemma cycle_good : forall mode step max s i r,
  rrt_inv max s -> r_start_ok cs s = true -> r_goal_ok cs s = true ->
  rrt_cycle cs mode step s i = r ->
  r = Throw \/ exists s' found stop, r = Ok (s', found, stop) /\ rrt_inv max s' /\ same_setup s s' /\
    r_cycles cs s' = S (r_cycles cs s) /\ (found = true -> goal_reached s').
Proof.
  intros mode step max s i r HI Hs Hg <-. pose proof HI as (_ & _ & Hst & Hgc).
  destruct (Hst Hs) as (id & c & E1 & E2 & HG). specialize (Hgc Hg).
  destruct (r_goal_cfg cs s) as [gc|] eqn:Egc; [|congruence].
  unfold rrt_cycle. rewrite Egc.
  destruct (ci_to_goal cs i).
  - destruct (grow_good mode step _ _ _ _ _ gc (r_last cs s) _ HG eq_refl)
      as [->|(res & p & t & lst & -> & HGr)]; [now left|right].
    assert (Hmax : p_max p = max) by (destruct HGr as ((HIp & _) & _); apply HIp).
    destruct res; try (do 3 eexists; split; [reflexivity|]; split;
       [eapply grown_inv; eassumption|split; [repeat split; auto|split; [reflexivity|discriminate]]]).
    pose proof HGr as (HG' & Hf & K). destruct (K (or_introl eq_refl)) as (g & n & F1 & F2 & F3 & F4 & F5).
    subst lst. unfold pool_get. rewrite Hmax.
    assert (g < max) by (destruct HG' as (_ & Hb & _); auto).
    destruct (Z.leb_spec 0 (Z.of_nat g)); [|lia]. destruct (Z.ltb_spec (Z.of_nat g) (Z.of_nat max)); [|lia].
    cbn [andb]. rewrite Nat2Z.id.
    do 3 eexists; split; [reflexivity|]; split; [eapply grown_inv; eassumption|].
    split; [repeat split; auto|]. split; [reflexivity|]. intros _. exists g, n, gc. cbn. repeat split; auto.
  - destruct (grow_good mode step _ _ _ _ _ (ci_sample cs i) (r_last cs s) _ HG eq_refl)
      as [->|(res & p & t & lst & -> & HGr)]; [now left|right].
    do 3 eexists; split; [reflexivity|]; split; [eapply grown_inv; eassumption|].
    split; [repeat split; auto|]. split; [reflexivity|discriminate].
Qed.

Lemma same_setup_trans : forall a b c, same_setup a b -> same_setup b c -> same_setup a c.
Proof. unfold same_setup. intuition congruence. Qed.

Lemma loop_good : forall mode step max inp fuel s r,
  rrt_inv max s -> r_start_ok cs s = true -> r_goal_ok cs s = true ->
  Nat.max 1 (r_max cs s - r_cycles cs s) <= fuel ->
  rrt_loop cs fuel mode step inp s = r ->
  r = Throw \/ exists s' found timeout, r = Ok (s', found, timeout) /\ rrt_inv max s' /\ same_setup s s' /\
    r_cycles cs s' <= Nat.max (S (r_cycles cs s)) (r_max cs s) /\ (found = true -> goal_reached s') /\
    (timeout = true -> exists k, ci_timeout cs (inp k) = true).
Proof.
  intros mode step max inp fuel. induction fuel as [|fuel IH]; intros s r HI Hs Hg Hf <-; [lia|].
  cbn [rrt_loop].
  destruct (cycle_good mode step max s (inp (r_cycles cs s)) _ HI Hs Hg eq_refl)
    as [->|(s' & found & stop & -> & HI' & Hss & Hc & Hfound)]; [now left|].
  destruct (ci_timeout cs (inp (r_cycles cs s))) eqn:Eto.
  { right. do 3 eexists. split; [reflexivity|]. split; [assumption|]. split; [assumption|]. split; [lia|]. split; [assumption|eauto]. }
  destruct (negb stop && (r_cycles cs s' <? r_max cs s') && negb found)%bool eqn:Eb.
  - apply andb_prop in Eb as [Eb _]. apply andb_prop in Eb as [_ Eb]. apply Nat.ltb_lt in Eb.
    pose proof Hss as (_ & _ & _ & S1 & S2 & S3 & _).
    destruct (IH s' _ HI' ltac:(congruence) ltac:(congruence) ltac:(lia) eq_refl)
      as [->|(s2 & f2 & to & -> & HI2 & Hss2 & Hc2 & Hf2)]; [now left|right].
    do 3 eexists. split; [reflexivity|]. split; [assumption|].
    split; [eapply same_setup_trans; eassumption|]. split; [lia|assumption].
  - right. do 3 eexists. split; [reflexivity|]. split; [assumption|]. split; [assumption|]. split; [lia|]. split; [assumption|discriminate].
Qed.

(** * The solution *)
Definition solution_ok (path : list C) (start goal : C) : Prop :=
  hd_error path = Some start /\ near (last path start) goal /\ adjacent (validated_step cs) path.

Lemma create_solution_good : forall max s c gc,
  rrt_inv max s -> r_start_ok cs s = true -> goal_reached s ->
  r_start_cfg cs s = Some c -> r_goal_cfg cs s = Some gc ->
  exists path, rrt_create_solution cs s = Ok (true, rrt_with_sol cs s (Some path)) /\ solution_ok path c gc.
Proof.
  intros max s c gc HI Hs (g & n & gc' & E1 & Hin & Hst & Hpar & E2 & Hnear) Ec Egc.
  pose proof HI as (_ & _ & Hso & _). destruct (Hso Hs) as (id & c' & F1 & F2 & HG).
  assert (c' = c) by congruence. assert (gc' = gc) by congruence. subst c' gc'.
  pose proof HG as (HT & _ & _ & Hroot & _).
  unfold rrt_create_solution. rewrite E1. unfold node_parent. rewrite Hst. cbn [option_map].
  destruct (Z.ltb_spec (n_parent n) 0); [lia|].
  rewrite (tree_get_Some _ _ _ _ HT Hin), F1.
  assert (Hne : g <> id). { intros ->. rewrite Hroot in Hst. injection Hst as <-. cbn in Hpar. lia. }
  apply in_split in Hin as Hsp. destruct Hsp as (a & b & Esp).
  destruct (rrt_walk_good _ _ _ _ _ HG (length (t_nodes (r_tree cs s))) g a b Esp Hne) as (l & -> & Hl & Hlast & Hadj).
  { rewrite Esp, app_length. lia. }
  assert (Hall : forall x, In x (rev (g :: l)) -> In x (t_nodes (r_tree cs s))).
  { intros x Hx. apply in_rev in Hx. 
    apply (adjacent_In _ (edge (r_pool cs s) (r_tree cs s)) (fun x => In x (t_nodes (r_tree cs s))) (g :: l));
      [|exact Hadj| |exact Hx].
    - intros u v (K1 & K2 & _). split; assumption.
    - destruct l; [congruence|cbn; lia]. }
  destruct (tree_cfgs_good _ _ _ _ _ HG _ Hall) as (path & -> & HF).
  exists path. split; [reflexivity|]. split; [|split].
  - assert (Hh : hd_error (rev (g :: l)) = Some id).
    { apply hd_rev; [discriminate|]. rewrite last_cons_ne by assumption. assumption. }
    destruct (Forall2_hd _ _ _ _ _ _ HF Hh) as (y & -> & n' & Hn' & <-).
    rewrite Hroot in Hn'. injection Hn' as <-. reflexivity.
  - assert (Hll : last (rev (g :: l)) 0 = g) by (now apply last_rev).
    pose proof (Forall2_last _ _ _ _ _ 0 c HF) as K. rewrite Hll in K.
    destruct K as (n' & Hn' & <-); [cbn; destruct (rev l); discriminate|].
    rewrite Hst in Hn'. injection Hn' as <-. assumption.
  - apply adjacent_rev in Hadj. eapply adjacent_map; [|exact HF|exact Hadj].
    intros x x' y y' (_ & _ & nx & ny & K1 & K2 & K3 & K4) (m & M1 & <-) (m' & M2 & <-).
    rewrite K1 in M2. rewrite K2 in M1. injection M1 as <-. injection M2 as <-. assumption.
Qed.

Lemma inv_begin : forall max s, rrt_inv max s -> rrt_inv max (rrt_begin cs s).
Proof. intros max s H. exact H. Qed.

Lemma plan_good : forall mode step max inp s r,
  rrt_inv max s -> rrt_plan cs mode step inp s = r ->
  r = Throw \/ exists b s', r = Ok (b, s') /\ rrt_inv max s' /\
    (b = true -> exists path start goal, r_start_cfg cs s = Some start /\ r_goal_cfg cs s = Some goal /\
       rrt_get_solution cs s' = Ok (Some path, s') /\ solution_ok path start goal) /\
    (b = false -> r_start_ok cs s = true -> r_goal_ok cs s = true -> r_sol cs s' = None) /\
    (r_start_ok cs s = true -> r_goal_ok cs s = true ->
       r_cycles cs s' <= Nat.max 1 (r_max cs s)) /\
    ((forall k, ci_timeout cs (inp k) = false) -> r_vis cs s' = r_vis cs s).
Proof.
  intros mode step max inp s r HI <-. unfold rrt_plan.
  destruct (r_start_ok cs s) eqn:Es; [destruct (r_goal_ok cs s) eqn:Eg|]; cbn [andb];
    try (right; do 2 eexists; split; [reflexivity|]; split; [assumption|]; split; [discriminate|];
         split; [intros; discriminate|split; [intros; discriminate|reflexivity]]).
  destruct (loop_good mode step max inp (Nat.max 1 (r_max cs s)) (rrt_begin cs s) _ (inv_begin _ _ HI) Es Eg
    ltac:(cbn [rrt_begin r_max r_cycles]; lia) eq_refl)
    as [->|(s' & found & timeout & -> & HI' & Hss & Hc & Hfound & Hto)].
  { now left. }
  pose proof Hss as (S1 & S2 & S3 & S4 & S5 & S6 & S7 & S8). cbn [rrt_begin r_start r_start_cfg r_goal_cfg r_start_ok r_goal_ok r_max r_sol r_cycles r_vis] in S1, S2, S3, S4, S5, S6, S7, S8, Hc.
  right. destruct timeout.
  { do 2 eexists. split; [reflexivity|]. split; [assumption|]. split; [discriminate|]. split; [auto|]. split; [intros; lia|].
    intros Hno. destruct (Hto eq_refl) as (k & Hk). rewrite Hno in Hk. discriminate. }
  set (s2 := if r_vis cs s then rrt_with_vis cs s' true else s').
  assert (Hs2 : rrt_inv max s2 /\ r_start_ok cs s2 = true /\ r_start_cfg cs s2 = r_start_cfg cs s /\
    r_goal_cfg cs s2 = r_goal_cfg cs s /\ (found = true -> goal_reached s2) /\ r_sol cs s2 = None /\
    r_cycles cs s2 = r_cycles cs s' /\ r_vis cs s2 = r_vis cs s).
  { subst s2. destruct (r_vis cs s) eqn:Ev; cbn; (split; [exact HI'|]); repeat split; auto; congruence. }
  clearbody s2. destruct Hs2 as (HI2 & T1 & T2 & T3 & T4 & T5 & T6 & T7).
  destruct found.
  - pose proof HI as (_ & _ & Hso & Hgo). destruct (Hso Es) as (id & c & F1 & F2 & _).
    specialize (Hgo Eg). destruct (r_goal_cfg cs s) as [gc|] eqn:Egc; [|congruence].
    destruct (create_solution_good max s2 c gc HI2 T1 (T4 eq_refl)) as (path & -> & Hok); try congruence.
    do 2 eexists. split; [reflexivity|]. split; [exact HI2|]. split.
    + intros _. exists path, c, gc. repeat split; auto; apply Hok.
    + split; [discriminate|]. split; [|intros _; exact T7]. intros _ _. cbn [rrt_with_sol r_cycles]. lia.
  - do 2 eexists. split; [reflexivity|]. split; [assumption|]. split; [discriminate|]. split; [auto|].
    split; [intros _ _; lia|intros _; exact T7].
Qed.

Lemma set_start_inv : forall max s c b s', rrt_inv max s -> rrt_set_start cs s c = Ok (b, s') -> rrt_inv max s'.
Proof.
  intros max s c b s' HI H. pose proof HI as (HT & Hb & Hso & Hgo). unfold rrt_set_start in H.
  destruct (coll_free cs c && in_boundary cs c)%bool.
  - destruct (tree_append_node (r_pool cs s) _ c (-1)) as [[[id p] t]|] eqn:E; [|discriminate].
    injection H as <- <-.
    eapply (new_root_good max) in E as (HG & _ & _).
    + pose proof HG as (HT' & Hb' & _). repeat split; try assumption; try apply HT'.
      intros _. exists id, c. cbn. auto.
    + destruct (Nat.ltb_spec 0 (length (t_nodes (r_tree cs s)))).
      * eapply tree_inv_reset_tree; eassumption.
      * assumption.
    + destruct (Nat.ltb_spec 0 (length (t_nodes (r_tree cs s)))); [reflexivity|].
      destruct (t_nodes (r_tree cs s)); [reflexivity|cbn in H; lia].
  - injection H as <- <-. split; [assumption|]. split; [assumption|]. split; [discriminate|assumption].
Qed.

Lemma get_solution_inv : forall max s o s', rrt_inv max s -> rrt_get_solution cs s = Ok (o, s') -> rrt_inv max s'.
Proof.
  intros max s o s' HI H. unfold rrt_get_solution in H. destruct (r_sol cs s).
  - injection H as <- <-. assumption.
  - destruct (rrt_create_solution cs s) as [[b s2]| | |] eqn:E; try discriminate. injection H as <- <-.
    destruct (create_solution_keeps _ _ _ E) as [->|(path & ->)]; exact HI.
Qed.

Lemma rrt_run_inv : forall max mode step s, rrt_run cs max mode step s -> rrt_inv max s.
Proof.
  intros max mode step s H. induction H.
  - unfold pool_new in H. destruct (Nat.eqb max 0); [discriminate|]. injection H as <-.
    split; [|split; [intros x []|split; discriminate]].
    apply tree_inv_empty; cbn; [reflexivity|apply NoDup_rev, seq_NoDup|].
    intros x K. apply in_rev, in_seq in K. lia.
  - eapply set_start_inv; eassumption.
  - destruct IHrrt_run as (A & B & D & E). unfold rrt_set_goal in H0. injection H0 as <- <-.
    repeat split; try assumption; try apply A. cbn. intros _. discriminate.
  - exact IHrrt_run.
  - destruct (plan_good _ _ _ _ _ _ IHrrt_run H0) as [K|(b' & s2 & K & HI & _)]; [discriminate|].
    injection K as -> ->. assumption.
  - eapply get_solution_inv; eassumption.
  - destruct IHrrt_run as ((A & _) & B & D & E). split; [|split; [intros x []|split; discriminate]].
    apply tree_inv_reset_all. assumption.
Qed.


(** * BiRrt *)
Definition other_ok (max : nat) p (t : tree) : Prop :=
  tree_inv max p t /\ (forall x, In x (t_nodes t) -> x < max) /\
  (t_nodes t = [] \/ exists root c, good max p t root c).

Definition disjoint (t u : tree) : Prop := forall x, In x (t_nodes t) -> ~ In x (t_nodes u).

Lemma NoDup_app_disj : forall (a b : list nat) x, NoDup (a ++ b) -> In x a -> ~ In x b.
Proof.
  induction a as [|y a IH]; intros b x D K; [contradiction|]. cbn in D. inversion D; subst.
  destruct K as [->|K]; [|eauto]. intros L. apply H1. apply in_app_iff. now right.
Qed.

Lemma NoDup_app_mid : forall (a b c : list nat), NoDup (a ++ b ++ c) -> NoDup (a ++ c).
Proof.
  induction a as [|y a IH]; intros b c D; cbn in *.
  - eapply NoDup_app_r; eassumption.
  - inversion D; subst. constructor; [|eauto]. intros K. apply H1.
    apply in_app_iff in K as [K|K]; apply in_app_iff; [now left|right; apply in_app_iff; now right].
Qed.

Section Frame.
Context (max : nat) (p p' : pool C) (t t' u : tree).
Context (Hf : frame p t p' t') (HU : tree_inv max p u).

Lemma frame_store : forall x, In x (t_nodes u) -> p_store p' x = p_store p x.
Proof.
  intros x Hx. destruct Hf as (added & A1 & A2 & A3 & A4). apply A4. intros K.
  destruct HU as (_ & B & _). eapply NoDup_app_disj in B; [|exact Hx]. apply B. rewrite A1. apply in_app_iff. now left.
Qed.

Lemma frame_tree_inv : tree_inv max p' u.
Proof.
  pose proof frame_store as Hst.
  destruct HU as (A & B & B2 & D & E & F). destruct Hf as (added & A1 & A2 & A3 & A4).
  split; [congruence|]. split.
  { rewrite A1 in B. eapply NoDup_app_mid; eassumption. }
  split. { intros x Hx. apply B2. rewrite A1. apply in_app_iff. now right. }
  split; [assumption|]. split; [assumption|].
  intros id Hid. rewrite Hst by assumption. auto.
Qed.

Lemma frame_good : forall root c, good max p u root c -> good max p' u root c.
Proof.
  intros root c (_ & Hb & Hr & Hs & He). split; [apply frame_tree_inv|]. split; [assumption|].
  split; [assumption|]. split; [now rewrite frame_store|].
  intros id n Hid Hn. rewrite frame_store in Hn by assumption.
  destruct (He id n Hid Hn) as [->|(q & nq & E1 & E2 & E3 & E4)]; [now left|right].
  exists q, nq. rewrite frame_store by assumption. auto.
Qed.

Lemma frame_disjoint : disjoint t u -> disjoint t' u.
Proof.
  intros Hd x Hx K. destruct Hf as (added & A1 & A2 & A3 & A4). rewrite A2 in Hx.
  apply in_app_iff in Hx as [Hx|Hx]; [now apply (Hd x)|].
  destruct HU as (_ & B & _). eapply NoDup_app_disj in B; [|exact K]. apply B. rewrite A1. apply in_app_iff. now left.
Qed.

Lemma frame_other : other_ok max p u -> other_ok max p' u.
Proof.
  intros (_ & Hb & [K|(root & c & K)]); (split; [apply frame_tree_inv|]); (split; [assumption|]); [now left|].
  right. exists root, c. now apply frame_good.
Qed.
End Frame.

Lemma good_other : forall max p t root c, good max p t root c -> other_ok max p t.
Proof.
  intros max p t root c H. pose proof H as (A & B & _). split; [assumption|]. split; [assumption|]. right. eauto.
Qed.

Lemma disjoint_sym : forall t u, disjoint t u -> disjoint u t.
Proof. intros t u H x K L. now apply (H x). Qed.

Definition bi_inv (max : nat) (f : bool) (s : birrt cs) : Prop :=
  let r := b_rrt cs s in let p := r_pool cs r in
  other_ok max p (r_tree cs r) /\ other_ok max p (b_tree2 cs s) /\ disjoint (r_tree cs r) (b_tree2 cs s) /\
  (r_start_ok cs r = true -> exists id c, r_start_cfg cs r = Some c /\ good max p (r_tree cs r) id c) /\
  (r_goal_ok cs r = true -> exists id c, r_goal_cfg cs r = Some c /\ good max p (b_tree2 cs s) id c) /\
  (f = false -> (r_goal cs r = None /\ t_nodes (b_tree2 cs s) = []) \/
     exists g, r_goal cs r = Some g /\ t_nodes (b_tree2 cs s) = [g]).

(** planning needs both trees *)
Definition ready (max : nat) (s : birrt cs) (sc gc : C) : Prop :=
  let r := b_rrt cs s in let p := r_pool cs r in
  (exists id, good max p (r_tree cs r) id sc) /\ (exists id, good max p (b_tree2 cs s) id gc) /\
  disjoint (r_tree cs r) (b_tree2 cs s).

Definition side_cfg (sc gc : C) (first : bool) : C := if first then sc else gc.

Lemma ready_side : forall max s sc gc first, ready max s sc gc ->
  exists id, good max (r_pool cs (b_rrt cs s)) (birrt_side_tree cs s first) id (side_cfg sc gc first).
Proof. intros max s sc gc [] (A & B & _); [exact A|exact B]. Qed.

Lemma bi_grow_good : forall m1 m2 step max s sc gc first c r,
  ready max s sc gc -> birrt_grow cs m1 m2 step s first c = r ->
  r = Throw \/ exists res s', r = Ok (res, s') /\ ready max s' sc gc /\
    same_setup (b_rrt cs s) (b_rrt cs s') /\ r_cycles cs (b_rrt cs s') = r_cycles cs (b_rrt cs s) /\
    r_goal cs (b_rrt cs s') = r_goal cs (b_rrt cs s) /\
    birrt_side_tree cs s' (negb first) = birrt_side_tree cs s (negb first) /\
    birrt_side_last cs s' (negb first) = birrt_side_last cs s (negb first) /\
    (forall x, In x (t_nodes (birrt_side_tree cs s (negb first))) ->
       p_store (r_pool cs (b_rrt cs s')) x = p_store (r_pool cs (b_rrt cs s)) x) /\
    (res = eSuccess \/ res = ePartial ->
       exists id n, birrt_side_last cs s' first = Z.of_nat id /\
         In id (t_nodes (birrt_side_tree cs s' first)) /\ p_store (r_pool cs (b_rrt cs s')) id = Some n /\
         (0 <= n_parent n)%Z /\ (res = eSuccess -> near (n_cfg n) c)).
Proof.
  intros m1 m2 step max s sc gc first c r HR <-. unfold birrt_grow.
  destruct (ready_side max s sc gc first HR) as (root & HG).
  destruct (ready_side max s sc gc (negb first) HR) as (root2 & HG2).
  destruct (grow_good (if first then m1 else m2) step _ _ _ _ _ c (birrt_side_last cs s first) _ HG eq_refl)
    as [->|(res & p & t & lst & -> & HG' & Hf & K)]; [now left|right].
  pose proof HG2 as (HI2 & _).
  pose proof (frame_good max _ _ _ _ _ Hf HI2 _ _ HG2) as HG2'.
  assert (Hd : disjoint (birrt_side_tree cs s first) (birrt_side_tree cs s (negb first))).
  { destruct HR as (_ & _ & Hd). destruct first; [exact Hd|apply disjoint_sym; exact Hd]. }
  pose proof (frame_disjoint max _ _ _ _ _ Hf HI2 Hd) as Hd'.
  exists res, (birrt_put cs s first p t lst). split; [reflexivity|].
  pose proof (frame_store max _ _ _ _ _ Hf HI2) as Hst.
  destruct first; cbn [negb birrt_side_tree birrt_side_last birrt_put b_rrt b_tree2 b_last2 r_pool r_tree r_last side_cfg] in *.
  - split. { split; [eauto|]. split; [eauto|exact Hd']. }
    split; [repeat split|]. split; [reflexivity|]. split; [reflexivity|]. split; [reflexivity|].
    split; [reflexivity|]. split; [exact Hst|exact K].
  - split. { split; [eauto|]. split; [eauto|apply disjoint_sym; exact Hd']. }
    split; [repeat split|]. split; [reflexivity|]. split; [reflexivity|]. split; [reflexivity|].
    split; [reflexivity|]. split; [exact Hst|exact K].
Qed.

Definition bridged (s : birrt cs) : Prop :=
  let r := b_rrt cs s in
  exists a na b nb, r_last cs r = Z.of_nat a /\ In a (t_nodes (r_tree cs r)) /\ p_store (r_pool cs r) a = Some na /\
    b_last2 cs s = Z.of_nat b /\ In b (t_nodes (b_tree2 cs s)) /\ p_store (r_pool cs r) b = Some nb /\
    (0 <= n_parent nb)%Z /\ (near (n_cfg nb) (n_cfg na) \/ near (n_cfg na) (n_cfg nb)).

Lemma bi_cycle_good : forall m1 m2 step max s sc gc first i r,
  ready max s sc gc -> birrt_cycle cs m1 m2 step s first i = r ->
  r = Throw \/ exists s' found stop, r = Ok (s', found, stop) /\ ready max s' sc gc /\
    same_setup (b_rrt cs s) (b_rrt cs s') /\ r_cycles cs (b_rrt cs s') = S (r_cycles cs (b_rrt cs s)) /\
    (found = true -> bridged s').
Proof.
  intros m1 m2 step max s sc gc first i r HR <-. unfold birrt_cycle.
  destruct (bi_grow_good m1 m2 step max s sc gc first (ci_sample cs i) _ HR eq_refl)
    as [->|(res & s1 & -> & HR1 & SS & Ec & _ & _ & _ & _ & K)]; [now left|].
  assert (Hend : forall x (stop : bool), exists s' (found stop' : bool), Ok (birrt_count cs s1 x, false, stop) = Ok (s', found, stop') /\
    ready max s' sc gc /\ same_setup (b_rrt cs s) (b_rrt cs s') /\
    r_cycles cs (b_rrt cs s') = S (r_cycles cs (b_rrt cs s)) /\ (found = true -> bridged s')).
  { intros x stop. exists (birrt_count cs s1 x), false, stop. split; [reflexivity|]. split; [exact HR1|].
    split; [exact SS|]. split; [cbn; congruence|discriminate]. }
  assert (Hgo : res = eSuccess \/ res = ePartial ->
    forall stopA : bool, let r :=
      match tree_get (birrt_side_tree cs s1 first) (birrt_side_last cs s1 first) with
      | Some n =>
          match node_cfg (r_pool cs (b_rrt cs s1)) n with
          | Some c =>
              match birrt_grow cs m1 m2 step s1 (negb first) c with
              | Ok (resB, s0) =>
                  match resB with
                  | eError => Ok (birrt_count cs s0 (r_goal cs (b_rrt cs s0)), false, true)
                  | eSuccess =>
                      match tree_get (birrt_side_tree cs s0 (negb first)) (birrt_side_last cs s0 (negb first)) with
                      | Some g => Ok (birrt_count cs s0 (Some g), true, stopA)
                      | None => Ok (birrt_count cs s0 None, false, true)
                      end
                  | _ => Ok (birrt_count cs s0 (r_goal cs (b_rrt cs s0)), false, stopA)
                  end
              | Throw => Throw | Undef => Undef | Diverge => Diverge
              end
          | None => Undef
          end
      | None => Undef
      end in
    r = Throw \/ exists s' found stop', r = Ok (s', found, stop') /\
      ready max s' sc gc /\ same_setup (b_rrt cs s) (b_rrt cs s') /\
      r_cycles cs (b_rrt cs s') = S (r_cycles cs (b_rrt cs s)) /\ (found = true -> bridged s')).
  { intros Hres stopA. destruct (K Hres) as (id & n & E1 & E2 & E3 & E4 & E5).
    destruct (ready_side max s1 sc gc first HR1) as (root & HG1 & _).
    rewrite E1, (tree_get_Some _ _ _ _ HG1 E2). unfold node_cfg. rewrite E3. cbn [option_map].
    destruct (bi_grow_good m1 m2 step max s1 sc gc (negb first) (n_cfg n) _ HR1 eq_refl)
      as [->|(res2 & s2 & -> & HR2 & SS2 & Ec2 & _ & Et & El & Est & K2)]; [now left|right].
    rewrite negb_involutive in Et, El, Est.
    assert (SS' : same_setup (b_rrt cs s) (b_rrt cs s2)) by (eapply same_setup_trans; eassumption).
    assert (Hend2 : forall x (stop : bool), exists s' (found stop' : bool), Ok (birrt_count cs s2 x, false, stop) = Ok (s', found, stop') /\
      ready max s' sc gc /\ same_setup (b_rrt cs s) (b_rrt cs s') /\
      r_cycles cs (b_rrt cs s') = S (r_cycles cs (b_rrt cs s)) /\ (found = true -> bridged s')).
    { intros x stop. exists (birrt_count cs s2 x), false, stop. split; [reflexivity|]. split; [exact HR2|].
      split; [exact SS'|]. split; [cbn; congruence|discriminate]. }
    destruct res2; try apply Hend2.
    destruct (K2 (or_introl eq_refl)) as (id2 & n2 & F1 & F2 & F3 & F4 & F5). specialize (F5 eq_refl).
    destruct (ready_side max s2 sc gc (negb first) HR2) as (root2 & HG2 & _).
    rewrite F1, (tree_get_Some _ _ _ _ HG2 F2).
    exists (birrt_count cs s2 (Some id2)), true, stopA. split; [reflexivity|]. split; [exact HR2|].
    split; [exact SS'|]. split; [cbn; congruence|]. intros _.
    rewrite <- El in E1. rewrite <- Est in E3 by assumption. rewrite <- Et in E2.
    unfold bridged. cbn [birrt_count b_rrt b_tree2 b_last2 r_last r_tree r_pool].
    destruct first; cbn [negb birrt_side_tree birrt_side_last] in *.
    - exists id, n, id2, n2. repeat split; auto.
    - exists id2, n2, id, n. repeat split; auto. }
  destruct res; try (right; apply Hend); apply Hgo; auto.
Qed.

Lemma bi_loop_good : forall m1 m2 step max sc gc inp fuel first s r,
  ready max s sc gc ->
  Nat.max 1 (r_max cs (b_rrt cs s) - r_cycles cs (b_rrt cs s)) <= fuel ->
  birrt_loop cs fuel m1 m2 step inp first s = r ->
  r = Throw \/ exists s' found timeout, r = Ok (s', found, timeout) /\ ready max s' sc gc /\
    same_setup (b_rrt cs s) (b_rrt cs s') /\
    r_cycles cs (b_rrt cs s') <= Nat.max (S (r_cycles cs (b_rrt cs s))) (r_max cs (b_rrt cs s)) /\
    (found = true -> bridged s') /\ (timeout = true -> exists k, ci_timeout cs (inp k) = true).
Proof.
  intros m1 m2 step max sc gc inp fuel. induction fuel as [|fuel IH]; intros first s r HR Hf <-; [lia|].
  cbn [birrt_loop].
  destruct (bi_cycle_good m1 m2 step max s sc gc first (inp (r_cycles cs (b_rrt cs s))) _ HR eq_refl)
    as [->|(s' & found & stop & -> & HR' & Hss & Hc & Hfound)]; [now left|].
  destruct (ci_timeout cs (inp (r_cycles cs (b_rrt cs s)))) eqn:Eto.
  { right. do 3 eexists. split; [reflexivity|]. split; [assumption|]. split; [assumption|]. split; [lia|]. split; [assumption|eauto]. }
  destruct (negb stop && (r_cycles cs (b_rrt cs s') <? r_max cs (b_rrt cs s')) && negb found)%bool eqn:Eb.
  - apply andb_prop in Eb as [Eb _]. apply andb_prop in Eb as [_ Eb]. apply Nat.ltb_lt in Eb.
    pose proof Hss as (_ & _ & _ & S1 & S2 & S3 & _).
    destruct (IH (negb first) s' _ HR' ltac:(lia) eq_refl)
      as [->|(s2 & f2 & to & -> & HI2 & Hss2 & Hc2 & Hf2)]; [now left|right].
    do 3 eexists. split; [reflexivity|]. split; [assumption|].
    split; [eapply same_setup_trans; eassumption|]. split; [lia|assumption].
  - right. do 3 eexists. split; [reflexivity|]. split; [assumption|]. split; [assumption|]. split; [lia|]. split; [assumption|discriminate].
Qed.

(** ** Its solution *)
Lemma path_up : forall max p t root c a na, good max p t root c -> In a (t_nodes t) -> p_store p a = Some na ->
  exists l path, birrt_walk cs (S (length (t_nodes t))) p t a = Ok l /\
    tree_cfgs cs p t (rev (a :: l)) = Some path /\ hd_error path = Some c /\
    (forall d, last path d = n_cfg na) /\ path <> [] /\ adjacent (validated_step cs) path.
Proof.
  intros max p t root c a na HG Hin Ha.
  apply in_split in Hin as Hsp. destruct Hsp as (x & y & Esp).
  destruct (birrt_walk_good _ _ _ _ _ HG (length (t_nodes t)) a x y Esp) as (l & El & Hlast & Hadj).
  { rewrite Esp, app_length. lia. }
  assert (Hall : forall z, In z (rev (a :: l)) -> In z (t_nodes t)).
  { intros z Hz. apply in_rev in Hz. destruct l as [|w l].
    - destruct Hz as [<-|[]]. assumption.
    - apply (adjacent_In _ (edge p t) (fun x => In x (t_nodes t)) (a :: w :: l)); [|exact Hadj|cbn; lia|exact Hz].
      intros u v (K1 & K2 & _). split; assumption. }
  destruct (tree_cfgs_good _ _ _ _ _ HG _ Hall) as (path & Ep & HF).
  exists l, path. split; [assumption|]. split; [assumption|].
  pose proof HG as (_ & _ & _ & Hroot & _).
  split; [|split; [|split]].
  - assert (Hh : hd_error (rev (a :: l)) = Some root) by (apply hd_rev; [discriminate|assumption]).
    destruct (Forall2_hd _ _ _ _ _ _ HF Hh) as (z & -> & n' & Hn' & <-).
    rewrite Hroot in Hn'. injection Hn' as <-. reflexivity.
  - intros d. assert (Hll : last (rev (a :: l)) 0 = a) by (now apply last_rev).
    pose proof (Forall2_last _ _ _ _ _ 0 d HF) as K. rewrite Hll in K.
    destruct K as (n' & Hn' & <-); [cbn; destruct (rev l); discriminate|].
    rewrite Ha in Hn'. injection Hn' as <-. reflexivity.
  - intros ->. inversion HF. destruct (rev l); discriminate.
  - apply adjacent_rev in Hadj. eapply adjacent_map; [|exact HF|exact Hadj].
    intros u u' v v' (_ & _ & nx & ny & K1 & K2 & K3 & K4) (m & M1 & <-) (m' & M2 & <-).
    rewrite K1 in M2. rewrite K2 in M1. injection M1 as <-. injection M2 as <-. assumption.
Qed.

Lemma path_down : forall max p t root c b nb, good max p t root c -> In b (t_nodes t) -> p_store p b = Some nb ->
  exists l path, birrt_walk cs (S (length (t_nodes t))) p t b = Ok l /\
    tree_cfgs cs p t l = Some path /\ adjacent (fun x y => validated_step cs y x) path /\
    ((0 <= n_parent nb)%Z -> path <> [] /\ (forall d, last path d = c) /\
      exists pc, hd_error path = Some pc /\ validated_step cs pc (n_cfg nb)).
Proof.
  intros max p t root c b nb HG Hin Hb.
  apply in_split in Hin as Hsp. destruct Hsp as (x & y & Esp).
  destruct (birrt_walk_good _ _ _ _ _ HG (length (t_nodes t)) b x y Esp) as (l & El & Hlast & Hadj).
  { rewrite Esp, app_length. lia. }
  assert (Hall : forall z, In z l -> In z (t_nodes t)).
  { intros z Hz. destruct l as [|w l]; [contradiction|].
    apply (adjacent_In _ (edge p t) (fun x => In x (t_nodes t)) (b :: w :: l)); [|exact Hadj|cbn; lia|now right].
    intros u v (K1 & K2 & _). split; assumption. }
  destruct (tree_cfgs_good _ _ _ _ _ HG _ Hall) as (path & Ep & HF).
  exists l, path. split; [assumption|]. split; [assumption|].
  pose proof HG as (_ & _ & _ & Hroot & _).
  split.
  - assert (Hadj' : adjacent (edge p t) l) by (inversion Hadj; [constructor|assumption]).
    eapply adjacent_map; [|exact HF|exact Hadj'].
    intros u u' v v' (_ & _ & nx & ny & K1 & K2 & K3 & K4) (m & M1 & <-) (m' & M2 & <-).
    rewrite K1 in M1. rewrite K2 in M2. injection M1 as <-. injection M2 as <-. assumption.
  - intros Hpar. assert (Hl : l <> []).
    { intros ->. cbn in Hlast. subst b. rewrite Hroot in Hb. injection Hb as <-. cbn in Hpar. lia. }
    split. { intros ->. inversion HF. congruence. }
    split.
    + intros d. rewrite last_cons_ne in Hlast by assumption.
      pose proof (Forall2_last _ _ _ _ _ 0 d HF Hl) as (n' & Hn' & <-). rewrite Hlast, Hroot in Hn'.
      injection Hn' as <-. reflexivity.
    + destruct HF as [|w v l path (m & M1 & <-) HF]; [congruence|]. cbn. eexists. split; [reflexivity|].
      inversion Hadj; subst. destruct H1 as (_ & _ & nx & ny & K1 & K2 & K3 & K4).
      rewrite M1 in K2. rewrite Hb in K1. injection K1 as <-. injection K2 as <-. assumption.
Qed.

Definition bi_solution_ok (path : list C) (start goal : C) : Prop :=
  hd_error path = Some start /\ (forall d, last path d = goal) /\ adjacent (bi_step cs near) path.

Lemma adjacent_weaken : forall (A : Type) (R S : A -> A -> Prop) l,
  (forall x y, R x y -> S x y) -> adjacent R l -> adjacent S l.
Proof. intros A R S l H K. induction K; constructor; auto. Qed.

Lemma adjacent_app : forall (A : Type) (R : A -> A -> Prop) l m,
  adjacent R l -> adjacent R m ->
  (forall x y, l <> [] -> (forall d, last l d = x) -> hd_error m = Some y -> R x y) -> adjacent R (l ++ m).
Proof.
  intros A R l m Hl Hm. induction Hl as [|a|a b l Hab Hl IH]; intros H; [assumption| |].
  - destruct m as [|b m]; [constructor|]. cbn. constructor; [|assumption].
    apply H; [discriminate|reflexivity|reflexivity].
  - cbn in *. constructor; [assumption|]. apply IH. intros x y _ Hx Hy. apply H; [discriminate|exact Hx|exact Hy].
Qed.

Lemma bi_create_solution_good : forall max s sc gc,
  ready max s sc gc -> bridged s ->
  exists path, birrt_create_solution cs s = Ok (true, birrt_with_sol cs s (Some path)) /\
    bi_solution_ok path sc gc.
Proof.
  intros max s sc gc ((r1 & HG1) & (r2 & HG2) & _) (a & na & b & nb & E1 & E2 & E3 & F1 & F2 & F3 & F4 & Hn).
  unfold birrt_create_solution. pose proof HG1 as (HI1 & _). pose proof HG2 as (HI2 & _).
  rewrite E1, F1, (tree_get_Some _ _ _ _ HI1 E2), (tree_get_Some _ _ _ _ HI2 F2).
  destruct (path_up _ _ _ _ _ _ _ HG1 E2 E3) as (l1 & c1 & -> & -> & Hh & Hl & Hne & Ha1).
  destruct (path_down _ _ _ _ _ _ _ HG2 F2 F3) as (l2 & c2 & -> & -> & Ha2 & K).
  destruct (K F4) as (Hne2 & Hl2 & pc & Hpc & Hv).
  exists (c1 ++ c2). split; [reflexivity|]. split; [|split].
  - destruct c1; [congruence|]. exact Hh.
  - intros d. destruct (exists_last Hne2) as (m & z & ->). specialize (Hl2 d). rewrite last_last in Hl2.
    subst z. rewrite app_assoc. apply last_last.
  - apply adjacent_app.
    + eapply adjacent_weaken; [|exact Ha1]. intros x y Hxy. now left.
    + eapply adjacent_weaken; [|exact Ha2]. intros x y Hxy. right. now left.
    + intros x y _ Hx Hy. rewrite Hpc in Hy. injection Hy as <-. specialize (Hx x). rewrite Hl in Hx. subst x.
      right. right. exists (n_cfg nb). split; [assumption|exact Hv].
Qed.

Lemma ready_inv : forall max s sc gc, ready max s sc gc ->
  r_start_cfg cs (b_rrt cs s) = Some sc -> r_goal_cfg cs (b_rrt cs s) = Some gc -> bi_inv max true s.
Proof.
  intros max s sc gc ((r1 & HG1) & (r2 & HG2) & Hd) E1 E2. split; [eapply good_other; eassumption|].
  split; [eapply good_other; eassumption|]. split; [assumption|]. split; [eauto|]. split; [eauto|discriminate].
Qed.

Lemma bi_plan_good : forall m1 m2 step max inp f s r,
  bi_inv max f s -> birrt_plan cs m1 m2 step inp s = r ->
  r = Throw \/ exists b s', r = Ok (b, s') /\ bi_inv max true s' /\
    (b = true -> exists path start goal, r_start_cfg cs (b_rrt cs s) = Some start /\
       r_goal_cfg cs (b_rrt cs s) = Some goal /\
       birrt_get_solution cs s' = Ok (Some path, s') /\ bi_solution_ok path start goal) /\
    (b = false -> r_start_ok cs (b_rrt cs s) = true -> r_goal_ok cs (b_rrt cs s) = true ->
       r_sol cs (b_rrt cs s') = None) /\
    (r_start_ok cs (b_rrt cs s) = true -> r_goal_ok cs (b_rrt cs s) = true ->
       r_cycles cs (b_rrt cs s') <= Nat.max 1 (r_max cs (b_rrt cs s))) /\
    ((forall k, ci_timeout cs (inp k) = false) -> r_vis cs (b_rrt cs s') = r_vis cs (b_rrt cs s)).
Proof.
  intros m1 m2 step max inp f s r HI <-. unfold birrt_plan.
  pose proof HI as (O1 & O2 & Hd & Hs & Hg & _).
  assert (HIt : bi_inv max true s).
  { split; [assumption|]. split; [assumption|]. split; [assumption|]. split; [assumption|].
    split; [assumption|discriminate]. }
  destruct (r_start_ok cs (b_rrt cs s)) eqn:Es; [destruct (r_goal_ok cs (b_rrt cs s)) eqn:Eg|]; cbn [andb];
    try (right; do 2 eexists; split; [reflexivity|]; split; [assumption|]; split; [discriminate|];
         split; [intros; discriminate|split; [intros; discriminate|reflexivity]]).
  destruct (Hs eq_refl) as (i1 & sc & Esc & HG1). destruct (Hg eq_refl) as (i2 & gc & Egc & HG2).
  set (s0 := BiRrt cs (rrt_begin cs (b_rrt cs s)) (b_tree2 cs s) (b_last2 cs s)).
  assert (HR0 : ready max s0 sc gc) by (split; [exists i1; exact HG1|split; [exists i2; exact HG2|exact Hd]]).
  destruct (bi_loop_good m1 m2 step max sc gc inp (Nat.max 1 (r_max cs (b_rrt cs s))) true s0 _ HR0
    ltac:(subst s0; cbn [rrt_begin r_max r_cycles b_rrt]; lia) eq_refl)
    as [->|(s' & found & timeout & -> & HR & Hss & Hc & Hfound & Hto)].
  { now left. }
  pose proof Hss as (S1 & S2 & S3 & S4 & S5 & S6 & S7 & S8).
  cbn [s0 b_rrt rrt_begin r_start r_start_cfg r_goal_cfg r_start_ok r_goal_ok r_max r_sol r_cycles r_vis] in S1, S2, S3, S4, S5, S6, S7, S8, Hc.
  right. destruct timeout.
  { do 2 eexists. split; [reflexivity|]. split; [eapply ready_inv; [exact HR|congruence|congruence]|].
    split; [discriminate|]. split; [auto|]. split; [intros; lia|].
    intros Hno. destruct (Hto eq_refl) as (k & Hk). rewrite Hno in Hk. discriminate. }
  set (s2 := if r_vis cs (b_rrt cs s) then birrt_with_vis cs s' true else s').
  assert (Hs2 : ready max s2 sc gc /\ r_start_cfg cs (b_rrt cs s2) = Some sc /\
    r_goal_cfg cs (b_rrt cs s2) = Some gc /\ (found = true -> bridged s2) /\ r_sol cs (b_rrt cs s2) = None /\
    r_cycles cs (b_rrt cs s2) = r_cycles cs (b_rrt cs s') /\
    r_vis cs (b_rrt cs s2) = r_vis cs (b_rrt cs s)).
  { subst s2. destruct (r_vis cs (b_rrt cs s)) eqn:Ev; cbn; (split; [exact HR|]); repeat split; auto; congruence. }
  clearbody s2. destruct Hs2 as (HI2 & T2 & T3 & T4 & T5 & T6 & T7).
  pose proof (ready_inv _ _ _ _ HI2 T2 T3) as HB.
  destruct found.
  - destruct (bi_create_solution_good max s2 sc gc HI2 (T4 eq_refl)) as (path & -> & Hok).
    do 2 eexists. split; [reflexivity|]. split; [exact HB|]. split.
    + intros _. exists path, sc, gc. repeat split; auto; apply Hok.
    + split; [discriminate|]. split; [|intros _; exact T7]. intros _ _. cbn [birrt_with_sol b_rrt rrt_with_sol r_cycles]. lia.
  - do 2 eexists. split; [reflexivity|]. split; [exact HB|]. split; [discriminate|]. split; [auto|].
    split; [intros _ _; lia|intros _; exact T7].
Qed.

(** ** Histories *)
Lemma bi_create_solution_total : forall max f s, bi_inv max f s ->
  exists b o, birrt_create_solution cs s = Ok (b, birrt_with_sol cs s o).
Proof.
  intros max f s (O1 & O2 & _). unfold birrt_create_solution.
  pose proof O1 as (HI1 & _ & G1). pose proof O2 as (HI2 & _ & G2).
  destruct (tree_get (r_tree cs (b_rrt cs s)) (r_last cs (b_rrt cs s))) as [a|] eqn:Ea; [|eauto].
  destruct (tree_get (b_tree2 cs s) (b_last2 cs s)) as [b|] eqn:Eb; [|eauto].
  apply (tree_get_In _ _ _ _ _ HI1) in Ea as (_ & Ea). apply (tree_get_In _ _ _ _ _ HI2) in Eb as (_ & Eb).
  destruct G1 as [K|(r1 & c1 & G1)]; [rewrite K in Ea; contradiction|].
  destruct G2 as [K|(r2 & c2 & G2)]; [rewrite K in Eb; contradiction|].
  destruct (good_node _ _ _ _ _ _ G1 Ea) as (na & Hna). destruct (good_node _ _ _ _ _ _ G2 Eb) as (nb & Hnb).
  destruct (path_up _ _ _ _ _ _ _ G1 Ea Hna) as (l1 & p1 & -> & -> & _).
  destruct (path_down _ _ _ _ _ _ _ G2 Eb Hnb) as (l2 & p2 & -> & -> & _). eauto.
Qed.

Lemma bi_get_solution_total : forall max f s, bi_inv max f s ->
  exists o s', birrt_get_solution cs s = Ok (o, s') /\ bi_inv max f s'.
Proof.
  intros max f s HI. unfold birrt_get_solution. destruct (r_sol cs (b_rrt cs s)).
  - do 2 eexists. split; [reflexivity|assumption].
  - destruct (bi_create_solution_total _ _ _ HI) as (b & o & ->). do 2 eexists. split; [reflexivity|exact HI].
Qed.

Lemma append_new_tree : forall max p t u c id p' t',
  tree_inv max p t -> t_nodes t = [] -> other_ok max p u ->
  tree_append_node p t c (-1) = Some (id, p', t') ->
  good max p' t' id c /\ other_ok max p' u /\ disjoint t' u /\ t_nodes t' = [id] /\
  (forall root rc, good max p u root rc -> good max p' u root rc).
Proof.
  intros max p t u c id p' t' HI E HU H. eapply new_root_good in H as (HG & Hf & En); try eassumption.
  pose proof HU as (HUI & _). split; [assumption|]. split; [eapply frame_other; eassumption|].
  split; [|split; [assumption|intros; eapply frame_good; eassumption]].
  eapply frame_disjoint; try eassumption. intros x Hx. rewrite E in Hx. contradiction.
Qed.

Lemma bi_set_start_inv : forall max f s c b s', bi_inv max f s ->
  birrt_set_start cs s c = Ok (b, s') -> bi_inv max f s'.
Proof.
  intros max f s c b s' (O1 & O2 & Hd & Hs & Hg & Hf) H. unfold birrt_set_start, rrt_set_start in H.
  destruct (coll_free cs c && in_boundary cs c)%bool.
  - destruct (tree_append_node (r_pool cs (b_rrt cs s)) _ c (-1)) as [[[id p] t]|] eqn:E; [|discriminate].
    injection H as <- <-.
    eapply (append_new_tree max _ _ (b_tree2 cs s)) in E as (HG & HU & HD & En & Hk); [| | |assumption].
    + split; [eapply good_other; exact HG|]. split; [exact HU|]. split; [exact HD|].
      split; [intros _; exists id, c; split; [reflexivity|exact HG]|].
      split; [|exact Hf]. intros Hgo. destruct (Hg Hgo) as (i & gc & E1 & E2). exists i, gc.
      split; [exact E1|]. apply Hk. exact E2.
    + pose proof O1 as (HI1 & _). destruct (Nat.ltb_spec 0 (length (t_nodes (r_tree cs (b_rrt cs s))))).
      * eapply tree_inv_reset_tree; eassumption.
      * assumption.
    + destruct (Nat.ltb_spec 0 (length (t_nodes (r_tree cs (b_rrt cs s))))); [reflexivity|].
      destruct (t_nodes (r_tree cs (b_rrt cs s))); [reflexivity|cbn in H; lia].
  - injection H as <- <-. split; [exact O1|]. split; [exact O2|]. split; [exact Hd|].
    split; [discriminate|]. split; [exact Hg|exact Hf].
Qed.


Lemma NoDup_insert : forall (a b : list nat) x, NoDup (a ++ b) -> ~ In x a -> ~ In x b -> NoDup (a ++ x :: b).
Proof.
  intros a b x D Ha Hb. apply (NoDup_Add (a := x) (l := a ++ b)); [apply Add_app|].
  split; [assumption|]. intros K. apply in_app_iff in K as [K|K]; contradiction.
Qed.

Lemma remove_root : forall max p t u g, other_ok max p t -> other_ok max p u -> disjoint u t ->
  t_nodes t = [g] ->
  exists p' t', tree_remove p t g = (p', t') /\ t_nodes t' = [] /\ tree_inv max p' t' /\ other_ok max p' u /\
    (forall root rc, good max p u root rc -> good max p' u root rc).
Proof.
  intros max p t u g (HI & Hb & _) HU Hd E. pose proof HI as (A & B & B2 & D & E' & F).
  assert (Hg : g < max) by (apply Hb; rewrite E; now left).
  unfold tree_remove. rewrite E. cbn [mem existsb]. rewrite Nat.eqb_refl. cbn [orb].
  exists (pool_remove p g), (Tree (erase_first g [g]) (erase_first g (t_keys t))). split; [reflexivity|].
  cbn [erase_first t_nodes]. rewrite Nat.eqb_refl. split; [reflexivity|].
  unfold pool_remove. destruct (Nat.leb_spec (p_max p) g); [lia|].
  rewrite E in B. cbn in B. inversion B; subst.
  assert (Ngu : ~ In g (t_nodes u)) by (intros K; apply (Hd g K); rewrite E; now left).
  assert (HUI : forall w, tree_inv (p_max p) p w -> ~ In g (t_nodes w) ->
     tree_inv (p_max p) (Pool (p_max p) (g :: p_free p) (upd (p_alloc p) g false) (p_store p)) w).
  { intros w (A0 & A1 & A2 & A3 & A4 & A5) Hw. split; [reflexivity|]. cbn.
    split; [apply NoDup_insert; assumption|]. split; [|split; [assumption|split; assumption]].
    intros x [<-|Hx]; [assumption|auto]. }
  split.
  { split; [reflexivity|]. cbn. split; [constructor; assumption|].
    split. { intros x [<-|Hx]; [assumption|auto]. }
    split; [apply erase_first_NoDup; assumption|]. split; [|intros x []].
    intros x. rewrite erase_first_In by assumption. rewrite E', E. cbn. split; [|tauto].
    intros ([<-|[]] & K). congruence. }
  destruct HU as (HU1 & HU2 & HU3).
  assert (Hgood : forall root rc, good (p_max p) p u root rc ->
    good (p_max p) (Pool (p_max p) (g :: p_free p) (upd (p_alloc p) g false) (p_store p)) u root rc).
  { intros root rc (G1 & G2 & G3 & G4 & G5). split; [apply HUI; assumption|].
    split; [assumption|]. split; [assumption|]. split; [exact G4|exact G5]. }
  split; [|exact Hgood]. split; [apply HUI; assumption|]. split; [assumption|].
  destruct HU3 as [K|(r & rc & K)]; [now left|right; eauto].
Qed.

Lemma bi_set_goal_inv : forall max s c b s', bi_inv max false s ->
  birrt_set_goal cs s c = Ok (b, s') -> bi_inv max false s'.
Proof.
  intros max s c b s' (O1 & O2 & Hd & Hs & Hg & Hf) H. specialize (Hf eq_refl).
  unfold birrt_set_goal, rrt_set_goal in H.
  destruct (coll_free cs c && in_boundary cs c)%bool; cbn [r_goal r_pool] in H.
  - assert (exists p t2, (match r_goal cs (b_rrt cs s) with
      | Some g => tree_remove (r_pool cs (b_rrt cs s)) (b_tree2 cs s) g
      | None => (r_pool cs (b_rrt cs s), b_tree2 cs s) end) = (p, t2) /\
      t_nodes t2 = [] /\ tree_inv max p t2 /\ other_ok max p (r_tree cs (b_rrt cs s)) /\
      (forall root rc, good max (r_pool cs (b_rrt cs s)) (r_tree cs (b_rrt cs s)) root rc ->
         good max p (r_tree cs (b_rrt cs s)) root rc)) as (p & t2 & Ep & E2 & HI2 & HO1 & Hk).
    { destruct Hf as [(-> & E)|(g & -> & E)].
      - do 2 eexists. split; [reflexivity|]. pose proof O2 as (HI2 & _). auto.
      - eapply remove_root; eassumption. }
    rewrite Ep in H.
    destruct (tree_append_node p t2 c (-1)) as [[[id p'] t']|] eqn:E; [|discriminate].
    injection H as <- <-.
    eapply append_new_tree in E as (HG & HU & HD & En & Hk'); try eassumption.
    split; [exact HU|]. split; [eapply good_other; exact HG|]. split; [apply disjoint_sym; exact HD|].
    split; [|split].
    + intros Hso. destruct (Hs Hso) as (i & sc & K1 & K2). exists i, sc. split; [exact K1|]. apply Hk', Hk. exact K2.
    + intros _. exists id, c. split; [reflexivity|exact HG].
    + intros _. right. exists id. split; [reflexivity|exact En].
  - injection H as <- <-. split; [exact O1|]. split; [exact O2|]. split; [exact Hd|].
    split; [exact Hs|]. split; [discriminate|]. intros _. exact Hf.
Qed.

Lemma other_empty : forall max p, tree_inv max p tree_empty -> other_ok max p tree_empty.
Proof. intros max p H. split; [assumption|]. split; [intros x []|now left]. Qed.

Lemma birrt_run_inv : forall max m1 m2 step f s, birrt_run cs max m1 m2 step f s -> bi_inv max f s.
Proof.
  intros max m1 m2 step f s H. induction H.
  - unfold pool_new in H. destruct (Nat.eqb max 0); [discriminate|]. injection H as <-.
    assert (HI : tree_inv max (Pool max (rev (seq 0 max)) (fun _ => false) (fun _ => @None (cs_node C))) tree_empty).
    { apply tree_inv_empty; cbn; [reflexivity|apply NoDup_rev, seq_NoDup|].
      intros x K. apply in_rev, in_seq in K. lia. }
    split; [now apply other_empty|]. split; [now apply other_empty|]. split; [intros x []|].
    split; [discriminate|]. split; [discriminate|]. intros _. left. split; reflexivity.
  - eapply bi_set_start_inv; eassumption.
  - eapply bi_set_goal_inv; eassumption.
  - exact IHbirrt_run.
  - destruct (bi_plan_good _ _ _ _ _ _ _ _ IHbirrt_run H0) as [K|(b' & s2 & K & HI & _)]; [discriminate|].
    injection K as -> ->. assumption.
  - destruct (bi_get_solution_total _ _ _ IHbirrt_run) as (o' & s2 & K & HI). rewrite H0 in K.
    injection K as -> ->. assumption.
  - destruct IHbirrt_run as (((A & _) & _) & _).
    pose proof (tree_inv_reset_all max _ A) as HI.
    split; [now apply other_empty|]. split; [now apply other_empty|]. split; [intros x []|].
    split; [discriminate|]. split; [discriminate|]. intros _. left. split; reflexivity.
Qed.


(** * The statements of the properties *)
Lemma consecutive_of_adjacent : forall (A : Type) (R : A -> A -> Prop) l,
  adjacent R l -> forall a b, consecutive a b l -> R a b.
Proof.
  intros A R l H. induction H as [|x|x y l Hxy Hl IH]; intros a b (l1 & l2 & E).
  - destruct l1; discriminate.
  - destruct l1 as [|? [|? ?]]; discriminate.
  - destruct l1 as [|z l1]; cbn in E.
    + injection E as -> -> ->. assumption.
    + injection E as _ E. apply IH. exists l1, l2. assumption.
Qed.

Lemma nodes_le : forall (l : list nat) max, NoDup l -> (forall x, In x l -> x < max) -> length l <= max.
Proof.
  intros l max D H. rewrite <- (seq_length max 0). apply NoDup_incl_length; [assumption|].
  intros x Hx. apply in_seq. apply H in Hx. lia.
Qed.

Lemma rrt_plan_ok : forall max mode step s inp, rrt_run cs max mode step s ->
  rrt_plan cs mode step inp s = Throw \/
  exists b s', rrt_plan cs mode step inp s = Ok (b, s') /\
    (b = true -> exists path start goal,
       r_start_cfg cs s = Some start /\ r_goal_cfg cs s = Some goal /\
       rrt_get_solution cs s' = Ok (Some path, s') /\
       hd_error path = Some start /\ near (last path start) goal /\
       forall x y, consecutive x y path -> validated_step cs x y) /\
    (b = false -> r_sol cs s' = None \/ s' = s).
Proof.
  intros max mode step s inp H. pose proof (rrt_run_inv _ _ _ _ H) as HI.
  destruct (plan_good mode step max inp s _ HI eq_refl) as [K|(b & s' & E & _ & K1 & K2 & _)]; [now left|right].
  exists b, s'. split; [assumption|]. split.
  - intros Hb. destruct (K1 Hb) as (path & st & go & A1 & A2 & A3 & A4 & A5 & A6).
    exists path, st, go. repeat split; auto. now apply consecutive_of_adjacent.
  - intros ->. unfold rrt_plan in E. destruct (r_start_ok cs s) eqn:E1; destruct (r_goal_ok cs s) eqn:E2; cbn [andb] in E.
    + left. now apply K2.
    + right. congruence.
    + right. congruence.
    + right. congruence.
Qed.

Lemma birrt_plan_ok : forall max m1 m2 step f s inp, birrt_run cs max m1 m2 step f s ->
  birrt_plan cs m1 m2 step inp s = Throw \/
  exists b s', birrt_plan cs m1 m2 step inp s = Ok (b, s') /\
    (b = true -> exists path start goal,
       r_start_cfg cs (b_rrt cs s) = Some start /\ r_goal_cfg cs (b_rrt cs s) = Some goal /\
       birrt_get_solution cs s' = Ok (Some path, s') /\
       hd_error path = Some start /\ last path start = goal /\
       forall x y, consecutive x y path -> bi_step cs near x y) /\
    (b = false -> r_sol cs (b_rrt cs s') = None \/ s' = s).
Proof.
  intros max m1 m2 step f s inp H. pose proof (birrt_run_inv _ _ _ _ _ _ H) as HI.
  destruct (bi_plan_good m1 m2 step max inp f s _ HI eq_refl) as [K|(b & s' & E & _ & K1 & K2 & _)]; [now left|right].
  exists b, s'. split; [assumption|]. split.
  - intros Hb. destruct (K1 Hb) as (path & st & go & A1 & A2 & A3 & A4 & A5 & A6).
    exists path, st, go. repeat split; auto. now apply consecutive_of_adjacent.
  - intros ->. unfold birrt_plan in E.
    destruct (r_start_ok cs (b_rrt cs s)) eqn:E1; destruct (r_goal_ok cs (b_rrt cs s)) eqn:E2; cbn [andb] in E.
    + left. now apply K2.
    + right. congruence.
    + right. congruence.
    + right. congruence.
Qed.

Lemma rrt_terminates : forall max mode step s inp, rrt_run cs max mode step s ->
  rrt_plan cs mode step inp s = Throw \/
  exists b s', rrt_plan cs mode step inp s = Ok (b, s') /\
    (s' = s \/ r_cycles cs s' <= Nat.max 1 (r_max cs s)) /\
    length (t_nodes (r_tree cs s')) <= max.
Proof.
  intros max mode step s inp H. pose proof (rrt_run_inv _ _ _ _ H) as HI.
  destruct (plan_good mode step max inp s _ HI eq_refl) as [K|(b & s' & E & HI' & _ & _ & K3 & _)]; [now left|right].
  exists b, s'. split; [assumption|]. split.
  - unfold rrt_plan in E. destruct (r_start_ok cs s) eqn:E1; destruct (r_goal_ok cs s) eqn:E2; cbn [andb] in E;
      [right; now apply K3| | |]; left; congruence.
  - destruct HI' as ((_ & B & _) & Hb & _). apply nodes_le; [eapply NoDup_app_l; eassumption|assumption].
Qed.

Lemma birrt_terminates : forall max m1 m2 step f s inp, birrt_run cs max m1 m2 step f s ->
  birrt_plan cs m1 m2 step inp s = Throw \/
  exists b s', birrt_plan cs m1 m2 step inp s = Ok (b, s') /\
    (s' = s \/ r_cycles cs (b_rrt cs s') <= Nat.max 1 (r_max cs (b_rrt cs s))) /\
    length (t_nodes (r_tree cs (b_rrt cs s'))) + length (t_nodes (b_tree2 cs s')) <= max.
Proof.
  intros max m1 m2 step f s inp H. pose proof (birrt_run_inv _ _ _ _ _ _ H) as HI.
  destruct (bi_plan_good m1 m2 step max inp f s _ HI eq_refl) as [K|(b & s' & E & HI' & _ & _ & K3 & _)]; [now left|right].
  exists b, s'. split; [assumption|]. split.
  - unfold birrt_plan in E.
    destruct (r_start_ok cs (b_rrt cs s)) eqn:E1; destruct (r_goal_ok cs (b_rrt cs s)) eqn:E2; cbn [andb] in E;
      [right; now apply K3| | |]; left; congruence.
  - destruct HI' as (((_ & B1 & _) & Hb1 & _) & ((_ & B2 & _) & Hb2 & _) & Hd & _).
    rewrite <- app_length. apply nodes_le.
    + apply NoDup_app_l in B1. apply NoDup_app_l in B2. revert B1 B2 Hd. unfold disjoint. clear.
      induction (t_nodes (r_tree cs (b_rrt cs s'))) as [|x l IH]; intros B1 B2 Hd; [assumption|].
      cbn. inversion B1; subst. constructor.
      * intros K. apply in_app_iff in K as [K|K]; [contradiction|]. apply (Hd x); [now left|assumption].
      * apply IH; auto. intros y Hy. apply Hd. now right.
    + intros x Hx. apply in_app_iff in Hx as [Hx|Hx]; auto.
Qed.

Lemma rrt_vis_ok : forall max mode step s inp b s', rrt_run cs max mode step s ->
  (forall k, ci_timeout cs (inp k) = false) ->
  rrt_plan cs mode step inp s = Ok (b, s') -> r_vis cs s' = r_vis cs s.
Proof.
  intros max mode step s inp b s' H Ht E. pose proof (rrt_run_inv _ _ _ _ H) as HI.
  destruct (plan_good mode step max inp s _ HI E) as [K|(b2 & s2 & E2 & _ & _ & _ & _ & K)]; [discriminate|].
  injection E2 as <- <-. auto.
Qed.

Lemma birrt_vis_ok : forall max m1 m2 step f s inp b s', birrt_run cs max m1 m2 step f s ->
  (forall k, ci_timeout cs (inp k) = false) ->
  birrt_plan cs m1 m2 step inp s = Ok (b, s') -> r_vis cs (b_rrt cs s') = r_vis cs (b_rrt cs s).
Proof.
  intros max m1 m2 step f s inp b s' H Ht E. pose proof (birrt_run_inv _ _ _ _ _ _ H) as HI.
  destruct (bi_plan_good m1 m2 step max inp f s _ HI E) as [K|(b2 & s2 & E2 & _ & _ & _ & _ & K)]; [discriminate|].
  injection E2 as <- <-. auto.
Qed.

Lemma birrt_get_solution_safe : forall max m1 m2 step f s, birrt_run cs max m1 m2 step f s ->
  exists o s', birrt_get_solution cs s = Ok (o, s').
Proof.
  intros max m1 m2 step f s H. apply birrt_run_inv in H. apply bi_get_solution_total in H as (o & s' & E & _). eauto.
Qed.

End P.

(** * A small C-space for the witnesses: configurations are numbers, connections to numbers from 10
    on are invalid. *)
Definition line : cspace :=
  CSpaceI nat nat Nat.ltb Nat.leb Nat.div (fun a b => (a - b) + (b - a)) (fun a b => ((a - b) + (b - a)) * ((a - b) + (b - a)))
    (fun a b k => if a <? b then a + k * (b - a) else a - k * (a - b)) (fun a b => b <? 10)
    (fun a b => if Nat.eqb a b then [a] else [a; b])
    (fun a b => if Nat.eqb a b then ([a], true) else if b <? 10 then ([a; b], true) else ([a], false))
    (fun _ => true) (fun _ => true).

Lemma line_contract : path_contract line eq.
Proof.
  split; intros a b; cbn [line create_path create_path_until].
  - destruct (Nat.eqb a b); eauto.
  - destruct (Nat.eqb_spec a b); cbn [length last]; [lia|reflexivity].
  - destruct (Nat.eqb a b); cbn [fst]; [eauto|]. destruct (b <? 10); cbn [fst]; eauto.
  - destruct (Nat.eqb_spec a b); cbn [fst snd length last]; [lia|].
    destruct (b <? 10); cbn [fst snd length last]; [reflexivity|lia].
Qed.

Definition goal_always : nat -> cycle_input line := fun _ => CycleInput line true 0 false false.
Definition sample_always (c : nat) (timeout : bool) : nat -> cycle_input line :=
  fun _ => CycleInput line false c false timeout.

Definition ok_or {A : Type} (o : outcome (bool * A)) (d : A) : A :=
  match o with Ok (_, a) => a | _ => d end.
Definition pool4 : pool nat :=
  match pool_new 6 with Some p => p | None => Pool 0 [] (fun _ => false) (fun _ => None) end.

Definition st1 : rrt line := ok_or (rrt_set_start line (rrt_set_max line (rrt_new line pool4) 3) 1) (rrt_new line pool4).
Definition st2 : rrt line := snd (rrt_set_goal line st1 5).
Definition st3 : rrt line := ok_or (rrt_plan line eConnectCompletePath 1 goal_always st2) st2.
Definition st4 : rrt line := snd (rrt_set_goal line st3 20).
Definition st5 : rrt line := ok_or (rrt_plan line eConnectCompletePath 1 goal_always st4) st4.
Definition st6 : rrt line := ok_or (rrt_set_start line st4 2) st4.
Definition st7 : rrt line := ok_or (rrt_plan line eConnectCompletePath 1 goal_always st6) st6.

Lemma st1_run : rrt_run line 6 eConnectCompletePath 1 st1.
Proof. eapply (rr_start _ _ _ _ (rrt_set_max line (rrt_new line pool4) 3) 1 true); [apply rr_max, rr_new; reflexivity|vm_compute; reflexivity]. Qed.
Lemma st2_run : rrt_run line 6 eConnectCompletePath 1 st2.
Proof. eapply (rr_goal _ _ _ _ st1 5 true); [apply st1_run|vm_compute; reflexivity]. Qed.
Lemma st3_run : rrt_run line 6 eConnectCompletePath 1 st3.
Proof. eapply (rr_plan _ _ _ _ st2 goal_always true); [apply st2_run|vm_compute; reflexivity]. Qed.
Lemma st4_run : rrt_run line 6 eConnectCompletePath 1 st4.
Proof. eapply (rr_goal _ _ _ _ st3 20 true); [apply st3_run|vm_compute; reflexivity]. Qed.
Lemma st5_run : rrt_run line 6 eConnectCompletePath 1 st5.
Proof. eapply (rr_plan _ _ _ _ st4 goal_always false); [apply st4_run|vm_compute; reflexivity]. Qed.
Lemma st6_run : rrt_run line 6 eConnectCompletePath 1 st6.
Proof. eapply (rr_start _ _ _ _ st4 2 true); [apply st4_run|vm_compute; reflexivity]. Qed.
Lemma st7_run : rrt_run line 6 eConnectCompletePath 1 st7.
Proof. eapply (rr_plan _ _ _ _ st6 goal_always false); [apply st6_run|vm_compute; reflexivity]. Qed.

(** The same for BiRrt. *)
Definition bt1 : birrt line :=
  ok_or (birrt_set_start line (birrt_set_max line (birrt_new line pool4) 3) 1) (birrt_new line pool4).
Definition bt2 : birrt line := ok_or (birrt_set_goal line bt1 5) bt1.
(** samples 3: both trees reach it *)
Definition bt3 : birrt line := ok_or (birrt_plan line eConnectCompletePath eConnectCompletePath 1 (sample_always 3 false) bt2) bt2.

Lemma bt1_run : birrt_run line 6 eConnectCompletePath eConnectCompletePath 1 false bt1.
Proof. eapply (br_start _ _ _ _ _ _ (birrt_set_max line (birrt_new line pool4) 3) 1 true); [apply br_max, br_new; reflexivity|vm_compute; reflexivity]. Qed.
Lemma bt2_run : birrt_run line 6 eConnectCompletePath eConnectCompletePath 1 false bt2.
Proof. eapply (br_goal _ _ _ _ _ bt1 5 true); [apply bt1_run|vm_compute; reflexivity]. Qed.
Lemma bt3_run : birrt_run line 6 eConnectCompletePath eConnectCompletePath 1 true bt3.
Proof. eapply (br_plan _ _ _ _ _ _ bt2 (sample_always 3 false) true); [apply bt2_run|vm_compute; reflexivity]. Qed.

(** After a successful plan a new goal is set; the next plan still ends in the old one. *)
Definition bt4 : birrt line := ok_or (birrt_set_goal line bt3 7) bt3.
Definition bt5 : birrt line :=
  ok_or (birrt_plan line eConnectCompletePath eConnectCompletePath 1 (sample_always 4 false) bt4) bt4.

(** A C-space with a wall between 9 and 10. *)
Definition wall : cspace :=
  CSpaceI nat nat Nat.ltb Nat.leb Nat.div (fun a b => (a - b) + (b - a)) (fun a b => ((a - b) + (b - a)) * ((a - b) + (b - a)))
    (fun a b k => if a <? b then a + k * (b - a) else a - k * (a - b)) (fun a b => Bool.eqb (a <? 10) (b <? 10))
    (fun a b => if Nat.eqb a b then [a] else [a; b])
    (fun a b => if Nat.eqb a b then ([a], true) else if Bool.eqb (a <? 10) (b <? 10) then ([a; b], true) else ([a], false))
    (fun _ => true) (fun _ => true).

Lemma wall_contract : path_contract wall eq.
Proof.
  split; intros a b; cbn [wall create_path create_path_until].
  - destruct (Nat.eqb a b); eauto.
  - destruct (Nat.eqb_spec a b); cbn [length last]; [lia|reflexivity].
  - destruct (Nat.eqb a b); cbn [fst]; [eauto|]. destruct (Bool.eqb (a <? 10) (b <? 10)); cbn [fst]; eauto.
  - destruct (Nat.eqb_spec a b); cbn [fst snd length last]; [lia|].
    destruct (Bool.eqb (a <? 10) (b <? 10)); cbn [fst snd length last]; [reflexivity|lia].
Qed.

Definition wt1 : birrt wall :=
  ok_or (birrt_set_start wall (birrt_set_max wall (birrt_new wall pool4) 2) 1) (birrt_new wall pool4).
Definition wt2 : birrt wall := ok_or (birrt_set_goal wall wt1 15) wt1.
Definition wall_samples : nat -> cycle_input wall :=
  fun k => CycleInput wall false (if Nat.eqb k 0 then 3 else 12) false false.
Definition wt3 : birrt wall := ok_or (birrt_plan wall eConnectCompletePath eConnectCompletePath 1 wall_samples wt2) wt2.

Lemma wt2_run : birrt_run wall 6 eConnectCompletePath eConnectCompletePath 1 false wt2.
Proof.
  eapply (br_goal _ _ _ _ _ wt1 15 true); [|vm_compute; reflexivity].
  eapply (br_start _ _ _ _ _ _ (birrt_set_max wall (birrt_new wall pool4) 2) 1 true);
    [apply br_max, br_new; reflexivity|vm_compute; reflexivity].
Qed.
