(** Proofs for C78: orientation. *)
From Coq Require Import List ZArith Bool Arith Lia.
From Verif Require Import MeshModel MeshSpec MeshProofs MeshMerge.
Import ListNotations.
Open Scope nat_scope.

Definition lift (t : tri) : option vtx * option vtx * option vtx := let '(a, b, c) := t in (Some a, Some b, Some c).
Lemma lift_inj t u : lift t = lift u -> t = u.
Proof. destruct t as [[a b] c], u as [[a' b'] c']. cbn. congruence. Qed.
(** Dealing with two triangles: which corners coincide. *)
Ltac eqs := repeat match goal with |- context [vtx_eqb ?a ?b] => destruct (vtx_eqb_spec a b); [subst; try congruence|] end.
Lemma turned_twice t : turned (turned t) = t.
Proof. destruct t as [[a b] c]. reflexivity. Qed.
Lemma turned_proper t : proper t -> proper (turned t).
Proof. destruct t as [[a b] c]. cbn. intuition congruence. Qed.
Lemma turned_corner t p : has_corner (turned t) p <-> has_corner t p.
Proof. destruct t as [[a b] c]. cbn. tauto. Qed.
Lemma turned_edge t p q : edge (turned t) p q <-> edge t q p.
Proof. destruct t as [[a b] c]. cbn. intuition. Qed.
Lemma adjacent_turned_l t u : adjacent (turned t) u <-> adjacent t u.
Proof. unfold adjacent. split; intros [(p & q & H) (r & R)]; (split; [exists p, q; rewrite !turned_corner in *; exact H|exists r; rewrite !turned_corner in *; exact R]). Qed.
Lemma adjacent_turned_r t u : adjacent t (turned u) <-> adjacent t u.
Proof. unfold adjacent. split; intros [(p & q & H) (r & R)]; (split; [exists p, q; rewrite !turned_corner in *; exact H|exists r; rewrite !turned_corner in *; exact R]). Qed.
Lemma consistent_both t u : consistent t u -> consistent (turned t) (turned u).
Proof. intros (p & q & A & B). exists q, p. rewrite !turned_edge. auto. Qed.
(** An edge of a proper triangle runs one way. *)
Lemma edge_one_way t p q : proper t -> edge t p q -> edge t q p -> False.
Proof. destruct t as [[a b] c]. cbn. intros (A & B & C) E F. destruct E as [(-> & ->)|[(-> & ->)|(-> & ->)]], F as [(F1 & F2)|[(F1 & F2)|(F1 & F2)]]; congruence. Qed.
Lemma edge_some t p q : proper t -> has_corner t p -> has_corner t q -> p <> q -> edge t p q \/ edge t q p.
Proof. destruct t as [[a b] c]. cbn. intros _ [->|[->| ->]] [->|[->| ->]] N; tauto. Qed.
Lemma edge_corners t p q : edge t p q -> has_corner t p /\ has_corner t q.
Proof. destruct t as [[a b] c]. cbn. intros [(-> & ->)|[(-> & ->)|(-> & ->)]]; tauto. Qed.
Lemma edge_distinct t p q : proper t -> edge t p q -> p <> q.
Proof. destruct t as [[a b] c]. cbn. intros (A & B & C) [(-> & ->)|[(-> & ->)|(-> & ->)]]; congruence. Qed.
(** Two corners of an adjacent pair: the common edge is unique. *)
Lemma common_edge t u p q x y : proper t -> adjacent t u -> p <> q -> x <> y -> has_corner t p -> has_corner t q -> has_corner u p -> has_corner u q -> has_corner t x -> has_corner t y -> has_corner u x -> has_corner u y ->
  (x = p /\ y = q) \/ (x = q /\ y = p).
Proof.
  destruct t as [[a b] c]. intros (P1 & P2 & P3) [_ (r & R & NR)] N1 N2. cbn [has_corner] in R. intros TP TQ UP UQ TX TY UX UY. assert (X : forall z, has_corner (a, b, c) z -> has_corner u z -> z <> r) by (intros z _ U ->; contradiction).
  assert (A1 := X p TP UP). assert (A2 := X q TQ UQ). assert (A3 := X x TX UX). assert (A4 := X y TY UY). cbn [has_corner] in *. clear X UP UQ UX UY NR.
  destruct R as [->|[->| ->]], TP as [->|[->| ->]], TQ as [->|[->| ->]]; try congruence; destruct TX as [->|[->| ->]], TY as [->|[->| ->]]; try congruence; auto.
Qed.
(** Turning one of two adjacent triangles changes consistency. *)
Lemma consistent_turn t u : proper t -> proper u -> adjacent t u -> (consistent t (turned u) <-> ~ consistent t u).
Proof.
  intros PT PU AD. split.
  - intros (p & q & A & B) (x & y & A' & B'). rewrite turned_edge in B. destruct (edge_corners t p q A), (edge_corners u p q B), (edge_corners t x y A'), (edge_corners u y x B').
    destruct (common_edge t u p q x y PT AD (edge_distinct t p q PT A) (edge_distinct t x y PT A')) as [(-> & ->)|(-> & ->)]; try assumption; [exact (edge_one_way u p q PU B B')|exact (edge_one_way t p q PT A A')].
  - intros NC. destruct AD as [(p & q & N & A & B & C & D) _]. assert (X : exists x y, edge t x y /\ has_corner u x /\ has_corner u y /\ x <> y).
    { destruct (edge_some t p q PT A B N) as [E|E]; [exists p, q|exists q, p]; auto. }
    destruct X as (x & y & E & UX & UY & XY). destruct (edge_some u x y PU UX UY XY) as [F|F]; [exists x, y; rewrite turned_edge; auto|]. exfalso. apply NC. exists x, y. auto.
Qed.
Lemma consistent_turn_l t u : proper t -> proper u -> adjacent t u -> (consistent (turned t) u <-> ~ consistent t u).
Proof.
  intros PT PU AD. rewrite <- (consistent_turn t u PT PU AD). split; intros C; apply consistent_both in C; rewrite ?turned_twice in C; exact C.
Qed.
Lemma consistent_dec t u : proper t -> proper u -> adjacent t u -> consistent t u \/ ~ consistent t u.
Proof.
  intros PT PU AD. assert (AD0 := AD). destruct AD0 as [(p & q & N & A & B & C & D) _].
  destruct (edge_some t p q PT A B N) as [F|F], (edge_some u p q PU C D N) as [G|G].
  - right. apply (consistent_turn t u PT PU AD). exists p, q. rewrite turned_edge. auto.
  - left. exists p, q. auto.
  - left. exists q, p. auto.
  - right. apply (consistent_turn t u PT PU AD). exists q, p. rewrite turned_edge. auto.
Qed.
(** ** One comparison *)
Ltac neqs := repeat match goal with H : ?x <> ?x |- _ => destruct (H eq_refl) end.
Lemma must_flip_spec {N} vs (f g : face N) t u : points vs f = lift t -> points vs g = lift u -> proper t -> proper u ->
  exists b, must_flip vs false f g = Some b /\ (b = true <-> adjacent t u /\ ~ consistent t u).
Proof.
  destruct t as [[a1 a2] a3], u as [[b1 b2] b3]. unfold points, lift, must_flip, common. intros PF PG PT PU. injection PF as -> -> ->. injection PG as -> -> ->. 
  assert (NA : (forall p q, has_corner (a1, a2, a3) p -> has_corner (a1, a2, a3) q -> has_corner (b1, b2, b3) p -> has_corner (b1, b2, b3) q -> p = q) -> ~ adjacent (a1, a2, a3) (b1, b2, b3)).
  { intros H [(p & q & N0 & A & B & C & D) _]. apply N0. apply H; assumption. }
  assert (NA3 : has_corner (b1, b2, b3) a1 -> has_corner (b1, b2, b3) a2 -> has_corner (b1, b2, b3) a3 -> ~ adjacent (a1, a2, a3) (b1, b2, b3)).
  { intros H1 H2 H3 [_ (r & R0 & R)]. cbn [has_corner] in R0. destruct R0 as [->|[->| ->]]; apply R; assumption. }
  assert (CT := consistent_turn (a1, a2, a3) (b1, b2, b3) PT PU).
  cbn [proper] in PT, PU. destruct PT as (P1 & P2 & P3), PU as (Q1 & Q2 & Q3).
  assert (F : forall b, (b = true <-> adjacent (a1, a2, a3) (b1, b2, b3) /\ ~ consistent (a1, a2, a3) (b1, b2, b3)) -> exists b', Some b = Some b' /\ (b' = true <-> adjacent (a1, a2, a3) (b1, b2, b3) /\ ~ consistent (a1, a2, a3) (b1, b2, b3))) by (intros b H; exists b; auto).
  destruct (vtx_eqb_spec a1 b1), (vtx_eqb_spec a1 b2), (vtx_eqb_spec a1 b3); try congruence;
  destruct (vtx_eqb_spec a2 b1), (vtx_eqb_spec a2 b2), (vtx_eqb_spec a2 b3); try congruence;
  destruct (vtx_eqb_spec a3 b1), (vtx_eqb_spec a3 b2), (vtx_eqb_spec a3 b3); try congruence; cbn [app]; apply F; clear F; cbn [Nat.eqb andb orb negb]; subst.
  all: match goal with
    | |- false = true <-> _ => split; [discriminate|]; intros [AJ NC]; exfalso;
        first [ apply (NA3 ltac:(cbn; tauto) ltac:(cbn; tauto) ltac:(cbn; tauto) AJ)
              | apply NC; first [exists a1, a2; cbn; tauto|exists a2, a3; cbn; tauto|exists a3, a1; cbn; tauto|exists b1, b2; cbn; tauto|exists b2, b3; cbn; tauto|exists b3, b1; cbn; tauto|exists b2, b1; cbn; tauto|exists b3, b2; cbn; tauto|exists b1, b3; cbn; tauto]
              | apply NA; [|exact AJ]; cbn; intros p q U1 U2 U3 U4; destruct U1 as [->|[->| ->]], U2 as [->|[->| ->]]; try reflexivity; exfalso; destruct U3 as [?|[?|?]], U4 as [?|[?|?]]; congruence ]
    | |- true = true <-> _ => split; [intros _|reflexivity];
        match goal with |- ?A /\ _ => assert (AJ : A); [|split; [exact AJ|apply (CT AJ); first [exists a1, a2; cbn; tauto|exists a2, a3; cbn; tauto|exists a3, a1; cbn; tauto|exists b1, b2; cbn; tauto|exists b2, b3; cbn; tauto|exists b3, b1; cbn; tauto|exists b2, b1; cbn; tauto|exists b3, b2; cbn; tauto|exists b1, b3; cbn; tauto]]] end
    end.
  all: split.
  all: first [exists b1, b2; (split; [assumption|]); cbn; tauto|exists b2, b3; (split; [assumption|]); cbn; tauto|exists b1, b3; (split; [assumption|]); cbn; tauto|exists a1; cbn; intuition congruence|exists a2; cbn; intuition congruence|exists a3; cbn; intuition congruence].
Qed.
(** ** The loops *)
Section LOOPS.
Context {N : Type} (o : nops N) (vs : list vtx).
Definition shape (fs : list (face N)) (us : list tri) : Prop := map (points vs) fs = map lift us.
Lemma shape_length fs us : shape fs us -> length fs = length us.
Proof. intros H. apply (f_equal (@length _)) in H. rewrite !map_length in H. exact H. Qed.
Lemma shape_nth fs us i u : shape fs us -> nth_error us i = Some u -> exists f, nth_error fs i = Some f /\ points vs f = lift u.
Proof.
  intros H E. apply (f_equal (fun l => nth_error l i)) in H. rewrite !nth_error_map, E in H. cbn [option_map] in H. destruct (nth_error fs i) as [f|]; [|discriminate H]. exists f. cbn in H. injection H as H. auto.
Qed.
Lemma shape_set fs us j f u : shape fs us -> points vs f = lift u -> shape (set_nth fs j f) (set_nth us j u).
Proof.
  unfold shape. revert us j. induction fs as [|g fs IH]; intros [|w us] j H E; cbn [map] in H; try discriminate; [destruct j; reflexivity|]. injection H as H1 H2. destruct j as [|j]; cbn [set_nth map]; f_equal; auto.
Qed.
Lemma flip_points f u : points vs f = lift u -> points vs (flip o f) = lift (turned u).
Proof. destruct u as [[a b] c]. unfold points, flip, lift. cbn [f_vertex i1 i2 i3 turned]. intros E. injection E as -> -> ->. reflexivity. Qed.
Lemma correct_one_spec i j fs us k : shape fs us -> Forall proper us -> i < length us -> j < length us ->
  exists fs' us' k', correct_one o vs false i (Some (fs, k)) j = Some (fs', k') /\ shape fs' us' /\
  ((us' = us /\ fs' = fs /\ k' = k /\ forall t u, i <> j -> nth_error us i = Some t -> nth_error us j = Some u -> ~ (adjacent t u /\ ~ consistent t u)) \/
   (i <> j /\ exists t u, nth_error us i = Some t /\ nth_error us j = Some u /\ adjacent t u /\ ~ consistent t u /\ us' = set_nth us j (turned u))).
Proof.
  intros SH PR I J. cbn [correct_one]. destruct (Nat.eqb_spec i j) as [->|NE]; [exists fs, us, k; split; [reflexivity|]; split; [exact SH|]; left; split; [reflexivity|]; split; [reflexivity|]; split; [reflexivity|]; congruence|].
  destruct (nth_error us i) as [t|] eqn:ET; [|apply nth_error_None in ET; lia]. destruct (nth_error us j) as [u|] eqn:EU; [|apply nth_error_None in EU; lia].
  destruct (shape_nth fs us i t SH ET) as (f & EF & PF). destruct (shape_nth fs us j u SH EU) as (g & EG & PG). rewrite EF, EG.
  assert (PT : proper t) by (rewrite Forall_forall in PR; apply PR, (nth_error_In _ _ ET)). assert (PU : proper u) by (rewrite Forall_forall in PR; apply PR, (nth_error_In _ _ EU)).
  destruct (must_flip_spec vs f g t u PF PG PT PU) as (b & -> & B). destruct b.
  - exists (set_nth fs j (flip o g)), (set_nth us j (turned u)), (S k). split; [reflexivity|]. split; [apply shape_set; [exact SH|apply flip_points, PG]|]. right. split; [exact NE|]. exists t, u. destruct (proj1 B eq_refl). auto.
  - exists fs, us, k. split; [reflexivity|]. split; [exact SH|]. left. do 3 (split; [reflexivity|]). intros t' u' _ T' U' H. injection T' as <-. injection U' as <-. apply B in H. discriminate H.
Qed.
(** us is ws with some triangles turned, and those in good are not. *)
Definition upto (ws us : list tri) : Prop := length us = length ws /\ forall j w u, nth_error ws j = Some w -> nth_error us j = Some u -> u = w \/ u = turned w.
Lemma upto_proper ws us : Forall proper ws -> upto ws us -> Forall proper us.
Proof.
  intros P [L H]. apply Forall_forall. intros u U. apply In_nth_error in U. destruct U as (j & E). destruct (nth_error ws j) as [w|] eqn:W; [|apply nth_error_None in W; assert (j < length us) by (apply nth_error_Some; congruence); lia].
  assert (PW : proper w) by (rewrite Forall_forall in P; apply P, (nth_error_In _ _ W)). destruct (H j w u W E) as [->| ->]; [exact PW|apply turned_proper, PW].
Qed.
Definition good (ws us : list tri) (j : nat) : Prop := nth_error us j = nth_error ws j.
Lemma step_good ws i j fs us k w : shape fs us -> Forall proper ws -> all_consistent ws -> upto ws us -> i < length ws -> j < length ws -> nth_error ws i = Some w -> good ws us i ->
  exists fs' us' k', correct_one o vs false i (Some (fs, k)) j = Some (fs', k') /\ shape fs' us' /\ upto ws us' /\ (forall x, good ws us x -> good ws us' x) /\
    (i <> j -> forall v, nth_error ws j = Some v -> adjacent w v -> good ws us' j) /\ (us = ws -> us' = ws /\ fs' = fs /\ k' = k).
Proof.
  intros SH PR AC UP I J W G. assert (PU := upto_proper ws us PR UP). destruct UP as [L UP]. destruct (correct_one_spec i j fs us k SH PU ltac:(lia) ltac:(lia)) as (fs' & us' & k' & E & SH' & C).
  exists fs', us', k'. split; [exact E|]. split; [exact SH'|].
  assert (PW : forall x v, nth_error ws x = Some v -> proper v) by (intros x v X; rewrite Forall_forall in PR; apply PR, (nth_error_In _ _ X)).
  destruct C as [(-> & -> & -> & C)|(NE & t & u & ET & EU & AD & NC & ->)].
  - split; [split; assumption|]. split; [auto|]. split; [|auto]. intros NE v V AD. unfold good in *. rewrite W in G. destruct (nth_error us j) as [u|] eqn:EU; [|apply nth_error_None in EU; lia]. rewrite V. f_equal.
    destruct (UP j v u V EU) as [H|H]; [exact H|]. exfalso. apply (C w u NE G eq_refl). subst u. split; [apply adjacent_turned_r, AD|]. rewrite (consistent_turn w v (PW i w W) (PW j v V) AD). intros NC. apply NC, (AC i j w v W V NE AD).
  - unfold good in G. rewrite W, ET in G. injection G as ->. destruct (nth_error ws j) as [v|] eqn:V; [|apply nth_error_None in V; lia]. destruct (UP j v u V EU) as [->| ->].
    + exfalso. apply NC, (AC i j w v W V NE AD).
    + rewrite turned_twice. assert (GJ : good ws (set_nth us j v) j) by (unfold good; rewrite set_nth_same by lia; symmetry; exact V). split; [|split; [|split]].
      * split; [rewrite set_nth_length; exact L|]. intros x y z Y Z. destruct (Nat.eq_dec x j) as [->|NX]; [rewrite set_nth_same in Z by lia; left; congruence|rewrite set_nth_other in Z by exact NX; apply (UP x y z Y Z)].
      * intros x X. destruct (Nat.eq_dec x j) as [->|NX]; [exact GJ|]. unfold good. rewrite set_nth_other by exact NX. exact X.
      * intros _ v' V' _. exact GJ.
      * intros ->. exfalso. rewrite V in EU. injection EU as EU. apply NC. rewrite <- EU. apply (AC i j w v W V NE). rewrite EU. exact AD.
Qed.
Lemma inner_good ws i w : Forall proper ws -> all_consistent ws -> i < length ws -> nth_error ws i = Some w -> forall js fs us k, Forall (fun j => j < length ws) js -> shape fs us -> upto ws us -> good ws us i ->
  exists fs' us' k', fold_left (correct_one o vs false i) js (Some (fs, k)) = Some (fs', k') /\ shape fs' us' /\ upto ws us' /\ (forall x, good ws us x -> good ws us' x) /\
    (forall j v, In j js -> i <> j -> nth_error ws j = Some v -> adjacent w v -> good ws us' j) /\ (us = ws -> us' = ws /\ fs' = fs /\ k' = k).
Proof.
  intros PR AC I W. induction js as [|j js IH]; intros fs us k F SH UP G; cbn [fold_left].
  - exists fs, us, k. split; [reflexivity|]. split; [exact SH|]. split; [exact UP|]. split; [auto|]. split; [intros j v []|auto].
  - inversion F; subst. destruct (step_good ws i j fs us k w SH PR AC UP I ltac:(assumption) W G) as (fs1 & us1 & k1 & E1 & SH1 & UP1 & M1 & A1 & S1). rewrite E1.
    destruct (IH fs1 us1 k1 ltac:(assumption) SH1 UP1 (M1 i G)) as (fs2 & us2 & k2 & E2 & SH2 & UP2 & M2 & A2 & S2). exists fs2, us2, k2. split; [exact E2|]. split; [exact SH2|]. split; [exact UP2|]. split; [auto|]. split.
    + intros x v [<-|X] NE V AD; [apply M2, (A1 NE v V AD)|apply (A2 x v X NE V AD)].
    + intros Q. destruct (S1 Q) as (Q1 & -> & ->). apply S2, Q1.
Qed.
Lemma outer_good ws : Forall proper ws -> all_consistent ws -> in_order ws -> forall r i fs us k, i + r = length ws -> shape fs us -> upto ws us -> (0 < length ws -> good ws us 0) ->
  (forall x y v w, x < i -> nth_error ws x = Some v -> nth_error ws y = Some w -> x <> y -> adjacent v w -> good ws us y) ->
  exists fs' us' k', fold_left (fun s i => fold_left (correct_one o vs false i) (seq 0 (length ws)) s) (seq i r) (Some (fs, k)) = Some (fs', k') /\ shape fs' us' /\ upto ws us' /\
    (0 < length ws -> good ws us' 0) /\ (forall x y v w, x < length ws -> nth_error ws x = Some v -> nth_error ws y = Some w -> x <> y -> adjacent v w -> good ws us' y).
Proof.
  intros PR AC OR. induction r as [|r IH]; intros i fs us k L SH UP G0 G; cbn [seq fold_left].
  - exists fs, us, k. split; [reflexivity|]. split; [exact SH|]. split; [exact UP|]. split; [exact G0|]. intros x y v w X. apply G. lia.
  - destruct (nth_error ws i) as [w|] eqn:W; [|apply nth_error_None in W; lia].
    assert (GI : good ws us i). { destruct i as [|i]; [apply G0; lia|]. destruct (OR (S i) w ltac:(lia) W) as (x & v & X & V & AD). apply (G x (S i) v w X V W ltac:(lia) AD). }
    destruct (inner_good ws i w PR AC ltac:(lia) W (seq 0 (length ws)) fs us k) as (fs1 & us1 & k1 & E1 & SH1 & UP1 & M1 & A1 & _); [apply Forall_forall; intros x X; apply in_seq in X; lia|exact SH|exact UP|exact GI|]. rewrite E1.
    apply (IH (S i) fs1 us1 k1); [lia|exact SH1|exact UP1|intros L0; apply M1, G0, L0|]. intros x y v w' X V W' NE AD. destruct (Nat.eq_dec x i) as [->|NX].
    + rewrite W in V. injection V as <-. apply (A1 y w' ltac:(apply in_seq; assert (y < length ws) by (apply nth_error_Some; congruence); lia) NE W' AD).
    + apply M1, (G x y v w' ltac:(lia) V W' NE AD).
Qed.
Lemma outer_stays ws : Forall proper ws -> all_consistent ws -> forall is_ fs k, Forall (fun i => i < length ws) is_ -> shape fs ws ->
  fold_left (fun s i => fold_left (correct_one o vs false i) (seq 0 (length ws)) s) is_ (Some (fs, k)) = Some (fs, k).
Proof.
  intros PR AC. assert (UP : upto ws ws) by (split; [reflexivity|]; intros j w u A B; left; congruence). induction is_ as [|i is_ IH]; intros fs k F SH; cbn [fold_left]; [reflexivity|]. inversion F; subst.
  destruct (nth_error ws i) as [w|] eqn:W; [|apply nth_error_None in W; lia].
  destruct (inner_good ws i w PR AC ltac:(assumption) W (seq 0 (length ws)) fs ws k) as (fs1 & us1 & k1 & E1 & _ & _ & _ & _ & S1); [apply Forall_forall; intros x X; apply in_seq in X; lia|exact SH|exact UP|reflexivity|].
  destruct (S1 eq_refl) as (-> & -> & ->). rewrite E1. apply IH; assumption.
Qed.
(** Whatever the mesh: triangles are only turned. *)
Lemma turns_only ts : Forall proper ts -> forall ijs fs us k, Forall (fun ij => fst ij < length ts /\ snd ij < length ts) ijs -> shape fs us -> upto ts us ->
  exists fs' us' k', fold_left (fun s ij => correct_one o vs false (fst ij) s (snd ij)) ijs (Some (fs, k)) = Some (fs', k') /\ shape fs' us' /\ upto ts us'.
Proof.
  intros PR. induction ijs as [|[i j] ijs IH]; intros fs us k F SH UP; cbn [fold_left]; [exists fs, us, k; auto|]. inversion F as [|? ? [I J] F']; subst. cbn [fst snd] in *. assert (PU := upto_proper ts us PR UP). destruct UP as [L UP].
  destruct (correct_one_spec i j fs us k SH PU ltac:(lia) ltac:(lia)) as (fs1 & us1 & k1 & -> & SH1 & C). apply (IH fs1 us1 k1 F' SH1). destruct C as [(-> & _)|(NE & t & u & ET & EU & _ & _ & ->)]; [split; assumption|].
  split; [rewrite set_nth_length; exact L|]. intros x w z W Z. destruct (Nat.eq_dec x j) as [->|NX]; [|rewrite set_nth_other in Z by exact NX; apply (UP x w z W Z)].
  rewrite set_nth_same in Z by lia. injection Z as <-. destruct (UP j w u W EU) as [->| ->]; [right; reflexivity|left; apply turned_twice].
Qed.
Lemma nested {S} (step : nat -> S -> nat -> S) (js : list nat) : forall is_ s,
  fold_left (fun s i => fold_left (step i) js s) is_ s = fold_left (fun s ij => step (fst ij) s (snd ij)) (flat_map (fun i => map (pair i) js) is_) s.
Proof.
  induction is_ as [|i is_ IH]; intros s; cbn [fold_left flat_map]; [reflexivity|]. rewrite IH, fold_left_app. f_equal. clear. revert s. induction js as [|j js IH]; intros s; cbn [map fold_left]; [reflexivity|apply IH].
Qed.
End LOOPS.
Lemma upto_turned ts us : upto ts us <-> some_turned ts us.
Proof.
  unfold upto, some_turned. split.
  - revert us. induction ts as [|t ts IH]; intros [|u us] [L H]; cbn [length] in L; try lia; constructor; [apply (H 0); reflexivity|]. apply IH. split; [lia|]. intros j w v W V. apply (H (S j) w v W V).
  - induction 1 as [|t u ts us H F [L IH]]; [split; [reflexivity|]; intros [|j] w u W; discriminate W|]. split; [cbn; lia|]. intros [|j] w v W V; [cbn in W, V; congruence|apply (IH j w v W V)].
Qed.
Lemma correct_normals_spec {N} (o : nops N) (m : mesh N) ts : made_of m ts -> Forall proper ts ->
  exists m' us k, correct_normals o false m = Some (m', k) /\ m_vertices m' = m_vertices m /\ made_of m' us /\ some_turned ts us /\
    (all_consistent ts -> m' = m /\ k = 0) /\ (orientable ts -> in_order ts -> all_consistent us /\ nth_error us 0 = nth_error ts 0).
Proof.
  intros MO PR. assert (SH : shape (m_vertices m) (m_faces m) ts) by exact MO. assert (LF : length (m_faces m) = length ts) by (apply (shape_length _ _ _ SH)). unfold correct_normals. rewrite LF.
  assert (ALL : Forall (fun i => i < length ts) (seq 0 (length ts))) by (apply Forall_forall; intros x X; apply in_seq in X; lia).
  destruct (turns_only o (m_vertices m) ts PR (flat_map (fun i => map (pair i) (seq 0 (length ts))) (seq 0 (length ts))) (m_faces m) ts 0) as (fs & us & k & E & SH' & UP).
  - apply Forall_forall. intros [i j] X. apply in_flat_map in X. destruct X as (x & X & Y). apply in_map_iff in Y. destruct Y as (y & Y & Y'). injection Y as <- <-. apply in_seq in X. apply in_seq in Y'. cbn [fst snd]. lia.
  - exact SH.
  - split; [reflexivity|]. intros j w u A B. left. congruence.
  - rewrite <- (nested (correct_one o (m_vertices m) false)) in E. rewrite E. exists (Mesh (m_vertices m) (m_normals m) (m_colors m) fs (m_box m)), us, k. split; [reflexivity|]. split; [reflexivity|]. split; [exact SH'|]. split; [apply upto_turned, UP|]. split.
    + intros AC. rewrite (outer_stays o (m_vertices m) ts PR AC (seq 0 (length ts)) (m_faces m) 0 ALL SH) in E. injection E as <- <-. destruct m. auto.
    + intros (ws0 & ST & AC0) OR.
      assert (WS : exists ws, upto ts ws /\ all_consistent ws /\ nth_error ws 0 = nth_error ts 0).
      { apply upto_turned in ST. destruct ST as [L ST]. destruct ts as [|t0 ts0]; [exists ws0; split; [split; assumption|]; split; [exact AC0|]; destruct ws0; [reflexivity|discriminate L]|]. destruct ws0 as [|w0 ws1]; [discriminate L|].
        destruct (ST 0 t0 w0 eq_refl eq_refl) as [->| ->]; [exists (t0 :: ws1); split; [split; assumption|]; auto|]. exists (map turned (turned t0 :: ws1)). split; [|split].
        - split; [rewrite map_length; exact L|]. intros j w u W U. rewrite nth_error_map in U. destruct (nth_error (turned t0 :: ws1) j) as [x|] eqn:X; [|discriminate U]. cbn in U. injection U as <-. destruct (ST j w x W X) as [->| ->]; [right; reflexivity|left; apply turned_twice].
        - intros i j t u T U NE AD. rewrite nth_error_map in T, U. destruct (nth_error (turned t0 :: ws1) i) as [x|] eqn:X; [|discriminate T]. destruct (nth_error (turned t0 :: ws1) j) as [y|] eqn:Y; [|discriminate U]. cbn in T, U. injection T as <-. injection U as <-.
          apply consistent_both. apply (AC0 i j x y X Y NE). apply adjacent_turned_l, adjacent_turned_r, AD.
        - cbn. rewrite turned_twice. reflexivity. }
      destruct WS as (ws & UPW & AC & W0). assert (PW := upto_proper ts ws PR UPW). assert (LW : length ws = length ts) by exact (proj1 UPW).
      assert (NW : forall j w, nth_error ws j = Some w -> exists t, nth_error ts j = Some t /\ (w = t \/ w = turned t)).
      { intros j w W. destruct (nth_error ts j) as [t|] eqn:T; [|apply nth_error_None in T; assert (j < length ws) by (apply nth_error_Some; congruence); lia]. exists t. split; [reflexivity|]. apply (proj2 UPW j t w T W). }
      assert (UPI : upto ws ts). { split; [congruence|]. intros j w u W U. destruct (NW j w W) as (t & T & H). rewrite T in U. injection U as <-. destruct H as [->| ->]; [left; reflexivity|right; symmetry; apply turned_twice]. }
      assert (OW : in_order ws).
      { intros j w J W. destruct (NW j w W) as (u & U & H). destruct (OR j u J U) as (i & t & I & T & AD). destruct (nth_error ws i) as [v|] eqn:V; [|apply nth_error_None in V; assert (i < length ts) by (apply nth_error_Some; congruence); lia].
        exists i, v. split; [exact I|]. split; [exact V|]. destruct (NW i v V) as (t' & T' & H'). rewrite T in T'. injection T' as <-. destruct H as [->| ->], H' as [->| ->]; rewrite ?adjacent_turned_l, ?adjacent_turned_r; exact AD. }
      destruct (outer_good o (m_vertices m) ws PW AC OW (length ts) 0 (m_faces m) ts 0) as (fs' & us' & k' & E' & SHX & UPX & G0 & G); [lia|exact SH|exact UPI|intros _; symmetry; exact W0|intros; lia|]. rewrite LW, E in E'. injection E' as <- <-.
      assert (us' = us) as -> by (assert (Q : map lift us' = map lift us) by (rewrite <- SHX; exact SH'); clear - Q; revert us Q; induction us' as [|x us' IH]; intros [|y us] Q; cbn [map] in Q; try discriminate; [reflexivity|]; injection Q as Q1 Q2; f_equal; [apply lift_inj, Q1|apply IH, Q2]).
      assert (UW : us = ws).
      { apply nth_error_eq; [exact (proj1 UPX)|]. intros i I. rewrite (proj1 UPX) in I. destruct (Nat.eq_dec i 0) as [->|NI]; [apply G0; exact I|]. destruct (nth_error ws i) as [w|] eqn:W; [|apply nth_error_None in W; lia].
        destruct (OW i w ltac:(lia) W) as (x & v & X & V & AD). rewrite <- W. apply (G x i v w ltac:(lia) V W ltac:(lia) AD). }
      subst us. auto.
Qed.
