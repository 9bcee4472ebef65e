(** Proofs for C43: switching points. *)
From Coq Require Import Reals List Arith Lra Lia Psatz Sorted.
From Verif Require Import RpyModel RpyProofs BlendModel BlendSpec BlendProofs BlendPath.
Import ListNotations.
Open Scope R_scope.

Section Switch.
Context (n : nat).
Notation len := seg_length.
Definition round (g : segment) : Prop := 0 <= len g /\ match g with Circ r l _ _ _ => 0 < r /\ l < PI * r | _ => True end.
(** Insertion sort. *)
Lemma insert_in : forall a l x, In x (insert a l) <-> x = a \/ In x l.
Proof.
  intros a l x. induction l as [|b r IH]; cbn [insert]; [cbn; intuition|]. destruct (Rlt_dec b a); cbn [In]; [rewrite IH|]; cbn [In]; intuition.
Qed.
Lemma sort_in : forall l x, In x (sort l) <-> In x l.
Proof. induction l as [|a l IH]; intros x; cbn [sort fold_right]; [reflexivity|]. rewrite insert_in, IH. cbn. intuition. Qed.
Lemma insert_sorted : forall a l, StronglySorted Rle l -> StronglySorted Rle (insert a l).
Proof.
  intros a l. induction l as [|b r IH]; intros H; cbn [insert]; [repeat constructor|]. apply StronglySorted_inv in H. destruct H as [H1 H2]. destruct (Rlt_dec b a) as [L|L].
  - constructor; [apply IH, H1|]. apply Forall_forall. intros x X. apply insert_in in X. destruct X as [->|X]; [lra|]. rewrite Forall_forall in H2. apply H2, X.
  - constructor; [constructor; assumption|]. constructor; [lra|]. rewrite Forall_forall in *. intros x X. specialize (H2 x X). lra.
Qed.
Lemma sort_sorted : forall l, StronglySorted Rle (sort l).
Proof. induction l as [|a l IH]; [constructor|]. apply insert_sorted, IH. Qed.
Lemma angle_pos : forall x y i, 0 <= switch_angle x y i.
Proof. intros x y i. unfold switch_angle. pose proof (atan2_range (y i) (x i)). cbv zeta. destruct (Rlt_dec (atan2 (y i) (x i)) 0); lra. Qed.
Lemma local_ok : forall g, round g -> StronglySorted Rle (seg_switching n g) /\ (forall p, In p (seg_switching n g) -> 0 <= p < len g).
Proof.
  intros [a b l|r l c x y] [R1 R2]; cbn [seg_switching]; [split; [constructor|intros p []]|]. destruct R2 as [R2 _]. split; [apply sort_sorted|]. intros p P. apply (proj1 (sort_in _ _)) in P. apply in_flat_map in P. destruct P as (i & _ & P). cbv zeta in P. destruct (Rlt_dec _ l) as [L|L]; [|destruct P]. destruct P as [<-|[]]. cbn [seg_length]. pose proof (angle_pos x y i). split; [apply Rmult_le_pos; lra|exact L].
Qed.
(** Lists with the last element first. *)
Notation desc := (StronglySorted (fun a b : R * bool => fst b <= fst a)).
Lemma push_points : forall m pts acc, StronglySorted Rle pts -> desc acc -> (forall e, In e acc -> fst e <= m) -> (forall p, In p pts -> 0 <= p) -> desc (rev (map (fun p => (m + p, false)) pts) ++ acc).
Proof.
  intros m. induction pts as [|p pts IH]; intros acc S D B P; cbn [map rev]; [exact D|]. rewrite <- app_assoc. cbn [app]. apply StronglySorted_inv in S. destruct S as [S1 S2].
  assert (G : forall pts acc q, StronglySorted Rle pts -> desc acc -> (forall e, In e acc -> fst e <= m + q) -> Forall (Rle q) pts -> desc (rev (map (fun p => (m + p, false)) pts) ++ acc)).
  { clear. induction pts as [|p pts IH]; intros acc q S D B F; cbn [map rev]; [exact D|]. rewrite <- app_assoc. cbn [app]. apply StronglySorted_inv in S. destruct S as [S1 S2]. inversion F as [|? ? F1 F2]; subst. apply (IH _ p); [exact S1| | |exact S2].
    - constructor; [exact D|]. apply Forall_forall. intros e E. cbn [fst]. pose proof (B e E). lra.
    - intros e [<-|E]; cbn [fst]; [lra|]. pose proof (B e E). lra. }
  pose proof (P p (or_introl eq_refl)) as P0. apply (G pts _ p); [exact S1| | |exact S2].
  - constructor; [exact D|]. apply Forall_forall. intros e E. cbn [fst]. pose proof (B e E). lra.
  - intros e [<-|E]; cbn [fst]; [lra|]. pose proof (B e E). lra.
Qed.
Lemma drop_ok : forall m acc, desc acc -> desc (drop_from m acc) /\ (forall e, In e (drop_from m acc) -> fst e < m /\ In e acc) /\ (forall e, In e acc -> fst e < m -> In e (drop_from m acc)).
Proof.
  intros m. induction acc as [|[p b] acc IH]; intros D; cbn [drop_from]; [split; [constructor|split; intros e []]|]. pose proof D as D0. apply StronglySorted_inv in D. destruct D as [D1 D2]. destruct (IH D1) as (H1 & H2 & H3). destruct (Rle_dec m p) as [L|L].
  - split; [exact H1|]. split; [intros e E; destruct (H2 e E); split; [assumption|right; assumption]|]. intros e [<-|E] Q; [cbn in Q; lra|apply H3; assumption].
  - split; [exact D0|]. split; [|intros e E _; exact E]. intros e [<-|E]; cbn [fst]; [split; [lra|left; reflexivity]|]. rewrite Forall_forall in D2. specialize (D2 e E). cbn [fst] in D2. split; [lra|right; exact E].
Qed.
Record acc_ok (m : R) (acc : list (R * bool)) : Prop := { a_desc : desc acc; a_le : forall e, In e acc -> fst e <= m; a_pos : forall e, In e acc -> 0 <= fst e }.
Lemma next_acc : forall g m acc, round g -> 0 <= m -> acc_ok m acc -> let acc1 := rev (map (fun p => (m + p, false)) (seg_switching n g)) ++ acc in
  acc_ok (m + len g) (drop_from (m + len g) acc1) /\ (forall e, In e (drop_from (m + len g) acc1) -> fst e < m + len g) /\ acc_ok (m + len g) ((m + len g, true) :: drop_from (m + len g) acc1) /\ (forall e, In e acc1 -> fst e < m + len g -> In e (drop_from (m + len g) acc1)).
Proof.
  intros g m acc R M [D B P] acc1. pose proof (local_ok g R) as [L1 L2]. assert (D1 : desc acc1) by (apply push_points; auto; intros p Q; apply L2, Q). destruct (drop_ok (m + len g) acc1 D1) as (H1 & H2 & H3).
  assert (PP : forall e, In e acc1 -> 0 <= fst e). { intros e E. apply in_app_or in E. destruct E as [E|E]; [|apply P, E]. apply in_rev in E. apply in_map_iff in E. destruct E as (p & <- & E). cbn. pose proof (L2 p E). lra. }
  assert (A : acc_ok (m + len g) (drop_from (m + len g) acc1)) by (split; [exact H1|intros e E; apply Rlt_le, H2, E|intros e E; apply PP, H2, E]).
  split; [exact A|]. split; [intros e E; apply H2, E|]. split; [|exact H3]. destruct A as [A1 A2 A3]. split.
  - constructor; [exact A1|]. apply Forall_forall. intros e E. cbn [fst]. apply A2, E.
  - intros e [<-|E]; [cbn; lra|apply A2, E].
  - intros e [<-|E]; [cbn; destruct R; lra|apply A3, E].
Qed.
Lemma collect_ok : forall l m acc, Forall round l -> 0 <= m -> acc_ok m acc -> l <> [] ->
  exists acc', collect n acc m l = (total m l, true) :: acc' /\ acc_ok (total m l) acc' /\ (forall e, In e acc' -> fst e < total m l)
  /\ (forall p, In (p, true) acc -> p < total m l -> In (p, true) acc') /\ (forall e, In e acc -> fst e < m -> In e acc').
Proof.
  induction l as [|g l IH]; intros m acc R M A N; [contradiction|]. inversion R as [|? ? R1 R2]; subst. destruct (next_acc g m acc R1 M A) as (H1 & H2 & H3 & H4). cbn [collect total]. cbv zeta. set (acc1 := rev (map (fun p => (m + p, false)) (seg_switching n g)) ++ acc) in *.
  assert (LG : 0 <= len g) by apply R1. destruct l as [|g' r].
  - cbn [collect total]. exists (drop_from (m + len g) acc1). split; [reflexivity|]. split; [exact H1|]. split; [exact H2|]. split.
    + intros p E L. apply H4; [apply in_or_app; right; exact E|exact L].
    + intros e E L. apply H4; [apply in_or_app; right; exact E|lra].
  - destruct (IH (m + len g) ((m + len g, true) :: drop_from (m + len g) acc1) R2 ltac:(lra) H3 ltac:(discriminate)) as (acc' & E1 & E2 & E3 & E4 & E5). exists acc'. split; [exact E1|]. split; [exact E2|]. split; [exact E3|]. split.
    + intros p E L. apply E4; [|exact L]. destruct A as [_ B _]. pose proof (B _ E) as Q. cbn [fst] in Q. destruct (Req_dec p (m + len g)) as [->|NE]; [left; reflexivity|]. right. apply H4; [apply in_or_app; right; exact E|]. cbn [fst]. lra.
    + intros e E L. apply E5; [|lra]. right. apply H4; [apply in_or_app; right; exact E|lra].
Qed.
Lemma rounds_lens : forall l, Forall round l -> lens l.
Proof. intros l H. apply Forall_forall. intros g G. rewrite Forall_forall in H. apply (H g G). Qed.
(** A boundary is kept, and so is a point of a segment. *)
Lemma collect_boundary : forall l1 l2 m acc, Forall round (l1 ++ l2) -> 0 <= m -> acc_ok m acc -> l1 <> [] -> total m l1 < total m (l1 ++ l2) -> exists acc', collect n acc m (l1 ++ l2) = (total m (l1 ++ l2), true) :: acc' /\ In (total m l1, true) acc'.
Proof.
  induction l1 as [|g l1 IH]; intros l2 m acc R M A N L; [contradiction|]. cbn [app] in *. inversion R as [|? ? R1 R2]; subst. destruct (next_acc g m acc R1 M A) as (H1 & H2 & H3 & H4). cbn [collect total] in *. cbv zeta. set (acc1 := rev (map (fun p => (m + p, false)) (seg_switching n g)) ++ acc) in *. assert (LG : 0 <= len g) by apply R1.
  destruct l1 as [|g' r].
  - cbn [app total] in *. destruct l2 as [|h l2]; [cbn in L; lra|]. destruct (collect_ok (h :: l2) (m + len g) _ R2 ltac:(lra) H3 ltac:(discriminate)) as (acc' & E1 & _ & _ & E4 & _). exists acc'. split; [exact E1|]. apply E4; [left; reflexivity|exact L].
  - apply (IH l2 (m + len g) _ R2 ltac:(lra) H3 ltac:(discriminate) L).
Qed.
Lemma collect_point : forall l1 g l2 p m acc, Forall round (l1 ++ g :: l2) -> 0 <= m -> acc_ok m acc -> In p (seg_switching n g) -> exists acc', collect n acc m (l1 ++ g :: l2) = (total m (l1 ++ g :: l2), true) :: acc' /\ In (total m l1 + p, false) acc'.
Proof.
  induction l1 as [|a l1 IH]; intros g l2 p m acc R M A P; cbn [app] in *; inversion R as [|? ? R1 R2]; subst.
  - destruct (next_acc g m acc R1 M A) as (H1 & H2 & H3 & H4). cbn [collect total] in *. cbv zeta. set (acc1 := rev (map (fun p => (m + p, false)) (seg_switching n g)) ++ acc) in *. assert (LG : 0 <= len g) by apply R1. pose proof (proj2 (local_ok g R1) p P) as PB.
    assert (I1 : In (m + p, false) (drop_from (m + len g) acc1)). { apply H4; [|cbn; lra]. apply in_or_app. left. apply in_rev. rewrite rev_involutive. apply in_map_iff. exists p. auto. }
    destruct l2 as [|h l2]; [exists (drop_from (m + len g) acc1); split; [reflexivity|exact I1]|]. destruct (collect_ok (h :: l2) (m + len g) _ R2 ltac:(lra) H3 ltac:(discriminate)) as (acc' & E1 & _ & _ & _ & E5). exists acc'. split; [exact E1|]. apply E5; [right; exact I1|cbn; lra].
  - destruct (next_acc a m acc R1 M A) as (_ & _ & H3 & _). cbn [collect total]. cbv zeta. apply (IH g l2 p (m + len a) _ R2); [destruct R1; lra|exact H3|exact P].
Qed.
Lemma acc_nil : acc_ok 0 [].
Proof. split; [constructor|intros e []|intros e []]. Qed.
Lemma rev_sorted : forall l, desc l -> StronglySorted (fun a b : R * bool => fst a <= fst b) (rev l).
Proof.
  assert (S : forall l x, StronglySorted (fun a b : R * bool => fst a <= fst b) l -> (forall e, In e l -> fst e <= fst x) -> StronglySorted (fun a b : R * bool => fst a <= fst b) (l ++ [x])).
  { induction l as [|a l IH]; intros x H B; cbn [app]; [repeat constructor|]. apply StronglySorted_inv in H. destruct H as [H1 H2]. constructor; [apply IH; [exact H1|intros e E; apply B; right; exact E]|]. apply Forall_app. split; [exact H2|]. constructor; [apply B; left; reflexivity|constructor]. }
  induction l as [|a l IH]; intros H; cbn [rev]; [constructor|]. apply StronglySorted_inv in H. destruct H as [H1 H2]. apply S; [apply IH, H1|]. intros e E. apply in_rev in E. rewrite Forall_forall in H2. apply H2, E.
Qed.
Lemma switching_sorted : forall l, Forall round l -> l <> [] -> StronglySorted (fun a b : R * bool => fst a <= fst b) (path_switching n l) /\ (forall e, In e (path_switching n l) -> 0 <= fst e < path_length l).
Proof.
  intros l R N. destruct (collect_ok l 0 [] R ltac:(lra) acc_nil N) as (acc' & E1 & [D B P] & E3 & _). unfold path_switching. rewrite E1. cbn [tl]. split; [apply rev_sorted, D|]. intros e E. apply in_rev in E. split; [apply P, E|apply E3, E].
Qed.
Lemma switching_boundary : forall l1 l2, Forall round (l1 ++ l2) -> l1 <> [] -> total 0 l1 < path_length (l1 ++ l2) -> In (total 0 l1, true) (path_switching n (l1 ++ l2)).
Proof. intros l1 l2 R N L. destruct (collect_boundary l1 l2 0 [] R ltac:(lra) acc_nil N L) as (acc' & E & I). unfold path_switching. rewrite E. cbn [tl]. apply in_rev. rewrite rev_involutive. exact I. Qed.
Lemma switching_point : forall l1 g l2 p, Forall round (l1 ++ g :: l2) -> In p (seg_switching n g) -> In (total 0 l1 + p, false) (path_switching n (l1 ++ g :: l2)).
Proof. intros l1 g l2 p R P. destruct (collect_point l1 g l2 p 0 [] R ltac:(lra) acc_nil P) as (acc' & E & I). unfold path_switching. rewrite E. cbn [tl]. apply in_rev. rewrite rev_involutive. exact I. Qed.
Lemma next_ok : forall m s l, StronglySorted (fun a b : R * bool => fst a <= fst b) l -> let '(p, b) := next_point m s l in
  (s < p /\ In (p, b) l /\ (forall e, In e l -> s < fst e -> p <= fst e)) \/ (p = m /\ b = true /\ forall e, In e l -> fst e <= s).
Proof.
  intros m s. induction l as [|[q c] l IH]; intros H; cbn [next_point]; [right; split; [reflexivity|split; [reflexivity|intros e []]]|]. apply StronglySorted_inv in H. destruct H as [H1 H2]. destruct (Rle_dec q s) as [L|L].
  - specialize (IH H1). destruct (next_point m s l) as [p b]. destruct IH as [(A & B & C)|(A & B & C)].
    + left. split; [exact A|]. split; [right; exact B|]. intros e [<-|E] Q; [cbn in Q; lra|apply C; assumption].
    + right. split; [exact A|]. split; [exact B|]. intros e [<-|E]; [exact L|apply C, E].
  - left. split; [lra|]. split; [left; reflexivity|]. intros e [<-|E] _; [cbn; lra|]. rewrite Forall_forall in H2. apply (H2 e E).
Qed.
(** An axis direction in which the arc turns. *)
Lemma turning : forall r l c x y i t, 0 < r -> l < PI * r -> (i < n)%nat -> 0 < t < l -> (x i <> 0 \/ y i <> 0) -> - sin (t / r) * x i + cos (t / r) * y i = 0 -> In t (seg_switching n (Circ r l c x y)).
Proof.
  intros r l c x y i t R L I T NZ Z. cbn [seg_switching]. apply sort_in. apply in_flat_map. exists i. split; [apply in_seq; lia|]. cbv zeta.
  assert (F : 0 < t / r < PI). { split; [apply Rdiv_lt_0_compat; lra|]. apply (Rmult_lt_reg_r r); [exact R|]. replace (t / r * r) with t by (field; lra). lra. }
  set (f := t / r) in *. assert (Q : 0 < x i * x i + y i * y i) by (destruct NZ; nra). destruct (atan2_polar (y i) (x i) Q) as [C S]. set (rho := sqrt (x i * x i + y i * y i)) in *. assert (RP : 0 < rho) by (apply sqrt_lt_R0, Q). pose proof (atan2_range (y i) (x i)) as B. set (a := atan2 (y i) (x i)) in *.
  assert (SZ : sin (a - f) = 0). { rewrite sin_minus, C, S. replace (y i / rho * cos f - x i / rho * sin f) with ((- sin f * x i + cos f * y i) / rho) by (field; lra). rewrite Z. unfold Rdiv. ring. }
  assert (CASE : a = f \/ a = f - PI).
  { destruct (Rlt_dec (a - f) 0) as [N|N].
    - destruct (Rlt_dec (a - f) (- PI)) as [N1|N1].
      + exfalso. assert (0 < sin (a - f + 2 * PI)) by (apply sin_gt_0; lra). rewrite sin_plus, sin_2PI, cos_2PI in H. lra.
      + destruct (Req_dec (a - f) (- PI)) as [E|NE]; [right; lra|]. exfalso. assert (0 < sin (a - f + PI)) by (apply sin_gt_0; lra). rewrite neg_sin in H. lra.
    - destruct (Req_dec (a - f) 0) as [E|NE]; [left; lra|]. exfalso. assert (0 < sin (a - f)) by (apply sin_gt_0; lra). lra. }
  assert (SA : switch_angle x y i = f). { unfold switch_angle. fold a. cbv zeta. destruct CASE as [->| ->]; destruct (Rlt_dec _ 0); lra. }
  rewrite SA. replace (f * r) with t by (unfold f; field; lra). destruct (Rlt_dec t l) as [_|N]; [left; reflexivity|lra].
Qed.
End Switch.
