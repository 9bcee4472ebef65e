(** Proofs about linked coordinates, chains and node sets. *)
From Coq Require Import Reals List Bool Arith Lra Lia.
From Verif Require Import QuatModel QuatSpec RpyModel JointModel KinModel KinSpec JacSpec FacSpec ChnModel ChnSpec.
From Verif Require Import KinProofs AprProofs PlaneProofs JacProofs FacProofs CrvSpec CrvProofs.
Import ListNotations.
Open Scope R_scope.

(** *** Coordinates *)
Lemma member_some r x d : member r x = Some d <-> x = Some d /\ exists n, node_at r d = Some n.
Proof.
  unfold member. destruct x as [x|]; [|split; [discriminate|intros (E & _); discriminate]]. destruct (node_at r x) as [n|] eqn:E.
  - split; [intros H; injection H as ->; split; [reflexivity|now exists n]|intros (H & _); exact H].
  - split; [discriminate|]. intros (H & n & N). injection H as ->. congruence.
Qed.
Lemma member_node r d n : node_at r d = Some n -> member r (Some d) = Some d.
Proof. intros E. unfold member. now rewrite E. Qed.
Lemma node_pose_at r x n : node_at r x = Some n -> node_pose r x = n_pose n.
Proof. intros E. unfold node_pose. now rewrite E. Qed.
Lemma change_stands r c d c' g : upright r -> stands_at r c g -> change_frame r c d = Done c' -> stands_at r c' g /\ c_frame c' = d.
Proof.
  intros U (f & n & F & N & ->) E. unfold change_frame in E. destruct (member r d) as [d'|] eqn:M; [|discriminate]. apply member_some in M. destruct M as (-> & m & ND). rewrite F in E.
  unfold coordinate_transformation in E. rewrite (member_node _ _ _ ND), (member_node _ _ _ N) in E.
  injection E as <-. split; [|reflexivity]. exists d', m. split; [reflexivity|]. split; [exact ND|]. cbn [c_pose]. rewrite (node_pose_at _ _ _ N), (node_pose_at _ _ _ ND).
  rewrite <- !pmul_assoc, (inverted_right _ (U _ _ ND)), pmul_pid_l. reflexivity.
Qed.
Lemma change_ends r c d : change_frame r c d = Thrown \/ exists c', change_frame r c d = Done c'.
Proof. unfold change_frame, coordinate_transformation. destruct (member r d); [|now left]. destruct (c_frame c); [|right; eexists; reflexivity]. destruct (member r (Some n)), (member r (Some n0)); auto; right; eexists; reflexivity. Qed.
Lemma changes_stand r l : forall c g, upright r -> stands_at r c g -> stands_at r (change_frames r c l) g.
Proof.
  induction l as [|d l IH]; intros c g U S0; [exact S0|]. unfold change_frames. cbn [fold_left]. apply IH; [exact U|]. destruct (change_ends r c d) as [->|(c' & E)]; [exact S0|]. rewrite E. cbn. now apply (change_stands r c d c' g U S0).
Qed.

(** *** Chains *)
Lemma chained_cons r x y l : chained r (x :: y :: l) <-> above r x y /\ chained r (y :: l).
Proof.
  split.
  - intros C. split; [apply (C [] x y l); reflexivity|]. intros a u v b E. apply (C (x :: a) u v b). cbn. now rewrite E.
  - intros (A & C) a u v b E. destruct a as [|w a]; cbn in E; [injection E as <- <- <-; exact A|]. injection E as <- E. apply (C a u v b E).
Qed.
Lemma chained_one r x : chained r [x].
Proof. intros a u v b E. destruct a as [|w [|w' a]]; discriminate. Qed.
Lemma child_below_ok depth r x y : tree r -> (length (nodes r) < depth)%nat -> exists b, has_child_below depth r x y = Some b /\ (b = true <-> above r x y).
Proof.
  intros T D. destruct depth as [|fuel]; [lia|]. assert (NE := has_child_below_ends r T fuel y [] x (NoDup_nil _) ltac:(intros q []) ltac:(cbn; lia)).
  destruct (has_child_below (S fuel) r x y) as [b|] eqn:E; [|contradiction]. exists b. split; [reflexivity|]. rewrite (has_child_below_sound _ _ _ _ _ E). split.
  - intros (k & K & DK). split; [|apply desc_trans with k; [apply d_step with x; [constructor|exact K]|exact DK]]. intros <-. exact (t_acyclic r T x k K DK).
  - intros (N & DS). apply desc_first in DS. destruct DS as [DS|DS]; [contradiction|exact DS].
Qed.
Lemma chain_loop_ok depth r l : tree r -> (length (nodes r) < depth)%nat -> forall x, exists b, chain_loop depth r x l = Done b /\ (b = true <-> chained r (x :: l)).
Proof.
  intros T D. induction l as [|y l IH]; intros x; cbn [chain_loop]; [exists true; split; [reflexivity|]; split; [intros _; apply chained_one|reflexivity]|].
  destruct (child_below_ok depth r x y T D) as (b & -> & B). destruct b.
  - destruct (IH y) as (b' & E & B'). exists b'. split; [exact E|]. rewrite chained_cons, B'. split; [intros C; split; [now apply B|exact C]|intros (_ & C); exact C].
  - exists false. split; [reflexivity|]. rewrite chained_cons. split; [discriminate|]. intros (A & _). apply B in A. discriminate.
Qed.
Lemma above_trans r x y z : tree r -> above r x y -> above r y z -> above r x z.
Proof. intros T (N & A) (N' & B). split; [|apply desc_trans with y; assumption]. intros <-. apply N. apply (desc_anti r x y T A B). Qed.
Lemma chained_all r l : tree r -> forall x, chained r (x :: l) -> forall y, In y l -> above r x y.
Proof.
  intros T. induction l as [|z l IH]; intros x C y I; [destruct I|]. apply chained_cons in C. destruct C as (A & C). destruct I as [<-|I]; [exact A|]. apply (above_trans r x z y T A), (IH z C y I).
Qed.
Lemma chained_tail r x l : chained r (x :: l) -> chained r l.
Proof. destruct l as [|y l]; intros C; [intros a u v b E; destruct a; discriminate|]. now apply chained_cons in C. Qed.
Lemma chained_nodup r l : tree r -> chained r l -> NoDup l.
Proof.
  intros T. induction l as [|x l IH]; intros C; [constructor|]. constructor; [|apply IH, (chained_tail r x), C]. intros I. destruct (chained_all r l T x C x I) as (N & _). now apply N.
Qed.
Lemma chained_order r l a x b y c : tree r -> chained r l -> l = a ++ x :: b ++ y :: c -> above r x y.
Proof.
  intros T C ->. assert (C' : chained r (x :: b ++ y :: c)). { induction a as [|z a IH]; [exact C|]. apply IH, (chained_tail r z), C. } apply (chained_all r (b ++ y :: c) T x C'). apply in_or_app. right. now left.
Qed.

(** *** Distances *)
Lemma far_distance a b : far a b = distance a b.
Proof. reflexivity. Qed.
Lemma far_triangle a b c : far a c <= far a b + far b c.
Proof. rewrite !far_distance. apply distance_triangle. Qed.
Lemma far_sym a b : far a b = far b a.
Proof. unfold far. f_equal. ring. Qed.
Lemma far_self a : far a a = 0.
Proof. unfold far. replace (_ + _ + _) with 0 by ring. apply sqrt_0. Qed.
Lemma far_moved g v w : rotation (prot g) -> far (ppos (pmul g v)) (ppos (pmul g w)) = far (ppos v) (ppos w).
Proof.
  intros R. unfold pmul. cbn [ppos]. rewrite !far_distance, <- !norm_distance. unfold vnorm. f_equal.
  replace (vsub (vadd (mapply (prot g) (ppos v)) (ppos g)) (vadd (mapply (prot g) (ppos w)) (ppos g))) with (mapply (prot g) (vsub (ppos v) (ppos w))).
  - now apply mapply_iso.
  - rewrite mapply_vsub. unfold vsub, vadd. cbn [vx vy vz]. f_equal; ring.
Qed.
Lemma reach_far r x y n m : node_at r x = Some n -> node_at r y = Some m -> rotation (prot (n_pose n)) -> reach r x y = far (ppos (n_pose n)) (ppos (n_pose m)).
Proof.
  intros X Y R. unfold reach, transformation_to. rewrite (node_pose_at _ _ _ X), (node_pose_at _ _ _ Y). set (t := pmul (inverted (n_pose n)) (n_pose m)).
  assert (E : n_pose m = pmul (n_pose n) t) by (unfold t; rewrite <- pmul_assoc, (inverted_right _ R), pmul_pid_l; reflexivity).
  rewrite E. rewrite <- (pmul_pid_r (n_pose n)) at 1. rewrite far_moved by exact R. rewrite far_sym, far_distance, <- norm_distance. f_equal. unfold vsub, pid. cbn [ppos vx vy vz]. destruct (ppos t) as [a b c]. cbn [vx vy vz]. f_equal; ring.
Qed.

(** *** Flexing a chain *)
(** From [x] down to [p] the way is the same for joint values that agree in between. *)
Lemma same_way r x p q q' : tree r -> desc r x p -> (forall y n, node_at r y = Some n -> above r x y -> desc r y p -> q y = q' y) ->
  exists M, (forall g, fk (with_q q r) x g -> fk (with_q q r) p (pmul g M)) /\ (forall g, fk (with_q q' r) x g -> fk (with_q q' r) p (pmul g M)).
Proof.
  intros T DS. induction DS as [|p z DS IH K]; intros AG; [exists pid; split; intros g F; rewrite pmul_pid_r; exact F|].
  destruct IH as (M & A & B). { intros y n N AB DY. apply (AG y n N AB). apply d_step with p; assumption. }
  destruct (proj1 (t_links r T p z) K) as (n & N & _).
  assert (AZ : above r x z) by (split; [intros <-; exact (t_acyclic r T p x K DS)|apply d_step with p; assumption]).
  pose proof (AG z n N AZ (d_self r z)) as EQ. exists (pmul M (transform (with_joint (with_value (n_joint n) (q z)) n))). split; intros g F; rewrite <- pmul_assoc.
  - apply fk_child with p; [now apply A|rewrite kids_with_q; exact K|rewrite node_with_q, N; reflexivity].
  - rewrite EQ. apply fk_child with p; [now apply B|rewrite kids_with_q; exact K|rewrite node_with_q, N; reflexivity].
Qed.
(** The origin of a node that is no prismatic joint does not depend on its joint value. *)
Lemma origin_fixed n v w : (forall d, n_kind n <> Prismatic d) -> ppos (transform (with_joint (with_value (n_joint n) v) n)) = ppos (transform (with_joint (with_value (n_joint n) w) n)).
Proof.
  intros NP. unfold transform. cbn [n_kind with_joint n_local n_offset n_joint value with_value]. destruct (n_kind n) as [|a|d| |] eqn:E; try reflexivity. exfalso. exact (NP d eq_refl).
Qed.
Lemma ppos_pmul a t t' : ppos t = ppos t' -> ppos (pmul a t) = ppos (pmul a t').
Proof. intros E. unfold pmul. cbn [ppos]. now rewrite E. Qed.
Lemma rigid_with_q q r : rigid r -> rigid (with_q q r).
Proof.
  intros (A & B). split; [exact A|]. intros x n N. rewrite node_with_q in N. destruct (node_at r x) as [m|] eqn:M; [|discriminate]. injection N as <-. exact (B x m M).
Qed.
(** The distance of two nodes, one above the other, in two configurations that agree in between. *)
Lemma same_reach r x z q q' g h g' h' : tree r -> rigid r -> desc r x z ->
  (forall y n, node_at r y = Some n -> above r x y -> above r y z -> q y = q' y) ->
  (forall n, node_at r z = Some n -> (forall d, n_kind n <> Prismatic d) \/ q z = q' z) ->
  fk (with_q q r) x g -> fk (with_q q r) z h -> fk (with_q q' r) x g' -> fk (with_q q' r) z h' -> far (ppos g) (ppos h) = far (ppos g') (ppos h').
Proof.
  intros T R DS AG EN F1 F2 F3 F4. destruct (Nat.eq_dec x z) as [->|N].
  - rewrite (fk_fun _ _ _ _ (tree_with_q q r T) F1 F2), (fk_fun _ _ _ _ (tree_with_q q' r T) F3 F4), !far_self. reflexivity.
  - inversion DS as [E|p z' DP K E]; [contradiction|subst z'].
    destruct (same_way r x p q q' T DP) as (M & A & B).
    { intros y n NY AB DY. apply (AG y n NY AB). split; [|apply d_step with p; assumption]. intros ->. exact (t_acyclic r T p z K DY). }
    destruct (proj1 (t_links r T p z) K) as (n & NZ & _).
    assert (W : forall u, node_at (with_q u r) z = Some (with_joint (with_value (n_joint n) (u z)) n)) by (intros u; rewrite node_with_q, NZ; reflexivity).
    assert (E2 := fk_fun _ _ _ _ (tree_with_q q r T) F2 (fk_child _ p z _ _ (A g F1) ltac:(rewrite kids_with_q; exact K) (W q))).
    assert (E4 := fk_fun _ _ _ _ (tree_with_q q' r T) F4 (fk_child _ p z _ _ (B g' F3) ltac:(rewrite kids_with_q; exact K) (W q'))).
    rewrite E2, E4, !pmul_assoc. rewrite <- (pmul_pid_r g) at 1. rewrite <- (pmul_pid_r g') at 1.
    rewrite !far_moved; [|exact (fk_rotation _ _ _ (rigid_with_q q' r R) F3)|exact (fk_rotation _ _ _ (rigid_with_q q r R) F1)].
    f_equal. apply ppos_pmul. destruct (EN n NZ) as [NP|EQ]; [now apply origin_fixed|now rewrite EQ].
Qed.
(** The joint values that the robot has. *)
Definition own (r : robot) (x : nat) : R := match node_at r x with Some n => value (n_joint n) | None => 0 end.
Lemma fk_own r x g : fk r x g -> fk (with_q (own r) r) x g.
Proof.
  assert (W : forall y n, node_at r y = Some n -> node_at (with_q (own r) r) y = Some n).
  { intros y n N. rewrite node_with_q, N. cbn. f_equal. unfold own. rewrite N. destruct n as [a b c d e [lo hi li en va] f h]. reflexivity. }
  intros F. induction F as [n N|p c n g F IH K N].
  - exact (fk_root (with_q (own r) r) n (W _ _ N)).
  - apply fk_child with p; [exact IH|rewrite kids_with_q; exact K|exact (W _ _ N)].
Qed.
Fixpoint walk (r : robot) (x : nat) (l : list nat) : R := match l with [] => 0 | y :: l => reach r x y + walk r y l end.
Lemma sum_reach_walk r l : forall acc x, sum_reach r acc x l = acc + walk r x l.
Proof. induction l as [|y l IH]; intros acc x; cbn [sum_reach walk]; [lra|]. rewrite IH. lra. Qed.
Lemma last_default (l : list nat) : forall y d d', last (y :: l) d = last (y :: l) d'.
Proof. induction l as [|z l IH]; intros y d d'; [reflexivity|]. exact (IH z d d'). Qed.
Section Flex.
  Variables (r : robot) (L : list nat) (q : nat -> R).
  Hypothesis T : tree r. Hypothesis R0 : rigid r. Hypothesis P : posed r. Hypothesis CH : chained r L. Hypothesis DF : differs_in r L q. Hypothesis NS : no_slides r L.
  Lemma own_q y n : node_at r y = Some n -> ~ In y L -> own r y = q y.
  Proof. intros N I. rewrite (DF y n N I). unfold own. now rewrite N. Qed.
  (** The distance of two nodes with no node of the chain strictly between them is what it was. *)
  Lemma reach_kept x z g h : desc r (root r) x -> desc r x z -> (forall y, In y L -> above r x y -> ~ above r y z) ->
    fk (with_q q r) x g -> fk (with_q q r) z h -> reach r x z = far (ppos g) (ppos h).
  Proof.
    intros DX DS BT F1 F2. destruct (JacProofs.fk_exists r x T DX) as (g0 & G0). destruct (JacProofs.fk_exists r z T (desc_trans _ _ _ _ DX DS)) as (h0 & H0).
    destruct (P x g0 G0) as (n & N & EN). destruct (P z h0 H0) as (m & M & EM). rewrite (reach_far r x z n m N M); [|rewrite EN; exact (fk_rotation _ _ _ R0 G0)].
    rewrite EN, EM. apply (same_reach r x z (own r) q g0 h0 g h T R0 DS); auto using fk_own.
    - intros y k K A B. destruct (in_dec Nat.eq_dec y L) as [I|I]; [exfalso; exact (BT y I A B)|exact (own_q y k K I)].
    - intros k K. destruct (in_dec Nat.eq_dec z L) as [I|I]; [left; intros d; exact (NS z k d I K)|right; exact (own_q z k K I)].
  Qed.
  Lemma walk_bound l : forall a x g h, L = a ++ x :: l -> desc r (root r) x -> fk (with_q q r) x g -> fk (with_q q r) (last (x :: l) x) h -> far (ppos g) (ppos h) <= walk r x l.
  Proof.
    induction l as [|y l IH]; intros a x g h E DX F1 F2.
    - cbn in F2. rewrite (fk_fun _ _ _ _ (tree_with_q q r T) F1 F2), far_self. cbn. lra.
    - assert (AB : above r x y) by (apply (CH a x y l); exact E). assert (DY : desc r (root r) y) by (apply desc_trans with x; [exact DX|apply AB]).
      destruct (JacProofs.fk_exists (with_q q r) y (tree_with_q q r T) ltac:(apply desc_with_q; exact DY)) as (k & K).
      assert (LS : last (x :: y :: l) x = last (y :: l) y) by exact (last_default l y x y).
      rewrite LS in F2. specialize (IH (a ++ [x]) y k h ltac:(rewrite <- app_assoc; exact E) DY K F2). cbn [walk].
      rewrite (reach_kept x y g k DX (proj2 AB)); [pose proof (far_triangle (ppos g) (ppos k) (ppos h)); lra| |exact F1|exact K].
      intros w I A B. rewrite E in I. apply in_app_or in I. destruct I as [I|[<-|[<-|I]]].
      + apply in_split in I. destruct I as (u & v & ->). assert (W : above r w x) by (apply (chained_order r L u w v x (y :: l) T CH); rewrite E, <- app_assoc; reflexivity).
        destruct (above_trans r w x w T W A) as (X & _). now apply X.
      + now apply (proj1 A).
      + now apply (proj1 B).
      + apply in_split in I. destruct I as (u & v & ->). assert (W : above r y w) by (apply (chained_order r L (a ++ [x]) y u w v T CH); rewrite E, <- app_assoc; reflexivity).
        destruct (above_trans r y w y T W B) as (X & _). now apply X.
  Qed.
  Lemma last_low x l : L = x :: l -> forall w, In w L -> w = last L x \/ above r w (last L x).
  Proof.
    intros E w I. rewrite E in *. destruct (exists_last (l := x :: l) ltac:(discriminate)) as (u & z & EQ). rewrite EQ in *. rewrite last_last. apply in_app_or in I. destruct I as [I|[<-|[]]]; [|now left].
    right. apply in_split in I. destruct I as (v & v' & ->). apply (chained_order r _ v w v' z [] T CH). rewrite <- app_assoc. reflexivity.
  Qed.
  Lemma extension_bound x l k t E g h : L = x :: l -> desc r (root r) k -> desc r k x -> desc r (last L x) t -> maximum_extension r (Some k) (Some t) L = Done E ->
    fk (with_q q r) k g -> fk (with_q q r) t h -> far (ppos g) (ppos h) <= E.
  Proof.
    intros EL DK KX LT ME F1 F2. rewrite EL in ME. cbn [maximum_extension] in ME. rewrite sum_reach_walk in ME. rewrite <- EL in ME. assert (EE := f_equal (fun o => match o with Done a => a | _ => 0 end) ME). cbn in EE. rewrite <- EE. clear ME EE.
    assert (DX : desc r (root r) x) by (apply desc_trans with k; assumption).
    assert (DLx : desc r x (last L x)). { destruct (last_low x l EL x ltac:(rewrite EL; now left)) as [<-|(_ & A)]; [constructor|exact A]. }
    assert (DL : desc r (root r) (last L x)) by (apply desc_trans with x; assumption).
    destruct (JacProofs.fk_exists (with_q q r) x (tree_with_q q r T) ltac:(apply desc_with_q; exact DX)) as (gx & GX).
    destruct (JacProofs.fk_exists (with_q q r) (last L x) (tree_with_q q r T) ltac:(apply desc_with_q; exact DL)) as (gl & GL).
    assert (A1 : reach r k x = far (ppos g) (ppos gx)).
    { apply reach_kept; auto. intros w I A B. rewrite EL in I. destruct I as [<-|I]; [now apply (proj1 B)|]. rewrite EL in CH. pose proof (chained_all r l T x CH w I) as W. destruct (above_trans r x w x T W B) as (X & _). now apply X. }
    assert (A2 : far (ppos gx) (ppos gl) <= walk r x l) by (apply (walk_bound l [] x gx gl EL DX GX); rewrite <- EL; exact GL).
    assert (A3 : reach r t (last L x) = far (ppos gl) (ppos h)).
    { assert (A : reach r (last L x) t = far (ppos gl) (ppos h)).
      { apply reach_kept; auto. intros w I A B. destruct (last_low x l EL w I) as [->|W]; [now apply (proj1 A)|]. destruct (above_trans r w (last L x) w T W A) as (X & _). now apply X. }
      rewrite <- A. destruct (JacProofs.fk_exists r (last L x) T DL) as (u & U). destruct (JacProofs.fk_exists r t T ltac:(apply desc_trans with (last L x); assumption)) as (v & V).
      destruct (P _ _ U) as (n & N & EN). destruct (P _ _ V) as (m & M & EM). rewrite (reach_far r _ _ n m N M), (reach_far r _ _ m n M N); [apply far_sym| |]; [rewrite EM; exact (fk_rotation _ _ _ R0 V)|rewrite EN; exact (fk_rotation _ _ _ R0 U)]. }
    rewrite A1, A3. pose proof (far_triangle (ppos g) (ppos gx) (ppos h)). pose proof (far_triangle (ppos gx) (ppos gl) (ppos h)). lra.
  Qed.
End Flex.

(** *** Masses *)
Lemma fold_sum (f : nat -> R) l : forall a, fold_left (fun s x => s + f x) l a = a + total f l.
Proof. induction l as [|x l IH]; intros a; cbn [fold_left]; unfold total; cbn; [lra|]. rewrite IH. unfold total. lra. Qed.
Lemma fold_vec (f : nat -> R) (c : nat -> vec3) l : forall a, let s := fold_left (fun s x => vadd s (vscale (f x) (c x))) l a in
  vx s = vx a + total (fun x => f x * vx (c x)) l /\ vy s = vy a + total (fun x => f x * vy (c x)) l /\ vz s = vz a + total (fun x => f x * vz (c x)) l.
Proof.
  induction l as [|x l IH]; intros a; cbn [fold_left]; cbv zeta; unfold total; cbn [map fold_right]; [lra|]. destruct (IH (vadd a (vscale (f x) (c x)))) as (A & B & C). rewrite A, B, C.
  unfold total, vadd, vscale. cbn [vx vy vz]. lra.
Qed.
Lemma total_scale (f g : nat -> R) m l : m <> 0 -> total (fun x => f x / m * g x) l = total (fun x => f x * g x) l / m.
Proof. intros N. unfold total. induction l as [|x l IH]; cbn; [field; exact N|]. rewrite IH. field. exact N. Qed.
Lemma total_le (f g : nat -> R) l : (forall x, In x l -> f x <= g x) -> total f l <= total g l.
Proof. unfold total. induction l as [|x l IH]; intros H; cbn; [lra|]. pose proof (H x (or_introl eq_refl)). specialize (IH (fun y I => H y (or_intror I))). lra. Qed.
Lemma total_factor (f : nat -> R) b l : total (fun x => f x * b) l = b * total f l.
Proof. unfold total. induction l as [|x l IH]; cbn; [lra|]. rewrite IH. lra. Qed.
Lemma total_lin (a b c : nat -> R) u v w l : total (fun x => u * a x + v * b x + w * c x) l = u * total a l + v * total b l + w * total c l.
Proof. unfold total. induction l as [|x l IH]; cbn; [lra|]. rewrite IH. lra. Qed.

(** *** Names *)
Lemma suff_fold tcp root names : forall t k,
  fold_left (fun s j => let '(t, k) := s in
      ((if negb t && match tcp with Some t' => Nat.eqb j t' | None => false end then true else t),
       (if negb k && match root with Some k' => Nat.eqb j k' | None => false end then true else k))) names (t, k) =
  (t || match tcp with Some t' => existsb (Nat.eqb t') names | None => false end, k || match root with Some k' => existsb (Nat.eqb k') names | None => false end).
Proof.
  induction names as [|j names IH]; intros t k; cbn [fold_left existsb]; [destruct tcp, root; rewrite ?orb_false_r; reflexivity|]. rewrite IH. f_equal.
  - destruct t; [reflexivity|]. cbn [negb andb orb]. destruct tcp as [t'|]; [|reflexivity]. rewrite (Nat.eqb_sym j t'). destruct (Nat.eqb t' j); reflexivity.
  - destruct k; [reflexivity|]. cbn [negb andb orb]. destruct root as [t'|]; [|reflexivity]. rewrite (Nat.eqb_sym j t'). destruct (Nat.eqb t' j); reflexivity.
Qed.
Lemma exists_in x l : existsb (Nat.eqb x) l = true <-> In x l.
Proof. rewrite existsb_exists. split; [intros (y & I & E); apply Nat.eqb_eq in E; now subst|intros I; exists x; split; [exact I|apply Nat.eqb_refl]]. Qed.
Lemma fold_and {A : Type} (f : A -> bool) l : forall b, fold_left (fun res x => res && f x) l b = b && forallb f l.
Proof. induction l as [|x l IH]; intros b; cbn; [now rewrite andb_true_r|]. now rewrite IH, andb_assoc. Qed.
