(** Proofs for the collision detection manager. *)
From Coq Require Import List Bool Arith QArith Lqa Lia.
From Verif Require Import CdmModel CdmSpec.
Import ListNotations.
Open Scope nat_scope.

Lemma same_set_spec : forall content m x, same_set content m x = true <-> alike content m x.
Proof.
  intros content m x. unfold same_set, alike. rewrite orb_true_iff, Nat.eqb_eq. split.
  - intros [H|H]; [auto|]. destruct (content m) as [|a [|a' l]]; try discriminate. destruct (content x) as [|b [|b' l']]; try discriminate. apply Nat.eqb_eq in H. subst. right. exists a. auto.
  - intros [H|(o & E1 & E2)]; [auto|]. right. rewrite E1, E2. apply Nat.eqb_refl.
Qed.
Lemma has_set_spec : forall s m, has_set s m = true <-> exists x, In x (col_models s) /\ alike (content s) m x.
Proof.
  intros s m. unfold has_set. rewrite existsb_exists. split; intros (x & I & A); exists x; (split; [exact I|]); apply same_set_spec, A.
Qed.
Lemma note_pairs : forall s m, col_pairs (note s m) = col_pairs s /\ content (note s m) = content s /\ next (note s m) = next s.
Proof. intros s m. unfold note. destruct (has_set s m); auto. Qed.
Lemma note_has : forall s m, has_set (note s m) m = true.
Proof.
  intros s m. unfold note. destruct (has_set s m) eqn:H; [exact H|]. apply has_set_spec. exists m. cbn [col_models]. split; [apply in_or_app; right; left; reflexivity|left; reflexivity].
Qed.
Lemma note_models : forall s m x, In x (col_models s) -> In x (col_models (note s m)).
Proof. intros s m x I. unfold note. destruct (has_set s m); [exact I|]. cbn [col_models]. apply in_or_app. auto. Qed.
Lemma note_only : forall s m x, In x (col_models (note s m)) -> In x (col_models s) \/ x = m.
Proof. intros s m x I. unfold note in I. destruct (has_set s m); [auto|]. cbn [col_models] in I. apply in_app_or in I. destruct I as [I|[<-|[]]]; auto. Qed.
Lemma note_mono : forall s m x, has_set s x = true -> has_set (note s m) x = true.
Proof.
  intros s m x H. apply has_set_spec in H. destruct H as (y & I & A). apply has_set_spec. exists y. split; [apply note_models, I|]. rewrite (proj1 (proj2 (note_pairs s m))). exact A.
Qed.
Lemma note_known : forall s m, has_set s m = true -> note s m = s.
Proof. intros s m H. unfold note. rewrite H. reflexivity. Qed.
Lemma push_spec : forall a b l x y, (exists v, In (x, v) (push a b l) /\ In y v) <-> (exists v, In (x, v) l /\ In y v) \/ x = a /\ y = b.
Proof.
  induction l as [|[k v] l IH]; intros x y; cbn [push].
  - split.
    + intros (v & [E|[]] & I). injection E as <- <-. destruct I as [<-|[]]. auto.
    + intros [(v & [] & _)|[-> ->]]. exists [b]. split; left; reflexivity.
  - destruct (k =? a) eqn:E.
    + apply Nat.eqb_eq in E. subst k. split.
      * intros (w & [F|I] & J).
        -- injection F as <- <-. apply in_app_or in J. destruct J as [J|[<-|[]]]; [left; exists v; split; [left; reflexivity|exact J]|auto].
        -- left. exists w. split; [right; exact I|exact J].
      * intros [(w & [F|I] & J)|[-> ->]].
        -- injection F as <- <-. exists (v ++ [b]). split; [left; reflexivity|apply in_or_app; auto].
        -- exists w. split; [right; exact I|exact J].
        -- exists (v ++ [b]). split; [left; reflexivity|apply in_or_app; right; left; reflexivity].
    + split.
      * intros (w & [F|I] & J).
        -- injection F as <- <-. left. exists v. split; [left; reflexivity|exact J].
        -- destruct (proj1 (IH x y) (ex_intro _ w (conj I J))) as [(u & I' & J')|H]; [left; exists u; split; [right; exact I'|exact J']|auto].
      * intros [(w & [F|I] & J)|H].
        -- injection F as <- <-. exists v. split; [left; reflexivity|exact J].
        -- destruct (proj2 (IH x y) (or_introl (ex_intro _ w (conj I J)))) as (u & I' & J'). exists u. split; [right; exact I'|exact J'].
        -- destruct (proj2 (IH x y) (or_intror H)) as (u & I' & J'). exists u. split; [right; exact I'|exact J'].
Qed.
Lemma add_pair_registered : forall s a b x y, registered (add_pair s (Some a) (Some b)) x y <-> registered s x y \/ x = a /\ y = b.
Proof.
  intros s a b x y. unfold registered, add_pair, enter. cbn [col_pairs]. rewrite push_spec. rewrite (proj1 (note_pairs _ _)), (proj1 (note_pairs _ _)). reflexivity.
Qed.
Lemma add_pair_frame : forall s a b, content (add_pair s (Some a) (Some b)) = content s /\ next (add_pair s (Some a) (Some b)) = next s /\
  col_models (add_pair s (Some a) (Some b)) = col_models (note (note s a) b).
Proof.
  intros s a b. unfold add_pair, enter. cbn [content next col_models]. destruct (note_pairs (note s a) b) as (_ & C & N). destruct (note_pairs s a) as (_ & C' & N').
  split; [congruence|]. split; [congruence|reflexivity].
Qed.
Lemma has_set_ext : forall s s' m, col_models s = col_models s' -> content s = content s' -> has_set s m = has_set s' m.
Proof. intros s s' m E F. unfold has_set. rewrite E, F. reflexivity. Qed.
(** The loop of addCollisionModel. *)
Lemma loop_spec : forall m xs s, (forall x, In x xs -> In x (col_models s)) -> let s' := fold_left (fun s x => add_pair s (Some x) (Some m)) xs s in
  content s' = content s /\ next s' = next s /\ (forall x, In x (col_models s) -> In x (col_models s')) /\ (forall x, In x (col_models s') -> In x (col_models s) \/ x = m) /\
  (forall x y, registered s' x y <-> registered s x y \/ In x xs /\ y = m) /\ (has_set s m = true -> col_models s' = col_models s).
Proof.
  intros m. induction xs as [|x xs IH]; intros s K s'; unfold s'; cbn [fold_left].
  - split; [reflexivity|]. split; [reflexivity|]. split; [auto|]. split; [auto|]. split; [intros a b; cbn [In]; tauto|auto].
  - set (t := add_pair s (Some x) (Some m)). destruct (add_pair_frame s x m) as (C & N & M). fold t in C, N, M.
    assert (HX : has_set s x = true) by (apply has_set_spec; exists x; split; [apply K; left; reflexivity|left; reflexivity]). rewrite (note_known s x HX) in M.
    assert (KM : forall y, In y (col_models s) -> In y (col_models t)) by (intros y I; rewrite M; apply note_models, I).
    destruct (IH t) as (C' & N' & K1 & K2 & R & L); [intros y I; apply KM, K; right; exact I|].
    split; [congruence|]. split; [congruence|]. split; [auto|]. split; [|split].
    + intros y I. apply K2 in I. destruct I as [I|I]; [|auto]. rewrite M in I. apply note_only in I. tauto.
    + intros a b. rewrite R. unfold t. rewrite add_pair_registered. cbn [In]. intuition congruence.
    + intros H. assert (MT : col_models t = col_models s) by (rewrite M, (note_known s m H); reflexivity). rewrite L; [exact MT|]. rewrite (has_set_ext t s m MT C). exact H.
Qed.
Lemma add_model_spec : forall room s m s', add_model room s (Some m) = Some s' ->
  content s' = content s /\ next s' = next s /\ (forall x, In x (col_models s) -> In x (col_models s')) /\ (forall x, In x (col_models s') -> In x (col_models s) \/ x = m) /\
  (forall x y, registered s' x y <-> registered s x y \/ In x (col_models s) /\ x <> m /\ y = m) /\ has_set s' m = true /\ (has_set s m = true -> col_models s' = col_models s).
Proof.
  intros room s m s' H. unfold add_model in H. destruct (negb room && negb (has_set s m) && _); [discriminate|]. injection H as <-.
  set (others := filter (fun x => negb (m =? x)) (col_models s)).
  assert (OT : forall x, In x others <-> In x (col_models s) /\ x <> m) by (intros x; unfold others; rewrite filter_In, negb_true_iff, Nat.eqb_neq; intuition congruence).
  destruct (loop_spec m others s) as (C & N & K1 & K2 & R & L); [intros x I; apply OT in I; tauto|]. set (t := fold_left _ others s) in *.
  destruct (note_pairs t m) as (P & C' & N'). split; [congruence|]. split; [congruence|]. split; [intros x I; apply note_models, K1, I|]. split; [|split; [|split]].
  - intros x I. apply note_only in I. destruct I as [I|I]; auto.
  - intros x y. unfold registered at 1. rewrite P. change (registered t x y <-> registered s x y \/ In x (col_models s) /\ x <> m /\ y = m). rewrite R, OT. tauto.
  - apply note_has.
  - intros H. specialize (L H). rewrite note_known; [exact L|]. rewrite (has_set_ext t s m L C). exact H.
Qed.
Lemma add_model_room : forall s m, exists s', add_model true s (Some m) = Some s'.
Proof. intros s m. eexists. reflexivity. Qed.
(** Adding different sets. *)
Lemma add_models_all : forall room ms s s', add_models room s ms = Some s' -> NoDup ms -> (forall m, In m ms -> has_set s m = false) ->
  (forall a b, In a ms -> In b ms -> alike (content s) a b -> a = b) ->
  (forall x y, registered s x y -> registered s' x y) /\ (forall x, In x (col_models s) -> In x (col_models s')) /\ (forall m, In m ms -> In m (col_models s')) /\
  (forall x m, In x (col_models s) -> In m ms -> registered s' x m) /\
  (forall i j a b, i < j -> nth_error ms i = Some a -> nth_error ms j = Some b -> registered s' a b) /\
  (forall x y, registered s' x y -> registered s x y \/ x <> y).
Proof.
  intros room. induction ms as [|m ms IH]; intros s s' H ND NEW AL; cbn [add_models] in H.
  - injection H as <-. split; [auto|]. split; [auto|]. split; [intros m []|]. split; [intros x m _ []|]. split; [|auto]. intros i j a b _ A. destruct i; discriminate.
  - destruct (add_model (room (length (col_models s))) s (Some m)) as [t|] eqn:E; [|discriminate]. destruct (add_model_spec _ s m t E) as (C & N & K1 & K2 & R & HM & _).
    inversion ND as [|u v N1 N2]. subst.
    assert (MT : In m (col_models t)).
    { apply has_set_spec in HM. destruct HM as (x & I & A). rewrite C in A. destruct (K2 x I) as [J|J]; [|subst; exact I]. exfalso. assert (X := NEW m (or_introl eq_refl)).
      assert (Y : has_set s m = true) by (apply has_set_spec; exists x; auto). congruence. }
    destruct (IH t s' H N2) as (R1 & R2 & R3 & R4 & R5 & R6).
    + intros p I. destruct (has_set t p) eqn:HP; [|reflexivity]. exfalso. apply has_set_spec in HP. destruct HP as (x & J & A). rewrite C in A. destruct (K2 x J) as [L| ->].
      * assert (X := NEW p (or_intror I)). assert (Y : has_set s p = true) by (apply has_set_spec; exists x; auto). congruence.
      * assert (p = m) by (apply AL; [right; exact I|left; reflexivity|exact A]). subst. contradiction.
    + intros a b I J. rewrite C. apply AL; right; assumption.
    + assert (NM : ~ In m (col_models s)) by (intros I; assert (X := NEW m (or_introl eq_refl)); assert (Y : has_set s m = true) by (apply has_set_spec; exists m; split; [exact I|left; reflexivity]); congruence).
      split; [intros x y G; apply R1, R; auto|]. split; [auto|]. split; [intros p [<-|I]; auto|]. split; [|split].
      * intros x p I [<-|J]; [|apply R4; auto]. apply R1, R. right. split; [exact I|]. split; [intros ->; contradiction|reflexivity].
      * intros [|i] [|j] a b L A B; try lia; cbn [nth_error] in A, B.
        -- injection A as <-. apply R4; [exact MT|]. apply nth_error_In in B. exact B.
        -- apply (R5 i j); [lia|exact A|exact B].
      * intros x y G. apply R6 in G. destruct G as [G|G]; [|auto]. apply R in G. destruct G as [G|(G1 & G2 & ->)]; auto.
Qed.
Lemma add_models_some : forall room ms s, (forall n, room n = true) -> exists s', add_models room s ms = Some s'.
Proof.
  intros room. induction ms as [|m ms IH]; intros s H; cbn [add_models]; [eexists; reflexivity|]. rewrite H. destruct (add_model_room s m) as (t & ->). apply IH, H.
Qed.
(** ** Queries *)
Lemma is_in_collision_spec : forall collide s, is_in_collision collide s = true <-> exists a b, registered s a b /\ collide a b = true.
Proof.
  intros collide s. unfold is_in_collision, registered. rewrite existsb_exists. split.
  - intros ([a l] & I & H). apply existsb_exists in H. cbn [fst snd] in H. destruct H as (b & J & H). exists a, b. split; [exists l; auto|exact H].
  - intros (a & b & (l & I & J) & H). exists (a, l). split; [exact I|]. apply existsb_exists. exists b. auto.
Qed.
Lemma is_in_collision_with_spec : forall collide s m, is_in_collision_with collide s m = true <-> exists x, In x (col_models s) /\ x <> m /\ collide x m = true.
Proof.
  intros collide s m. unfold is_in_collision_with. rewrite existsb_exists. split; intros (x & I & H); exists x.
  - apply andb_true_iff in H. destruct H as [H1 H2]. apply negb_true_iff, Nat.eqb_neq in H1. auto.
  - destruct H as [H1 H2]. split; [exact I|]. rewrite H2, andb_true_r. apply negb_true_iff, Nat.eqb_neq. auto.
Qed.
Lemma nearer_spec : forall m t, (nearer m t <= m)%Q /\ (nearer m t <= t)%Q /\ (nearer m t = m \/ nearer m t = t).
Proof. intros m t. unfold nearer, less. destruct (Qlt_le_dec t m); split; [lra| |lra|]; split; try lra; auto. Qed.
Lemma fold_nearer : forall (A : Type) (f : A -> Q) l d, let r := fold_left (fun d x => nearer d (f x)) l d in
  (r <= d)%Q /\ (forall x, In x l -> (r <= f x)%Q) /\ (r = d \/ exists x, In x l /\ r = f x).
Proof.
  intros A f. induction l as [|x l IH]; intros d r; unfold r; cbn [fold_left].
  - split; [lra|]. split; [intros x []|auto].
  - destruct (nearer_spec d (f x)) as (N1 & N2 & N3). destruct (IH (nearer d (f x))) as (R1 & R2 & R3). split; [lra|]. split.
    + intros y [<-|I]; [lra|apply R2, I].
    + destruct R3 as [->|(y & I & E)]; [|right; exists y; split; [right; exact I|exact E]]. destruct N3 as [->| ->]; [auto|right; exists x; split; [left; reflexivity|reflexivity]].
Qed.
Lemma dist_to_spec : forall dist m l, minimum (fun d => exists x, In x l /\ d = dist m x) (dist_to dist m l).
Proof.
  intros dist m l. unfold dist_to, minimum. destruct (fold_nearer nat (dist m) l flt_max) as (R1 & R2 & R3). split; [exact R1|]. split; [|exact R3]. intros d (x & I & ->). apply R2, I.
Qed.
Lemma get_distance_spec : forall dist s, minimum (fun d => exists a b, registered s a b /\ d = dist a b) (get_distance dist s).
Proof.
  intros dist s. unfold get_distance, minimum, registered. destruct (fold_nearer _ (fun p : nat * list nat => dist_to dist (fst p) (snd p)) (col_pairs s) flt_max) as (R1 & R2 & R3).
  split; [exact R1|]. split.
  - intros d (a & b & (l & I & J) & ->). specialize (R2 (a, l) I). cbn [fst snd] in R2. destruct (dist_to_spec dist a l) as (_ & D & _). specialize (D (dist a b) (ex_intro _ b (conj J eq_refl))). lra.
  - destruct R3 as [R3|([a l] & I & E)]; [auto|]. rewrite E. cbn [fst snd]. destruct (dist_to_spec dist a l) as (_ & _ & [F|(b & J & F)]); [auto|]. right. exists a, b. split; [exists l; auto|exact F].
Qed.
Lemma get_distance_with_spec : forall dist s m, minimum (fun d => exists x, In x (col_models s) /\ x <> m /\ d = dist x m) (get_distance_with dist s m).
Proof.
  intros dist s m. unfold get_distance_with, minimum.
  assert (G : forall l d, fold_left (fun d x => if negb (m =? x) then nearer d (dist x m) else d) l d = fold_left (fun d x => nearer d (dist x m)) (filter (fun x => negb (m =? x)) l) d).
  { induction l as [|x l IH]; intros d; cbn [fold_left filter]; [reflexivity|]. rewrite IH. destruct (negb (m =? x)); reflexivity. }
  rewrite G. destruct (fold_nearer _ (fun x => dist x m) (filter (fun x => negb (m =? x)) (col_models s)) flt_max) as (R1 & R2 & R3). split; [exact R1|].
  assert (F : forall x, In x (filter (fun x => negb (m =? x)) (col_models s)) <-> In x (col_models s) /\ x <> m) by (intros x; rewrite filter_In, negb_true_iff, Nat.eqb_neq; intuition congruence).
  split.
  - intros d (x & I & N & ->). apply R2, F. auto.
  - destruct R3 as [R3|(x & I & E)]; [auto|]. right. exists x. apply F in I. tauto.
Qed.
(** With points. *)
Lemma keep_fst : forall D (b t : Q * D), fst (keep b t) = nearer (fst b) (fst t).
Proof. intros D b t. unfold keep, nearer. destruct (less (fst t) (fst b)); reflexivity. Qed.
Lemma fold_keep : forall D A (f : A -> Q * D) l b, let r := fold_left (fun b x => keep b (f x)) l b in
  (fst r <= fst b)%Q /\ (forall x, In x l -> (fst r <= fst (f x))%Q) /\ (r = b \/ (fst r < fst b)%Q /\ exists x, In x l /\ r = f x).
Proof.
  intros D A f. induction l as [|x l IH]; intros b r; unfold r; cbn [fold_left].
  - split; [lra|]. split; [intros x []|auto].
  - destruct (nearer_spec (fst b) (fst (f x))) as (N1 & N2 & _). rewrite <- keep_fst in N1, N2. destruct (IH (keep b (f x))) as (R1 & R2 & R3). split; [lra|]. split.
    + intros y [<-|I]; [lra|apply R2, I].
    + assert (K : keep b (f x) = b \/ (fst (f x) < fst b)%Q /\ keep b (f x) = f x) by (unfold keep, less; destruct (Qlt_le_dec (fst (f x)) (fst b)); auto).
      destruct R3 as [->|(L & y & I & E)]; [|right; split; [lra|exists y; split; [right; exact I|exact E]]]. destruct K as [->|[L ->]]; [auto|]. right. split; [exact L|]. exists x. split; [left; reflexivity|reflexivity].
Qed.
Lemma points_to_spec : forall D (dist : nat -> nat -> Q * D) m l old, let r := points_to dist m l old in
  (fst r <= flt_max)%Q /\ (forall x, In x l -> (fst r <= fst (dist m x))%Q) /\ (r = (flt_max, old) \/ (fst r < flt_max)%Q /\ exists x, In x l /\ r = dist m x).
Proof. intros D dist m l old. exact (fold_keep D nat (dist m) l (flt_max, old)). Qed.
Lemma get_points_spec : forall D (dist : nat -> nat -> Q * D) junk s old, let r := get_points dist junk s old in
  (fst r <= flt_max)%Q /\ (forall a b, registered s a b -> (fst r <= fst (dist a b))%Q) /\ (r = (flt_max, old) \/ (fst r < flt_max)%Q /\ exists a b, registered s a b /\ r = dist a b).
Proof.
  intros D dist junk s old r. destruct (fold_keep D _ (fun p : nat * list nat => points_to dist (fst p) (snd p) (junk (fst p))) (col_pairs s) (flt_max, old)) as (R1 & R2 & R3).
  fold (get_points dist junk s old) in R1, R2, R3. fold r in R1, R2, R3. cbn [fst] in R1, R3. split; [exact R1|]. split.
  - intros a b (l & I & J). specialize (R2 (a, l) I). cbn [fst snd] in R2. destruct (points_to_spec D dist a l (junk a)) as (_ & P & _). specialize (P b J). lra.
  - destruct R3 as [R3|(L & [a l] & I & E)]; [auto|]. right. split; [exact L|]. cbn [fst snd] in E. destruct (points_to_spec D dist a l (junk a)) as (_ & _ & [P|(_ & b & J & P)]).
    + exfalso. rewrite E, P in L. cbn [fst] in L. lra.
    + exists a, b. split; [exists l; auto|congruence].
Qed.
