(** Proofs for C65 and C66. *)
From Coq Require Import List Bool Arith ZArith QArith Lia.
From Verif Require Import ObjSetModel ObjSetSpec ObjSetProofs CheckModel CheckSpec.
Import ListNotations.

Lemma models_in f t m : In m (models f t) <-> exists o, In o (objs t) /\ f o = Some m.
Proof.
  unfold models. rewrite in_flat_map. split; intros (o & I & H).
  - exists o. split; [exact I|]. destruct (f o) as [k|]; [destruct H as [->|[]]; reflexivity|destruct H].
  - exists o. split; [exact I|]. rewrite H. left. reflexivity.
Qed.

Lemma add_in chk s o x : In x (objs (fst (add chk s (Some o)))) <-> In x (objs s) \/ (x = o /\ chk o = checker s).
Proof.
  unfold add. destruct (Nat.eqb_spec (checker s) (chk o)) as [E|N]; cbn [negb fst].
  - destruct (has s o) eqn:H; cbn [fst objs].
    + apply has_spec in H. split; [tauto|]. intros [I|[-> _]]; assumption.
    + rewrite in_app_iff. cbn. split; [intros [I|[<-|[]]]; auto|intros [I|[-> _]]; auto].
  - split; [tauto|]. intros [I|[_ E]]; [exact I|congruence].
Qed.
Lemma add_checker chk s o : checker (fst (add chk s o)) = checker s.
Proof. destruct o as [o|]; [|reflexivity]. unfold add. destruct (checker s =? chk o); [|reflexivity]. cbn [negb]. destruct (has s o); reflexivity. Qed.

Lemma robot_fold s this : forall ns r, checker r = this ->
  forall x, In x (objs (fold_left (fun r n => match model s n with Some _ => fst (add (chk s) r (Some n)) | None => r end) ns r)) <->
            In x (objs r) \/ (In x ns /\ model s x <> None /\ chk s x = this).
Proof.
  induction ns as [|n ns IH]; intros r C x.
  - cbn. tauto.
  - cbn [fold_left]. rewrite IH.
    + destruct (model s n) as [k|] eqn:M.
      * rewrite add_in, C. cbn [In]. split.
        -- intros [[I|[-> E]]|(I & H)]; [tauto| |tauto]. right. split; [left; reflexivity|]. split; [congruence|exact E].
        -- intros [I|([<-|I] & H & E)]; tauto.
      * cbn [In]. split; [tauto|]. intros [I|([<-|I] & H & E)]; [tauto|congruence|tauto].
    + destruct (model s n); [rewrite add_checker|]; exact C.
Qed.
Lemma robot_models_in s this ns x : In x (objs (robot_models s this ns)) <-> In x ns /\ model s x <> None /\ chk s x = this.
Proof. unfold robot_models. rewrite robot_fold by reflexivity. cbn. tauto. Qed.

Lemma robot_body s this o ns : nodes s o = Some ns -> belongs s this o ->
  forall m, In m (models (model s) (robot_models s this ns)) <-> body s o m.
Proof.
  intros N B m. rewrite models_in. unfold body. rewrite N. split.
  - intros (n & I & M). apply robot_models_in in I. exists n. tauto.
  - intros (n & I & M). exists n. split; [|exact M]. apply robot_models_in. split; [exact I|]. split; [congruence|]. apply (B ns N n I). congruence.
Qed.
Lemma plain_set_body s t : (forall o, In o (objs t) -> no_robot s o) -> forall m, In m (models (model s) t) <-> set_body s t m.
Proof.
  intros R m. rewrite models_in. unfold set_body. split; intros (o & I & M); exists o; (split; [exact I|]); pose proof (R o I) as E; unfold no_robot in E; unfold body in *; rewrite E in *; exact M.
Qed.
Lemma plain_body s o k : no_robot s o -> model s o = Some k -> forall m, m = k <-> body s o m.
Proof. unfold no_robot, body. intros -> -> m. split; [intros ->; reflexivity|congruence]. Qed.

Section Hits.
Variable hit : nat -> nat -> bool.
Lemma hit_list_ok ms m : hit_list hit ms m = true <-> exists x, In x ms /\ hit x m = true.
Proof. unfold hit_list. rewrite existsb_exists. reflexivity. Qed.
Lemma hit_model_set_ok s m t : hit_model_set hit s m t = true <-> exists y, In y (models (model s) t) /\ hit m y = true.
Proof. unfold hit_model_set. rewrite existsb_exists. reflexivity. Qed.
Lemma hit_set_set_ok s t u : hit_set_set hit s t u = true <-> exists x y, In x (models (model s) t) /\ In y (models (model s) u) /\ hit x y = true.
Proof.
  unfold hit_set_set. rewrite existsb_exists. split.
  - intros (x & I & H). apply existsb_exists in H. destruct H as (y & J & H). eauto.
  - intros (x & y & I & J & H). exists x. split; [exact I|]. apply existsb_exists. eauto.
Qed.
End Hits.

Section Dists.
Variable P : Type.
Variable dist : nat -> nat -> near P.
Variable big : Q.
Lemma closer_le r m n : (gap (closer dist r m n) <= gap r)%Q /\ (gap (closer dist r m n) <= gap (dist m n))%Q.
Proof.
  unfold closer. cbv zeta. destruct (Qle_bool (gap (dist m n)) (gap r)) eqn:E.
  - apply Qle_bool_iff in E. split; [exact E|apply Qle_refl].
  - split; [apply Qle_refl|]. apply Qlt_le_weak, Qnot_le_lt. intros H. apply Qle_bool_iff in H. congruence.
Qed.
Lemma closer_first r m n : (gap (dist m n) <= gap r)%Q -> closer dist r m n = dist m n.
Proof. intros H. apply Qle_bool_iff in H. unfold closer. cbv zeta. rewrite H. reflexivity. Qed.
Lemma closer_is r m n : closer dist r m n = r \/ closer dist r m n = dist m n.
Proof. unfold closer. cbv zeta. destruct (Qle_bool _ _); auto. Qed.

Lemma pairs_ok : forall ps r, 
  let r' := fold_left (fun r p => closer dist r (fst p) (snd p)) ps r in
  (gap r' <= gap r)%Q /\ (forall p, In p ps -> (gap r' <= gap (dist (fst p) (snd p)))%Q) /\ (r' = r \/ exists p, In p ps /\ r' = dist (fst p) (snd p)).
Proof.
  induction ps as [|p ps IH]; intros r; cbv zeta.
  - cbn. split; [apply Qle_refl|]. split; [intros p []|]. left. reflexivity.
  - cbn [fold_left]. destruct (IH (closer dist r (fst p) (snd p))) as (A & B & C). destruct (closer_le r (fst p) (snd p)) as [L1 L2].
    split; [eapply Qle_trans; eassumption|]. split.
    + intros q [<-|I]; [eapply Qle_trans; eassumption|]. apply B, I.
    + destruct C as [C|(q & I & C)].
      * rewrite C. destruct (closer_is r (fst p) (snd p)) as [E|E]; rewrite E; [left; reflexivity|]. right. exists p. split; [left|]; reflexivity.
      * right. exists q. split; [right; exact I|exact C].
Qed.
Lemma pairs_some ps r p0 : In p0 ps -> (forall p, In p ps -> (gap (dist (fst p) (snd p)) <= gap r)%Q) ->
  exists p, In p ps /\ fold_left (fun r p => closer dist r (fst p) (snd p)) ps r = dist (fst p) (snd p).
Proof.
  intros I B. destruct ps as [|p ps]; [destruct I|]. cbn [fold_left]. rewrite closer_first by (apply B; left; reflexivity).
  destruct (pairs_ok ps (dist (fst p) (snd p))) as (_ & _ & C). cbv zeta in C. destruct C as [C|(q & J & C)]; rewrite C; [exists p; split; [left|]; reflexivity|]. exists q. split; [right; exact J|reflexivity].
Qed.
Lemma pairs_nearest (A B : nat -> Prop) ps r : ps <> [] -> (forall m n, In (m, n) ps <-> A m /\ B n) -> (forall m n, (gap (dist m n) <= gap r)%Q) ->
  nearest dist A B (fold_left (fun r p => closer dist r (fst p) (snd p)) ps r).
Proof.
  intros N E F. destruct ps as [|p0 ps'] eqn:D; [congruence|]. rewrite <- D in *. assert (I0 : In p0 ps) by (rewrite D; left; reflexivity).
  destruct (pairs_some ps r p0 I0) as ([m n] & I & H); [intros; apply F|]. cbn [fst snd] in H. split.
  - exists m, n. apply E in I. tauto.
  - intros m' n' HA HB. destruct (pairs_ok ps r) as (_ & L & _). apply (L (m', n')). apply E. tauto.
Qed.

Lemma nested ns : forall ms r, fold_left (fun r m => fold_left (fun r n => closer dist r m n) ns r) ms r =
  fold_left (fun r p => closer dist r (fst p) (snd p)) (list_prod ms ns) r.
Proof.
  induction ms as [|m ms IH]; intros r; [reflexivity|]. cbn [fold_left list_prod]. rewrite fold_left_app, IH. f_equal.
  clear. revert r. induction ns as [|n ns IH]; intros r; [reflexivity|]. cbn. apply IH.
Qed.
Lemma row m : forall ns r, fold_left (fun r n => closer dist r m n) ns r = fold_left (fun r p => closer dist r (fst p) (snd p)) (list_prod [m] ns) r.
Proof. intros ns r. rewrite <- nested. reflexivity. Qed.

Lemma set_set_nearest s t u r (A B : nat -> Prop) a b : (forall m n, (gap (dist m n) <= big)%Q) ->
  (forall m, In m (models (model s) t) <-> A m) -> (forall m, In m (models (model s) u) <-> B m) -> A a -> B b ->
  nearest dist A B (dist_set_set dist big s t u r).
Proof.
  intros F EA EB HA HB. unfold dist_set_set. pose proof (proj2 (EA a) HA) as IA. pose proof (proj2 (EB b) HB) as IB.
  destruct (models (model s) t) as [|m ms] eqn:D1; [destruct IA|]. destruct (models (model s) u) as [|n ns] eqn:D2; [destruct IB|].
  rewrite nested. apply pairs_nearest.
  - cbn. discriminate.
  - intros x y. rewrite in_prod_iff, EA, EB. reflexivity.
  - intros x y. cbn [start gap]. apply F.
Qed.
Lemma model_set_nearest s m u r (B : nat -> Prop) b : (forall m n, (gap (dist m n) <= big)%Q) ->
  (forall m, In m (models (model s) u) <-> B m) -> B b -> nearest dist (eq m) B (dist_model_set dist big s m u r).
Proof.
  intros F EB HB. unfold dist_model_set. pose proof (proj2 (EB b) HB) as IB. destruct (models (model s) u) as [|n ns] eqn:D2; [destruct IB|].
  rewrite row. apply pairs_nearest.
  - cbn. discriminate.
  - intros x y. rewrite in_prod_iff, EB. cbn. split; [intros [[->|[]] H]; auto|intros [-> H]; auto].
  - intros x y. cbn [start gap]. apply F.
Qed.
Lemma nearest_ext (A B A' B' : nat -> Prop) r : (forall m, A m <-> A' m) -> (forall m, B m <-> B' m) -> nearest dist A B r -> nearest dist A' B' r.
Proof.
  intros EA EB ((m & n & HA & HB & E) & L). split.
  - exists m, n. rewrite <- EA, <- EB. auto.
  - intros x y HX HY. apply L; [apply EA|apply EB]; assumption.
Qed.
Lemma swap_swap (r : near P) : swap (swap r) = r.
Proof. destruct r. reflexivity. Qed.
Lemma nearest_swap (A B : nat -> Prop) r : (forall m n, dist n m = swap (dist m n)) -> nearest dist A B r -> nearest dist B A (swap r).
Proof.
  intros F ((m & n & HA & HB & E) & L). split.
  - exists n, m. split; [exact HB|]. split; [exact HA|]. rewrite F, E. reflexivity.
  - intros x y HX HY. rewrite F. cbn [swap gap]. apply L; assumption.
Qed.
End Dists.
