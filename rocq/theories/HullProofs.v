From Coq Require Import List ZArith Bool Arith Lia Psatz Sorting.Sorted.
From Verif Require Import HullModel HullSpec.
Import ListNotations.
Open Scope Z_scope.

Definition lt (a b : pt) : Prop := fst a < fst b \/ fst a = fst b /\ snd a < snd b.
Definition le (a b : pt) : Prop := a = b \/ lt a b.

Lemma turn_left a b c : turn a b c = is_left a b c.
Proof. unfold turn, is_left; ring. Qed.

Lemma ltb_lt a b : ltb a b = true <-> lt a b.
Proof. unfold ltb, lt; rewrite orb_true_iff, andb_true_iff, !Z.ltb_lt, Z.eqb_eq; tauto. Qed.
Lemma lt_trans a b c : lt a b -> lt b c -> lt a c.
Proof. unfold lt; lia. Qed.
Ltac ltt := unfold lt in *; lia.
Lemma lt_irrefl a : ~ lt a a.
Proof. unfold lt; lia. Qed.
Lemma lt_total (a b : pt) : lt a b \/ a = b \/ lt b a.
Proof.
  destruct a as [x y], b as [x' y']; unfold lt; cbn [fst snd].
  destruct (Z.lt_trichotomy x x') as [|[->|]]; [lia| |lia].
  destruct (Z.lt_trichotomy y y') as [|[->|]]; [lia|right; left; reflexivity|lia].
Qed.

(** Vectors in the half plane to the right. *)
Definition pos (x y : Z) : Prop := 0 < x \/ x = 0 /\ 0 < y.
Definition cr (ux uy vx vy : Z) : Z := ux * vy - uy * vx.
Lemma cr_trans ux uy vx vy wx wy :
  pos ux uy -> pos vx vy -> pos wx wy -> 0 <= cr ux uy vx vy -> 0 <= cr vx vy wx wy -> 0 <= cr ux uy wx wy.
Proof.
  unfold pos, cr; intros U V W A B.
  destruct V as [V|[-> V]].
  - assert (E : vx * (ux * wy - uy * wx) = ux * (vx * wy - vy * wx) + wx * (ux * vy - uy * vx)) by ring.
    assert (0 <= ux) by lia. assert (0 <= wx) by lia. nia.
  - assert (wx = 0) by nia. subst wx. assert (0 <= ux) by lia. destruct W as [|[_ W]]; nia.
Qed.
Lemma cr_trans_l ux uy vx vy wx wy :
  pos ux uy -> pos vx vy -> pos wx wy -> 0 < cr ux uy vx vy -> 0 <= cr vx vy wx wy -> 0 < cr ux uy wx wy.
Proof.
  unfold pos, cr; intros U V W A B.
  assert (UX : 0 < ux) by (destruct U as [|[-> U]]; [assumption|exfalso; assert (0 <= vx) by lia; nia]).
  destruct V as [V|[-> V]].
  - assert (E : vx * (ux * wy - uy * wx) = ux * (vx * wy - vy * wx) + wx * (ux * vy - uy * vx)) by ring.
    destruct W as [W|[-> W]]; [|nia].
    assert (0 < vx * (ux * wy - uy * wx)) by nia. nia.
  - assert (wx = 0) by (destruct W; nia). subst wx. nia.
Qed.

Lemma lt_pos a b : lt a b -> pos (fst b - fst a) (snd b - snd a).
Proof. unfold lt, pos; lia. Qed.
Lemma left_cr a b c : is_left a b c = cr (fst b - fst a) (snd b - snd a) (fst c - fst a) (snd c - snd a).
Proof. unfold is_left, cr; ring. Qed.
Lemma left_cr' a b c : is_left a b c = cr (fst b - fst a) (snd b - snd a) (fst c - fst b) (snd c - snd b).
Proof. unfold is_left, cr; ring. Qed.

(** The new edge after popping b. *)
Lemma left_pop a b p q : lt a b -> lt a p -> lt a q -> 0 <= is_left a b q -> is_left a b p <= 0 -> 0 <= is_left a p q.
Proof.
  intros AB AP AQ H1 H2. rewrite left_cr.
  apply cr_trans with (fst b - fst a) (snd b - snd a); try (apply lt_pos; assumption).
  - unfold is_left, cr in *; lia.
  - rewrite <- left_cr; assumption.
Qed.
Lemma left_stop a b p q : lt a b -> lt b p -> lt q b -> 0 <= is_left a b q -> 0 <= is_left a b p -> 0 <= is_left b p q.
Proof.
  intros AB BP QB H1 H2.
  enough (0 <= cr (fst b - fst q) (snd b - snd q) (fst p - fst b) (snd p - snd b)) by (unfold is_left, cr in *; lia).
  apply cr_trans with (fst b - fst a) (snd b - snd a); try (apply lt_pos; assumption).
  - unfold is_left, cr in *; lia.
  - rewrite <- left_cr'; assumption.
Qed.
Lemma left_step z a b p : lt z a -> lt a b -> lt b p -> 0 < is_left z a b -> 0 <= is_left a b p -> 0 < is_left z a p.
Proof.
  intros ZA AB BP H1 H2. rewrite left_cr' in H1, H2.
  assert (0 < cr (fst a - fst z) (snd a - snd z) (fst p - fst b) (snd p - snd b)).
  { eapply cr_trans_l; [..|exact H1|exact H2]; apply lt_pos; assumption. }
  unfold is_left, cr in *; lia.
Qed.

Lemma last_cons {A} : forall (l : list A) x d, last (x :: l) d = last l x.
Proof. induction l as [|y l IH]; intros; [reflexivity|]. change (last (x :: y :: l) d) with (last (y :: l) d). rewrite !IH; reflexivity. Qed.

(** Stacks, the top first. *)
Fixpoint turns (st : list pt) : Prop :=
  match st with b :: ((a :: ((z :: _))) as st') => 0 < is_left z a b /\ turns st' | _ => True end.
Fixpoint over (q : pt) (st : list pt) : Prop :=
  match st with b :: ((a :: _) as st') => 0 <= is_left a b q /\ over q st' | _ => True end.
Definition desc := StronglySorted (fun a b => lt b a).

Lemma turns_tl b st : turns (b :: st) -> turns st.
Proof. destruct st as [|a [|z st]]; cbn [turns]; tauto. Qed.
Lemma over_tl q b st : over q (b :: st) -> over q st.
Proof. destruct st as [|a st]; cbn [over]; tauto. Qed.

Lemma over_later p : forall st b a, desc (b :: a :: st) -> turns (b :: a :: st) -> lt b p -> 0 <= is_left a b p -> over p (b :: a :: st).
Proof.
  induction st as [|z st IH]; intros b a S T B H; cbn [over]; [tauto|].
  split; [assumption|]. inversion S as [|? ? S' F]; subst. cbn [turns] in T. destruct T as [T1 T2].
  assert (lt a b) by (inversion F; assumption).
  assert (lt z a) by (inversion S' as [|? ? S'' F']; inversion F'; assumption).
  assert (0 < is_left z a p) by (eapply left_step; eassumption).
  apply (IH a z); [assumption|exact T2|ltt|lia].
Qed.

(** While p is being placed on the stack. *)
Lemma pop_inv Q p : forall st b,
  desc (b :: st) -> turns (b :: st) -> Forall (fun q => over q (b :: st)) Q -> Forall (fun q => lt q p) (b :: Q) ->
  (forall q, In q Q -> lt b q -> 0 <= is_left b p q) ->
  (forall q, In q Q -> le (last st b) q) ->
  exists b' st', pop (b :: st) p = b' :: st' /\ desc (p :: b' :: st') /\ turns (p :: b' :: st') /\
    Forall (fun q => over q (p :: b' :: st')) (p :: Q) /\ last st' b' = last st b /\ incl (b' :: st') (b :: st).
Proof.
  induction st as [|a st IH]; intros b S T O L N B.
  - exists b, []. cbn [pop last turns over]. inversion L; subst.
    repeat split; try apply incl_refl.
    + constructor; [constructor; constructor|constructor; [assumption|constructor]].
    + constructor; [cbn [over]; split; [unfold is_left; lia|exact I]|].
      apply Forall_forall; intros q Hq; cbn [over]; split; [|exact I].
      cbn [last] in B. destruct (B q Hq) as [<-|]; [unfold is_left; lia|apply N; assumption].
  - inversion S as [|? ? S' F]; subst. assert (AB : lt a b) by (inversion F; assumption).
    inversion L as [|? ? BP LQ]; subst.
    change (pop (b :: a :: st) p) with (if 0 <? is_left a b p then b :: a :: st else pop (a :: st) p).
    destruct (0 <? is_left a b p) eqn:E.
    + apply Z.ltb_lt in E. exists b, (a :: st). split; [reflexivity|]. split; [|split; [|split; [|split; [reflexivity|apply incl_refl]]]].
      * constructor; [assumption|]. constructor; [assumption|].
        eapply Forall_impl; [|exact F]. intros x Hx; exact (lt_trans _ _ _ Hx BP).
      * cbn [turns]; split; [assumption|exact T].
      * constructor.
        -- cbn [over]. split; [unfold is_left; lia|]. apply over_later; try assumption; lia.
        -- apply Forall_forall; intros q Hq.
           assert (Oq := proj1 (Forall_forall _ _) O q Hq). cbn [over] in Oq |- *. split; [|exact Oq].
           destruct (lt_total q b) as [H|[->|H]].
           ++ eapply left_stop; [exact AB|exact BP|exact H|tauto|lia].
           ++ unfold is_left; lia.
           ++ apply N; assumption.
    + apply Z.ltb_ge in E.
      destruct (IH a) as (b' & st' & P1 & P2 & P3 & P4 & P5 & P6).
      * exact S'.
      * exact (turns_tl _ _ T).
      * eapply Forall_impl; [|exact O]. intros q Hq; exact (over_tl _ _ _ Hq).
      * constructor; [ltt|assumption].
      * intros q Hq AQ. assert (Oq := proj1 (Forall_forall _ _) O q Hq). cbn [over] in Oq.
        eapply left_pop with b; try assumption; [ltt|tauto].
      * intros q Hq. rewrite <- (last_cons st a b). apply B; exact Hq.
      * exists b', st'. repeat split; try assumption.
        -- rewrite P5, last_cons; reflexivity.
        -- intros x Hx; right; apply P6; exact Hx.
Qed.

Lemma pop_incl p : forall st, incl (pop st p) st.
Proof.
  induction st as [|b st IH]; [apply incl_refl|]. destruct st as [|a st]; [apply incl_refl|].
  change (pop (b :: a :: st) p) with (if 0 <? is_left a b p then b :: a :: st else pop (a :: st) p).
  destruct (0 <? is_left a b p); [apply incl_refl|]. intros x Hx; right; apply IH; exact Hx.
Qed.

Lemma scan_inv f l : forall ms Q b st,
  desc (b :: st) -> turns (b :: st) -> Forall (fun q => over q (b :: st)) Q -> In b Q ->
  (forall q, In q Q -> le q b /\ le f q) -> last st b = f -> Forall (fun v => v = f \/ is_left f l v < 0) (b :: st) ->
  StronglySorted lt (ms ++ [l]) -> (forall q, In q (ms ++ [l]) -> lt b q) ->
  exists st', scan f l (ms ++ [l]) (b :: st) = l :: st' /\ desc (l :: st') /\ turns (l :: st') /\
    (forall q, In q Q \/ q = l -> over q (l :: st')) /\ (forall q, In q ms -> over q (l :: st') \/ 0 <= is_left f l q) /\
    last st' l = f /\ incl st' (b :: st ++ ms) /\ Forall (fun v => v = f \/ is_left f l v < 0) st'.
Proof.
  induction ms as [|p ms IH]; intros Q b st D T O BQ QB LF FL SS GT.
  - cbn [app scan]. rewrite andb_false_r.
    destruct (pop_inv Q l st b) as (b' & st' & P1 & P2 & P3 & P4 & P5 & P6); try assumption.
    + constructor; [apply GT; left; reflexivity|]. apply Forall_forall; intros q Hq.
      assert (lt b l) by (apply GT; left; reflexivity). destruct (QB q Hq) as [[->|] _]; [assumption|ltt].
    + intros q Hq H. destruct (QB q Hq) as [[->|H'] _]; [unfold is_left; lia|exfalso; ltt].
    + intros q Hq; rewrite LF; apply QB; exact Hq.
    + exists (b' :: st'). rewrite P1. split; [reflexivity|]. split; [assumption|]. split; [assumption|].
      rewrite Forall_forall in P4. split; [intros q [Hq|Hq]; apply P4; [right; exact Hq|left; symmetry; exact Hq]|].
      split; [intros q []|]. rewrite app_nil_r. split; [|split; [exact P6|]].
      * rewrite last_cons, P5; exact LF.
      * rewrite Forall_forall in *. intros x Hx; apply FL, P6, Hx.
  - cbn [app]. change (scan f l (p :: (ms ++ [l])) (b :: st)) with
      (if (0 <=? is_left f l p) && negb (match ms ++ [l] with [] => true | _ => false end) then scan f l (ms ++ [l]) (b :: st) else scan f l (ms ++ [l]) (p :: pop (b :: st) p)).
    replace (match ms ++ [l] with [] => true | _ => false end) with false by (destruct ms; reflexivity).
    cbn [negb]; rewrite andb_true_r. inversion SS as [|? ? SS' SF]; subst.
    destruct (0 <=? is_left (last st b) l p) eqn:E.
    + apply Z.leb_le in E.
      destruct (IH Q b st) as (st' & R1 & R2 & R3 & R4 & R5 & R6 & R7 & R8); try assumption; try reflexivity.
      { intros q Hq; apply GT; right; exact Hq. }
      exists st'. repeat split; try assumption.
      * intros q [<-|Hq]; [right; exact E|apply R5; exact Hq].
      * intros x Hx. destruct (R7 x Hx) as [H|H]; [left; exact H|]. apply in_cons; rewrite in_app_iff. destruct (in_app_or st ms x H); [left; assumption|right; right; assumption].
    + apply Z.leb_gt in E. set (f := last st b) in *.
      destruct (pop_inv Q p st b) as (b' & st' & P1 & P2 & P3 & P4 & P5 & P6); try assumption.
      * assert (lt b p) by (apply GT; left; reflexivity). constructor; [assumption|]. apply Forall_forall; intros q Hq.
        destruct (QB q Hq) as [[->|] _]; [assumption|ltt].
      * intros q Hq H. destruct (QB q Hq) as [[->|H'] _]; [unfold is_left; lia|exfalso; ltt].
      * intros q Hq; apply QB; exact Hq.
      * assert (BP : lt b p) by (apply GT; left; reflexivity).
        rewrite P1. destruct (IH (p :: Q) p (b' :: st')) as (st'' & R1 & R2 & R3 & R4 & R5 & R6 & R7 & R8); try assumption.
        -- left; reflexivity.
        -- intros q [<-|Hq].
           ++ split; [left; reflexivity|]. destruct (QB b BQ) as [_ [->|H]]; right; [assumption|ltt].
           ++ destruct (QB q Hq) as [H1 H2]. split; [|assumption]. right. destruct H1 as [->|H1]; [assumption|ltt].
        -- rewrite last_cons; exact P5.
        -- constructor; [right; exact E|]. rewrite Forall_forall in *. intros x Hx; apply FL, P6, Hx.
        -- intros q Hq. rewrite Forall_forall in SF. apply SF; exact Hq.
        -- exists st''. split; [exact R1|]. split; [assumption|]. split; [assumption|]. split; [|split; [|split; [exact R6|split; [|exact R8]]]].
           ++ intros q [Hq|Hq]; apply R4; [left; right; exact Hq|right; exact Hq].
           ++ intros q [<-|Hq]; [left; apply R4; left; left; reflexivity|apply R5; exact Hq].
           ++ intros x Hx. destruct (R7 x Hx) as [<-|H]; [apply in_cons; rewrite in_app_iff; right; left; reflexivity|].
              change ((b' :: st') ++ ms) with (b' :: st' ++ ms) in H.
              assert (H' : In x ((b' :: st') ++ ms)) by exact H. rewrite in_app_iff in H'.
              destruct H' as [H'|H']; [destruct (P6 x H') as [<-|H'']; [left; reflexivity|apply in_cons; rewrite in_app_iff; left; exact H'']|].
              apply in_cons; rewrite in_app_iff; right; right; exact H'.
Qed.

(** * Ordered pairs and triples of a list *)
Fixpoint ord2 {A} (P : A -> A -> Prop) (l : list A) : Prop :=
  match l with [] => True | a :: l => Forall (P a) l /\ ord2 P l end.
Fixpoint ord3 {A} (P : A -> A -> A -> Prop) (l : list A) : Prop :=
  match l with [] => True | a :: l => ord2 (P a) l /\ ord3 P l end.

Lemma ord2_app {A} (P : A -> A -> Prop) : forall l1 l2, ord2 P (l1 ++ l2) <-> ord2 P l1 /\ ord2 P l2 /\ (forall a b, In a l1 -> In b l2 -> P a b).
Proof.
  induction l1 as [|x l1 IH]; intros l2; cbn [app ord2].
  - split; [intros H; repeat split; auto; intros a b []|tauto].
  - rewrite Forall_app, IH, !Forall_forall. split.
    + intros ((H1 & H2) & H3 & H4 & H5). repeat split; auto. intros a b [<-|Ha] Hb; auto.
    + intros ((H1 & H2) & H3 & H4). repeat split; auto.
      * intros b Hb; apply H4; [left; reflexivity|exact Hb].
      * intros a b Ha Hb; apply H4; [right; exact Ha|exact Hb].
Qed.
Lemma ord2_imp {A} (P Q : A -> A -> Prop) : (forall a b, P a b -> Q a b) -> forall l, ord2 P l -> ord2 Q l.
Proof. intros H; induction l as [|x l IH]; cbn [ord2]; [auto|]. intros [H1 H2]; split; [eapply Forall_impl; [|exact H1]; intros; apply H; assumption|auto]. Qed.
Lemma ord2_and {A} (P Q : A -> A -> Prop) : forall l, ord2 P l -> ord2 Q l -> ord2 (fun a b => P a b /\ Q a b) l.
Proof. induction l as [|x l IH]; cbn [ord2]; [auto|]. rewrite !Forall_forall; intros [H1 H2] [H3 H4]; split; [intros y Hy; split; auto|auto]. Qed.
Lemma ord2_rev {A} (P : A -> A -> Prop) : forall l, ord2 P l -> ord2 (fun a b => P b a) (rev l).
Proof.
  induction l as [|x l IH]; cbn [ord2 rev]; [auto|]. intros [H1 H2]. rewrite ord2_app. repeat split; auto.
  cbn [ord2]; auto. intros a b Ha [<-|[]]. rewrite Forall_forall in H1; apply H1, in_rev, Ha.
Qed.
Lemma ord2_all {A} (P : A -> A -> Prop) : forall l, (forall a b, In a l -> In b l -> P a b) -> ord2 P l.
Proof.
  induction l as [|x l IH]; intros H; cbn [ord2]; [exact I|]. split.
  - apply Forall_forall; intros b Hb; apply H; [left; reflexivity|right; exact Hb].
  - apply IH; intros a b Ha Hb; apply H; right; assumption.
Qed.
Lemma ord3_app {A} (P : A -> A -> A -> Prop) : forall l1 l2,
  ord3 P (l1 ++ l2) <-> ord3 P l1 /\ ord3 P l2 /\ (forall c, In c l2 -> ord2 (fun a b => P a b c) l1) /\ (forall a, In a l1 -> ord2 (P a) l2).
Proof.
  induction l1 as [|x l1 IH]; intros l2; cbn [app ord3 ord2].
  - split; [intros H; repeat split; auto; intros a []|tauto].
  - rewrite ord2_app, IH. split.
    + intros ((H1 & H2 & H3) & H4 & H5 & H6 & H7). repeat split; auto.
      * apply Forall_forall; intros b Hb; apply H3; assumption.
      * intros a [<-|Ha]; auto.
    + intros ((H1 & H2) & H3 & H4 & H5). repeat split; auto.
      * apply H5; left; reflexivity.
      * intros a b Ha Hb. destruct (H4 b Hb) as [H6 _]. rewrite Forall_forall in H6; apply H6; exact Ha.
      * intros c Hc; apply (H4 c Hc).
      * intros a Ha; apply H5; right; exact Ha.
Qed.
Lemma ord3_rev {A} (P : A -> A -> A -> Prop) : forall l, ord3 P l -> ord3 (fun a b c => P c b a) (rev l).
Proof.
  induction l as [|x l IH]; cbn [ord3 rev]; [auto|]. intros [H1 H2]. rewrite ord3_app. split; [auto|]. split; [cbn [ord3 ord2]; auto|]. split.
  - intros c [<-|[]]. apply (ord2_rev _ _ H1).
  - intros a Ha; cbn [ord2]; auto.
Qed.
Lemma ord3_imp {A} (P Q : A -> A -> A -> Prop) : (forall a b c, P a b c -> Q a b c) -> forall l, ord3 P l -> ord3 Q l.
Proof. intros H; induction l as [|x l IH]; cbn [ord3]; [auto|]. intros [H1 H2]; split; [eapply ord2_imp; [|exact H1]; intros; apply H; assumption|auto]. Qed.
Lemma ord2_nth {A} (P : A -> A -> Prop) : forall l i j a b, ord2 P l -> (i < j)%nat -> nth_error l i = Some a -> nth_error l j = Some b -> P a b.
Proof.
  induction l as [|x l IH]; intros i j a b H L Ha Hb; [destruct i; discriminate|]. destruct H as [H1 H2].
  destruct j as [|j]; [lia|]. destruct i as [|i]; cbn [nth_error] in *.
  - injection Ha as <-. rewrite Forall_forall in H1; apply H1; eapply nth_error_In; exact Hb.
  - apply (IH i j); [assumption|lia|assumption|assumption].
Qed.
Lemma ord3_nth {A} (P : A -> A -> A -> Prop) : forall l i j k a b c, ord3 P l -> (i < j < k)%nat ->
  nth_error l i = Some a -> nth_error l j = Some b -> nth_error l k = Some c -> P a b c.
Proof.
  induction l as [|x l IH]; intros i j k a b c H L Ha Hb Hc; [destruct i; discriminate|]. destruct H as [H1 H2].
  destruct j as [|j]; [lia|]. destruct k as [|k]; [lia|]. destruct i as [|i]; cbn [nth_error] in *.
  - injection Ha as <-. eapply ord2_nth with (i := j) (j := k); [exact H1|lia|exact Hb|exact Hc].
  - apply (IH i j k); [assumption|lia|assumption|assumption|assumption].
Qed.
Lemma nth_ord2 {A} (P : A -> A -> Prop) : forall l, (forall i j a b, (i < j)%nat -> nth_error l i = Some a -> nth_error l j = Some b -> P a b) -> ord2 P l.
Proof.
  induction l as [|x l IH]; intros H; cbn [ord2]; [exact I|]. split.
  - apply Forall_forall; intros b Hb. destruct (In_nth_error _ _ Hb) as [j Hj]. apply (H O (S j)); [lia|reflexivity|exact Hj].
  - apply IH; intros i j a b L; apply (H (S i) (S j)); lia.
Qed.

(** Neighbours in a list. *)
Fixpoint adj {A} (P : A -> A -> Prop) (l : list A) : Prop :=
  match l with a :: ((b :: _) as l') => P a b /\ adj P l' | _ => True end.
Lemma adj_app {A} (P : A -> A -> Prop) : forall l1 a l2, adj P (l1 ++ a :: l2) <-> adj P (l1 ++ [a]) /\ adj P (a :: l2).
Proof.
  induction l1 as [|x l1 IH]; intros a l2; cbn [app]; [destruct l2; cbn [adj]; tauto|].
  destruct l1 as [|y l1]; cbn [app] in *; [cbn [adj]; tauto|].
  specialize (IH a l2). change (P x y /\ adj P (y :: l1 ++ a :: l2) <-> (P x y /\ adj P (y :: l1 ++ [a])) /\ adj P (a :: l2)). tauto.
Qed.
Lemma adj_rev {A} (P : A -> A -> Prop) : forall l, adj P l -> adj (fun a b => P b a) (rev l).
Proof.
  induction l as [|x l IH]; [cbn [adj]; auto|]. destruct l as [|y l]; [cbn [adj]; auto|]. intros [H1 H2]. specialize (IH H2).
  cbn [rev] in *. rewrite <- app_assoc. cbn [app]. rewrite adj_app. split; [exact IH|]. cbn [adj]; auto.
Qed.
Lemma adj_imp {A} (P Q : A -> A -> Prop) : (forall a b, P a b -> Q a b) -> forall l, adj P l -> adj Q l.
Proof. intros H; induction l as [|x l IH]; [cbn [adj]; auto|]. destruct l as [|y l]; [cbn [adj]; auto|]. intros [H1 H2]; split; auto. Qed.

(** * The finished chain *)
Definition leftp (a b c : pt) : Prop := 0 < is_left a b c.

Lemma desc_x : forall st b, desc (b :: st) -> turns (b :: st) -> (forall x, In x st -> fst x < fst b) -> ord2 (fun b a => fst a < fst b) (b :: st).
Proof.
  induction st as [|a st IH]; intros b D T H; cbn [ord2]; [cbn [adj]; auto|].
  split; [apply Forall_forall; exact H|]. inversion D as [|? ? D' F]; subst.
  apply IH; [assumption|exact (turns_tl _ _ T)|].
  intros x Hx. destruct st as [|z st]; [destruct Hx|]. cbn [turns] in T. destruct T as [T _].
  inversion D' as [|? ? D'' F']; subst. assert (ZA : lt z a) by (inversion F'; assumption).
  assert (fst z < fst b) by (apply H; right; left; reflexivity).
  assert (fst z < fst a).
  { unfold is_left in T. destruct ZA as [|[E1 E2]]; [assumption|exfalso]. rewrite E1 in T. assert (fst a < fst b) by lia. nia. }
  destruct Hx as [<-|Hx]; [assumption|]. inversion D'' as [|? ? ? F'']; subst. rewrite Forall_forall in F''.
  specialize (F'' x Hx). ltt.
Qed.

Lemma cr_trans_r ux uy vx vy wx wy : 0 < ux -> 0 < vx -> 0 < wx -> 0 <= cr ux uy vx vy -> 0 < cr vx vy wx wy -> 0 < cr ux uy wx wy.
Proof.
  unfold cr; intros U V W A B.
  assert (E : vx * (ux * wy - uy * wx) = ux * (vx * wy - vy * wx) + wx * (ux * vy - uy * vx)) by ring. nia.
Qed.

Lemma chain_ord3 : forall st, ord2 (fun b a => fst a < fst b) st -> turns st -> ord3 (fun b a z => leftp z a b) st.
Proof.
  induction st as [|c0 st IH]; intros D T; [exact I|]. cbn [ord3]. destruct D as [D1 D2].
  specialize (IH D2 (turns_tl _ _ T)). split; [|exact IH].
  destruct st as [|c1 st]; [exact I|].
  assert (X10 : fst c1 < fst c0) by (inversion D1; assumption).
  (* every later point against the first edge *)
  assert (A : Forall (fun ck => leftp ck c1 c0) st).
  { destruct st as [|c2 st]; [constructor|]. cbn [turns] in T. destruct T as [T _].
    destruct D2 as [D3 D4]. assert (X21 : fst c2 < fst c1) by (inversion D3; assumption).
    constructor; [exact T|]. apply Forall_forall; intros ck Hk.
    destruct IH as [I1 I2]. destruct I1 as [I1 _]. rewrite Forall_forall in I1. specialize (I1 ck Hk).
    assert (fst ck < fst c2) by (destruct D4 as [D4 _]; rewrite Forall_forall in D4; apply D4; exact Hk).
    unfold leftp in *.
    assert (0 < cr (fst c2 - fst ck) (snd c2 - snd ck) (fst c0 - fst c1) (snd c0 - snd c1)).
    { apply cr_trans_r with (fst c1 - fst c2) (snd c1 - snd c2); try lia.
      - rewrite <- left_cr'; lia.
      - rewrite <- left_cr'; lia. }
    unfold is_left, cr in *; lia. }
  cbn [ord2]. split; [exact A|].
  destruct IH as [I1 I2].
  assert (B : ord2 (fun cj ck => leftp cj c1 c0 /\ fst cj < fst c1 /\ fst ck < fst cj) st).
  { destruct D2 as [D3 D4]. clear - A D3 D4. induction st as [|x st IH]; cbn [ord2]; [exact I|].
    inversion A; subst. inversion D3; subst. destruct D4 as [D4 D5]. split; [|apply IH; assumption].
    rewrite Forall_forall in *. intros y Hy; repeat split; try assumption. apply D4; exact Hy. }
  eapply ord2_imp; [|exact (ord2_and _ _ _ I1 B)]. cbn beta.
  intros cj ck (H1 & H2 & H3 & H4). unfold leftp in *.
  assert (0 < cr (fst cj - fst ck) (snd cj - snd ck) (fst c0 - fst c1) (snd c0 - snd c1)).
  { apply cr_trans_r with (fst c1 - fst cj) (snd c1 - snd cj); try lia; rewrite <- left_cr'; lia. }
  unfold is_left, cr in *; lia.
Qed.

(** A line below the ends of another one is below every point on or over that one. *)
Lemma interp a b p r c : fst a < fst b -> fst p <= fst c <= fst r -> fst p < fst r ->
  0 <= is_left a b p -> 0 <= is_left a b r -> 0 <= is_left p r c -> 0 <= is_left a b c.
Proof.
  intros AB C PR H1 H2 H3.
  assert (E : (fst r - fst p) * is_left a b c = (fst r - fst c) * is_left a b p + (fst c - fst p) * is_left a b r + (fst b - fst a) * is_left p r c) by (unfold is_left; ring).
  nia.
Qed.
Lemma interp_s a b p r c : fst a < fst b -> fst p <= fst c <= fst r -> fst p < fst r ->
  0 <= is_left a b p -> 0 <= is_left a b r -> 0 < is_left p r c -> 0 < is_left a b c.
Proof.
  intros AB C PR H1 H2 H3.
  assert (E : (fst r - fst p) * is_left a b c = (fst r - fst c) * is_left a b p + (fst c - fst p) * is_left a b r + (fst b - fst a) * is_left p r c) by (unfold is_left; ring).
  assert (0 < (fst b - fst a) * is_left p r c) by nia.
  assert (0 <= (fst r - fst c) * is_left a b p) by nia. assert (0 <= (fst c - fst p) * is_left a b r) by nia.
  assert (0 < (fst r - fst p) * is_left a b c) by lia. nia.
Qed.

Lemma over_adj q : forall st, over q st -> adj (fun b a => 0 <= is_left a b q) st.
Proof. induction st as [|b st IH]; [cbn [adj]; auto|]. destruct st as [|a st]; [cbn [adj]; auto|]. intros [H1 H2]; split; [exact H1|apply IH; exact H2]. Qed.
Lemma ord2_adj {A} (P : A -> A -> Prop) : forall l, ord2 P l -> adj P l.
Proof. induction l as [|b l IH]; [cbn [adj]; auto|]. destruct l as [|a l]; [cbn [adj]; auto|]. intros [H1 H2]; split; [inversion H1; assumption|apply IH; exact H2]. Qed.
Lemma adj_and {A} (P Q : A -> A -> Prop) : forall l, adj P l -> adj Q l -> adj (fun a b => P a b /\ Q a b) l.
Proof. induction l as [|b l IH]; [cbn [adj]; auto|]. destruct l as [|a l]; [cbn [adj]; auto|]. intros [H1 H2] [H3 H4]; split; auto. Qed.
Lemma adj_forall {A B} (P : B -> A -> A -> Prop) (Q : B -> Prop) : forall l, (forall q, Q q -> adj (P q) l) -> adj (fun a b => forall q, Q q -> P q a b) l.
Proof.
  induction l as [|b l IH]; [cbn [adj]; auto|]. destruct l as [|a l]; [cbn [adj]; auto|]. intros H. split.
  - intros q Hq; apply (H q Hq).
  - apply IH; intros q Hq; apply (H q Hq).
Qed.

Definition in_range (f l q : pt) : Prop := fst f <= fst q <= fst l.

Lemma chain_ok (f l : pt) (m : list pt) :
  fst f < fst l -> (forall q, In q m -> fst f < fst q < fst l) -> StronglySorted lt m ->
  exists inner : list pt, rev (scan f l (m ++ [l]) [f]) = f :: inner ++ [l] /\ incl inner m /\
    (forall v, In v inner -> is_left f l v < 0) /\
    ord2 (fun a b => fst a < fst b) (f :: inner ++ [l]) /\ ord3 leftp (f :: inner ++ [l]) /\
    (forall q, In q m \/ (in_range f l q /\ 0 <= is_left f l q) -> adj (fun a b => 0 <= is_left a b q) (f :: inner ++ [l])).
Proof.
  intros FL M S.
  destruct (scan_inv f l m [f] f []) as (st & R1 & R2 & R3 & R4 & R5 & R6 & R7 & R8).
  - constructor; constructor.
  - exact I.
  - constructor; [exact I|constructor].
  - left; reflexivity.
  - intros q [<-|[]]; split; left; reflexivity.
  - reflexivity.
  - constructor; [left; reflexivity|constructor].
  - clear - S M FL. induction m as [|x m IH]; cbn [app]; [constructor; constructor|].
    inversion S; subst. constructor.
    + apply IH; [|assumption]. intros q Hq; apply M; right; exact Hq.
    + rewrite Forall_app; split; [assumption|]. constructor; [|constructor]. left. apply M; left; reflexivity.
  - intros q Hq. apply in_app_iff in Hq; destruct Hq as [Hq|[<-|[]]]; left; [apply M; exact Hq|exact FL].
    - rewrite R1.
    assert (NE : st <> []) by (intros ->; cbn [last] in R6; subst; lia).
    destruct (exists_last NE) as (inn & x & ->).
    assert (x = f) by (rewrite last_last in R6; exact R6). subst x.
    assert (D2 : ord2 (fun b a => fst a < fst b) (l :: inn ++ [f])).
    { apply desc_x; [assumption|assumption|]. intros x Hx. destruct (R7 x Hx) as [<-|Hx']; [assumption|]. apply M; exact Hx'. }
    assert (NF : forall v, In v inn -> fst f < fst v).
    { intros v Hv. destruct D2 as [_ D2]. rewrite ord2_app in D2. apply (proj2 (proj2 D2) v f); [exact Hv|left; reflexivity]. }
    exists (rev inn). cbn [rev]. rewrite rev_app_distr. cbn [rev app]. split; [reflexivity|].
    split; [|split; [|split; [|split]]].
    + intros v Hv. apply in_rev in Hv. destruct (R7 v) as [<-|Hx']; [apply in_app_iff; left; exact Hv|exfalso; specialize (NF f Hv); lia|exact Hx'].
    + intros v Hv. apply in_rev in Hv. rewrite Forall_app, !Forall_forall in R8. destruct (proj1 R8 v Hv) as [->|]; [exfalso; specialize (NF f Hv); lia|assumption].
    + replace (f :: rev inn ++ [l]) with (rev (l :: inn ++ [f])) by (cbn [rev]; rewrite rev_app_distr; reflexivity).
      apply (ord2_rev _ _ D2).
    + replace (f :: rev inn ++ [l]) with (rev (l :: inn ++ [f])) by (cbn [rev]; rewrite rev_app_distr; reflexivity).
      apply (ord3_rev _ _ (chain_ord3 _ D2 R3)).
    + intros q Hq.
      assert (HQ : over q (l :: inn ++ [f]) \/ (in_range f l q /\ 0 <= is_left f l q)).
      { destruct Hq as [Hq|Hq]; [|right; exact Hq]. destruct (R5 q Hq) as [H|H]; [left; exact H|right; split; [|exact H]].
        specialize (M q Hq); unfold in_range; lia. }
      replace (f :: rev inn ++ [l]) with (rev (l :: inn ++ [f])) by (cbn [rev]; rewrite rev_app_distr; reflexivity).
      apply (adj_rev (fun b a => 0 <= is_left a b q)).
      destruct HQ as [H|[H1 H2]]; [apply over_adj; exact H|].
      assert (O1 := over_adj _ _ (R4 f (or_introl (or_introl eq_refl)))). assert (O2 := over_adj _ _ (R4 l (or_intror eq_refl))).
      eapply adj_imp; [|exact (adj_and _ _ _ (adj_and _ _ _ O1 O2) (ord2_adj _ _ D2))].
      cbn beta. intros b a [[E1 E2] E3]. apply interp with f l; assumption.
Qed.
