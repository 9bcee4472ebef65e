(** Proofs about robots made of a set of nodes. *)
From Coq Require Import Reals List Bool Arith Lia Lra Permutation.
From Verif Require Import QuatModel QuatSpec RpyModel JointModel KinModel KinSpec KinProofs JacSpec JacProofs AprProofs FacModel FacSpec FacProofs SubModel SubSpec.
Import ListNotations.
Open Scope R_scope.

Lemma NoDup_app_ok {A : Type} (l1 l2 : list A) : NoDup l1 -> NoDup l2 -> (forall z, In z l1 -> ~ In z l2) -> NoDup (l1 ++ l2).
Proof.
  induction l1 as [|a l1 IH]; intros N M D; [exact M|]. inversion N as [|a' l' N1 N2]; subst. cbn. constructor.
  - rewrite in_app_iff. intros [I|I]; [contradiction|]. apply (D a); [now left|exact I].
  - apply IH; [exact N2|exact M|]. intros z I. apply D. now right.
Qed.
Lemma NoDup_flat_map {A B : Type} (f : A -> list B) l : NoDup l -> (forall x, In x l -> NoDup (f x)) ->
  (forall x y z, In x l -> In y l -> In z (f x) -> In z (f y) -> x = y) -> NoDup (flat_map f l).
Proof.
  induction l as [|a l IH]; intros N F D; [constructor|]. inversion N as [|a' l' N1 N2]; subst. cbn. apply NoDup_app_ok.
  - apply F. now left.
  - apply IH; [exact N2|intros x I; apply F; now right|]. intros x y z I J. apply D; now right.
  - intros z I J. apply in_flat_map in J. destruct J as (x & K & J). apply N1. rewrite (D a x z); [exact K|now left|now right|exact I|exact J].
Qed.

Section Sub.
  Variables (r : robot) (T : tree r) (W : whole r).

  Lemma above_spec a b : above r a b = true <-> exists k, In k (kids r a) /\ desc r k b.
  Proof.
    unfold above. pose proof (has_child_below_ends r T (length (nodes r)) b [] a (NoDup_nil _) ltac:(intros ? []) ltac:(cbn; lia)) as NE.
    destruct (has_child_below (S (length (nodes r))) r a b) as [t|] eqn:E; [|congruence]. exact (has_child_below_sound _ _ _ _ _ E).
  Qed.
  Lemma above_desc a b : above r a b = true <-> desc r a b /\ a <> b.
  Proof.
    rewrite above_spec. split.
    - intros (k & I & D). split; [apply desc_trans with k; [apply d_step with a; [constructor|exact I]|exact D]|]. intros ->. exact (t_acyclic r T b k I D).
    - intros (D & N). destruct (desc_first r a b D) as [E|H]; [contradiction|exact H].
  Qed.
  Lemma above_kid a c : In c (kids r a) -> above r a c = true.
  Proof. intros I. apply above_spec. exists c. split; [exact I|constructor]. Qed.
  Lemma desc_anti a b : desc r a b -> desc r b a -> a = b.
  Proof. intros D E. destruct (desc_first r a b D) as [<-|(k & I & K)]; [reflexivity|]. exfalso. exact (t_acyclic r T a k I (desc_trans _ _ _ _ K E)). Qed.
  Lemma desc_meet a b z : desc r a z -> desc r b z -> desc r a b \/ desc r b a.
  Proof.
    intros D. revert b. induction D as [|p z D IH I]; intros b E; [now right|]. inversion E as [|p' z' E' J]; subst.
    - left. apply d_step with p; assumption.
    - apply IH. rewrite (one_parent r p p' z T I J). exact E'.
  Qed.
  Lemma up_parent e c a : In c (kids r a) -> desc r e c -> e = c \/ desc r e a.
  Proof. intros I D. inversion D as [|p z D' J]; subst; [now left|]. right. rewrite (one_parent r a p c T I J). exact D'. Qed.
  Lemma has_node p c : In c (kids r p) -> exists m, node_at r p = Some m.
  Proof. unfold kids. destruct (node_at r p) as [m|]; [intros _; now exists m|intros []]. Qed.
  Lemma proper_up c z : desc r c z -> rn_at r z = true -> rn_at r c = true.
  Proof.
    intros D. induction D as [|p z D IH I]; intros H; [exact H|]. apply IH. apply rn_at_proper in H. destruct H as (n & E & P).
    destruct (has_node p z I) as (m & Em). apply rn_at_proper. exists m. split; [exact Em|]. exact (proj2 W p z n m I E Em P).
  Qed.

  (** *** The search below a node *)
  Definition rank (y : nat) : nat := length (filter (above r y) (seq 0 (length (nodes r)))).
  Lemma rank_le y : (rank y <= length (nodes r))%nat.
  Proof. unfold rank. etransitivity; [|apply Nat.eq_le_incl, (seq_length (length (nodes r)) 0)]. generalize (seq 0 (length (nodes r))). induction l as [|a l IH]; cbn; [lia|]. destruct (above r y a); cbn; lia. Qed.
  Lemma filter_less (f g : nat -> bool) l c : (forall y, f y = true -> g y = true) -> In c l -> f c = false -> g c = true -> (length (filter f l) < length (filter g l))%nat.
  Proof.
    intros H. assert (LE : forall l, (length (filter f l) <= length (filter g l))%nat).
    { clear l. induction l as [|a l IH]; cbn; [lia|]. destruct (f a) eqn:E; [rewrite (H a E); cbn; lia|]. destruct (g a); cbn; lia. }
    induction l as [|a l IH]; intros I F G; [destruct I|]. destruct I as [->|I].
    - cbn. rewrite F, G. cbn. specialize (LE l). lia.
    - specialize (IH I F G). cbn. destruct (f a) eqn:E; [rewrite (H a E); cbn; lia|]. destruct (g a); cbn; lia.
  Qed.
  Lemma rank_kid a c : In c (kids r a) -> (rank c < rank a)%nat.
  Proof.
    intros I. apply (filter_less _ _ _ c).
    - intros y H. apply above_spec in H. destruct H as (k & J & D). apply above_spec. exists c. split; [exact I|]. apply desc_trans with k; [apply d_step with c; [constructor|exact J]|exact D].
    - destruct (kid_node r a c T I) as (n & E). apply in_seq. split; [lia|]. cbn. apply (node_lt r c n E).
    - destruct (above r c c) eqn:E; [|reflexivity]. apply above_desc in E. destruct E as (_ & E). congruence.
    - apply above_kid, I.
  Qed.
  Definition skips (a : nat) (excl : option nat) (z : nat) : Prop := forall e, excl = Some e -> ~ (above r a e = true /\ desc r e z).
  Lemma skips_kid a c excl z : In c (kids r a) -> desc r c z -> is_some excl c = false -> (skips a excl z <-> skips c excl z).
  Proof.
    intros I D N. assert (NE : forall e, excl = Some e -> e <> c).
    { intros e -> ->. cbn in N. rewrite Nat.eqb_refl in N. discriminate. }
    split; intros H e E (A & B).
    - apply (H e E). split; [|exact B]. apply above_desc in A. apply above_spec. exists c. tauto.
    - apply (H e E). split; [|exact B]. apply above_spec in A. destruct A as (c' & J & A). rewrite <- (desc_apart r a c c' z T I J D (desc_trans _ _ _ _ A B)) in A.
      apply above_desc. split; [exact A|]. intros ->. now apply (NE e).
  Qed.
  Lemma skips_self a c excl : In c (kids r a) -> (skips a excl c <-> is_some excl c = false).
  Proof.
    intros I. split; intros H.
    - destruct (is_some excl c) eqn:E; [|reflexivity]. exfalso. destruct excl as [e|]; [|discriminate]. cbn in E. apply Nat.eqb_eq in E. subst.
      apply (H c eq_refl). split; [apply above_kid, I|constructor].
    - intros e -> (A & B). destruct (up_parent e c a I B) as [->|D].
      + cbn in H. rewrite Nat.eqb_refl in H. discriminate.
      + apply above_desc in A. destruct A as (A & N). apply N. exact (desc_anti a e A D).
  Qed.
  Lemma skipped_kid a c excl z : In c (kids r a) -> desc r c z -> is_some excl c = true -> ~ skips a excl z.
  Proof. intros I D E H. destruct excl as [e|]; [|discriminate]. cbn in E. apply Nat.eqb_eq in E. subst. apply (H c eq_refl). split; [apply above_kid, I|exact D]. Qed.
  Lemma child_spec fuel : forall a excl z, (rank a < fuel)%nat -> (In z (child_nodes fuel r a excl) <-> rn_at r z = true /\ above r a z = true /\ skips a excl z).
  Proof.
    induction fuel as [|fuel IH]; intros a excl z L; [lia|]. cbn [child_nodes]. rewrite in_flat_map. split.
    - intros (c & I & J). destruct (rn_at r c) eqn:RC; [|destruct J]. destruct (is_some excl c) eqn:E; [destruct J|]. cbn [negb andb] in J. destruct J as [<-|J].
      + split; [exact RC|]. split; [apply above_kid, I|]. now apply skips_self.
      + pose proof (rank_kid a c I). apply IH in J; [|lia]. destruct J as (A & B & S'). split; [exact A|]. apply above_desc in B. split.
        * apply above_spec. exists c. tauto.
        * apply (skips_kid a c excl z I (proj1 B) E). exact S'.
    - intros (A & B & S'). apply above_spec in B. destruct B as (c & I & D). exists c. split; [exact I|]. rewrite (proper_up c z D A).
      destruct (is_some excl c) eqn:E; [exfalso; exact (skipped_kid a c excl z I D E S')|]. cbn [negb andb].
      destruct (Nat.eq_dec c z) as [->|N]; [now left|]. right. pose proof (rank_kid a c I). apply IH; [lia|]. split; [exact A|]. split; [now apply above_desc|].
      apply (skips_kid a c excl z I D E). exact S'.
  Qed.
  Lemma child_below fuel : forall a excl z, In z (child_nodes fuel r a excl) -> above r a z = true.
  Proof.
    induction fuel as [|fuel IH]; intros a excl z H; [destruct H|]. cbn [child_nodes] in H. apply in_flat_map in H. destruct H as (c & I & J).
    destruct (rn_at r c && negb (is_some excl c)); [|destruct J]. destruct J as [<-|J]; [apply above_kid, I|]. apply IH in J. apply above_desc in J. apply above_spec. exists c. tauto.
  Qed.
  Lemma child_once fuel : forall a excl, NoDup (child_nodes fuel r a excl).
  Proof.
    induction fuel as [|fuel IH]; intros a excl; [constructor|]. cbn [child_nodes]. apply NoDup_flat_map; [apply (t_once r T)| |].
    - intros c _. destruct (rn_at r c && negb (is_some excl c)); constructor; [|apply IH]. intros H. apply child_below, above_desc in H. tauto.
    - assert (B : forall c z, In z (if rn_at r c && negb (is_some excl c) then c :: child_nodes fuel r c excl else []) -> desc r c z).
      { intros c z H. destruct (rn_at r c && negb (is_some excl c)); [|destruct H]. destruct H as [<-|H]; [constructor|]. apply child_below, above_desc in H. tauto. }
      intros c d z I J H K. apply (desc_apart r a c d z T I J); apply B; assumption.
  Qed.
  Lemma sensor_spec fuel : forall a excl s, In s (child_sensors fuel r a excl) ->
    is_sensor r s = true /\ exists y, In s (kids r y) /\ desc r a y /\ (y = a \/ skips a excl y).
  Proof.
    induction fuel as [|fuel IH]; intros a excl s H; [destruct H|]. cbn [child_sensors] in H. apply in_flat_map in H. destruct H as (c & I & J). apply in_app_or in J. destruct J as [J|J].
    - destruct (is_sensor r c) eqn:E; [|destruct J]. destruct J as [<-|[]]. split; [exact E|]. exists a. split; [exact I|]. split; [constructor|now left].
    - destruct (rn_at r c); [|destruct J]. destruct (is_some excl c) eqn:E; [destruct J|]. cbn [negb andb] in J. apply IH in J. destruct J as (A & y & K & D & S'). split; [exact A|].
      exists y. split; [exact K|]. assert (DA : desc r a c) by (apply d_step with a; [constructor|exact I]). split; [apply desc_trans with c; assumption|]. right.
      destruct S' as [->|S']; [now apply skips_self|]. apply (skips_kid a c excl y I D E). exact S'.
  Qed.

  (** *** Poses *)
  Section Poses.
    Variables (RG : rigid r) (PO : posed r) (all : list nat) (AP : forall y, In y all -> part r y) (q : nat -> R) (M : moves r all q) (ms : nat -> R).
    Let Q := with_q q r.
    Lemma pose_at_fk y g : fk r y g -> pose_at r y = g.
    Proof. intros F. destruct (PO y g F) as (n & E & P). unfold pose_at. now rewrite E. Qed.
    Lemma rigid_with : rigid Q.
    Proof. destruct RG as (A & B). split; [exact A|]. intros y n En. unfold Q in En. rewrite node_with_q in En. destruct (node_at r y) as [m|] eqn:Em; [|discriminate]. injection En as <-. exact (B y m Em). Qed.
    Lemma tree_with : tree Q.
    Proof. apply tree_with_q, T. Qed.
    Lemma fk_with y : desc r (root r) y -> exists g, fk Q y g.
    Proof. intros D. apply JacProofs.fk_exists; [exact tree_with|]. apply desc_with_q. exact D. Qed.
    Lemma same_transform z n : node_at r z = Some n -> ~ In z all -> transform (with_joint (with_value (n_joint n) (q z)) n) = transform n.
    Proof. intros E N. rewrite (M z n E N). destruct n as [a b c d e j g h], j as [v lo hi li en]. reflexivity. Qed.
    Lemma fk_inv (s : robot) p c g : tree s -> In c (kids s p) -> fk s c g -> exists gp n, fk s p gp /\ node_at s c = Some n /\ g = pmul gp (transform n).
    Proof.
      intros TS I F. inversion F as [n E|p' c' n g' F' J E]; subst.
      - exfalso. destruct (t_root s TS) as (m & Em & P). apply (t_links s TS) in I. destruct I as (m' & Em' & P'). congruence.
      - rewrite (one_parent s p p' c TS I J) in *. exists g', n. now split.
    Qed.
    Lemma relative_same a p ga gp ga' gp' : desc r a p -> (forall y, above r a y = true -> desc r y p -> ~ In y all) ->
      fk r a ga -> fk r p gp -> fk Q a ga' -> fk Q p gp' -> pmul (inverted ga) gp = pmul (inverted ga') gp'.
    Proof.
      intros D. revert gp gp'. induction D as [|p z D IH I]; intros gp gp' H Fa Fp Fa' Fp'.
      - rewrite (fk_fun r a gp ga T Fp Fa), (fk_fun Q a gp' ga' tree_with Fp' Fa'), !inverted_left; [reflexivity|apply (fk_rotation Q a _ rigid_with Fa')|apply (fk_rotation r a _ RG Fa)].
      - destruct (fk_inv r p z gp T I Fp) as (g1 & n & F1 & E & ->). assert (I' : In z (kids Q p)) by (unfold Q; rewrite kids_with_q; exact I).
        destruct (fk_inv Q p z gp' tree_with I' Fp') as (g2 & n' & F2 & E' & ->). unfold Q in E'. rewrite node_with_q, E in E'. injection E' as <-.
        rewrite (same_transform z n E); [|apply H; [apply above_spec; destruct (desc_first r a p D) as [->|(k & J & K)]; [exists z; split; [exact I|constructor]|exists k; split; [exact J|apply d_step with p; assumption]]|constructor]].
        rewrite <- !pmul_assoc. f_equal. apply IH; try assumption. intros y A B. apply H; [exact A|]. apply d_step with p; assumption.
    Qed.
    Lemma carry a p ga gp ga' gp' : desc r a p -> (forall y, above r a y = true -> desc r y p -> ~ In y all) ->
      fk r a ga -> fk r p gp -> fk Q a ga' -> fk Q p gp' -> pmul ga' (pmul (inverted ga) gp) = gp'.
    Proof.
      intros D H Fa Fp Fa' Fp'. rewrite (relative_same a p ga gp ga' gp' D H Fa Fp Fa' Fp'), <- pmul_assoc, inverted_right, pmul_pid_l; [reflexivity|]. apply (fk_rotation Q a _ rigid_with Fa').
    Qed.
    Lemma descends_head a l : descends r (a :: l) -> forall y, In y l -> forall b, hd_error l = Some b -> desc r b y.
    Proof.
      revert a. induction l as [|b l IH]; intros a D y I b' E; [destruct I|]. cbn in E. injection E as <-. destruct I as [->|I]; [constructor|].
      cbn in D. destruct D as (_ & _ & D). destruct l as [|b2 l2]; [destruct I|]. apply desc_trans with b2; [apply D|]. apply (IH b D y I b2 eq_refl).
    Qed.
    (** What holds of a piece at its pose in the clone. *)
    Definition fits (pg : piece * pose) : Prop := let '(p, g) := pg in fk Q (p_node p) g /\
      forall u, p_united p = Some u -> (forall z, In z (u_nodes u) -> fk Q z (pmul g (pmul (u_shift u) (pose_at r z)))) /\ (forall s t, In (s, t) (u_sensors u) -> fk Q s (pmul g t)).
    Lemma united_fits a l u next g : part r a -> descends r (a :: l) -> (forall y, In y all -> desc r y a \/ In y l) -> (forall y, In y (a :: l) -> part r y) ->
      fk Q a g -> accumulate r ms a (hd_error l) = (Some u, next) ->
      (forall z, In z (u_nodes u) -> fk Q z (pmul g (pmul (u_shift u) (pose_at r z)))) /\ (forall s t, In (s, t) (u_sensors u) -> fk Q s (pmul g t)).
    Proof.
      intros PA DS AL PL F E. unfold accumulate in E. set (fuel := S (length (nodes r))) in *. assert (RK : (rank a < fuel)%nat) by (unfold fuel; pose proof (rank_le a); lia). clearbody fuel.
      destruct (child_nodes fuel r a (hd_error l)) as [|c0 cs] eqn:EC; [discriminate|]. injection E as <- _.
      destruct (JacProofs.fk_exists r a T (proj1 PA)) as (ga & Fa). pose proof (pose_at_fk a ga Fa) as Pa.
      assert (FREE : forall z, skips a (hd_error l) z -> forall y, above r a y = true -> desc r y z -> ~ In y all).
      { intros z S' y A D I. apply above_desc in A. destruct (AL y I) as [B|B]; [apply (proj2 A); exact (desc_anti a y (proj1 A) B)|].
        destruct l as [|b l]; [destruct B|]. apply (S' b eq_refl). split; [cbn in DS; apply above_desc; tauto|]. apply desc_trans with y; [apply (descends_head a (b :: l) DS y B b eq_refl)|exact D]. }
      cbn [unite u_nodes u_sensors u_shift]. split.
      - intros z I. rewrite <- EC in I. apply child_spec in I; [|exact RK]. destruct I as (RZ & A & S'). apply above_desc in A.
        destruct (JacProofs.fk_exists r z T (desc_trans _ _ _ _ (proj1 PA) (proj1 A))) as (gz & Fz). destruct (fk_with z (desc_trans _ _ _ _ (proj1 PA) (proj1 A))) as (gz' & Fz').
        rewrite Pa, (pose_at_fk z gz Fz), (carry a z ga gz g gz' (proj1 A) (FREE z S') Fa Fz F Fz'). exact Fz'.
      - intros s t I. apply in_map_iff in I. destruct I as (s' & EQ & I). injection EQ as -> <-. apply sensor_spec in I. destruct I as (IS & y & K & D & S').
        assert (DS' : desc r a s) by (apply d_step with y; assumption).
        destruct (JacProofs.fk_exists r s T (desc_trans _ _ _ _ (proj1 PA) DS')) as (gs & Fs). destruct (fk_with s (desc_trans _ _ _ _ (proj1 PA) DS')) as (gs' & Fs').
        rewrite pmul_pid_r, Pa, (pose_at_fk s gs Fs), (carry a s ga gs g gs' DS'); [exact Fs'| |exact Fa|exact Fs|exact F|exact Fs'].
        intros y' A D' IN. destruct (up_parent y' s y K D') as [->|D2].
        + destruct (AP s IN) as (_ & n & En & P). unfold is_sensor in IS. rewrite En in IS. destruct P as (P & _). destruct (n_kind n); congruence.
        + destruct S' as [->|S']; [apply above_desc in A; apply (proj2 A); exact (desc_anti a y' (proj1 A) D2)|]. exact (FREE y S' y' A D2 IN).
    Qed.
    Lemma parent_of b n p : node_at r b = Some n -> In b (kids r p) -> n_parent n = Some p.
    Proof. intros E I. apply (t_links r T) in I. destruct I as (m & Em & P). congruence. Qed.
    Lemma next_ok a b l u next g : part r a -> part r b -> descends r (a :: b :: l) -> (forall y, In y all -> desc r y a \/ In y (b :: l)) -> close_by r a b ->
      fk Q a g -> accumulate r ms a (Some b) = (u, next) -> exists n, node_at Q b = Some n /\ fk Q b (pmul (pmul g next) (transform n)).
    Proof.
      intros PA PB DS AL CL F E. pose proof (rank_le a) as RK. pose proof DS as (DAB & NAB & _).
      destruct (fk_with b (proj1 PB)) as (gb' & Fb'). inversion DAB as [|p b' DP IP]; subst; [contradiction|].
      pose proof (desc_trans _ _ _ _ (proj1 PA) DP) as RP. destruct (JacProofs.fk_exists r a T (proj1 PA)) as (ga & Fa). destruct (JacProofs.fk_exists r p T RP) as (gp & Fp). destruct (fk_with p RP) as (gp' & Fp').
      assert (IP' : In b (kids Q p)) by (unfold Q; rewrite kids_with_q; exact IP).
      destruct (fk_inv Q p b gb' tree_with IP' Fb') as (gp2 & n & Fp2 & En & EQ). rewrite (fk_fun Q p gp2 gp' tree_with Fp2 Fp') in EQ. exists n. split; [exact En|].
      replace (pmul g next) with gp'; [rewrite <- EQ; exact Fb'|]. symmetry.
      assert (FREE : forall y, above r a y = true -> desc r y p -> ~ In y all).
      { intros y A D I. apply above_desc in A. destruct (AL y I) as [B|B]; [apply (proj2 A); exact (desc_anti a y (proj1 A) B)|].
        pose proof (descends_head a (b :: l) DS y B b eq_refl) as K. exact (t_acyclic r T p b IP (desc_trans _ _ _ _ K D)). }
      unfold accumulate in E. destruct (child_nodes (S (length (nodes r))) r a (Some b)) as [|c0 cs] eqn:EC.
      - injection E as _ <-. rewrite pmul_pid_r. destruct (Nat.eq_dec a p) as [->|N]; [apply (fk_fun Q p g gp' tree_with F Fp')|].
        exfalso. assert (IN : In p (child_nodes (S (length (nodes r))) r a (Some b))); [|rewrite EC in IN; destruct IN].
        apply child_spec; [lia|]. split; [|split; [now apply above_desc|]].
        + apply (proper_up p b); [apply d_step with p; [constructor|exact IP]|]. apply rn_at_proper. apply PB.
        + intros e EQ' (_ & D). injection EQ' as <-. exact (t_acyclic r T p b IP D).
      - injection E as _ <-. destruct PB as (_ & nb & Enb & _). rewrite Enb, (parent_of b nb p Enb IP), (pose_at_fk a ga Fa), (pose_at_fk p gp Fp).
        destruct CL as [CL|CL].
        + rewrite (one_parent r a p b T CL IP) in *. rewrite (fk_fun r p gp ga T Fp Fa), inverted_right, pmul_pid_r; [apply (fk_fun Q p g gp' tree_with F Fp')|apply (fk_rotation r p _ RG Fa)].
        + rewrite (CL p ga gp IP Fa Fp). apply (carry a p ga gp g gp' DP FREE Fa Fp F Fp').
    Qed.
    Lemma pieces_fit l : forall a trafo g base, descends r (a :: l) -> (forall y, In y all -> desc r y a \/ In y l) -> (forall y, In y (a :: l) -> part r y) -> all_close r (a :: l) ->
      (exists n, node_at Q a = Some n /\ fk Q a (pmul base (transform n))) -> pmul g trafo = base -> Forall fits (poses r q g (pieces r ms trafo (a :: l))).
    Proof.
      induction l as [|b l IH]; intros a trafo g base DS AL PL CL (n & En & Fa) EB; cbn [pieces].
      - destruct (accumulate r ms a (hd_error [])) as [u next] eqn:EA. cbn [poses p_local p_node]. constructor; [|constructor].
        assert (EQ : pmul (pmul g (pmul trafo (local_at r a))) (joint_at r q a) = pmul base (transform n)).
        { unfold Q in En. unfold joint_at. rewrite En. rewrite node_with_q in En. destruct (PL a ltac:(now left)) as (_ & m & Em & Pm). unfold local_at. rewrite Em in En |- *. injection En as <-.
          rewrite transform_split by exact Pm. cbn [n_local with_joint]. rewrite <- EB, !pmul_assoc. reflexivity. }
        cbn [fits p_node p_united]. rewrite EQ. split; [exact Fa|]. intros u' ->. apply (united_fits a [] u' next _ (PL a ltac:(now left)) DS AL PL Fa EA).
      - destruct (accumulate r ms a (hd_error (b :: l))) as [u next] eqn:EA. cbn [poses p_local p_node]. 
        assert (EQ : pmul (pmul g (pmul trafo (local_at r a))) (joint_at r q a) = pmul base (transform n)).
        { unfold Q in En. unfold joint_at. rewrite En. rewrite node_with_q in En. destruct (PL a ltac:(now left)) as (_ & m & Em & Pm). unfold local_at. rewrite Em in En |- *. injection En as <-.
          rewrite transform_split by exact Pm. cbn [n_local with_joint]. rewrite <- EB, !pmul_assoc. reflexivity. }
        rewrite EQ. constructor.
        + cbn [fits p_node p_united]. split; [exact Fa|]. intros u' ->. apply (united_fits a (b :: l) u' next _ (PL a ltac:(now left)) DS AL PL Fa EA).
        + apply (IH b next _ (pmul (pmul base (transform n)) next)).
          * cbn in DS. apply DS.
          * intros y I. destruct (AL y I) as [D|[->|J]]; [left; apply desc_trans with a; [exact D|cbn in DS; apply DS]|left; constructor|now right].
          * intros y I. apply PL. now right.
          * cbn in CL. apply CL.
          * apply (next_ok a b l u next _ (PL a ltac:(now left)) (PL b ltac:(right; now left)) DS AL); [cbn in CL; apply CL|exact Fa|exact EA].
          * reflexivity.
    Qed.
    Lemma still z g : (forall y, desc r y z -> ~ In y all) -> fk r z g -> fk Q z g.
    Proof.
      intros H F. induction F as [n E|p c n g F IH I E].
      - rewrite <- (same_transform (root r) n E); [|apply H; constructor]. apply (fk_root Q). unfold Q. change (root (with_q q r)) with (root r). rewrite node_with_q, E. reflexivity.
      - rewrite <- (same_transform c n E); [|apply H; constructor]. apply (fk_child Q p c); [apply IH; intros y D; apply H; apply d_step with p; assumption|unfold Q; rewrite kids_with_q; exact I|].
        unfold Q. rewrite node_with_q, E. reflexivity.
    Qed.
  End Poses.

  (** *** The set of nodes *)
  Lemma chain_descends l : chain r l = true <-> descends r l.
  Proof.
    induction l as [|a [|b l] IH]; [split; reflexivity|split; reflexivity|]. cbn [chain descends]. cbn [chain descends] in IH. rewrite andb_true_iff, IH, above_desc. tauto.
  Qed.
  Lemma pieces_nodes ms l : forall t, map p_node (pieces r ms t l) = l.
  Proof. induction l as [|a l IH]; intros t; [reflexivity|]. cbn [pieces]. destruct (accumulate r ms a (hd_error l)) as [u next]. cbn. now rewrite IH. Qed.
  Lemma mem_spec x l : mem x l = true <-> In x l.
  Proof. unfold mem. rewrite existsb_exists. split; [intros (y & I & E); apply Nat.eqb_eq in E; now subst|intros I; exists x; split; [exact I|apply Nat.eqb_refl]]. Qed.
  Lemma head_is_root k l : l <> [] -> top r k l -> descends r (if mem k l then l else k :: l) -> exists l', (if mem k l then l else k :: l) = k :: l' /\ (mem k l = true -> l = k :: l') /\ (mem k l = false -> l' = l).
  Proof.
    intros NE TP D. destruct (mem k l) eqn:E; [|exists l; repeat split; discriminate]. apply mem_spec in E. destruct l as [|h t]; [contradiction|].
    assert (h = k).
    { destruct E as [E|E]; [exact E|]. apply desc_anti; [|apply TP; now left]. destruct t as [|b t]; [destruct E|].
      apply desc_trans with b; [cbn in D; apply D|]. apply (descends_head h (b :: t) D k E b eq_refl). }
    subst h. exists t. split; [reflexivity|]. split; [reflexivity|discriminate].
  Qed.
  Lemma rank_fuel a : (rank a < S (length (nodes r)))%nat.
  Proof. pose proof (rank_le a). lia. Qed.
  Lemma accumulated ms a b : match fst (accumulate r ms a b) with Some u => u_nodes u | None => [] end = child_nodes (S (length (nodes r))) r a b.
  Proof. unfold accumulate. destruct (child_nodes (S (length (nodes r))) r a b); reflexivity. Qed.
  Lemma blocks ms l : forall t a, descends r (a :: l) -> (forall y, In y (a :: l) -> rn_at r y = true) ->
    NoDup (flat_map (fun p => p_node p :: below p) (pieces r ms t (a :: l))) /\
    forall z, In z (flat_map (fun p => p_node p :: below p) (pieces r ms t (a :: l))) <-> rn_at r z = true /\ desc r a z.
  Proof.
    induction l as [|b l IH]; intros t a D P.
    - cbn [pieces hd_error]. pose proof (accumulated ms a None) as AC. destruct (accumulate r ms a None) as [u next]. cbn [flat_map p_node]. change (below (Piece a (pmul t (local_at r a)) (ms a) u)) with (match u with Some u => u_nodes u | None => [] end).
      cbn [fst] in AC. rewrite AC, app_nil_r. split.
      + constructor; [|apply child_once]. intros H. apply child_below, above_desc in H. tauto.
      + intros z. cbn [In]. rewrite (child_spec _ a None z (rank_fuel a)), above_desc. split.
        * intros [<-|H]; [split; [apply P; now left|constructor]|tauto].
        * intros (A & B). destruct (Nat.eq_dec a z) as [E|E]; [now left|]. right. split; [exact A|]. split; [now split|]. intros e EQ. discriminate.
    - change (pieces r ms t (a :: b :: l)) with (let '(u, next) := accumulate r ms a (Some b) in Piece a (pmul t (local_at r a)) (ms a) u :: pieces r ms next (b :: l)).
      pose proof (accumulated ms a (Some b)) as AC. destruct (accumulate r ms a (Some b)) as [u next]. 
      cbn [flat_map p_node]. change (below (Piece a (pmul t (local_at r a)) (ms a) u)) with (match u with Some u => u_nodes u | None => [] end).
      cbn [fst] in AC. rewrite AC. destruct D as (DAB & NAB & D). destruct (IH next b D) as (N & S'); [intros y I; apply P; now right|].
      assert (AB : above r a b = true) by (apply above_desc; now split). split.
      + rewrite <- app_comm_cons. constructor; [|apply NoDup_app_ok; [apply child_once|exact N|]].
        * rewrite in_app_iff, S'. intros [H|(_ & H)]; [apply child_below, above_desc in H; tauto|]. apply NAB. apply (desc_anti a b DAB H).
        * intros z H K. apply S' in K. apply child_spec in H; [|apply rank_fuel]. destruct H as (_ & _ & H). apply (H b eq_refl). tauto.
      + intros z. rewrite <- app_comm_cons. cbn [In]. rewrite in_app_iff, S', (child_spec _ a (Some b) z (rank_fuel a)), above_desc. split.
        * intros [<-|[H|(H & K)]]; [split; [apply P; now left|constructor]|tauto|]. split; [exact H|]. apply desc_trans with b; assumption.
        * intros (A & B). destruct (Nat.eq_dec a z) as [E|E]; [now left|]. right. destruct (above r b z || Nat.eqb b z) eqn:BZ.
          -- right. split; [exact A|]. apply orb_true_iff in BZ. destruct BZ as [BZ|BZ]; [apply above_desc in BZ; tauto|apply Nat.eqb_eq in BZ; subst; constructor].
          -- left. apply orb_false_iff in BZ. destruct BZ as (BZ & NZ). split; [exact A|]. split; [now split|]. intros e EQ (_ & H). injection EQ as <-.
             apply Nat.eqb_neq in NZ. assert (above r b z = true) by (apply above_desc; now split). congruence.
  Qed.
  Lemma robot_nodes_spec z : In z (robot_nodes r) <-> rn_at r z = true.
  Proof.
    unfold robot_nodes. rewrite filter_In. split; [tauto|]. intros H. split; [|exact H]. apply rn_at_proper in H. destruct H as (n & E & _). apply in_seq. split; [lia|]. cbn. apply (node_lt r z n E).
  Qed.
  Lemma initial_once k l : NoDup (initial_nodes r k l).
  Proof.
    unfold initial_nodes. apply NoDup_app_ok; try (apply NoDup_filter; unfold robot_nodes; apply NoDup_filter, seq_NoDup).
    intros z I J. apply filter_In in J. destruct J as (_ & J). apply andb_true_iff in J. destruct J as (J & _). apply andb_true_iff in J. destruct J as (_ & J).
    apply negb_true_iff in J. apply mem_spec in I. congruence.
  Qed.
  Lemma initial_spec k l z : In z (initial_nodes r k l) <-> rn_at r z = true /\ (above r z k = true \/ (above r k z = false /\ forall y, In y l -> above r z y = false)).
  Proof.
    unfold initial_nodes. rewrite in_app_iff, !filter_In, robot_nodes_spec, !andb_true_iff, !negb_true_iff. split.
    - intros [H|(A & ((B & _) & C))]; [tauto|]. split; [exact A|]. right. split; [exact C|]. intros y I. destruct (above r z y) eqn:E; [|reflexivity].
      assert (existsb (above r z) l = true) by (apply existsb_exists; now exists y). congruence.
    - intros (A & B). destruct (above r z k) eqn:E; [now left|]. destruct B as [B|(B & C)]; [discriminate|]. right. split; [exact A|]. split; [split|exact B].
      + destruct (existsb (above r z) l) eqn:X; [|reflexivity]. apply existsb_exists in X. destruct X as (y & I & X). now rewrite (C y I) in X.
      + destruct (mem z (filter (fun y => above r y k) (robot_nodes r))) eqn:X; [|reflexivity]. apply mem_spec, filter_In in X. destruct X as (_ & X). congruence.
  Qed.
  Lemma initial_apart k l z : In z (initial_nodes r k (k :: l)) -> z <> k -> ~ desc r k z.
  Proof.
    intros H N D. apply initial_spec in H. destruct H as (_ & [H|(H & _)]).
    - apply above_desc in H. apply (proj2 H). apply (desc_anti z k (proj1 H) D).
    - assert (above r k z = true) by (apply above_desc; split; [exact D|congruence]). congruence.
  Qed.
  Lemma initial_rest k b l z : descends r (k :: b :: l) -> (In z (initial_nodes r k (k :: b :: l)) <-> rn_at r z = true /\ ~ desc r k z).
  Proof.
    intros D. split.
    - intros H. split; [apply initial_spec in H; tauto|]. apply (initial_apart k (b :: l) z H). intros ->. apply initial_spec in H. destruct H as (_ & [H|(_ & H)]); [apply above_desc in H; tauto|].
      specialize (H b ltac:(right; now left)). assert (above r k b = true) by (apply above_desc; cbn in D; tauto). congruence.
    - intros (A & N). apply initial_spec. split; [exact A|]. destruct (above r z k) eqn:E; [now left|]. right. split.
      + destruct (above r k z) eqn:X; [|reflexivity]. apply above_desc in X. tauto.
      + intros y I. destruct (above r z y) eqn:X; [|reflexivity]. apply above_desc in X. assert (KY : desc r k y).
        { destruct I as [->|I]; [constructor|]. apply desc_trans with b; [cbn in D; apply D|]. apply (descends_head k (b :: l) D y I b eq_refl). }
        exfalso. destruct (desc_meet z k y (proj1 X) KY) as [K|K]; [|contradiction]. assert (above r z k = true); [|congruence]. apply above_desc. split; [exact K|]. intros ->. apply N. constructor.
  Qed.
  Lemma fold_mass (ms : nat -> R) l : forall x, fold_left (fun kg y => kg + ms y) l x = x + total ms l.
  Proof. unfold total. induction l as [|a l IH]; intros x; cbn; [lra|]. rewrite IH. lra. Qed.
  Lemma unite_mass ms l p s : u_mass (unite r ms l p s) = total ms l /\ u_nodes (unite r ms l p s) = l.
  Proof. destruct l as [|a l]; [split; reflexivity|]. split; [|reflexivity]. cbn [unite u_mass]. rewrite fold_mass. lra. Qed.
  Lemma pieces_mass ms l : forall t, fold_right Rplus 0 (map (fun p => p_mass p + match p_united p with Some u => u_mass u | None => 0 end) (pieces r ms t l)) =
    total ms (flat_map (fun p => p_node p :: below p) (pieces r ms t l)).
  Proof.
    induction l as [|a l IH]; intros t; [reflexivity|]. cbn [pieces]. destruct (accumulate r ms a (hd_error l)) as [u next] eqn:E. cbn [map fold_right flat_map p_mass p_united p_node].
    rewrite total_app, IH. unfold below. cbn [p_united]. assert (U : match u with Some u => u_mass u | None => 0 end = total ms (match u with Some u => u_nodes u | None => [] end)).
    { unfold accumulate in E. destruct (child_nodes (S (length (nodes r))) r a (hd_error l)) as [|c0 cs] eqn:EC; injection E as <- _; [reflexivity|].
      exact (proj1 (unite_mass ms (c0 :: cs) (Some a) (child_sensors (S (length (nodes r))) r a (hd_error l)))). }
    rewrite U. unfold total. cbn [map fold_right]. lra.
  Qed.
End Sub.
