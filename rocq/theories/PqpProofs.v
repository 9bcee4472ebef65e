From Coq Require Import List ZArith QArith Bool PeanoNat Permutation Lia Lqa.
From Verif Require Import QueueModel QueueSpec QueueProofs PqpModel PqpSpec.
Import ListNotations.
Open Scope nat_scope.

Section Proofs.
Context {V G P X : Type}.
Variable g : geometry V G P X.
Variables o1 o2 : model V G.
Variable x0 : X.

Lemma qlt_iff : forall a b, qlt a b = true <-> (a < b)%Q.
Proof.
  intros a b. unfold qlt. rewrite negb_true_iff. split; intros H.
  - apply Qnot_le_lt. intros K. apply Qle_bool_iff in K. congruence.
  - destruct (Qle_bool b a) eqn:E; [|reflexivity]. apply Qle_bool_iff in E. exfalso. eapply Qle_not_lt; eassumption.
Qed.
Lemma qlt_false : forall a b, qlt a b = false -> (b <= a)%Q.
Proof. intros a b H. apply Qnot_lt_le. intros K. apply qlt_iff in K. congruence. Qed.

Lemma tree_inv : forall (o : model V G) b l, tree o b l -> exists v, nth_error (m_bvs o) b = Some v /\
  ((leaf v = true /\ exists i t, l = [i] /\ tri_index v = i /\ nth_error (m_tris o) i = Some t) \/
   (leaf v = false /\ (0 <= first_child v)%Z /\ exists l1 l2, l = l1 ++ l2 /\ tree o (first v) l1 /\ tree o (first v + 1) l2)).
Proof.
  intros o b l H. destruct H as [b v i t Hv Hf Ht|b v c l1 l2 Hv Hf H1 H2]; exists v; (split; [assumption|]).
  - left. unfold leaf, tri_index. split; [apply Z.ltb_lt; lia|]. exists i, t. split; [reflexivity|]. split; [lia|assumption].
  - right. unfold leaf, first. rewrite Hf, Nat2Z.id. split; [apply Z.ltb_ge; lia|]. split; [lia|eauto 6].
Qed.

Lemma tree_nonempty : forall (o : model V G) b l, tree o b l -> 0 < length l.
Proof. intros o b l H. induction H; cbn; [lia|]. rewrite app_length. lia. Qed.

Lemma tree_tri : forall (o : model V G) b l, tree o b l -> forall i, In i l -> exists t, nth_error (m_tris o) i = Some t.
Proof.
  intros o b l H. induction H as [b v i t Hv Hf Ht|]; intros j Hj.
  - destruct Hj as [<-|[]]. eauto.
  - apply in_app_or in Hj as [Hj|Hj]; eauto.
Qed.

(** A pair of volumes met by the traversal, with the triangles below. *)
Definition good_pair (p : pair X) (l1 l2 : list nat) : Prop :=
  met g o1 o2 x0 (fst (fst p)) (snd (fst p)) (snd p) /\ tree o1 (snd (fst p)) l1 /\ tree o2 (snd p) l2.

Lemma step : forall p l1 l2, good_pair p l1 l2 ->
  (exists t1 t2 i j, leaves o1 o2 p = Some (Some ((t1, i), (t2, j))) /\ l1 = [i] /\ l2 = [j] /\
     nth_error (m_tris o1) i = Some t1 /\ nth_error (m_tris o2) j = Some t2) \/
  (leaves o1 o2 p = Some None /\ exists pa a1 a2 pc c1 c2 la1 la2 lc1 lc2,
     descend g o1 o2 p = Some (pa, a1, a2, (pc, c1, c2)) /\
     good_pair pa la1 la2 /\ nth_error (m_bvs o1) (snd (fst pa)) = Some a1 /\ nth_error (m_bvs o2) (snd pa) = Some a2 /\
     good_pair pc lc1 lc2 /\ nth_error (m_bvs o1) (snd (fst pc)) = Some c1 /\ nth_error (m_bvs o2) (snd pc) = Some c2 /\
     ((l1 = la1 ++ lc1 /\ la2 = l2 /\ lc2 = l2) \/ (l2 = la2 ++ lc2 /\ la1 = l1 /\ lc1 = l1))).
Proof.
  intros [[x b1] b2] l1 l2 (HM & H1 & H2). cbn [fst snd] in *.
  destruct (tree_inv _ _ _ H1) as (v1 & E1 & D1), (tree_inv _ _ _ H2) as (v2 & E2 & D2).
  unfold leaves, descend, child. rewrite E1, E2.
  assert (in1 : leaf v1 = false -> (0 <= first_child v1)%Z -> forall la lc, l1 = la ++ lc -> tree o1 (first v1) la -> tree o1 (first v1 + 1) lc ->
     exists pa a1 a2 pc c1 c2 la1 la2 lc1 lc2,
     match nth_error (m_bvs o1) (first v1), nth_error (m_bvs o1) (first v1 + 1) with
     | Some a, Some c => Some ((g_enter1 g x (vol a), first v1, b2), a, v2, ((g_enter1 g x (vol c), first v1 + 1, b2), c, v2))
     | _, _ => None end = Some (pa, a1, a2, (pc, c1, c2)) /\
     good_pair pa la1 la2 /\ nth_error (m_bvs o1) (snd (fst pa)) = Some a1 /\ nth_error (m_bvs o2) (snd pa) = Some a2 /\
     good_pair pc lc1 lc2 /\ nth_error (m_bvs o1) (snd (fst pc)) = Some c1 /\ nth_error (m_bvs o2) (snd pc) = Some c2 /\
     ((l1 = la1 ++ lc1 /\ la2 = l2 /\ lc2 = l2) \/ (l2 = la2 ++ lc2 /\ la1 = l1 /\ lc1 = l1))).
  { intros _ Hf la lc El Ta Tc. destruct (tree_inv _ _ _ Ta) as (a & Ea & _), (tree_inv _ _ _ Tc) as (c & Ec & _). rewrite Ea, Ec.
    eexists _, _, _, _, _, _, la, l2, lc, l2. split; [reflexivity|]. unfold good_pair. cbn [fst snd].
    split; [split; [eapply met_child1; eauto|auto]|]. split; [assumption|]. split; [assumption|].
    split; [split; [eapply met_child1; eauto|auto]|]. split; [assumption|]. split; [assumption|]. left; auto. }
  assert (in2 : leaf v2 = false -> (0 <= first_child v2)%Z -> forall la lc, l2 = la ++ lc -> tree o2 (first v2) la -> tree o2 (first v2 + 1) lc ->
     exists pa a1 a2 pc c1 c2 la1 la2 lc1 lc2,
     match nth_error (m_bvs o2) (first v2), nth_error (m_bvs o2) (first v2 + 1) with
     | Some a, Some c => Some ((g_enter2 g x (vol a), b1, first v2), v1, a, ((g_enter2 g x (vol c), b1, first v2 + 1), v1, c))
     | _, _ => None end = Some (pa, a1, a2, (pc, c1, c2)) /\
     good_pair pa la1 la2 /\ nth_error (m_bvs o1) (snd (fst pa)) = Some a1 /\ nth_error (m_bvs o2) (snd pa) = Some a2 /\
     good_pair pc lc1 lc2 /\ nth_error (m_bvs o1) (snd (fst pc)) = Some c1 /\ nth_error (m_bvs o2) (snd pc) = Some c2 /\
     ((l1 = la1 ++ lc1 /\ la2 = l2 /\ lc2 = l2) \/ (l2 = la2 ++ lc2 /\ la1 = l1 /\ lc1 = l1))).
  { intros _ Hf la lc El Ta Tc. destruct (tree_inv _ _ _ Ta) as (a & Ea & _), (tree_inv _ _ _ Tc) as (c & Ec & _). rewrite Ea, Ec.
    eexists _, _, _, _, _, _, l1, la, l1, lc. split; [reflexivity|]. unfold good_pair. cbn [fst snd].
    split; [split; [eapply met_child2; eauto|auto]|]. split; [assumption|]. split; [assumption|].
    split; [split; [eapply met_child2; eauto|auto]|]. split; [assumption|]. split; [assumption|]. right; auto. }
  destruct D1 as [(L1 & i & t1 & -> & I1 & T1)|(L1 & F1 & la & lc & El1 & Ta & Tc)], D2 as [(L2 & j & t2 & -> & I2 & T2)|(L2 & F2 & la' & lc' & El2 & Ta' & Tc')];
    rewrite L1, L2; cbn [andb orb negb].
  - left. unfold tri_of. rewrite I1, I2, T1, T2. exists t1, t2, i, j. auto.
  - right. split; [reflexivity|]. eapply in2; eauto.
  - right. split; [reflexivity|]. eapply in1; eauto.
  - right. split; [reflexivity|]. destruct (qlt (g_size g (vol v2)) (g_size g (vol v1))).
    + eapply in1; eauto.
    + eapply in2; eauto.
Qed.

(** Collision. *)
Lemma contacts_app1 : forall a b l, contacts g o1 o2 (a ++ b) l = contacts g o1 o2 a l ++ contacts g o1 o2 b l.
Proof. intros. apply flat_map_app. Qed.

Lemma contacts_app2 : forall l a b, Permutation (contacts g o1 o2 l (a ++ b)) (contacts g o1 o2 l a ++ contacts g o1 o2 l b).
Proof.
  intros l a b. unfold contacts. induction l as [|i l IH]; cbn; [constructor|]. rewrite flat_map_app, IH, <- !app_assoc.
  apply Permutation_app_head. rewrite !app_assoc. apply Permutation_app_tail, Permutation_app_comm.
Qed.

Lemma flat_map_perm : forall {A B} (f : A -> list B) l l', Permutation l l' -> Permutation (flat_map f l) (flat_map f l').
Proof.
  intros A B f l l' H. induction H; cbn; auto.
  - now apply Permutation_app_head.
  - rewrite !app_assoc. apply Permutation_app_tail, Permutation_app_comm.
  - eapply Permutation_trans; eassumption.
Qed.

Lemma contacts_perm : forall l1 l1' l2 l2', Permutation l1 l1' -> Permutation l2 l2' ->
  Permutation (contacts g o1 o2 l1 l2) (contacts g o1 o2 l1' l2').
Proof.
  intros l1 l1' l2 l2' H1 H2. unfold contacts. rewrite (flat_map_perm _ l1 l1' H1). clear H1.
  induction l1' as [|i l IH]; cbn; auto. apply Permutation_app; auto. now apply flat_map_perm.
Qed.

Lemma in_contacts : forall l1 l2 c, In c (contacts g o1 o2 l1 l2) <->
  exists i j, In i l1 /\ In j l2 /\ In c (contact_of g o1 o2 i j).
Proof.
  intros l1 l2 c. unfold contacts. rewrite in_flat_map. split.
  - intros (i & Hi & Hc). apply in_flat_map in Hc as (j & Hj & Hc). eauto.
  - intros (i & j & Hi & Hj & Hc). exists i. split; [assumption|]. apply in_flat_map. eauto.
Qed.

Lemma in_contact_of : forall i j c, In c (contact_of g o1 o2 i j) -> touch g o1 o2 i j.
Proof.
  intros i j c. unfold contact_of, touch. destruct (nth_error (m_tris o1) i) as [t1|], (nth_error (m_tris o2) j) as [t2|]; try intros [].
  destruct (g_contact g (corners t1) (corners t2)) eqn:E; [eauto|intros []].
Qed.

Lemma contacts_none : forall l1 l2, (forall i j, In i l1 -> In j l2 -> ~ touch g o1 o2 i j) -> contacts g o1 o2 l1 l2 = [].
Proof.
  intros l1 l2 H. destruct (contacts g o1 o2 l1 l2) as [|c r] eqn:E; [reflexivity|].
  assert (K : In c (contacts g o1 o2 l1 l2)) by (rewrite E; now left). apply in_contacts in K as (i & j & Hi & Hj & Hc).
  exfalso. eapply H; eauto. eapply in_contact_of; eauto.
Qed.

Lemma split_contacts : forall l1 l2 la1 la2 lc1 lc2,
  ((l1 = la1 ++ lc1 /\ la2 = l2 /\ lc2 = l2) \/ (l2 = la2 ++ lc2 /\ la1 = l1 /\ lc1 = l1)) ->
  Permutation (contacts g o1 o2 l1 l2) (contacts g o1 o2 la1 la2 ++ contacts g o1 o2 lc1 lc2).
Proof.
  intros l1 l2 la1 la2 lc1 lc2 [(-> & -> & ->)|(-> & -> & ->)].
  - now rewrite contacts_app1.
  - apply contacts_app2.
Qed.

Lemma split_length : forall (l1 l2 la1 la2 lc1 lc2 : list nat), 0 < length la1 -> 0 < length la2 -> 0 < length lc1 -> 0 < length lc2 ->
  ((l1 = la1 ++ lc1 /\ la2 = l2 /\ lc2 = l2) \/ (l2 = la2 ++ lc2 /\ la1 = l1 /\ lc1 = l1)) ->
  length la1 + length la2 < length l1 + length l2 /\ length lc1 + length lc2 < length l1 + length l2.
Proof. intros l1 l2 la1 la2 lc1 lc2 ? ? ? ? [(-> & -> & ->)|(-> & -> & ->)]; rewrite app_length; lia. Qed.

Lemma good_nonempty : forall p l1 l2, good_pair p l1 l2 -> 0 < length l1 /\ 0 < length l2.
Proof. intros p l1 l2 (_ & H1 & H2). split; eapply tree_nonempty; eassumption. Qed.

Section Collide.
Hypothesis Hover : overlap_sound g o1 o2 x0.

Lemma collide_all_ok : forall fuel p l1 l2 res, good_pair p l1 l2 -> length l1 + length l2 < fuel ->
  exists r, collide g o1 o2 fuel false res p = Some (res ++ r) /\ Permutation r (contacts g o1 o2 l1 l2).
Proof.
  induction fuel as [|fuel IH]; intros p l1 l2 res HG Hf; [lia|]. cbn [collide]. destruct p as [[x b1] b2].
  assert (HG' := HG). destruct HG' as (HM & H1 & H2). cbn [fst snd] in *. unfold child.
  destruct (tree_inv _ _ _ H1) as (v1 & E1 & _), (tree_inv _ _ _ H2) as (v2 & E2 & _). rewrite E1, E2.
  destruct (g_overlap g x (vol v1) (vol v2)) eqn:Eo; cbn [negb].
  - destruct (step _ _ _ HG) as [(t1 & t2 & i & j & -> & -> & -> & T1 & T2)|(-> & pa & a1 & a2 & pc & c1 & c2 & la1 & la2 & lc1 & lc2 & -> & GA & _ & _ & GC & _ & _ & SP)].
    + unfold contacts. cbn [flat_map]. rewrite !app_nil_r. unfold contact_of. rewrite T1, T2.
      destruct (g_contact g (corners t1) (corners t2)).
      * exists [(tri_id t1, tri_id t2)]. auto.
      * exists []. rewrite app_nil_r. auto.
    + destruct (good_nonempty _ _ _ GA), (good_nonempty _ _ _ GC).
      destruct (split_length l1 l2 la1 la2 lc1 lc2) as [S1 S2]; auto.
      destruct (IH pa la1 la2 res GA ltac:(lia)) as (ra & -> & Pa). cbn [andb].
      destruct (IH pc lc1 lc2 (res ++ ra) GC ltac:(lia)) as (rc & -> & Pc).
      exists (ra ++ rc). rewrite app_assoc. split; [reflexivity|]. rewrite (split_contacts _ _ _ _ _ _ SP). now apply Permutation_app.
  - exists []. rewrite app_nil_r. split; [reflexivity|]. rewrite contacts_none; [constructor|].
    intros i j Hi Hj Ht. rewrite (Hover x b1 b2 v1 v2 l1 l2 i j) in Eo; auto. discriminate.
Qed.

Lemma collide_first_ok : forall fuel p l1 l2, good_pair p l1 l2 -> length l1 + length l2 < fuel ->
  exists r, collide g o1 o2 fuel true [] p = Some r /\ incl r (contacts g o1 o2 l1 l2) /\ length r <= 1 /\
    (r = [] -> contacts g o1 o2 l1 l2 = []).
Proof.
  induction fuel as [|fuel IH]; intros p l1 l2 HG Hf; [lia|]. cbn [collide]. destruct p as [[x b1] b2].
  assert (HG' := HG). destruct HG' as (HM & H1 & H2). cbn [fst snd] in *. unfold child.
  destruct (tree_inv _ _ _ H1) as (v1 & E1 & _), (tree_inv _ _ _ H2) as (v2 & E2 & _). rewrite E1, E2.
  destruct (g_overlap g x (vol v1) (vol v2)) eqn:Eo; cbn [negb].
  - destruct (step _ _ _ HG) as [(t1 & t2 & i & j & -> & -> & -> & T1 & T2)|(-> & pa & a1 & a2 & pc & c1 & c2 & la1 & la2 & lc1 & lc2 & -> & GA & _ & _ & GC & _ & _ & SP)].
    + unfold contacts. cbn [flat_map]. rewrite !app_nil_r. unfold contact_of. rewrite T1, T2.
      destruct (g_contact g (corners t1) (corners t2)); cbn [app].
      * exists [(tri_id t1, tri_id t2)]. split; [reflexivity|]. split; [apply incl_refl|]. split; [cbn; lia|discriminate].
      * exists []. split; [reflexivity|]. split; [apply incl_refl|]. split; [cbn; lia|reflexivity].
    + destruct (good_nonempty _ _ _ GA), (good_nonempty _ _ _ GC).
      destruct (split_length l1 l2 la1 la2 lc1 lc2) as [S1 S2]; auto.
      assert (SC := split_contacts _ _ _ _ _ _ SP).
      destruct (IH pa la1 la2 GA ltac:(lia)) as (ra & -> & Ia & La & Na). cbn [andb].
      destruct ra as [|c ra]; cbn [length Nat.eqb negb].
      * destruct (IH pc lc1 lc2 GC ltac:(lia)) as (rc & -> & Ic & Lc & Nc). exists rc. split; [reflexivity|].
        split; [|split; [assumption|]].
        -- intros z Hz. eapply Permutation_in; [symmetry; exact SC|]. apply in_or_app; right; auto.
        -- intros Hr. rewrite (Na eq_refl), (Nc Hr) in SC. now apply Permutation_nil, Permutation_sym.
      * exists (c :: ra). split; [reflexivity|]. split; [|split; [assumption|discriminate]].
        intros z Hz. eapply Permutation_in; [symmetry; exact SC|]. apply in_or_app; left; auto.
  - exists []. split; [reflexivity|]. split; [intros z []|]. split; [cbn; lia|]. intros _. apply contacts_none.
    intros i j Hi Hj Ht. rewrite (Hover x b1 b2 v1 v2 l1 l2 i j) in Eo; auto. discriminate.
Qed.
End Collide.

Section Distance.
Hypothesis Hbv : bvdist_sound g o1 o2 x0.
Variables rel_err abs_err : Q.
Hypothesis Hrel : (0 <= rel_err)%Q.
Hypothesis Habs : (0 <= abs_err)%Q.
Hypothesis Hpos : forall i j d pts, apart g o1 o2 i j d pts -> (0 <= d)%Q.

Definition res_ok (res : dist_res P) : Prop := exists t1 t2,
  nth_error (m_tris o1) (d_last1 res) = Some t1 /\ nth_error (m_tris o2) (d_last2 res) = Some t2 /\
  g_tridist g (corners t1) (corners t2) = (d_dist res, d_pts res) /\ d_id1 res = tri_id t1 /\ d_id2 res = tri_id t2.

Definition fine (D : Q) (i j : nat) : Prop := forall d pts, apart g o1 o2 i j d pts ->
  (D <= d + abs_err)%Q /\ (D <= d * (1 + rel_err))%Q.

Definition all_fine (D : Q) (l1 l2 : list nat) : Prop := forall i j, In i l1 -> In j l2 -> fine D i j.

Definition lower (d0 : Q) (l1 l2 : list nat) : Prop := forall i j d pts, In i l1 -> In j l2 -> apart g o1 o2 i j d pts -> (d0 <= d)%Q.

Lemma fine_mono : forall D D' i j, (D' <= D)%Q -> fine D i j -> fine D' i j.
Proof. intros D D' i j H F d pts A. destruct (F d pts A). split; eapply Qle_trans; eassumption. Qed.
Lemma all_fine_mono : forall D D' l1 l2, (D' <= D)%Q -> all_fine D l1 l2 -> all_fine D' l1 l2.
Proof. intros D D' l1 l2 H F i j Hi Hj. eapply fine_mono; eauto. Qed.

Lemma fine_of_le : forall D i j, (forall d pts, apart g o1 o2 i j d pts -> (D <= d)%Q) -> fine D i j.
Proof. intros D i j H d pts A. specialize (H d pts A). specialize (Hpos i j d pts A). split; nra. Qed.

Lemma fine_of_bound : forall D d0 l1 l2, lower d0 l1 l2 -> (D <= d0 + abs_err)%Q -> (D <= d0 * (1 + rel_err))%Q -> all_fine D l1 l2.
Proof.
  intros D d0 l1 l2 HL H1 H2 i j Hi Hj d pts A. specialize (HL i j d pts Hi Hj A). split; nra.
Qed.

Lemma good_lower : forall p l1 l2 v1 v2, good_pair p l1 l2 -> nth_error (m_bvs o1) (snd (fst p)) = Some v1 -> nth_error (m_bvs o2) (snd p) = Some v2 ->
  lower (g_bvdist g (fst (fst p)) (vol v1) (vol v2)) l1 l2.
Proof. intros p l1 l2 v1 v2 (HM & H1 & H2) E1 E2 i j d pts Hi Hj A. eapply Hbv; eauto. Qed.

Lemma split_fine : forall D l1 l2 la1 la2 lc1 lc2,
  ((l1 = la1 ++ lc1 /\ la2 = l2 /\ lc2 = l2) \/ (l2 = la2 ++ lc2 /\ la1 = l1 /\ lc1 = l1)) ->
  all_fine D la1 la2 -> all_fine D lc1 lc2 -> all_fine D l1 l2.
Proof.
  intros D l1 l2 la1 la2 lc1 lc2 [(-> & -> & ->)|(-> & -> & ->)] HA HC i j Hi Hj.
  - apply in_app_or in Hi as [Hi|Hi]; auto.
  - apply in_app_or in Hj as [Hj|Hj]; auto.
Qed.

Lemma tri_update_ok : forall res t1 t2 i j, res_ok res -> nth_error (m_tris o1) i = Some t1 -> nth_error (m_tris o2) j = Some t2 ->
  let res' := tri_update g res ((t1, i), (t2, j)) in
  res_ok res' /\ (d_dist res' <= d_dist res)%Q /\ all_fine (d_dist res') [i] [j].
Proof.
  intros res t1 t2 i j HR T1 T2. cbn [tri_update]. destruct (g_tridist g (corners t1) (corners t2)) as [d pts] eqn:E.
  assert (F : forall D, (D <= d)%Q -> all_fine D [i] [j]).
  { intros D HD i' j' [<-|[]] [<-|[]]. apply fine_of_le. intros d' pts' (u1 & u2 & U1 & U2 & E').
    rewrite T1 in U1. rewrite T2 in U2. injection U1 as <-. injection U2 as <-. rewrite E in E'. injection E' as <- <-. assumption. }
  destruct (qlt d (d_dist res)) eqn:L.
  - apply qlt_iff in L. split; [exists t1, t2; auto|]. cbn. split; [now apply Qlt_le_weak|]. apply F, Qle_refl.
  - apply qlt_false in L. split; [assumption|]. split; [apply Qle_refl|]. now apply F.
Qed.

Lemma distance_ok : forall fuel p l1 l2 res, good_pair p l1 l2 -> length l1 + length l2 < fuel -> res_ok res ->
  exists res', distance g o1 o2 rel_err abs_err fuel res p = Some res' /\ res_ok res' /\ (d_dist res' <= d_dist res)%Q /\
    all_fine (d_dist res') l1 l2.
Proof.
  induction fuel as [|fuel IH]; intros p l1 l2 res HG Hf HR; [lia|]. cbn [distance].
  destruct (step _ _ _ HG) as [(t1 & t2 & i & j & -> & -> & -> & T1 & T2)|(-> & pa & a1 & a2 & pc & c1 & c2 & la1 & la2 & lc1 & lc2 & -> & GA & A1 & A2 & GC & C1 & C2 & SP)].
  - eexists. split; [reflexivity|]. now apply tri_update_ok.
  - destruct (good_nonempty _ _ _ GA), (good_nonempty _ _ _ GC).
    destruct (split_length l1 l2 la1 la2 lc1 lc2) as [S1 S2]; auto.
    pose proof (good_lower _ _ _ _ _ GA A1 A2) as LA. pose proof (good_lower _ _ _ _ _ GC C1 C2) as LC.
    set (d1 := g_bvdist g (fst (fst pa)) (vol a1) (vol a2)) in *. set (d2 := g_bvdist g (fst (fst pc)) (vol c1) (vol c2)) in *.
    assert (VI : forall d p k1 k2 r, good_pair p k1 k2 -> length k1 + length k2 < fuel -> lower d k1 k2 -> res_ok r ->
      exists r', (if worth rel_err abs_err r d then distance g o1 o2 rel_err abs_err fuel r p else Some r) = Some r' /\
        res_ok r' /\ (d_dist r' <= d_dist r)%Q /\ all_fine (d_dist r') k1 k2).
    { intros d p' k1 k2 r Gp Lp LL Rr. destruct (worth rel_err abs_err r d) eqn:W; [now apply IH|].
      exists r. split; [reflexivity|]. split; [assumption|]. split; [apply Qle_refl|].
      unfold worth in W. apply orb_false_iff in W as [W1 W2]. apply qlt_false in W1, W2. apply fine_of_bound with d; auto. lra. }
    destruct (qlt d2 d1).
    + destruct (VI d2 pc lc1 lc2 res GC ltac:(lia) LC HR) as (r1 & -> & R1 & D1 & F1).
      destruct (VI d1 pa la1 la2 r1 GA ltac:(lia) LA R1) as (r2 & -> & R2 & D2 & F2).
      exists r2. split; [reflexivity|]. split; [assumption|]. split; [eapply Qle_trans; eassumption|].
      apply (split_fine _ _ _ _ _ _ _ SP); [assumption|]. eapply all_fine_mono; eassumption.
    + destruct (VI d1 pa la1 la2 res GA ltac:(lia) LA HR) as (r1 & -> & R1 & D1 & F1).
      destruct (VI d2 pc lc1 lc2 r1 GC ltac:(lia) LC R1) as (r2 & -> & R2 & D2 & F2).
      exists r2. split; [reflexivity|]. split; [assumption|]. split; [eapply Qle_trans; eassumption|].
      apply (split_fine _ _ _ _ _ _ _ SP); [|assumption]. eapply all_fine_mono; eassumption.
Qed.

(** The queue. *)
Definition entry (t : test (pair X)) (l : list nat * list nat) : Prop :=
  good_pair (t_data t) (fst l) (snd l) /\ lower (t_d t) (fst l) (snd l).
Definition weight (l : list nat * list nat) : nat := 2 * (length (fst l) * length (snd l)) - 1.
Definition wsum (ls : list (list nat * list nat)) : nat := list_sum (map weight ls).

Lemma wsum_perm : forall ls ls', Permutation ls ls' -> wsum ls = wsum ls'.
Proof. intros ls ls' H. unfold wsum. induction H; cbn [map list_sum fold_right]; try lia. fold (list_sum (map weight l)). fold (list_sum (map weight l')). lia. Qed.

Lemma weight_pos : forall p l1 l2, good_pair p l1 l2 -> 1 <= weight (l1, l2).
Proof.
  intros p l1 l2 H. destruct (good_nonempty _ _ _ H). unfold weight. cbn [fst snd].
  assert (1 * 1 <= length l1 * length l2) by (apply Nat.mul_le_mono; lia). lia.
Qed.

Lemma split_weight : forall (l1 l2 la1 la2 lc1 lc2 : list nat), 0 < length la1 -> 0 < length la2 -> 0 < length lc1 -> 0 < length lc2 ->
  ((l1 = la1 ++ lc1 /\ la2 = l2 /\ lc2 = l2) \/ (l2 = la2 ++ lc2 /\ la1 = l1 /\ lc1 = l1)) ->
  weight (la1, la2) + weight (lc1, lc2) + 1 = weight (l1, l2).
Proof.
  intros l1 l2 la1 la2 lc1 lc2 ? ? ? ? [(-> & -> & ->)|(-> & -> & ->)]; unfold weight; cbn [fst snd]; rewrite app_length.
  - assert (1 * 1 <= length la1 * length l2) by (apply Nat.mul_le_mono; lia).
    assert (1 * 1 <= length lc1 * length l2) by (apply Nat.mul_le_mono; lia). rewrite Nat.mul_add_distr_r. lia.
  - assert (1 * 1 <= length l1 * length la2) by (apply Nat.mul_le_mono; lia).
    assert (1 * 1 <= length l1 * length lc2) by (apply Nat.mul_le_mono; lia). rewrite Nat.mul_add_distr_l. lia.
Qed.

Variable qsize : nat.
Variable junk : nat -> nat -> test (pair X) * nat.
Hypothesis Hq : 2 < qsize.

Lemma entries_perm : forall ts ts' ls, Permutation ts ts' -> Forall2 entry ts ls -> exists ls', Permutation ls ls' /\ Forall2 entry ts' ls'.
Proof. intros ts ts' ls HP HF. exact (Permutation_Forall2 HP HF). Qed.

Lemma queue_distance_ok : forall fuel oq p l1 l2 ls res,
  let q := match oq with Some q => q | None => new_queue qsize (junk fuel) end in
  good q -> q_size q = qsize -> q_n q <= qsize - 1 -> Forall2 entry (contents q) ls ->
  good_pair p l1 l2 -> weight (l1, l2) + wsum ls < fuel -> res_ok res ->
  exists res', queue_distance g o1 o2 rel_err abs_err qsize junk fuel oq res p = Some res' /\ res_ok res' /\
    (d_dist res' <= d_dist res)%Q /\ all_fine (d_dist res') l1 l2 /\
    (forall l, In l ls -> all_fine (d_dist res') (fst l) (snd l)).
Proof.
  induction fuel as [|fuel IH]; intros oq p l1 l2 ls res q Gq Zq Nq Eq HG Hf HR; [lia|]. cbn [queue_distance]. fold q.
  set (next := fun (q : queue (pair X)) (res : dist_res P) => if q_n q =? 0 then Some res
        else
          match extract_min q with
          | None => None
          | Some (t, q) =>
              if Qle_bool (d_dist res) (t_d t + abs_err) && Qle_bool (d_dist res) (t_d t * (1 + rel_err)) then Some res
              else queue_distance g o1 o2 rel_err abs_err qsize junk fuel (Some q) res (t_data t)
          end).
  assert (NX : forall q1 ls1 r, good q1 -> q_size q1 = qsize -> q_n q1 <= qsize -> Forall2 entry (contents q1) ls1 -> wsum ls1 < fuel -> res_ok r ->
     exists r', next q1 r = Some r' /\ res_ok r' /\ (d_dist r' <= d_dist r)%Q /\ (forall l, In l ls1 -> all_fine (d_dist r') (fst l) (snd l))).
  { intros q1 ls1 r G1 Z1 N1 E1 W1 R1. unfold next. destruct (Nat.eqb_spec (q_n q1) 0) as [E0|N0].
    - exists r. split; [reflexivity|]. split; [assumption|]. split; [apply Qle_refl|]. intros l Hl.
      unfold contents in E1. rewrite E0 in E1. inversion E1 as [HA HB|]. rewrite <- HB in Hl. destruct Hl.
    - destruct (extract_ok q1 G1 ltac:(lia)) as (t & q2 & -> & G2 & Z2 & N2 & P2 & M2 & _).
      destruct (entries_perm _ _ _ P2 E1) as (ls2 & PL & F2). inversion F2 as [|t0 [k1 k2] ts0 lsr He Fr HA HB]. subst t0 ts0 ls2.
      destruct He as [He1 He2]. cbn [fst snd] in *.
      destruct (Qle_bool (d_dist r) (t_d t + abs_err) && Qle_bool (d_dist r) (t_d t * (1 + rel_err)))%bool eqn:B.
      + exists r. split; [reflexivity|]. split; [assumption|]. split; [apply Qle_refl|].
        apply andb_true_iff in B as [B1 B2]. apply Qle_bool_iff in B1, B2.
        intros l Hl. assert (exists u, In u (contents q1) /\ entry u l) as (u & Hu & Eu).
        { clear -E1 Hl. induction E1 as [|u k ts ks Huk F IHF]; [destruct Hl|]. destruct Hl as [<-|Hl]; [exists u; split; [now left|assumption]|].
          destruct (IHF Hl) as (u' & Hu' & Eu'). exists u'. split; [now right|assumption]. }
        destruct Eu as [_ Lu]. apply fine_of_bound with (t_d t); auto.
        intros i j d pts Hi Hj A. eapply Qle_trans; [apply M2; exact Hu|]. eapply Lu; eauto.
      + rewrite (wsum_perm _ _ PL) in W1. change (wsum ((k1, k2) :: lsr)) with (weight (k1, k2) + wsum lsr) in W1.
        destruct (IH (Some q2) (t_data t) k1 k2 lsr r) as (r' & E' & R' & D' & F' & FL');
          [assumption|congruence|lia|assumption|assumption|lia|assumption|].
        exists r'. split; [exact E'|]. split; [assumption|]. split; [assumption|]. intros l Hl.
        apply (Permutation_in _ PL) in Hl. destruct Hl as [<-|Hl]; auto. }
  destruct (step _ _ _ HG) as [(t1 & t2 & i & j & -> & -> & -> & T1 & T2)|(-> & pa & a1 & a2 & pc & c1 & c2 & la1 & la2 & lc1 & lc2 & EQ & GA & A1 & A2 & GC & C1 & C2 & SP)].
  - destruct (tri_update_ok res t1 t2 i j HR T1 T2) as (R1 & D1 & F1). pose proof (weight_pos _ _ _ HG).
    destruct (NX q ls _ Gq Zq ltac:(lia) Eq ltac:(lia) R1) as (r' & E' & R' & D' & F').
    exists r'. split; [exact E'|]. split; [assumption|]. split; [eapply Qle_trans; eassumption|].
    split; [|assumption]. eapply all_fine_mono; eassumption.
  - destruct (good_nonempty _ _ _ GA), (good_nonempty _ _ _ GC).
    destruct (Nat.eqb_spec (q_n q) (q_size q - 1)) as [EN|NN].
    + assert (WL : 1 <= wsum ls).
      { assert (LC : length (contents q) = length ls) by (clear -Eq; induction Eq; cbn; congruence). unfold contents in LC. rewrite map_length, seq_length in LC.
        destruct ls as [|[k1 k2] ls']; [cbn in LC; lia|]. inversion Eq as [|t ? ts ? [He _] _ E1 E2]. cbn [fst snd] in He. pose proof (weight_pos _ _ _ He).
        unfold wsum. cbn [map list_sum fold_right]. lia. }
      destruct (IH None p l1 l2 [] res) as (r1 & -> & R1 & D1 & F1 & _); auto.
      { apply new_good. }
      { cbn. lia. }
      { constructor. }
      { unfold wsum. cbn [map list_sum fold_right]. lia. }
      pose proof (weight_pos _ _ _ HG).
      destruct (NX q ls r1 Gq Zq ltac:(lia) Eq ltac:(lia) R1) as (r' & E' & R' & D' & F').
      exists r'. split; [exact E'|]. split; [assumption|]. split; [eapply Qle_trans; eassumption|].
      split; [|assumption]. eapply all_fine_mono; eassumption.
    + rewrite EQ. pose proof (good_lower _ _ _ _ _ GA A1 A2) as LA. pose proof (good_lower _ _ _ _ _ GC C1 C2) as LC.
      set (d1 := g_bvdist g (fst (fst pa)) (vol a1) (vol a2)) in *. set (d2 := g_bvdist g (fst (fst pc)) (vol c1) (vol c2)) in *.
      destruct (add_ok q (Test d1 pa) Gq ltac:(lia)) as (q1 & -> & G1 & Z1 & N1 & P1).
      destruct (add_ok q1 (Test d2 pc) G1 ltac:(lia)) as (q2 & -> & G2 & Z2 & N2 & P2).
      assert (E2 : Forall2 entry (Test d2 pc :: Test d1 pa :: contents q) ((lc1, lc2) :: (la1, la2) :: ls)).
      { constructor; [split; assumption|]. constructor; [split; assumption|assumption]. }
      assert (P3 : Permutation (Test d2 pc :: Test d1 pa :: contents q) (contents q2)) by (rewrite P2; apply perm_skip; now symmetry).
      destruct (entries_perm _ _ _ P3 E2) as (ls2 & PL & F2).
      assert (W2 := wsum_perm _ _ PL). assert (W3 := split_weight l1 l2 la1 la2 lc1 lc2 ltac:(lia) ltac:(lia) ltac:(lia) ltac:(lia) SP).
      assert (W4 : wsum ((lc1, lc2) :: (la1, la2) :: ls) = weight (lc1, lc2) + (weight (la1, la2) + wsum ls)) by reflexivity.
      destruct (NX q2 ls2 res G2 ltac:(congruence) ltac:(lia) F2 ltac:(lia) HR) as (r' & E' & R' & D' & F').
      exists r'. split; [exact E'|]. split; [assumption|]. split; [assumption|]. split.
      * apply (split_fine _ _ _ _ _ _ _ SP).
        -- apply (F' (la1, la2)). apply (Permutation_in _ PL). right; now left.
        -- apply (F' (lc1, lc2)). apply (Permutation_in _ PL). now left.
      * intros l Hl. apply F', (Permutation_in _ PL). right; now right.
Qed.
End Distance.

Section Tolerance.
Hypothesis Hbv : bvdist_sound g o1 o2 x0.
Variable tol : Q.

Definition far (l1 l2 : list nat) : Prop := forall i j d pts, In i l1 -> In j l2 -> apart g o1 o2 i j d pts -> (tol < d)%Q.
Definition near (l1 l2 : list nat) (d : Q) (pts : P) : Prop := exists i j, In i l1 /\ In j l2 /\ apart g o1 o2 i j d pts /\ (d <= tol)%Q.
Definition outcome (r : tol_res P) (l1 l2 : list nat) : Prop :=
  match r with Some (d, pts) => near l1 l2 d pts | None => far l1 l2 end.

Lemma split_far : forall l1 l2 la1 la2 lc1 lc2,
  ((l1 = la1 ++ lc1 /\ la2 = l2 /\ lc2 = l2) \/ (l2 = la2 ++ lc2 /\ la1 = l1 /\ lc1 = l1)) -> far la1 la2 -> far lc1 lc2 -> far l1 l2.
Proof.
  intros l1 l2 la1 la2 lc1 lc2 [(-> & -> & ->)|(-> & -> & ->)] HA HC i j d pts Hi Hj A.
  - apply in_app_or in Hi as [Hi|Hi]; eauto.
  - apply in_app_or in Hj as [Hj|Hj]; eauto.
Qed.
Lemma split_near : forall l1 l2 la1 la2 lc1 lc2 d pts,
  ((l1 = la1 ++ lc1 /\ la2 = l2 /\ lc2 = l2) \/ (l2 = la2 ++ lc2 /\ la1 = l1 /\ lc1 = l1)) ->
  near la1 la2 d pts \/ near lc1 lc2 d pts -> near l1 l2 d pts.
Proof.
  intros l1 l2 la1 la2 lc1 lc2 d pts [(-> & -> & ->)|(-> & -> & ->)] [(i & j & Hi & Hj & A)|(i & j & Hi & Hj & A)];
    exists i, j; (split; [|split; [|exact A]]); auto using in_or_app.
Qed.

Lemma tri_outcome : forall t1 t2 i j d pts, nth_error (m_tris o1) i = Some t1 -> nth_error (m_tris o2) j = Some t2 ->
  g_tridist g (corners t1) (corners t2) = (d, pts) -> outcome (if Qle_bool d tol then Some (d, pts) else None) [i] [j].
Proof.
  intros t1 t2 i j d pts T1 T2 E. destruct (Qle_bool d tol) eqn:B; cbn.
  - apply Qle_bool_iff in B. exists i, j. split; [now left|]. split; [now left|]. split; [exists t1, t2; auto|assumption].
  - intros i' j' d' pts' [<-|[]] [<-|[]] (u1 & u2 & U1 & U2 & E'). rewrite T1 in U1. rewrite T2 in U2. injection U1 as <-. injection U2 as <-.
    rewrite E in E'. injection E' as <- <-. apply Qnot_le_lt. intros K. apply Qle_bool_iff in K. congruence.
Qed.

Lemma lower_far : forall d l1 l2, lower d l1 l2 -> Qle_bool d tol = false -> far l1 l2.
Proof.
  intros d l1 l2 HL HB i j d' pts Hi Hj A. eapply Qlt_le_trans; [|eapply HL; eauto]. apply Qnot_le_lt. intros K. apply Qle_bool_iff in K. congruence.
Qed.

Lemma tolerance_ok : forall fuel p l1 l2, good_pair p l1 l2 -> length l1 + length l2 < fuel ->
  exists r, tolerance g o1 o2 tol fuel None p = Some r /\ outcome r l1 l2.
Proof.
  induction fuel as [|fuel IH]; intros p l1 l2 HG Hf; [lia|]. cbn [tolerance].
  destruct (step _ _ _ HG) as [(t1 & t2 & i & j & -> & -> & -> & T1 & T2)|(-> & pa & a1 & a2 & pc & c1 & c2 & la1 & la2 & lc1 & lc2 & -> & GA & A1 & A2 & GC & C1 & C2 & SP)].
  - eexists. split; [reflexivity|]. unfold tol_update. destruct (g_tridist g (corners t1) (corners t2)) as [d pts] eqn:E.
    exact (tri_outcome _ _ _ _ _ _ T1 T2 E).
  - destruct (good_nonempty _ _ _ GA), (good_nonempty _ _ _ GC).
    destruct (split_length l1 l2 la1 la2 lc1 lc2) as [S1 S2]; auto.
    pose proof (good_lower Hbv _ _ _ _ _ GA A1 A2) as LA. pose proof (good_lower Hbv _ _ _ _ _ GC C1 C2) as LC.
    set (d1 := g_bvdist g (fst (fst pa)) (vol a1) (vol a2)) in *. set (d2 := g_bvdist g (fst (fst pc)) (vol c1) (vol c2)) in *.
    assert (VI : forall d p k1 k2, good_pair p k1 k2 -> length k1 + length k2 < fuel -> lower d k1 k2 ->
      exists r, (if Qle_bool d tol then tolerance g o1 o2 tol fuel None p else Some None) = Some r /\ outcome r k1 k2).
    { intros d p' k1 k2 Gp Lp LL. destruct (Qle_bool d tol) eqn:B; [now apply IH|]. exists None. split; [reflexivity|]. exact (lower_far _ _ _ LL B). }
    destruct (VI d1 pa la1 la2 GA ltac:(lia) LA) as (ra & Ea & Oa). destruct (VI d2 pc lc1 lc2 GC ltac:(lia) LC) as (rc & Ec & Oc).
    unfold tol_res in *. destruct (qlt d2 d1).
    + rewrite Ec. destruct rc as [[d pts]|].
      * exists (Some (d, pts)). split; [reflexivity|]. apply (split_near _ _ _ _ _ _ _ _ SP). now right.
      * exists ra. split; [exact Ea|]. destruct ra as [[d pts]|].
        -- apply (split_near _ _ _ _ _ _ _ _ SP). now left.
        -- exact (split_far _ _ _ _ _ _ SP Oa Oc).
    + rewrite Ea. destruct ra as [[d pts]|].
      * exists (Some (d, pts)). split; [reflexivity|]. apply (split_near _ _ _ _ _ _ _ _ SP). now left.
      * exists rc. split; [exact Ec|]. destruct rc as [[d pts]|].
        -- apply (split_near _ _ _ _ _ _ _ _ SP). now right.
        -- exact (split_far _ _ _ _ _ _ SP Oa Oc).
Qed.

Definition outcomes (r : tol_res P) (ls : list (list nat * list nat)) : Prop :=
  match r with
  | Some (d, pts) => exists l, In l ls /\ near (fst l) (snd l) d pts
  | None => forall l, In l ls -> far (fst l) (snd l)
  end.

Variable qsize : nat.
Variable junk : nat -> nat -> test (pair X) * nat.
Hypothesis Hq : 2 < qsize.

Lemma entry_in : forall ts ls l, Forall2 entry ts ls -> In l ls -> exists u, In u ts /\ entry u l.
Proof.
  intros ts ls l F Hl. induction F as [|u k ts ks Huk F IHF]; [destruct Hl|]. destruct Hl as [<-|Hl]; [exists u; split; [now left|assumption]|].
  destruct (IHF Hl) as (u' & Hu' & Eu'). exists u'. split; [now right|assumption].
Qed.

Lemma add_close_ok : forall q t k ls, good q -> q_n q < q_size q -> Forall2 entry (contents q) ls -> entry t k ->
  exists q' ls', add_close tol q t = Some q' /\ good q' /\ q_size q' = q_size q /\ q_n q' <= S (q_n q) /\
    Forall2 entry (contents q') ls' /\ wsum ls' <= weight k + wsum ls /\
    (far (fst k) (snd k) /\ Permutation ls' ls \/ Permutation ls' (k :: ls)).
Proof.
  intros q t k ls Gq Nq Eq Ek. unfold add_close. destruct (Qle_bool (t_d t) tol) eqn:B.
  - destruct (add_ok q t Gq Nq) as (q1 & -> & G1 & Z1 & N1 & P1).
    destruct (entries_perm (t :: contents q) (contents q1) (k :: ls)) as (ls' & PL & FL); [now symmetry|now constructor|].
    exists q1, ls'. split; [reflexivity|]. split; [assumption|]. split; [assumption|]. split; [lia|]. split; [assumption|].
    split; [rewrite <- (wsum_perm _ _ PL); change (wsum (k :: ls)) with (weight k + wsum ls); lia|]. right. now symmetry.
  - exists q, ls. split; [reflexivity|]. split; [assumption|]. split; [reflexivity|]. split; [lia|]. split; [assumption|]. split; [lia|].
    left. split; [|reflexivity]. destruct Ek as [_ L]. exact (lower_far _ _ _ L B).
Qed.

Lemma queue_tolerance_ok : forall fuel oq p l1 l2 ls res,
  let q := match oq with Some q => q | None => new_queue qsize (junk fuel) end in
  good q -> q_size q = qsize -> q_n q <= qsize - 1 -> Forall2 entry (contents q) ls ->
  good_pair p l1 l2 -> weight (l1, l2) + wsum ls < fuel ->
  exists r, queue_tolerance g o1 o2 tol qsize junk fuel oq res p = Some r /\ outcomes r ((l1, l2) :: ls).
Proof.
  induction fuel as [|fuel IH]; intros oq p l1 l2 ls res q Gq Zq Nq Eq HG Hf; [lia|]. cbn [queue_tolerance]. fold q.
  set (next := fun (q : queue (pair X)) =>
        if q_n q =? 0 then Some None
        else
          match min_test q with
          | None => None
          | Some m =>
              if qlt tol m then Some None
              else
                match extract_min q with
                | None => None
                | Some (t, q) => queue_tolerance g o1 o2 tol qsize junk fuel (Some q) None (t_data t)
                end
          end).
  assert (NX : forall q1 ls1, good q1 -> q_size q1 = qsize -> q_n q1 <= qsize -> Forall2 entry (contents q1) ls1 -> wsum ls1 < fuel ->
     exists r, next q1 = Some r /\ outcomes r ls1).
  { intros q1 ls1 G1 Z1 N1 E1 W1. unfold next. destruct (Nat.eqb_spec (q_n q1) 0) as [E0|N0].
    - exists None. split; [reflexivity|]. intros l Hl.
      unfold contents in E1. rewrite E0 in E1. inversion E1 as [HA HB|]. rewrite <- HB in Hl. destruct Hl.
    - destruct (extract_ok q1 G1 ltac:(lia)) as (t & q2 & E2 & G2 & Z2 & N2 & P2 & M2 & K2).
      unfold min_test. rewrite K2. destruct (qlt tol (t_d t)) eqn:B.
      + exists None. split; [reflexivity|]. intros l Hl. apply qlt_iff in B.
        destruct (entry_in _ _ _ E1 Hl) as (u & Hu & _ & Lu). intros i j d pts Hi Hj A.
        eapply Qlt_le_trans; [exact B|]. eapply Qle_trans; [apply M2; exact Hu|]. eapply Lu; eauto.
      + rewrite E2. destruct (entries_perm _ _ _ P2 E1) as (ls2 & PL & F2). inversion F2 as [|t0 [k1 k2] ts0 lsr He Fr HA HB]. subst t0 ts0 ls2.
        destruct He as [He1 He2]. cbn [fst snd] in *.
        rewrite (wsum_perm _ _ PL) in W1. change (wsum ((k1, k2) :: lsr)) with (weight (k1, k2) + wsum lsr) in W1.
        destruct (IH (Some q2) (t_data t) k1 k2 lsr None) as (r & E' & O');
          [assumption|congruence|lia|assumption|assumption|lia|].
        exists r. split; [exact E'|]. destruct r as [[d pts]|].
        * destruct O' as (l & Hl & Nl). exists l. split; [apply (Permutation_in _ (Permutation_sym PL)); assumption|assumption].
        * intros l Hl. apply O'. now apply (Permutation_in _ PL). }
  assert (push : forall r k ks, outcomes r ks -> (r = None -> far (fst k) (snd k)) -> outcomes r (k :: ks)).
  { intros [[d pts]|] k ks; cbn.
    - intros (l & Hl & N) _. exists l. auto.
    - intros F K l [<-|Hl]; auto. }
  destruct (step _ _ _ HG) as [(t1 & t2 & i & j & -> & -> & -> & T1 & T2)|(-> & pa & a1 & a2 & pc & c1 & c2 & la1 & la2 & lc1 & lc2 & EQ & GA & A1 & A2 & GC & C1 & C2 & SP)].
  - destruct (g_tridist g (corners t1) (corners t2)) as [d pts] eqn:E. pose proof (tri_outcome _ _ _ _ _ _ T1 T2 E) as TO.
    pose proof (weight_pos _ _ _ HG). destruct (Qle_bool d tol) eqn:B.
    + exists (Some (d, pts)). split; [reflexivity|]. exists ([i], [j]). split; [now left|exact TO].
    + destruct (NX q ls Gq Zq ltac:(lia) Eq ltac:(lia)) as (r & E' & O'). exists r. split; [exact E'|]. apply push; [assumption|]. intros _. exact TO.
  - destruct (good_nonempty _ _ _ GA), (good_nonempty _ _ _ GC).
    destruct (Nat.eqb_spec (q_n q) (q_size q - 1)) as [EN|NN].
    + assert (WL : 1 <= wsum ls).
      { assert (LC : length (contents q) = length ls) by (clear -Eq; induction Eq; cbn; congruence). unfold contents in LC. rewrite map_length, seq_length in LC.
        destruct ls as [|[k1 k2] ls']; [cbn in LC; lia|]. inversion Eq as [|t ? ts ? [He _] _ E1 E2]. cbn [fst snd] in He. pose proof (weight_pos _ _ _ He).
        unfold wsum. cbn [map list_sum fold_right]. lia. }
      destruct (IH None p l1 l2 [] res) as (r1 & -> & O1); auto.
      { apply new_good. }
      { cbn. lia. }
      { constructor. }
      { unfold wsum. cbn [map list_sum fold_right]. lia. }
      pose proof (weight_pos _ _ _ HG). destruct r1 as [[d pts]|].
      * exists (Some (d, pts)). split; [reflexivity|]. destruct O1 as (l & [<-|[]] & Nl). exists (l1, l2). split; [now left|assumption].
      * destruct (NX q ls Gq Zq ltac:(lia) Eq ltac:(lia)) as (r & E' & O'). exists r. split; [exact E'|]. apply push; [assumption|].
        intros _. exact (O1 (l1, l2) (or_introl eq_refl)).
    + rewrite EQ. pose proof (good_lower Hbv _ _ _ _ _ GA A1 A2) as LA. pose proof (good_lower Hbv _ _ _ _ _ GC C1 C2) as LC.
      set (d1 := g_bvdist g (fst (fst pa)) (vol a1) (vol a2)) in *. set (d2 := g_bvdist g (fst (fst pc)) (vol c1) (vol c2)) in *.
      destruct (add_close_ok q (Test d1 pa) (la1, la2) ls Gq ltac:(lia) Eq (conj GA LA)) as (q1 & ls1 & -> & G1 & Z1 & N1 & E1 & W1 & K1).
      destruct (add_close_ok q1 (Test d2 pc) (lc1, lc2) ls1 G1 ltac:(lia) E1 (conj GC LC)) as (q2 & ls2 & -> & G2 & Z2 & N2 & E2 & W2 & K2).
      assert (W3 := split_weight l1 l2 la1 la2 lc1 lc2 ltac:(lia) ltac:(lia) ltac:(lia) ltac:(lia) SP).
      destruct (NX q2 ls2 G2 ltac:(congruence) ltac:(lia) E2 ltac:(lia)) as (r & E' & O'). exists r. split; [exact E'|].
      cbn [fst snd] in *. destruct r as [[d pts]|].
      * destruct O' as (l & Hl & Nl).
        assert (D : In l ls \/ l = (la1, la2) \/ l = (lc1, lc2)).
        { destruct K2 as [[_ K2]|K2]; apply (Permutation_in _ K2) in Hl; [|destruct Hl as [<-|Hl]; [auto|]];
            (destruct K1 as [[_ K1]|K1]; apply (Permutation_in _ K1) in Hl; [auto|destruct Hl as [<-|Hl]; auto]). }
        destruct D as [D|[->| ->]].
        -- exists l. split; [now right|assumption].
        -- exists (l1, l2). split; [now left|]. apply (split_near _ _ _ _ _ _ _ _ SP). now left.
        -- exists (l1, l2). split; [now left|]. apply (split_near _ _ _ _ _ _ _ _ SP). now right.
      * assert (F1 : forall l, In l ls1 -> far (fst l) (snd l)).
        { intros l Hl. apply O'. destruct K2 as [[_ K2]|K2]; apply (Permutation_in _ (Permutation_sym K2)); [assumption|now right]. }
        assert (FC : far lc1 lc2). { destruct K2 as [[K2 _]|K2]; [assumption|]. apply (O' (lc1, lc2)), (Permutation_in _ (Permutation_sym K2)). now left. }
        assert (FA : far la1 la2). { destruct K1 as [[K1 _]|K1]; [assumption|]. apply (F1 (la1, la2)), (Permutation_in _ (Permutation_sym K1)). now left. }
        intros l [<-|Hl]; [exact (split_far _ _ _ _ _ _ SP FA FC)|]. apply F1.
        destruct K1 as [[_ K1]|K1]; apply (Permutation_in _ (Permutation_sym K1)); [assumption|now right].
Qed.
End Tolerance.
End Proofs.
