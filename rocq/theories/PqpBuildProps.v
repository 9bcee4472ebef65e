(** C54: the construction of PQP models, and the queries on constructed models. *)
From Coq Require Import List ZArith QArith Qminmax Bool PeanoNat Permutation Lia Lqa.
From Verif Require Import QueueModel PqpModel PqpSpec PqpProofs PqpProps PqpBuildModel PqpBuildSpec PqpBuildProofs.
Import ListNotations.
Open Scope nat_scope.

Section Props.
Context {V G P X : Type}.

(** Building a model from any triangles, however the splitting plane divides them, stays inside the array of
    2 n - 1 volumes, terminates, and gives a tree with every triangle below the root once and every volume fitted to
    the triangles below it. *)
Theorem C54_build : forall (bd : builder V G) junk tris, tris <> [] ->
  exists m, build_model bd junk tris = Some m /\ built bd tris m.
Proof. exact build_model_ok. Qed.

(** BeginModel, AddTri for each triangle and EndModel on a new model all return PQP_OK and give the built model, which
    can be destroyed. *)
Theorem C54_protocol : forall (bd : builder V G) junk tris, tris <> [] ->
  exists m, pcalls bd pm_new ([Begin] ++ map AddT tris ++ [End junk]) = Some (m, map (fun _ => PQP_OK) ([Begin] ++ map AddT tris ++ [End junk])) /\
    pm_phase m = Processed /\ built bd tris (pm_model m) /\ destroy m = true.
Proof.
  intros bd junk tris H.
  assert (AP : forall cs1 cs2 (m : pmodel V G), pcalls bd m (cs1 ++ cs2) = match pcalls bd m cs1 with
     | Some (m', ss) => match pcalls bd m' cs2 with Some (m'', ss') => Some (m'', ss ++ ss') | None => None end | None => None end).
  { induction cs1 as [|c cs1 IH]; intros cs2 m; cbn [app pcalls].
    - destruct (pcalls bd m cs2) as [[]|]; reflexivity.
    - destruct (pstep bd m c) as [[m1 s1]|]; [|reflexivity]. rewrite IH. destruct (pcalls bd m1 cs1) as [[m2 ss]|]; [|reflexivity].
      destruct (pcalls bd m2 cs2) as [[]|]; reflexivity. }
  rewrite AP. cbn [pcalls pstep begin_model pm_new pm_phase pm_b].
  destruct (add_all bd tris (PModel Begun Null (Model [] []))) as (m1 & E1 & P1 & Q1 & T1); [discriminate|exact H|].
  rewrite AP, E1. cbn [pcalls pstep]. unfold end_model. rewrite P1, T1. cbn [pm_model m_tris app].
  destruct (build_model_ok bd junk tris H) as (mo & E & B). destruct tris as [|t ts]; [contradiction|]. rewrite E.
  eexists. split; [|split; [|split]].
  - cbn [map app]. rewrite !map_app, map_map. reflexivity.
  - reflexivity.
  - exact B.
  - reflexivity.
Qed.

(** After any history of calls a processed model can be destroyed and begun again. *)
Theorem C54_processed_defined : forall (bd : builder V G) cs m ss, pcalls bd pm_new cs = Some (m, ss) ->
  pm_phase m <> Begun -> destroy m = true /\ forall c, pstep bd m c <> None.
Proof.
  intros bd cs m ss E H.
  assert (C : consistent m). { eapply pcalls_consistent; [|exact E]. cbn. auto. }
  destruct m as [ph b mo]. unfold consistent in C. cbn [pm_phase pm_b pm_model] in *. destruct ph; [..|]; try contradiction.
  - destruct C as [-> E2]. split; [reflexivity|]. intros [|t|j]; cbn; try discriminate. rewrite E2. discriminate.
  - subst b. split; [reflexivity|]. intros [|t|j]; cbn; discriminate.
Qed.

(** But BeginModel on a processed model deletes the volumes without resetting the pointer: a second BeginModel, or the
    destruction of the model before the next EndModel, deletes them again. *)
Theorem C54_begin_twice_refuted : forall (bd : builder V G) junk tris, tris <> [] ->
  pcalls bd pm_new ([Begin] ++ map AddT tris ++ [End junk] ++ [Begin; Begin]) = None /\
  exists m ss, pcalls bd pm_new ([Begin] ++ map AddT tris ++ [End junk] ++ [Begin]) = Some (m, ss) /\ destroy m = false.
Proof.
  intros bd junk tris H. destruct (C54_protocol bd junk tris H) as (m & E & Hp & _ & D).
  assert (AP : forall cs1 cs2 (m : pmodel V G), pcalls bd m (cs1 ++ cs2) = match pcalls bd m cs1 with
     | Some (m', ss) => match pcalls bd m' cs2 with Some (m'', ss') => Some (m'', ss ++ ss') | None => None end | None => None end).
  { induction cs1 as [|c cs1 IH]; intros cs2 m'; cbn [app pcalls].
    - destruct (pcalls bd m' cs2) as [[]|]; reflexivity.
    - destruct (pstep bd m' c) as [[m1 s1]|]; [|reflexivity]. rewrite IH. destruct (pcalls bd m1 cs1) as [[m2 ss]|]; [|reflexivity].
      destruct (pcalls bd m2 cs2) as [[]|]; reflexivity. }
  assert (C : consistent m). { eapply pcalls_consistent; [|exact E]. cbn. auto. }
  unfold consistent in C. rewrite Hp in C.
  replace ([Begin] ++ map AddT tris ++ [End junk] ++ [Begin; Begin]) with (([Begin] ++ map AddT tris ++ [End junk]) ++ [Begin; Begin]) by (now rewrite <- !app_assoc).
  replace ([Begin] ++ map AddT tris ++ [End junk] ++ [Begin]) with (([Begin] ++ map AddT tris ++ [End junk]) ++ [Begin]) by (now rewrite <- !app_assoc).
  rewrite (AP _ [Begin; Begin]), (AP ([Begin] ++ map AddT tris ++ [End junk]) [Begin]), E. cbn [pcalls pstep]. unfold begin_model. rewrite Hp, C. cbn. split; [reflexivity|]. eexists _, _. split; [reflexivity|]. reflexivity.
Qed.

(** On constructed models, with volumes that contain the triangles they are fitted to, a collision query reports exactly
    the touching pairs of the triangles that were added. *)
Theorem C54_collide : forall (bd : builder V G) (g : geometry V G P X) start placed tris1 tris2 junk1 junk2,
  laws bd g start placed -> tris1 <> [] -> tris2 <> [] ->
  exists o1 o2 r1 r2 fuel0, build_model bd junk1 tris1 = Some o1 /\ build_model bd junk2 tris2 = Some o2 /\
    nth_error (m_bvs o1) 0 = Some r1 /\ nth_error (m_bvs o2) 0 = Some r2 /\
    forall fuel, fuel0 <= fuel -> exists r, pqp_collide g o1 o2 fuel false (start (vol r1) (vol r2)) = Some r /\
      Permutation r (touching g tris1 tris2).
Proof.
  intros bd g start placed tris1 tris2 junk1 junk2 L H1 H2.
  destruct (build_model_ok bd junk1 tris1 H1) as (o1 & E1 & B1), (build_model_ok bd junk2 tris2 H2) as (o2 & E2 & B2).
  assert (R1 := B1). destruct R1 as (_ & _ & T1 & _). assert (R2 := B2). destruct R2 as (_ & _ & T2 & _).
  destruct (tree_inv _ _ _ T1) as (r1 & R1 & _), (tree_inv _ _ _ T2) as (r2 & R2 & _).
  destruct (C51_all_contacts g o1 o2 (start (vol r1) (vol r2))) as (f0 & F).
  - exact (built_complete bd tris1 o1 B1).
  - exact (built_complete bd tris2 o2 B2).
  - exact (built_overlap_sound bd g start placed L tris1 tris2 o1 o2 B1 B2 r1 r2 R1 R2).
  - exists o1, o2, r1, r2, f0. split; [exact E1|]. split; [exact E2|]. split; [exact R1|]. split; [exact R2|].
    intros fuel Hf. destruct (F fuel Hf) as (r & E & HP). exists r. split; [exact E|]. rewrite HP.
    exact (all_contacts_touching bd g tris1 tris2 o1 o2 B1 B2).
Qed.

(** A distance query on them, without allowed errors, returns the least distance of two of the added triangles. *)
Theorem C54_distance : forall (bd : builder V G) (g : geometry V G P X) start placed tris1 tris2 junk1 junk2 qsize junk,
  laws bd g start placed -> tris1 <> [] -> tris2 <> [] ->
  exists o1 o2 r1 r2 fuel0, build_model bd junk1 tris1 = Some o1 /\ build_model bd junk2 tris2 = Some o2 /\
    nth_error (m_bvs o1) 0 = Some r1 /\ nth_error (m_bvs o2) 0 = Some r2 /\
    forall fuel last1 last2, fuel0 <= fuel -> last1 < length tris1 -> last2 < length tris2 -> exists r,
      pqp_distance g o1 o2 0 0 qsize junk fuel last1 last2 (start (vol r1) (vol r2)) = Some r /\
      (exists t1 t2, In t1 tris1 /\ In t2 tris2 /\ g_tridist g (corners t1) (corners t2) = (d_dist r, d_pts r) /\
         d_id1 r = tri_id t1 /\ d_id2 r = tri_id t2) /\
      (forall t1 t2, In t1 tris1 -> In t2 tris2 -> (d_dist r <= fst (g_tridist g (corners t1) (corners t2)))%Q).
Proof.
  intros bd g start placed tris1 tris2 junk1 junk2 qsize junk L H1 H2.
  destruct (build_model_ok bd junk1 tris1 H1) as (o1 & E1 & B1), (build_model_ok bd junk2 tris2 H2) as (o2 & E2 & B2).
  assert (R1 := B1). destruct R1 as (P1 & _ & T1 & _). assert (R2 := B2). destruct R2 as (P2 & _ & T2 & _).
  destruct (tree_inv _ _ _ T1) as (r1 & R1 & _), (tree_inv _ _ _ T2) as (r2 & R2 & _).
  set (x0 := start (vol r1) (vol r2)).
  assert (BS : bvdist_sound g o1 o2 x0) by exact (built_bvdist_sound bd g start placed L tris1 tris2 o1 o2 B1 B2 r1 r2 R1 R2).
  assert (POS : forall i j d pts, apart g o1 o2 i j d pts -> (0 <= d)%Q).
  { intros i j d pts (t1 & t2 & _ & _ & E). replace d with (fst (g_tridist g (corners t1) (corners t2))) by now rewrite E. apply (law_positive _ _ _ _ L). }
  exists o1, o2, r1, r2, (S (length tris1 + length tris2) + 2 * (length tris1 * length tris2)). split; [exact E1|]. split; [exact E2|]. split; [exact R1|]. split; [exact R2|].
  intros fuel last1 last2 Hf HL1 HL2. fold x0.
  rewrite <- (Permutation_length P1) in HL1. rewrite <- (Permutation_length P2) in HL2.
  destruct (pqp_distance_ok g o1 o2 x0 0 0 qsize junk last1 last2 (seq 0 (length tris1)) (seq 0 (length tris2)) T1 T2) with (fuel := fuel)
    as (r & E & (t1 & t2 & N1 & N2 & D & I1 & I2) & M); auto.
  - rewrite (Permutation_length P1). reflexivity.
  - rewrite (Permutation_length P2). reflexivity.
  - apply Qle_refl.
  - apply Qle_refl.
  - rewrite !seq_length. exact Hf.
  - exists r. split; [exact E|]. split.
    + exists t1, t2. split; [apply (Permutation_in _ P1); eapply nth_error_In; eassumption|].
      split; [apply (Permutation_in _ P2); eapply nth_error_In; eassumption|]. auto.
    + intros u1 u2 U1 U2. apply (Permutation_in _ (Permutation_sym P1)) in U1. apply (Permutation_in _ (Permutation_sym P2)) in U2.
      apply In_nth_error in U1 as (i & U1). apply In_nth_error in U2 as (j & U2).
      destruct (g_tridist g (corners u1) (corners u2)) as [d pts] eqn:Ed. cbn [fst].
      destruct (M i j d pts) as [M1 _]; [exists u1, u2; auto|]. rewrite Qplus_0_r in M1. exact M1.
Qed.
End Props.
Print Assumptions C54_build.
Print Assumptions C54_protocol.
Print Assumptions C54_processed_defined.
Print Assumptions C54_begin_twice_refuted.
Print Assumptions C54_collide.
Print Assumptions C54_distance.

(** A concrete instance: segments on a line for triangles, intervals (left end relative to the parent, length) for volumes,
    the difference of the left ends for transformations. *)
Open Scope Q_scope.
Definition line_seg : Type := Q * Q.
(** Left and right end of the triangles. *)
Definition line_lo (ts : list (tri line_seg)) : Q := fold_right (fun t m => Qmin (fst (corners t)) m) (match ts with [] => 0 | t :: _ => fst (corners t) end) ts.
Definition line_hi (ts : list (tri line_seg)) : Q := fold_right (fun t m => Qmax (snd (corners t)) m) (match ts with [] => 0 | t :: _ => snd (corners t) end) ts.
Definition line_bd : builder (Q * Q) line_seg := Builder
  (fun ts => (line_lo ts, line_hi ts - line_lo ts)) (fun ts t => Qle_bool (fst (corners t) * 2) (line_lo ts + line_hi ts)) (fun p v => (fst v - fst p, snd v)) (0, 0).
Definition line_gap (a b : line_seg) : Q := Qmax 0 (Qmax (fst b - snd a) (fst a - snd b)).
Definition line_g : geometry (Q * Q) line_seg unit Q := Geometry (fun v => snd v) (fun x c => x - fst c) (fun x c => x + fst c)
  (fun x v1 v2 => Qle_bool x (snd v1) && Qle_bool 0 (x + snd v2)) (fun a b => Qle_bool (fst b) (snd a) && Qle_bool (fst a) (snd b))
  (fun x v1 v2 => Qmax 0 (Qmax (x - snd v1) (- (x + snd v2)))) (fun a b => (line_gap a b, tt)).
Definition line_start (v1 v2 : Q * Q) : Q := fst v2 - fst v1.
Definition line_placed (x : Q) (v1 v2 : Q * Q) : Prop := x == fst v2 - fst v1.

Lemma line_lo_le : forall ts t, In t ts -> line_lo ts <= fst (corners t).
Proof.
  assert (G1 : forall z (ts : list (tri line_seg)) t, In t ts -> fold_right (fun t m => Qmin (fst (corners t)) m) z ts <= fst (corners t)).
  { intros z ts t. induction ts as [|u ts IH]; intros H; [destruct H|]; destruct H as [->|H]; cbn [fold_right]; [apply Q.le_min_l|].
    eapply Qle_trans; [apply Q.le_min_r|exact (IH H)]. }
  intros ts t H. unfold line_lo. now apply G1.
Qed.
Lemma line_le_hi : forall ts t, In t ts -> snd (corners t) <= line_hi ts.
Proof.
  assert (G1 : forall z (ts : list (tri line_seg)) t, In t ts -> snd (corners t) <= fold_right (fun t m => Qmax (snd (corners t)) m) z ts).
  { intros z ts t. induction ts as [|u ts IH]; intros H; [destruct H|]; destruct H as [->|H]; cbn [fold_right]; [apply Q.le_max_l|].
    eapply Qle_trans; [exact (IH H)|apply Q.le_max_r]. }
  intros ts t H. unfold line_hi. now apply G1.
Qed.

Lemma line_laws : laws line_bd line_g line_start line_placed.
Proof.
  constructor; unfold line_placed, line_start, line_bd, line_g; cbn.
  - intros [a b] [c d]. cbn. lra.
  - intros x [a b] [c d] [e f] H. cbn in *. lra.
  - intros x [a b] [c d] [e f] H. cbn in *. lra.
  - intros x ts1 ts2 [a b] [c d] t1 t2 H I1 I2 C. apply andb_true_iff in C as [C1 C2]. apply Qle_bool_iff in C1, C2.
    pose proof (line_lo_le _ _ I1). pose proof (line_lo_le _ _ I2). pose proof (line_le_hi _ _ I1). pose proof (line_le_hi _ _ I2).
    unfold line_seg in *. apply andb_true_iff. split; apply Qle_bool_iff; rewrite H; cbn; lra.
  - intros x ts1 ts2 [a b] [c d] t1 t2 H I1 I2.
    pose proof (line_lo_le _ _ I1). pose proof (line_lo_le _ _ I2). pose proof (line_le_hi _ _ I1). pose proof (line_le_hi _ _ I2). unfold line_gap.
    apply Q.max_le_compat_l. apply Q.max_lub.
    + eapply Qle_trans; [|apply Q.le_max_l]. unfold line_seg in *. rewrite H. cbn. lra.
    + eapply Qle_trans; [|apply Q.le_max_r]. unfold line_seg in *. rewrite H. cbn. lra.
  - intros t1 t2. apply Q.le_max_l.
Qed.

Definition line_t (a b : Q) (i : Z) : tri line_seg := Tri (a, b) i.
Definition line_tris1 := [line_t 0 1 10; line_t 5 6 11; line_t 2 3 12; line_t (17 # 2) 9 13; line_t 1 2 14].
Definition line_tris2 := [line_t 4 5 20; line_t (12) 13 21; line_t 10 11 22].
Definition line_junk : bvol (Q * Q) := BVol 77 (8, 8).
Definition line_o1 := match build_model line_bd line_junk line_tris1 with Some o => o | None => Model [] [] end.
Definition line_o2 := match build_model line_bd line_junk line_tris2 with Some o => o | None => Model [] [] end.
Open Scope nat_scope.


Example line_built : built line_bd line_tris1 line_o1 /\ built line_bd line_tris2 line_o2.
Proof.
  unfold line_o1, line_o2. destruct (C54_build line_bd line_junk line_tris1) as (m & -> & B); [discriminate|].
  destruct (C54_build line_bd line_junk line_tris2) as (m' & -> & B'); [discriminate|]. auto.
Qed.
Example line_tree : map (fun b => first_child b) (m_bvs line_o1) = [1; 3; 7; 5; -3; -1; -2; -4; -5]%Z.
Proof. vm_compute. reflexivity. Qed.
Definition line_x : Q := match m_bvs line_o1, m_bvs line_o2 with v1 :: _, v2 :: _ => line_start (vol v1) (vol v2) | _, _ => 0%Q end.
Example line_collide : pqp_collide line_g line_o1 line_o2 20 false line_x = Some [(11, 20)]%Z.
Proof. vm_compute. reflexivity. Qed.
(** The hypotheses of C51-C53 hold for these models. *)
Example line_hypotheses : complete_tree line_o1 /\ complete_tree line_o2 /\ overlap_sound line_g line_o1 line_o2 line_x /\
  bvdist_sound line_g line_o1 line_o2 line_x /\ touching line_g line_tris1 line_tris2 = [(11, 20)]%Z /\
  forall i j d pts, apart line_g line_o1 line_o2 i j d pts -> (0 <= d)%Q.
Proof.
  destruct line_built as [B1 B2]. split; [exact (built_complete _ _ _ B1)|]. split; [exact (built_complete _ _ _ B2)|].
  destruct (nth_error (m_bvs line_o1) 0) as [r1|] eqn:R1; [|vm_compute in R1; discriminate].
  destruct (nth_error (m_bvs line_o2) 0) as [r2|] eqn:R2; [|vm_compute in R2; discriminate].
  assert (E : line_x = line_start (vol r1) (vol r2)).
  { unfold line_x. destruct (m_bvs line_o1); [discriminate|]. injection R1 as ->. destruct (m_bvs line_o2); [discriminate|]. injection R2 as ->. reflexivity. }
  rewrite E. split; [exact (built_overlap_sound _ _ _ _ line_laws _ _ _ _ B1 B2 _ _ R1 R2)|].
  split; [exact (built_bvdist_sound _ _ _ _ line_laws _ _ _ _ B1 B2 _ _ R1 R2)|]. split; [reflexivity|].
  intros i j d pts (t1 & t2 & _ & _ & K). cbn in K. injection K as <- _. apply Q.le_max_l.
Qed.
(** The distance between the right halves only, by both traversals. *)
Definition tris3 := [line_t 20 21 1; line_t 30 31 2; line_t 25 26 3].
Definition o3 := match build_model line_bd line_junk tris3 with Some o => o | None => Model [] [] end.
Definition line_x3 : Q := match m_bvs line_o1, m_bvs o3 with v1 :: _, v2 :: _ => line_start (vol v1) (vol v2) | _, _ => 0%Q end.
Definition some_junk (_ _ : nat) : test (pair Q) * nat := (Test 0%Q (0%Q, 0, 0), 0).
Example line_distance : forall qsize, In qsize [2; 4] ->
  exists r, pqp_distance line_g line_o1 o3 0 0 qsize some_junk 60 0 2 line_x3 = Some r /\ (d_dist r == 11)%Q /\ (d_id1 r, d_id2 r) = (13, 1)%Z.
Proof. intros q [<-|[<-|[]]]; (eexists; split; [vm_compute; reflexivity|]; split; reflexivity). Qed.
Example line_tolerance : forall qsize, In qsize [2; 4] ->
  (exists r, pqp_tolerance line_g line_o1 o3 12 qsize some_junk 60 line_x3 = Some (Some r) /\ (fst r == 11)%Q) /\
  pqp_tolerance line_g line_o1 o3 10 qsize some_junk 60 line_x3 = Some None.
Proof. intros q [<-|[<-|[]]]; (split; [eexists; split; [vm_compute; reflexivity|]; reflexivity|vm_compute; reflexivity]). Qed.
