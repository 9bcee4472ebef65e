(** C16, C17: workspace voxel data. *)
From Coq Require Import List ZArith Bool Lia.
From Verif Require Import WsDataModel WsDataSpec WsDataProofs.
Import ListNotations.
Open Scope Z_scope.

(** C16: after any history of calls on a new object, in any heap, the data is defined and reads as the map of the history;
    the blocks of other objects are as before. *)
Theorem C16_history : forall s adjust h cs, fits s -> sane h -> Forall (allowed s) cs ->
  exists h' w' m', wrun h (new_data s adjust) cs = Some (h', w') /\ w_sizes w' = s /\
    effects s adjust 1 (fun _ => 0) cs (w_min w') m' /\ reads h' w' m' /\
    (forall v, inside s v -> byte (m' v)) /\
    (forall p, h_block h p <> None -> h_block h' p = h_block h p).
Proof.
  intros s adjust h cs F Sh HA. destruct (reach_ok s F cs h adjust Sh HA) as (h' & w' & m' & E & [O R] & _ & HB & [_ [FR _]] & _ & EF & _).
  exists h', w', m'. split; [exact E|]. split; [exact (o_sizes _ _ _ O)|]. split; [exact EF|]. split; [exact R|]. split; [exact HB|].
  intros p Hp. apply FR; [now apply Sh|]. discriminate.
Qed.

(** C16: only increments, no adjustment on overflow: every voxel reads the number of its increments, at most 255. *)
Theorem C16_increments : forall s h vs, fits s -> sane h -> Forall (inside s) vs ->
  exists h' w', wrun h (new_data s false) (map CInc vs) = Some (h', w') /\
    forall v, inside s v -> get h' w' v = Some (Z.min (Z.of_nat (count_occ six_dec vs v)) 255).
Proof.
  intros s h vs F Sh HI.
  assert (HA : Forall (allowed s) (map CInc vs)) by (apply Forall_map; eapply Forall_impl; [|exact HI]; auto).
  destruct (reach_ok s F (map CInc vs) h false Sh HA) as (h' & w' & m' & E & [O R] & _ & _ & _ & _ & EF & _).
  exists h', w'. split; [exact E|]. intros v Hv. rewrite (R v) by now rewrite (o_sizes _ _ _ O). f_equal.
  rewrite (effects_increments s _ _ _ _ _ EF); [|..|exact Hv].
  - f_equal. cbn [Z.add]. clear. induction vs as [|u vs IH]; [reflexivity|]. unfold increments in *. cbn [map filter count_occ].
    destruct (six_dec u v) as [->|N]; [rewrite six_eqb_refl; cbn [length]; lia|rewrite six_eqb_neq by assumption; exact IH].
  - intros c Hc. apply in_map_iff in Hc as (u & <- & Hu). exists u. split; [reflexivity|]. rewrite Forall_forall in HI. now apply HI.
  - intros u _. lia.
Qed.

(** C16: the destructor of an object with any history deletes exactly the blocks of the object, each once: the heap is
    again what it was before the object was made. *)
Theorem C16_destroy : forall s adjust h cs, fits s -> sane h -> Forall (allowed s) cs ->
  exists h' w' h'', wrun h (new_data s adjust) cs = Some (h', w') /\ destroy h' w' = Some h'' /\ forall p, h_block h'' p = h_block h p.
Proof.
  intros s adjust h cs F Sh HA. destruct (reach_ok s F cs h adjust Sh HA) as (h' & w' & m' & E & [O R] & _ & _ & [L [FR LK]] & _).
  destruct (destroy_ok s F h' w' O) as (h'' & D & G & K). exists h', w', h''. split; [exact E|]. split; [exact D|]. intros p.
  destruct (Nat.ltb_spec p (h_next h)) as [Lt|Ge].
  - destruct (FR p Lt) as [E1 N1]; [discriminate|]. now rewrite (K p N1).
  - assert (HN : h_block h p = None). { destruct (h_block h p) eqn:Ep; [|reflexivity]. assert (p < h_next h)%nat by (apply Sh; congruence). lia. }
    destruct (h_block h'' p) as [b|] eqn:Ep; [|congruence].
    assert (NO : forall i, valid s i -> w_data w' i <> Some p) by (intros i Hi Ei; rewrite (G i p Hi Ei) in Ep; discriminate).
    rewrite (K p NO) in Ep. destruct (LK p) as [H1 _]; [congruence|assumption|contradiction].
Qed.

(** C16: a clone reads the same everywhere; afterwards the two objects are independent: whatever calls are made on both, in
    any order, each reads as if it were alone. *)
Theorem C16_clone : forall s adjust h cs ds, fits s -> size_tr s <= 2 ^ 31 -> sane h -> Forall (allowed s) cs ->
  Forall (fun c => allowed s (snd c)) ds ->
  exists h1 w1 m h2 w2, wrun h (new_data s adjust) cs = Some (h1, w1) /\ reads h1 w1 m /\
    clone h1 w1 = Some (h2, w2) /\ reads h2 w1 m /\ reads h2 w2 m /\
    (w_sizes w2, w_min w2, w_max w2, w_filled w2, w_adjust w2) = (w_sizes w1, w_min w1, w_max w1, w_filled w1, w_adjust w1) /\
    exists h3 w1' w2' m1 m2, wrun2 h2 w1 w2 ds = Some (h3, w1', w2') /\ reads h3 w1' m1 /\ reads h3 w2' m2 /\
      effects s adjust (w_min w1) m (calls_of true ds) (w_min w1') m1 /\
      effects s adjust (w_min w1) m (calls_of false ds) (w_min w2') m2.
Proof.
  intros s adjust h cs ds F Sm Sh HA HD. destruct (reach_ok s F cs h adjust Sh HA) as (h1 & w1 & m & E & [O R] & Hm & HB & _ & Adj & _ & _).
  destruct (clone_ok s F Sm h1 w1 O m R) as (h2 & w2 & Ec & S2 & S1 & NEW & _ & _ & E1 & E2 & E3 & E4).
  exists h1, w1, m, h2, w2. split; [exact E|]. split; [exact R|]. split; [exact Ec|]. split; [exact (proj2 S1)|]. split; [exact (proj2 S2)|]. split.
  { rewrite E1, E2, E3, E4, (o_sizes _ _ _ O), (o_sizes _ _ _ (proj1 S2)). reflexivity. }
  assert (AP : apart s s w1 w2).
  { intros i j p Hi Hj Ei Ej. assert (p < h_next h1)%nat by (apply (o_sane _ _ _ O); exact (o_live _ _ _ O i p Hi Ei)). pose proof (NEW j p Hj Ej). lia. }
  destruct (run2_ok s s F F ds h2 w1 w2 m m S1 S2 AP Hm ltac:(now rewrite E1) HB HB) as (h3 & w3 & w4 & m1 & m2 & Er & T1 & T2 & _ & G1 & G2).
  { eapply Forall_impl; [|exact HD]. intros [[] c]; auto. }
  exists h3, w3, w4, m1, m2. split; [exact Er|]. split; [exact (proj2 T1)|]. split; [exact (proj2 T2)|]. rewrite E1, E4, Adj in *. split; assumption.
Qed.

(** C16: beyond 2^31 positions the copy constructor leaves the array: its index is an [int]. *)
Theorem C16_clone_refuted : forall s h w, fits s -> w_sizes w = s -> 2 ^ 31 < size_tr s -> clone h w = None.
Proof. intros s h w F Sz HB. exact (clone_big s F h w Sz HB). Qed.

(** C16: two objects with separate histories, made one after the other in one heap, are independent. *)
Theorem C16_two_objects : forall s1 s2 a1 a2 h cs, fits s1 -> fits s2 -> sane h ->
  Forall (fun c : bool * wcall => allowed (if fst c then s1 else s2) (snd c)) cs ->
  exists h' w1 w2 m1 m2, wrun2 h (new_data s1 a1) (new_data s2 a2) cs = Some (h', w1, w2) /\ reads h' w1 m1 /\ reads h' w2 m2 /\
    effects s1 a1 1 (fun _ => 0) (calls_of true cs) (w_min w1) m1 /\ effects s2 a2 1 (fun _ => 0) (calls_of false cs) (w_min w2) m2.
Proof.
  intros s1 s2 a1 a2 h cs F1 F2 Sh HA.
  destruct (run2_ok s1 s2 F1 F2 cs h (new_data s1 a1) (new_data s2 a2) (fun _ => 0) (fun _ => 0)) as (h' & w1 & w2 & m1 & m2 & E & T1 & T2 & _ & G1 & G2); auto.
  - now apply new_ok.
  - now apply new_ok.
  - intros i j p _ _ K. discriminate.
  - unfold byte; cbn; lia.
  - unfold byte; cbn; lia.
  - intros v _. unfold byte. lia.
  - intros v _. unfold byte. lia.
  - exists h', w1, w2, m1, m2. split; [exact E|]. split; [exact (proj2 T1)|]. split; [exact (proj2 T2)|]. split; assumption.
Qed.

(** C17: as long as nothing is written explicitly as 0 (or by the bulk call), the reported number of filled voxels is the number
    of voxels that do not read 0, in [unsigned int] arithmetic. *)
Theorem C17_filled : forall s adjust h cs, fits s -> sane h -> Forall (allowed s) cs -> Forall no_zero cs ->
  exists h' w' m', wrun h (new_data s adjust) cs = Some (h', w') /\ reads h' w' m' /\ w_filled w' = nonzero s m' mod 2 ^ 32.
Proof.
  intros s adjust h cs F Sh HA HN. destruct (reach_ok s F cs h adjust Sh HA) as (h' & w' & m' & E & [O R] & _ & _ & _ & _ & _ & _ & C & _).
  exists h', w', m'. split; [exact E|]. split; [exact R|]. exact (C HN).
Qed.

(** C17: no voxel is above the reported maximum. *)
Theorem C17_maximum : forall s adjust h cs, fits s -> sane h -> Forall (allowed s) cs -> Forall not_rot cs ->
  exists h' w' m', wrun h (new_data s adjust) cs = Some (h', w') /\ reads h' w' m' /\ upper s (w_max w') m'.
Proof.
  intros s adjust h cs F Sh HA HN. destruct (reach_ok s F cs h adjust Sh HA) as (h' & w' & m' & E & [O R] & _ & _ & _ & _ & _ & U & _ & _).
  exists h', w', m'. split; [exact E|]. split; [exact R|]. exact (U HN).
Qed.

(** C17: when no single write lowers a voxel, the reported maximum is the largest value. *)
Theorem C17_maximum_exact : forall s adjust h cs, fits s -> sane h -> Forall (allowed s) cs -> Forall not_rot cs -> growing s adjust 1 (fun _ => 0) cs ->
  exists h' w' m', wrun h (new_data s adjust) cs = Some (h', w') /\ reads h' w' m' /\ upper s (w_max w') m' /\ attained s (w_max w') m'.
Proof.
  intros s adjust h cs F Sh HA HN HG. destruct (reach_ok s F cs h adjust Sh HA) as (h' & w' & m' & E & [O R] & _ & _ & _ & _ & _ & U & _ & T).
  exists h', w', m'. split; [exact E|]. split; [exact R|]. split; [exact (U HN)|exact (T HG HN)].
Qed.

(** A grid of 2 x 1 x 1 x 1 x 1 x 2 voxels. *)
Definition tiny : six := (2, 1, 1, 1, 1, 2).
Definition empty_heap : heap := Heap (fun _ => None) 0.
Definition va : six := (0, 0, 0, 0, 0, 0).
Definition vb : six := (0, 0, 0, 0, 0, 1).
Definition vc : six := (1, 0, 0, 0, 0, 1).
Lemma tiny_fits : fits tiny.
Proof. cbn. lia. Qed.
Lemma empty_sane : sane empty_heap.
Proof. intros p H. now elim H. Qed.
Definition summary (cs : list wcall) : option (list (option Z) * Z * Z) :=
  match wrun empty_heap (new_data tiny false) cs with
  | None => None
  | Some (h, w) => Some (map (get h w) (voxels tiny), w_filled w, w_max w)
  end.

(** C17 fails in general: writing 0 counts an empty voxel as filled, each time; ... *)
Theorem C17_filled_refuted : summary [CSet va 0; CSet va 0] = Some ([Some 0; Some 0; Some 0; Some 0], 2, 0).
Proof. vm_compute. reflexivity. Qed.
(** ... setting a filled voxel to 0 does not uncount it; ... *)
Theorem C17_filled_refuted_reset : summary [CSet va 7; CSet va 0] = Some ([Some 0; Some 0; Some 0; Some 0], 1, 7).
Proof. vm_compute. reflexivity. Qed.
(** ... overwriting the largest value by a smaller one keeps the old maximum; ... *)
Theorem C17_maximum_refuted : summary [CSet va 9; CSet va 3] = Some ([Some 3; Some 0; Some 0; Some 0], 1, 9).
Proof. vm_compute. reflexivity. Qed.
(** ... and binarizing empty data reports the maximum 1. *)
Theorem C17_binarize_refuted : summary [CBinarize] = Some ([Some 0; Some 0; Some 0; Some 0], 0, 1).
Proof. vm_compute. reflexivity. Qed.

(** C17: the sum of the values at one position, and the largest sum, are always reported as 0: the test for an allocated
    block is the wrong way round. *)
Theorem C17_sums_refuted : forall s adjust h cs, fits s -> sane h -> Forall (allowed s) cs ->
  exists h' w', wrun h (new_data s adjust) cs = Some (h', w') /\
    (forall p, place_inside s p -> sum_angles h' w' p = Some 0) /\ max_summed h' w' = Some 0.
Proof.
  intros s adjust h cs F Sh HA. destruct (reach_ok s F cs h adjust Sh HA) as (h' & w' & m' & E & [O R] & _).
  exists h', w'. split; [exact E|].
  assert (Z0 : forall p, place_inside s p -> sum_angles h' w' p = Some 0).
  { intros p Hp. destruct (flat_place s F p Hp) as [_ V]. unfold sum_angles.
    assert (HE : has_entry w' p = Some (match w_data w' (place_pos s p) with Some _ => true | None => false end)).
    { unfold has_entry. rewrite (o_sizes _ _ _ O). rewrite (ptr_valid s h' w' _ O V). destruct p as [[x y] z].
      assert (Hq := Hp). destruct s as [[[[[s0 s1] s2] s3] s4] s5]. cbn in Hq.
      destruct (Z.leb_spec s0 x), (Z.leb_spec s1 y), (Z.leb_spec s2 z); try lia. cbn [orb]. now destruct (w_data w' _). }
    rewrite HE. destruct (w_data w' (place_pos s p)) eqn:Ed; [reflexivity|]. rewrite (o_sizes _ _ _ O).
    destruct p as [[x y] z].
    etransitivity; [|apply (fold_zero (fun r : Z * Z * Z => let '(d, e, f) := r in get h' w' (x, y, z, d, e, f)) (rotations s))].
    - assert (EXT : forall l o, fold_left (fun (o : option Z) (r : Z * Z * Z) => match o with None => None | Some acc => let '(d, e, f) := r in
          match get h' w' (x, y, z, d, e, f) with Some g => Some (acc + g) | None => None end end) l o =
        fold_left (fun (o : option Z) (a : Z * Z * Z) => match o with None => None | Some acc =>
          match (let '(d, e, f) := a in get h' w' (x, y, z, d, e, f)) with Some x0 => Some (acc + x0) | None => None end end) l o).
      { induction l as [|[[d e] f] l IH]; intros o; [reflexivity|]. cbn [fold_left]. apply IH. }
      apply EXT.
    - intros [[d e] f] _. unfold get. rewrite (o_sizes _ _ _ O), pos_tr_place. cbn [place]. rewrite (ptr_valid s h' w' _ O V), Ed. reflexivity. }
  split; [exact Z0|]. unfold max_summed. rewrite (o_sizes _ _ _ O).
  assert (G : forall l, (forall p, In p l -> place_inside s p) ->
    fold_left (fun (o : option Z) p => match o with None => None | Some m => match sum_angles h' w' p with Some x => Some (if m <=? x then x else m) | None => None end end) l (Some 0) = Some 0).
  { induction l as [|p l IH]; intros HI; [reflexivity|]. cbn [fold_left]. rewrite Z0 by (apply HI; now left). cbn [Z.leb]. apply IH. intros q Hq. apply HI. now right. }
  apply G. intros p. apply in_places.
Qed.

(** Cases that meet the hypotheses. *)
Definition calls : list wcall := [CInc va; CInc va; CSet vc 200; CNeighbours vb 50 1; CMin 60; CBinarize; CInc va].
Example calls_ok : Forall (allowed tiny) calls /\ Forall not_rot calls /\ Forall no_zero calls.
Proof. unfold calls. split; [|split]; repeat constructor; cbn; unfold byte; lia. Qed.
Example calls_summary : summary calls = Some ([Some 51; Some 50; Some 50; Some 60], 4, 60).
Proof. vm_compute. reflexivity. Qed.
Example grows_ok : growing tiny false 1 (fun _ => 0) [CSet va 7; CInc va; CBinarize].
Proof.
  constructor; [cbn; lia|]. intros m1 [E1 _]. constructor; [exact I|]. intros m2 E2. constructor; [|intros; constructor].
  cbn [effect] in E2. rewrite E1 in E2. cbn in E2. exists va. split; [cbn; lia|]. cbn. lia.
Qed.
Example reset_sum : match wrun empty_heap (new_data tiny false) [CSet va 7] with
  | Some (h, w) => get h w va = Some 7 /\ sum_angles h w (0, 0, 0) = Some 0 | None => False end.
Proof. vm_compute. split; reflexivity. Qed.
Example halving : match wrun empty_heap (new_data tiny true) [CSet va 255; CSet vb 101; CSet vc 1; CInc va] with
  | Some (h, w) => map (get h w) (voxels tiny) = [Some 127; Some 50; Some 0; Some 1] /\ w_max w = 127 | None => False end.
Proof. vm_compute. split; reflexivity. Qed.
Example clone_small : size_tr tiny <= 2 ^ 31.
Proof. vm_compute. discriminate. Qed.
Definition huge : six := (65535, 65535, 1, 1, 1, 1).
Example huge_fits : fits huge /\ 2 ^ 31 < size_tr huge.
Proof. split; [cbn; lia|reflexivity]. Qed.

Print Assumptions C16_history.
Print Assumptions C16_increments.
Print Assumptions C16_destroy.
Print Assumptions C16_clone.
Print Assumptions C16_clone_refuted.
Print Assumptions C16_two_objects.
Print Assumptions C17_filled.
Print Assumptions C17_maximum.
Print Assumptions C17_maximum_exact.
Print Assumptions C17_sums_refuted.
