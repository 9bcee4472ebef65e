(** The claims about the voxel tree. *)
From Coq Require Import List ZArith QArith Bool Arith Lia Lqa Permutation.
From Verif Require Import VoxModel VoxSpec VoxProofs.
Import ListNotations.
Open Scope nat_scope.

(** * C20: what a query returns *)

(** Writing never fails; it reports whether the position was inside, and a position outside changes nothing. *)
Theorem C20_set : forall (T : Type) (mn mx disc : list Q) (ws : list (list Q * T)) (t : vtree T) (p : list Q) (x : T),
  length mx = length mn -> length disc = length mn -> built mn mx disc ws t ->
  exists b t', tree_set t p x = Some (b, t') /\ built mn mx disc (ws ++ [(p, x)]) t' /\
    (b = true <-> within (length mn) mn mx p) /\ (b = false -> t' = t).
Proof.
  intros T mn mx disc ws t p x L1 L2 B. assert (B' := B). destruct (built_inv mn mx disc ws t L1 L2 B) as (n & c & Hc & Hn & _ & P1 & P2 & Hr & I).
  assert (C1 : c_dim c = length mn) by now rewrite Hc. try rewrite <- C1 in Hp. assert (C2 : c_size c = sizes mn mx) by now rewrite Hc. assert (C3 : c_levels c = n + 1) by now rewrite Hc.
  destruct (inv_set mn mx disc L1 c C1 C2 n C3 t p x I) as (b & t' & E & I' & H1 & H2 & _).
  exists b, t'. split; [exact E|]. split; [|split; [exact H1|exact H2]]. destruct B' as (t0 & N0 & R0). exists t0. split; [exact N0|]. rewrite run_app, R0. cbn [tree_run]. now rewrite E.
Qed.

(** Reading gives the last value written into the cell of the position. *)
Theorem C20_history : forall (T : Type) (mn mx disc : list Q) (ws : list (list Q * T)) (t : vtree T) (n : nat) (q : list Q),
  length mx = length mn -> length disc = length mn -> built mn mx disc ws t ->
  depth t = S n -> (n = 0 -> within (length mn) mn mx q) ->
  exists r, tree_get t q = Some r /\ value (length mn) n mn mx q ws r /\ tree_has t q = Some (match r with Some _ => true | None => false end).
Proof.
  intros T mn mx disc ws t n q L1 L2 B D Hq. destruct (built_inv mn mx disc ws t L1 L2 B) as (m & c & Hc & Hn & _ & P1 & P2 & Hr & I).
  assert (C1 : c_dim c = length mn) by now rewrite Hc. try rewrite <- C1 in Hp. assert (C2 : c_size c = sizes mn mx) by now rewrite Hc. assert (C3 : c_levels c = m + 1) by now rewrite Hc.
  assert (Dm : depth t = S m) by exact (depth_n mn mx disc L1 c C1 m C3 t I). assert (Em : m = n) by lia. clear Hn. subst m.
  assert (SH : length (c_size c) = c_dim c) by (apply (shape mn mx); assumption).
  assert (I' := I). destruct I as (I1 & I2 & I3 & I4 & I5 & I6 & I7 & I8). unfold tree_get. rewrite D, I4, get_entry_leaf, (get_leaf_look c SH n 0 mn _ q I5).
  destruct (covers_dec c mn 0 q) as [Cq|Cq].
  - assert (Wq : within (length mn) mn mx q) by (apply (cov_within mn mx L1 c C1 C2); exact Cq).
    exists (entry_at (look c n 0 mn (v_root t) q)). split; [destruct (look c n 0 mn (v_root t) q); reflexivity|]. split; [exact (run_value mn mx disc L1 c C1 C2 P1 n C3 ws t q Hr Wq)|].
    destruct n as [|n'].
    + unfold tree_has. rewrite D, I4. destruct I5 as (E1 & E2 & Lf & _). cbn [has_entry look entry_at]. rewrite Lf, E1, E2. apply covers_iff in Cq. rewrite Cq. reflexivity.
    + rewrite (has_root mn mx disc L1 c C1 C2 (S n') C3 t q I' Wq ltac:(discriminate)).
      destruct (look c (S n') 0 mn (v_root t) q) as [e|] eqn:E; [|reflexivity]. cbn [entry_at]. pose proof (leaf_entry mn mx disc L1 c C1 C2 (S n') C3 t q e I' ltac:(discriminate) E).
      destruct (e_entry e); [reflexivity|contradiction].
  - assert (Wq : ~ within (length mn) mn mx q) by (intros K; apply Cq; apply (cov_within mn mx L1 c C1 C2); exact K).
    destruct n as [|n']; [elim Wq; now apply Hq|]. rewrite look_outside by exact Cq. exists None. split; [reflexivity|]. split; [apply value_outside; assumption|].
    unfold tree_has. rewrite D, I4. assert (G := I5). destruct I5 as (E1 & E2 & Lf & _). remember (S n') as k. cbn [has_entry]. subst k. rewrite Lf, (child_indx_good c n' 0 mn _ q G).
    destruct (covers c mn 0 q) eqn:E; [apply covers_iff in E; contradiction|reflexivity].
Qed.

(** The specification fixes the answer. *)
Theorem C20_value_unique : forall (T : Type) d n mn mx q (ws : list (list Q * T)) r r', value d n mn mx q ws r -> value d n mn mx q ws r' -> r = r'.
Proof.
  intros T d n mn mx q. induction ws as [|w ws IH] using rev_ind; intros r r' H H'.
  - inversion H as [|ws0 p0 x0 S0 E0|ws0 p0 x0 r0 S0 V0 E0]; [|now apply app_eq_nil in E0 as [_ E0]..]. inversion H' as [|ws1 p1 x1 S1 E1|ws1 p1 x1 r1 S1 V1 E1]; [reflexivity|now apply app_eq_nil in E1 as [_ E1]..].
  - inversion H as [E0|ws0 p0 x0 S0 E0|ws0 p0 x0 r0 S0 V0 E0]; [now destruct ws| |]; inversion H' as [E1|ws1 p1 x1 S1 E1|ws1 p1 x1 r1 S1 V1 E1]; try (now destruct ws);
      apply app_inj_tail in E0 as [-> <-]; apply app_inj_tail in E1 as [-> E1]; injection E1 as -> ->; try contradiction; try reflexivity. now apply IH.
Qed.

(** With one level only, a query outside the space is answered as if it were inside. *)
Theorem C20_one_level_refuted : exists (t : vtree nat) (q : list Q),
  built [0; 0]%Q [4; 4]%Q [4; 4]%Q [([1; 1]%Q, 7)] t /\ ~ within 2 [0; 0]%Q [4; 4]%Q q /\ tree_get t q = Some (Some 7) /\ tree_has t q = Some false.
Proof.
  eexists _, [9; 9]%Q. split; [eexists; split; [vm_compute; reflexivity|vm_compute; reflexivity]|]. split.
  - intros H. specialize (H 0 ltac:(lia)). unfold nthq in H. cbn in H. lra.
  - split; vm_compute; reflexivity.
Qed.

(** The cells are never much coarser than asked for. *)
Theorem C20_resolution : forall (T : Type) (mn mx disc : list Q) (ws : list (list Q * T)) (t : vtree T) (n : nat),
  length mx = length mn -> length disc = length mn -> built mn mx disc ws t -> depth t = S n ->
  forall i, i < length mn -> (width n (nthq mn i) (nthq mx i) < (3 # 2) * nthq disc i)%Q.
Proof.
  intros T mn mx disc ws t n L1 L2 B D i Hi. destruct (built_inv mn mx disc ws t L1 L2 B) as (m & c & Hc & Hn & Nz & P1 & P2 & Hr & I).
  assert (C1 : c_dim c = length mn) by now rewrite Hc. try rewrite <- C1 in Hp. assert (C2 : c_size c = sizes mn mx) by now rewrite Hc. assert (C3 : c_levels c = m + 1) by now rewrite Hc.
  assert (Dm : depth t = S m) by exact (depth_n mn mx disc L1 c C1 m C3 t I). assert (Em : m = n) by lia. rewrite Em in Hn. specialize (P1 i Hi). specialize (P2 i Hi).
  pose proof (steps_bound (nthq mx i - nthq mn i) (nthq disc i) P2) as SB.
  pose proof (max_steps_ge (sizes mn mx) disc i ltac:(rewrite sizes_length; lia) ltac:(rewrite sizes_length; lia)) as MS. rewrite nthq_sizes in MS by assumption.
  set (S0 := steps (nthq mx i - nthq mn i) (nthq disc i)) in *. set (M := max_steps (sizes mn mx) disc) in *.
  assert (S1 : (1 <= 2 ^ Z.of_nat n)%Z) by (pose proof (Z.pow_pos_nonneg 2 (Z.of_nat n)); lia).
  assert (S2 : (M <= 2 ^ Z.of_nat n)%Z).
  { destruct (Z_le_gt_dec M 1) as [L|L]; [lia|]. destruct (Nat.log2_up_spec (Z.to_nat M) ltac:(lia)) as [_ K]. rewrite <- Hn in K.
    apply Z2Nat.inj_le; [lia|lia|]. rewrite Z2Nat.inj_pow by lia. rewrite Nat2Z.id. change (Z.to_nat 2) with 2. exact K. }
  set (W := (2 ^ Z.of_nat n)%Z) in *. unfold width. fold W. assert (HW : (1 <= inject_Z W)%Q) by (change 1%Q with (inject_Z 1); now rewrite <- Zle_Qle).
  assert (HS : (inject_Z S0 <= inject_Z W)%Q) by (rewrite <- Zle_Qle; lia).
  apply Qlt_shift_div_r; [lra|]. eapply Qlt_le_trans; [exact SB|].
  setoid_replace ((3 # 2) * nthq disc i * inject_Z W)%Q with (((3 # 2) * inject_Z W) * nthq disc i)%Q by ring. apply Qmult_le_compat_r; lra.
Qed.

(** A space smaller than half a step in every direction has no defined number of levels. *)
Theorem C20_too_coarse_refuted : new_tree nat [0]%Q [1]%Q [3]%Q = Undefined.
Proof. vm_compute. reflexivity. Qed.

Definition ex_writes : list (list Q * nat) := [([1; 1]%Q, 5); ([3; 1]%Q, 6); ([1; 1]%Q, 7); ([9; 9]%Q, 8)].
Example C20_example : exists t, built [0; 0]%Q [4; 4]%Q [1; 1]%Q ex_writes t /\ depth t = 3 /\
  tree_get t [1 # 2; 1 # 4]%Q = Some (Some 7) /\ tree_get t [5 # 2; 1]%Q = Some (Some 6) /\ tree_get t [5 # 2; 2]%Q = Some None /\ tree_get t [9; 9]%Q = Some None.
Proof. eexists. split; [eexists; split; vm_compute; reflexivity|]. repeat (split; [vm_compute; reflexivity|]). vm_compute. reflexivity. Qed.

(** * C21: the iterator *)

Theorem C21_iterator : forall (T : Type) (mn mx disc : list Q) (ws : list (list Q * T)) (t : vtree T),
  length mx = length mn -> length disc = length mn -> built mn mx disc ws t -> 2 <= depth t ->
  exists ls : list (elem T),
    (forall nr0 m, iterate nr0 t (length ls + m) = Some (map Some ls ++ repeat None (S m))) /\ NoDup ls /\
    (forall l, In l ls <-> exists q, length q = length mn /\ within (length mn) mn mx q /\ tree_leaf t q = Some (Some l)) /\
    (forall l, In l ls -> exists x, e_entry l = Some x).
Proof.
  intros T mn mx disc ws t L1 L2 B D. destruct (built_inv mn mx disc ws t L1 L2 B) as (m & c & Hc & Hn & _ & P1 & P2 & Hr & I).
  assert (C1 : c_dim c = length mn) by now rewrite Hc. try rewrite <- C1 in Hp. assert (C2 : c_size c = sizes mn mx) by now rewrite Hc. assert (C3 : c_levels c = m + 1) by now rewrite Hc.
  assert (Dm : depth t = S m) by exact (depth_n mn mx disc L1 c C1 m C3 t I). destruct m as [|m]; [lia|].
  assert (SH : length (c_size c) = c_dim c) by (apply (shape mn mx); assumption).
  destruct I as (I1 & I2 & I3 & I4 & I5 & I6 & I7 & I8). exists (leaves (S m) (v_root t)).
  assert (ND : NoDup (ids (S m) (v_root t))) by (rewrite I8; apply seq_NoDup).
  split; [|split; [eapply nodup_leaves; eassumption|split]].
  - intros nr0 k. apply (iterate_ok c t I4); [now rewrite I1|exact I6|exact Dm].
  - intros l. unfold tree_leaf. rewrite Dm, I4. split.
    + intros H. apply leaves_pls with (c := c) (l := 0) (pos := mn) in H; [|exact SH|exact I5].
      destruct (in_pls c SH (S m) 0 mn (v_root t) [] l ltac:(cbn; lia) I5) as (q & [Lq _] & _ & Hl); [| |exact H|].
      * intros i Hi; rewrite ?C1 in Hi; change (extends c 0) with (c_size c). rewrite C2. rewrite nthq_sizes by assumption. specialize (P1 i Hi). lra.
      * cbn. lia.
      * exists q. split; [now rewrite <- C1|]. rewrite get_leaf_look with (l := 0) (pos := mn) by (exact SH || exact I5). rewrite Hl. split; [|reflexivity]. apply (cov_within mn mx L1 c C1 C2).
        destruct (covers_dec c mn 0 q) as [K|K]; [exact K|]. rewrite look_outside in Hl by exact K. discriminate.
    + intros (q & Lq & Wq & Hl). rewrite get_leaf_look with (l := 0) (pos := mn) in Hl by (exact SH || exact I5). injection Hl as Hl.
      apply (pls_leaves c (S m) 0 mn (v_root t) []); [exact I5|]. eapply pls_complete; [exact SH|cbn; lia|exact I5| |exact Hl]. split; [now rewrite C1|reflexivity].
  - intros l H. pose proof (semi_leaves c m 0 mn (v_root t) l I5 I6 H). destruct (e_entry l) as [x|]; [now exists x|contradiction].
Qed.

(** [getNumNodes] counts the elements ever made. *)
Theorem C21_count : forall (T : Type) (mn mx disc : list Q) (ws : list (list Q * T)) (t : vtree T),
  length mx = length mn -> length disc = length mn -> built mn mx disc ws t -> tree_count t = Some (v_next t).
Proof.
  intros T mn mx disc ws t L1 L2 B. destruct (built_inv mn mx disc ws t L1 L2 B) as (m & c & Hc & Hn & _ & P1 & P2 & Hr & I).
  assert (C1 : c_dim c = length mn) by now rewrite Hc. try rewrite <- C1 in Hp. assert (C2 : c_size c = sizes mn mx) by now rewrite Hc. assert (C3 : c_levels c = m + 1) by now rewrite Hc.
  assert (Dm : depth t = S m) by exact (depth_n mn mx disc L1 c C1 m C3 t I). destruct I as (I1 & I2 & I3 & I4 & I5 & I6 & I7 & I8).
  assert (SH : length (c_size c) = c_dim c) by (apply (shape mn mx); assumption).
  unfold tree_count. rewrite Dm, (count_ok c SH m 0 mn (v_root t) I5). f_equal. rewrite <- (map_length e_id). change (map e_id (nodes m (v_root t))) with (ids m (v_root t)). rewrite I8. apply seq_length.
Qed.

(** On a tree of one level the iterator reads the missing array of children. *)
Theorem C21_one_level_refuted : exists t : vtree nat,
  built [0; 0]%Q [4; 4]%Q [4; 4]%Q [([1; 1]%Q, 7)] t /\ tree_leaf t [1; 1]%Q <> Some None /\ forall nr0 m, iterate nr0 t m = None.
Proof. eexists. split; [eexists; split; vm_compute; reflexivity|]. split; [vm_compute; discriminate|]. intros nr0 m. vm_compute. reflexivity. Qed.

Example C21_example : exists t l1 l2, built [0; 0]%Q [4; 4]%Q [1; 1]%Q ex_writes t /\ 2 <= depth t /\ l1 <> l2 /\
  iterate 0 t 3 = Some [Some l1; Some l2; None; None] /\ e_entry l1 = Some 7 /\ e_entry l2 = Some 6.
Proof. eexists _, _, _. split; [eexists; split; vm_compute; reflexivity|]. split; [vm_compute; lia|]. split; [|split; [vm_compute; reflexivity|split; reflexivity]]. vm_compute. discriminate. Qed.

(** * C22: files *)

Theorem C22_roundtrip : forall (T : Type) (mn mx disc : list Q) (ws : list (list Q * T)) (t : vtree T),
  length mx = length mn -> length disc = length mn -> built mn mx disc ws t -> (2 <= depth t \/ exists q, tree_has t q = Some true) ->
  exists f, save t = Saved f /\ load T f = Some t.
Proof.
  intros T mn mx disc ws t L1 L2 B HF. assert (B' := B). destruct (built_inv mn mx disc ws t L1 L2 B) as (m & c & Hc & Hn & _ & P1 & P2 & Hr & I).
  assert (C1 : c_dim c = length mn) by now rewrite Hc. try rewrite <- C1 in Hp. assert (C2 : c_size c = sizes mn mx) by now rewrite Hc. assert (C3 : c_levels c = m + 1) by now rewrite Hc.
  assert (Dm : depth t = S m) by exact (depth_n mn mx disc L1 c C1 m C3 t I). destruct I as (I1 & I2 & I3 & I4 & I5 & I6 & I7 & I8).
  assert (SH : length (c_size c) = c_dim c) by (apply (shape mn mx); assumption).
  assert (F0 : m = 0 -> filled m (v_root t)).
  { intros ->. destruct HF as [HF|(q & HF)]; [lia|]. unfold tree_has in HF. rewrite Dm, I4 in HF. destruct I5 as (E1 & E2 & Lf & _). cbn [has_entry] in HF. rewrite Lf in HF.
    cbn [filled]. destruct (e_entry (v_root t)); [discriminate|]. rewrite andb_false_r in HF. discriminate. }
  assert (Cnt : length (nodes m (v_root t)) = v_next t).
  { rewrite <- (map_length e_id). change (map e_id (nodes m (v_root t))) with (ids m (v_root t)). rewrite I8. apply seq_length. }
  assert (W : forall e, In e (nodes m (v_root t)) -> writable c e) by (intros e He; eapply nodes_writable; eassumption).
  assert (Rg : forall e, In e (nodes m (v_root t)) -> 1 <= e_id e <= v_next t).
  { intros e He. assert (K : In (e_id e) (ids m (v_root t))) by (unfold ids; now apply in_map). rewrite I8 in K. apply in_seq in K. lia. }
  unfold save. rewrite Dm, I4, (collect_ok c m 0 mn (v_root t) I5), (write_all_ok c _ W). eexists. split; [reflexivity|].
  unfold load. cbn [f_min f_max f_disc f_count f_blocks]. destruct B' as (t0 & N0 & R0). rewrite I1, I2, I3, N0.
  assert (C0 : v_cfg t0 = c).
  { unfold new_tree in N0. destruct (negb _); [discriminate|]. destruct (Z.eqb _ _); [discriminate|]. injection N0 as <-. cbn [v_cfg]. now rewrite Hc, Hn. }
  rewrite C0, Cnt.
  destruct (read_all_ok c (v_next t) (nodes m (v_root t)) (fun _ => None)) as (heap & -> & Hh & _).
  { change (map e_id (nodes m (v_root t))) with (ids m (v_root t)). rewrite I8. apply seq_NoDup. }
  { intros e He. split; [now apply W|]. split; [now apply Rg|]. intros ch Hch. apply Rg. eapply nodes_children; [exact He| |exact I5|exact Hch].
    intros y Hy Ly. clear - I5 Hy Ly. revert Hy. generalize dependent (v_root t). generalize 0 as l, mn as pos. induction m as [|m IH]; intros l pos e G Hy.
    - destruct Hy as [<-|[]]. apply G.
    - destruct G as (_ & _ & Lf & _ & _ & Ch). cbn [nodes] in Hy. destruct Hy as [<-|Hy]; [congruence|]. apply in_flat_map in Hy as ([ch|] & Hi & Hy); [|destruct Hy]. apply In_nth_error in Hi as (i & E). exact (IH _ _ _ (Ch _ _ E) Hy). }
  assert (D0 : depth t0 = S m) by (unfold depth; rewrite C0; lia). rewrite D0.
  pose proof (propagate_ok c heap m 0 mn (v_root t) I5 Hh) as PR. rewrite I7 in PR. rewrite PR.
  f_equal. destruct t as [a1 a2 a3 a4 a5 a6]. cbn in *. subst. reflexivity.
Qed.

(** An empty tree of one level cannot be saved. *)
Theorem C22_empty_refuted : exists t : vtree nat, built [0; 0]%Q [4; 4]%Q [4; 4]%Q [] t /\ save t = SaveFailed.
Proof. eexists. split; [eexists; split; vm_compute; reflexivity|]. vm_compute. reflexivity. Qed.

Example C22_example : exists t f, built [0; 0]%Q [4; 4]%Q [1; 1]%Q ex_writes t /\ 2 <= depth t /\ save t = Saved f /\ length (f_blocks f) = 5 /\ load nat f = Some t.
Proof. eexists _, _. split; [eexists; split; vm_compute; reflexivity|]. split; [vm_compute; lia|]. split; [vm_compute; reflexivity|]. split; vm_compute; reflexivity. Qed.

(** * C55: leaves selected by the first coordinates, and the best of them *)

Theorem C55_leafs : forall (T : Type) (mn mx disc : list Q) (ws : list (list Q * T)) (t : vtree T) (p : list Q),
  length mx = length mn -> length disc = length mn -> built mn mx disc ws t -> 2 <= depth t ->
  length p <= length mn -> within (length p) mn mx p ->
  exists ls, tree_leafs t p = Some ls /\ NoDup ls /\
    forall l, In l ls <-> exists q, length q = length mn /\ firstn (length p) q = p /\ within (length mn) mn mx q /\ tree_leaf t q = Some (Some l).
Proof.
  intros T mn mx disc ws t p L1 L2 B D Hp Wp. destruct (built_inv mn mx disc ws t L1 L2 B) as (m & c & Hc & Hn & _ & P1 & P2 & Hr & I).
  assert (C1 : c_dim c = length mn) by now rewrite Hc. try rewrite <- C1 in Hp. assert (C2 : c_size c = sizes mn mx) by now rewrite Hc. assert (C3 : c_levels c = m + 1) by now rewrite Hc.
  assert (Dm : depth t = S m) by exact (depth_n mn mx disc L1 c C1 m C3 t I). destruct m as [|m]; [lia|].
  assert (SH : length (c_size c) = c_dim c) by (apply (shape mn mx); assumption).
  destruct I as (I1 & I2 & I3 & I4 & I5 & I6 & I7 & I8). exists (pls c (S m) 0 mn (v_root t) p).
  assert (ND : NoDup (ids (S m) (v_root t))) by (rewrite I8; apply seq_NoDup).
  split; [unfold tree_leafs; rewrite Dm, I4; now apply all_leafs_ok|]. split; [now apply nodup_pls|].
  intros l. unfold tree_leaf. rewrite Dm, I4. split.
  - intros H. destruct (in_pls c SH (S m) 0 mn (v_root t) p l Hp I5) as (q & [Lq Fq] & _ & Hl); [| |exact H|].
    + intros i Hi; rewrite ?C1 in Hi; change (extends c 0) with (c_size c). rewrite C2. rewrite nthq_sizes by assumption. specialize (P1 i Hi). lra.
    + intros i Hi; rewrite ?C1 in Hi; change (extends c 0) with (c_size c). rewrite C2. rewrite nthq_sizes by (assumption || lia). specialize (Wp i Hi). lra.
    + exists q. split; [now rewrite <- C1|]. split; [exact Fq|]. rewrite get_leaf_look with (l := 0) (pos := mn) by (exact SH || exact I5). rewrite Hl. split; [|reflexivity]. apply (cov_within mn mx L1 c C1 C2).
      destruct (covers_dec c mn 0 q) as [K|K]; [exact K|]. rewrite look_outside in Hl by exact K. discriminate.
  - intros (q & Lq & Fq & Wq & Hl). rewrite get_leaf_look with (l := 0) (pos := mn) in Hl by (exact SH || exact I5). injection Hl as Hl.
    eapply pls_complete; [exact SH|exact Hp|exact I5| |exact Hl]. split; [now rewrite C1|exact Fq].
Qed.

Theorem C55_max : forall (T : Type) (gt : T -> T -> bool) (mn mx disc : list Q) (ws : list (list Q * T)) (t : vtree T) (p : list Q),
  ordering gt -> length mx = length mn -> length disc = length mn -> built mn mx disc ws t -> 2 <= depth t -> length p <= length mn ->
  exists ls r, tree_leafs t p = Some ls /\ tree_max gt t p = Some r /\
    match r with
    | None => ls = []
    | Some b => In b ls /\ exists y, e_entry b = Some y /\ forall l, In l ls -> exists x, e_entry l = Some x /\ gt x y = false
    end.
Proof.
  intros T gt mn mx disc ws t p O L1 L2 B D Hp. destruct (built_inv mn mx disc ws t L1 L2 B) as (m & c & Hc & Hn & _ & P1 & P2 & Hr & I).
  assert (C1 : c_dim c = length mn) by now rewrite Hc. try rewrite <- C1 in Hp. assert (C2 : c_size c = sizes mn mx) by now rewrite Hc. assert (C3 : c_levels c = m + 1) by now rewrite Hc.
  assert (Dm : depth t = S m) by exact (depth_n mn mx disc L1 c C1 m C3 t I). destruct m as [|m]; [lia|].
  assert (SH : length (c_size c) = c_dim c) by (apply (shape mn mx); assumption).
  destruct I as (I1 & I2 & I3 & I4 & I5 & I6 & I7 & I8). exists (pls c (S m) 0 mn (v_root t) p).
  destruct (max_leaf_ok c SH gt (S m) 0 mn (v_root t) p O Hp I5 ltac:(discriminate) I6) as (r & E & HB). exists r.
  split; [unfold tree_leafs; rewrite Dm, I4; now apply all_leafs_ok|]. split; [unfold tree_max; now rewrite Dm, I4|].
  destruct r as [b|]; [|exact HB]. destruct HB as [Hb HB]. split; [exact Hb|]. assert (Sb := HB b Hb). unfold not_above in Sb. destruct (e_entry b) as [y|] eqn:Ey; [|contradiction].
  exists y. split; [reflexivity|]. intros l Hl. specialize (HB l Hl). unfold not_above in HB. rewrite Ey in HB. destruct (e_entry l) as [x|]; [now exists x|contradiction].
Qed.

Lemma nat_ordering : ordering (fun x y => y <? x).
Proof.
  split; [intros x; apply Nat.ltb_irrefl|]. split; [intros x y H; apply Nat.ltb_lt in H; apply Nat.ltb_ge; lia|].
  intros x y z H1 H2. apply Nat.ltb_ge in H1, H2. apply Nat.ltb_ge. lia.
Qed.
Example C55_example : exists t l1 l2, built [0; 0]%Q [4; 4]%Q [1; 1]%Q (([1; 4]%Q, 9) :: ex_writes) t /\ 2 <= depth t /\ within 1 [0; 0]%Q [4; 4]%Q [1]%Q /\
  tree_leafs t [1]%Q = Some [l1; l2] /\ tree_max (fun x y => y <? x) t [1]%Q = Some (Some l2) /\ e_entry l1 = Some 7 /\ e_entry l2 = Some 9.
Proof.
  eexists _, _, _. split; [eexists; split; vm_compute; reflexivity|]. split; [vm_compute; lia|]. split; [intros [|i] Hi; [unfold nthq; cbn; lra|lia]|].
  split; [vm_compute; reflexivity|]. split; [vm_compute; reflexivity|]. split; reflexivity.
Qed.

Print Assumptions C20_set.
Print Assumptions C20_history.
Print Assumptions C20_value_unique.
Print Assumptions C20_one_level_refuted.
Print Assumptions C20_resolution.
Print Assumptions C20_too_coarse_refuted.
Print Assumptions C21_iterator.
Print Assumptions C21_count.
Print Assumptions C21_one_level_refuted.
Print Assumptions C22_roundtrip.
Print Assumptions C22_empty_refuted.
Print Assumptions C55_leafs.
Print Assumptions C55_max.
