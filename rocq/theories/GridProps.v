(** The claims about the two-dimensional workspace grid. *)
From Coq Require Import List ZArith QArith Bool Arith Lia Lqa.
From Verif Require Import GridModel GridSpec GridProofs.
Import ListNotations.
Open Scope Z_scope.

(** After any history every cell holds the largest value written to it since the last reset, with its grasps; nothing outside
    the arrays is touched. *)
Theorem C19_cells : forall x1 x2 y1 y2 d g os, new_grid x1 x2 y1 y2 d = Some g ->
  exists g', grun g os = Some g' /\
  let f := Frame x1 y1 (x2 - x1)%Q (y2 - y1)%Q (g_sx g) (g_sy g) in
  forall i j,
    (0 <= i < g_sx g /\ 0 <= j < g_sy g -> exists v l, get_cell g' i j = Some (Some (v, l)) /\ content f i j os v l) /\
    (~ (0 <= i < g_sx g /\ 0 <= j < g_sy g) -> get_cell g' i j = Some None).
Proof.
  intros x1 x2 y1 y2 d g os H. destruct (new_ginv _ _ _ _ _ _ H) as (I & F & _ & _ & _ & _ & _ & H0). destruct (grun_ok os g I H0) as (g' & E & I' & F' & C). exists g'. split; [exact E|].
  intros f. change (frame_of g = f) in F. rewrite F in *. intros i j. split.
  - intros R. destruct (C i j R) as (_ & v & l & Hv & Hc). exists v, l. split; [exact Hv|exact Hc].
  - intros R. unfold get_cell. assert (O : outside g' i j = true); [|now rewrite O]. apply outside_true. intros K. apply R. destruct K as [K1 K2].
    assert (N : f_nx (frame_of g') = f_nx f /\ f_ny (frame_of g') = f_ny f).
    { rewrite F'. clear. induction os as [|o os IH] using rev_ind; [split; reflexivity|]. unfold frame_after in *. rewrite fold_left_app. cbn [fold_left]. destruct o; exact IH. }
    cbn in N. destruct N as [N1 N2]. rewrite N1 in K1. rewrite N2 in K2. now split.
Qed.

(** A query by position reads the cell of the position. *)
Theorem C19_position : forall x1 x2 y1 y2 d g os x y, new_grid x1 x2 y1 y2 d = Some g ->
  let f := Frame x1 y1 (x2 - x1)%Q (y2 - y1)%Q (g_sx g) (g_sy g) in
  exists g', grun g os = Some g' /\
  ((exists i j v l, in_cell2 (frame_after f os) i j x y /\ content f i j os v l /\ get_entry g' x y = Some (Some (v, l))) \/
   ((forall i j, ~ in_cell2 (frame_after f os) i j x y) /\ get_entry g' x y = Some None)).
Proof.
  intros x1 x2 y1 y2 d g os x y H f. destruct (new_ginv _ _ _ _ _ _ H) as (I & F & _ & _ & _ & _ & _ & H0). destruct (grun_ok os g I H0) as (g' & E & I' & F' & C). exists g'. split; [exact E|].
  change (frame_of g = f) in F. rewrite F in *. rewrite <- F'. unfold get_entry. destruct (outside g' (cell_x g' x) (cell_y g' y)) eqn:O.
  - right. split; [|unfold get_cell; now rewrite O]. intros i j K. assert (R := in_cell_range g' i j x y K). apply (cell_of g' x y I' i j R) in K as [<- <-]. apply outside_true in O. contradiction.
  - left. apply outside_false in O. set (i := cell_x g' x) in *. set (j := cell_y g' y) in *. assert (K : in_cell2 (frame_of g') i j x y) by (apply (cell_of g' x y I' i j O); split; reflexivity).
    assert (R : range g i j).
    { assert (N : f_nx (frame_of g') = f_nx f /\ f_ny (frame_of g') = f_ny f).
      { rewrite F'. clear. induction os as [|o os IH] using rev_ind; [split; reflexivity|]. unfold frame_after in *. rewrite fold_left_app. cbn [fold_left]. destruct o; exact IH. }
      cbn in N. destruct N as [N1 N2]. destruct O as [O1 O2]. rewrite N1 in O1. rewrite N2 in O2. split; assumption. }
    destruct (C i j R) as (_ & v & l & Hv & Hc). exists i, j, v, l. split; [exact K|]. split; [exact Hc|exact Hv].
Qed.

(** Which positions have a cell: those below the upper border and less than one cell width below the lower border. *)
Theorem C19_region : forall lo ext n x, (0 < ext)%Q -> 0 < n -> ((exists k, in_cell lo ext n k x) <-> (lo - ext / inject_Z n < x < lo + ext)%Q).
Proof.
  intros lo ext n x He Hn. set (w := (ext / inject_Z n)%Q). assert (Hn' : (0 < inject_Z n)%Q) by (change 0%Q with (inject_Z 0); rewrite <- Zlt_Qlt; lia).
  assert (Hw : (0 < w)%Q) by (unfold w; apply Qlt_shift_div_l; [assumption|lra]). assert (E : (ext == inject_Z n * w)%Q) by (unfold w; field; lra).
  assert (M : forall a b, a <= b -> (inject_Z a * w <= inject_Z b * w)%Q) by (intros a b Hab; apply Qmult_le_compat_r; [rewrite <- Zle_Qle; exact Hab|lra]).
  split.
  - intros (k & Hk & [(N0 & H1 & H2)|(-> & H1 & H2)]); fold w in H1, H2.
    + pose proof (M (k + 1) n ltac:(lia)). pose proof (M 0 k ltac:(lia)) as M0. unfold inject_Z in M0 at 1. split; lra.
    + pose proof (M 1 n ltac:(lia)) as M1. unfold inject_Z in M1 at 1. split; lra.
  - intros [H1 H2]. set (q := ((x - lo) / ext * inject_Z n)%Q). assert (Eq : (x == lo + q * w)%Q) by (unfold q, w; field; lra).
    assert (Q1 : (-1 < q)%Q) by (rewrite <- (Qmult_lt_r (-1) q w Hw); lra). assert (Q2 : (q < inject_Z n)%Q) by (rewrite <- (Qmult_lt_r q (inject_Z n) w Hw); lra).
    assert (K : 0 <= trunc q < n).
    { destruct q as [a b]. unfold trunc, Qlt, inject_Z in *. cbn [Qnum Qden] in *. rewrite ?Z.mul_1_r in *. destruct (Z_le_gt_dec 0 a).
      - rewrite Z.quot_div_nonneg by lia. split; [apply Z.div_pos; lia|]. apply Z.div_lt_upper_bound; lia.
      - assert (Z.quot a (Z.pos b) = 0) by (apply Z.quot_small_iff; lia). lia. }
    exists (trunc q). apply (cell_spec lo ext n (trunc q) x He Hn K). reflexivity.
Qed.

(** So a position outside the extends can be written and read, and the upper border cannot. *)
Theorem C19_border_refuted :
  (exists g g', new_grid 0 10 0 10 5 = Some g /\ set_entry g (-3) 5 7 None = Some g' /\ get_entry g' (-3) 5 = Some (Some (7, [])) /\ get_entry g' 1 5 = Some (Some (7, []))) /\
  (exists g g', new_grid 0 10 0 10 5 = Some g /\ set_entry g 10 5 7 None = Some g' /\ get_entry g' 10 5 = Some None).
Proof. split; eexists _, _; (split; [vm_compute; reflexivity|]); (split; [vm_compute; reflexivity|]); [split|]; vm_compute; reflexivity. Qed.

(** [getMaxEntry] is the maximum over the cells. *)
Theorem C19_max : forall x1 x2 y1 y2 d g os, new_grid x1 x2 y1 y2 d = Some g ->
  exists g' m, grun g os = Some g' /\ max_entry g' = Some m /\
    (forall i j v l, get_cell g' i j = Some (Some (v, l)) -> v <= m) /\ (exists i j l, get_cell g' i j = Some (Some (m, l))).
Proof.
  intros x1 x2 y1 y2 d g os H. destruct (new_ginv _ _ _ _ _ _ H) as (I & F & _ & _ & _ & _ & _ & H0). destruct (grun_ok os g I H0) as (g' & E & I' & F' & C). exists g'.
  destruct (max_loop_ok g' (list_prod (zseq (g_sx g')) (zseq (g_sy g'))) 0 I') as (m & Em & L & U & A).
  { intros i j K. apply in_prod_iff in K as [K1 K2]. split; now apply zseq_in. }
  exists m. split; [exact E|]. split; [exact Em|].
  assert (Rg : forall i j v l, get_cell g' i j = Some (Some (v, l)) -> range g' i j).
  { intros i j v l K. destruct (outside g' i j) eqn:O; [unfold get_cell in K; rewrite O in K; discriminate|now apply outside_false]. }
  assert (U' : forall i j v l, get_cell g' i j = Some (Some (v, l)) -> v <= m).
  { intros i j v l K. apply (U i j v l); [|exact K]. destruct (Rg _ _ _ _ K). apply in_prod_iff. split; now apply zseq_in. }
  split; [exact U'|]. destruct A as [->|(i & j & l & _ & K)]; [|exists i, j, l; exact K].
  assert (R : range g' 0 0) by (destruct I' as (_ & _ & P3 & P4 & _); split; lia). destruct (holds_ex g' 0 0 I' R) as (v & l & Hv). exists 0, 0, l.
  assert (0 <= v). { assert (Hv' := Hv). apply holds_iff in Hv' as [D _]; [|assumption|assumption]. destruct I' as (_ & _ & _ & _ & _ & _ & P). rewrite Forall_forall in P. apply P. now apply nth_error_In in D. }
  assert (v <= 0) by exact (U' _ _ _ _ Hv). assert (v = 0) by lia. now subst v.
Qed.

(** [getRandomPos] finds a cell with a large enough entry. *)
Theorem C19_random : forall x1 x2 y1 y2 d g os g' e rs, new_grid x1 x2 y1 y2 d = Some g -> grun g os = Some g' ->
  Forall (fun r => 0 <= fst r < g_sx g /\ 0 <= snd r < g_sy g) rs ->
  exists r, random_pos g' e rs = Some r /\
  match r with
  | None => forall i j v l, In (i, j) rs -> get_cell g' i j = Some (Some (v, l)) -> v < e
  | Some (x, y, v, l) => e <= v /\ exists i j, In (i, j) rs /\ get_cell g' i j = Some (Some (v, l)) /\
      (x == f_x (frame_after (Frame x1 y1 (x2 - x1)%Q (y2 - y1)%Q (g_sx g) (g_sy g)) os) + (inject_Z i + (1 # 2)) * g_disc g')%Q /\
      (y == f_y (frame_after (Frame x1 y1 (x2 - x1)%Q (y2 - y1)%Q (g_sx g) (g_sy g)) os) + (inject_Z j + (1 # 2)) * g_disc g')%Q
  end.
Proof.
  intros x1 x2 y1 y2 d g os g' e rs H Hr Hrs. destruct (new_ginv _ _ _ _ _ _ H) as (I & F & _ & _ & _ & _ & _ & H0). destruct (grun_ok os g I H0) as (g1 & E & I' & F' & C).
  rewrite Hr in E. injection E as <-. induction rs as [|[i j] rs IH]; [exists None; split; [reflexivity|]; intros ? ? ? ? []|].
  apply Forall_cons_iff in Hrs as [R Hrs]. specialize (IH Hrs). cbn [fst snd] in R. destruct (C i j R) as (_ & v & l & Hv & _). unfold holds in Hv. cbn [random_pos]. rewrite Hv. destruct (Z.leb_spec e v) as [L|L].
  - eexists. split; [reflexivity|]. split; [exact L|]. exists i, j. split; [now left|]. split; [exact Hv|]. rewrite <- F, <- F'. split; reflexivity.
  - destruct IH as (r & Er & Sr). exists r. split; [exact Er|]. destruct r as [[[[px py] v'] l']|].
    + destruct Sr as [S1 (i' & j' & S2 & S3)]. split; [exact S1|]. exists i', j'. split; [now right|exact S3].
    + intros i' j' v' l' [K|K] Hg; [injection K as <- <-; congruence|exact (Sr i' j' v' l' K Hg)].
Qed.

(** The position it returns need not lie in that cell, nor in the grid. *)
Theorem C19_random_refuted : exists g g' x y,
  new_grid 0 10 0 10 1 = Some g /\ set_cell g 10 5 7 None = Some g' /\ random_pos g' 7 [(10, 5)] = Some (Some (x, y, 7, [])) /\ (10 < x)%Q /\ get_entry g' x y = Some None.
Proof. eexists _, _, _, _. split; [vm_compute; reflexivity|]. split; [vm_compute; reflexivity|]. split; [vm_compute; reflexivity|]. split; [unfold Qlt; cbn; lia|vm_compute; reflexivity]. Qed.

(** The cells are narrower than the step size. *)
Theorem C19_cell_width : forall x1 x2 y1 y2 d g, new_grid x1 x2 y1 y2 d = Some g -> (0 < d)%Q ->
  ((x2 - x1) / inject_Z (g_sx g) < d)%Q /\ ((y2 - y1) / inject_Z (g_sy g) < d)%Q.
Proof.
  intros x1 x2 y1 y2 d g H Hd. destruct (new_ginv _ _ _ _ _ _ H) as (I & _ & Sx & Sy & _ & X & Y & _). destruct I as (_ & _ & P3 & P4 & _).
  assert (G : forall e, (0 < e)%Q -> 0 < trunc (e / d) + 1 -> (e / inject_Z (trunc (e / d) + 1) < d)%Q).
  { intros e He Hn. set (n := trunc (e / d) + 1) in *. assert (Hn' : (0 < inject_Z n)%Q) by (change 0%Q with (inject_Z 0); rewrite <- Zlt_Qlt; lia).
    apply Qlt_shift_div_r; [exact Hn'|]. assert (P : (0 < e / d)%Q) by (apply Qlt_shift_div_l; [assumption|lra]).
    assert (T0 : 0 <= trunc (e / d)) by lia. assert (K : (e / d < inject_Z n)%Q).
    { destruct (proj1 (trunc_spec (e / d) (trunc (e / d)) T0) eq_refl) as [(_ & _ & K)|(E0 & _ & K)]; [exact K|]. unfold n. rewrite E0. exact K. }
    assert (E : (e == e / d * d)%Q) by (field; lra). rewrite E at 1. rewrite (Qmult_comm d). now apply Qmult_lt_r. }
  rewrite Sx, Sy in *. split; apply G; lra || lia.
Qed.

Definition ex_ops : list gop := [SetEntry 2 3 7 (Some 1%nat); SetNeighbors 5 5 4 (Some 2%nat); SetEntry 2 3 5 (Some 3%nat); SetPosition 0 0; SetEntry (-4) 0 9 None].
Example C19_example : exists g g', new_grid 0 10 0 10 2 = Some g /\ grun g ex_ops = Some g' /\ g_sx g = 6 /\
  get_cell g' 1 1 = Some (Some (7, [1%nat])) /\ get_cell g' 2 2 = Some (Some (4, [2%nat])) /\ get_cell g' 0 3 = Some (Some (9, [])) /\ max_entry g' = Some 9 /\
  get_entry g' (-4) 0 = Some (Some (9, [])) /\ get_entry g' 6 0 = Some None.
Proof. eexists _, _. split; [vm_compute; reflexivity|]. split; [vm_compute; reflexivity|]. repeat (split; [vm_compute; reflexivity|]). vm_compute. reflexivity. Qed.

Print Assumptions C19_cells.
Print Assumptions C19_position.
Print Assumptions C19_region.
Print Assumptions C19_border_refuted.
Print Assumptions C19_max.
Print Assumptions C19_random.
Print Assumptions C19_random_refuted.
Print Assumptions C19_cell_width.
