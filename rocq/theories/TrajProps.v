(** C14, C15: trajectories. *)
From Coq Require Import List Reals ZArith Bool Lia Lra.
From Verif Require Import TrajModel TrajSpec TrajProofs.
Import ListNotations.
Open Scope nat_scope.

(** C14. After any sequence of editing calls, on any trajectory, the points are those obtained by the
    corresponding sequence operations. *)
Theorem C14_edits : forall (C : Type) (zero : C) (es : list edit) (l : list C),
  fold_left (run_edit zero) es l = fold_left spec_edit es l.
Proof. intros C zero. exact (run_edits_eq zero). Qed.
Print Assumptions C14_edits.

Example C14_witness : fold_left (run_edit 0)
  [AddPoint 1; AddPoint 2; AddPoint 3; InsertTrajectory 1 [7; 8]; InsertPositions 5 [9; 10]; ErasePosition 0;
   RemovePositions 1 2; InsertPosition 9 4; Reverse] [] = [10; 9; 3; 7].
Proof. reflexivity. Qed.

(** C14. Copies: [clone] copies all points; [createSubPath] returns exactly the closed range or, for an
    index out of range, the null pointer; [getPoints] appends exactly the closed range or nothing. *)
Theorem C14_copies : forall (C : Type) (zero : C) (l : list C) s e store,
  clone zero l = l /\
  create_sub_path zero l s e = (if ((s <? length l) && (e <? length l))%bool then Some (range l s e) else None) /\
  get_points zero l s e store =
    (if ((s <=? e) && (e <? length l))%bool then (true, store ++ range l s e) else (false, store)).
Proof.
  intros C zero l s e store. split; [apply clone_eq|]. split; [apply sub_path_eq|apply get_points_eq].
Qed.
Print Assumptions C14_copies.

(** C14. [getPoint] returns the point of the index, and the last point for an index past the end. *)
Theorem C14_get_point : forall (C : Type) (zero : C) (l : list C) nr,
  (nr < length l -> nth_error l nr = Some (get_point zero l nr)) /\
  (length l <= nr -> l <> [] -> get_point zero l nr = last l zero).
Proof.
  intros C zero l nr. unfold get_point. split; intros H.
  - destruct (Nat.leb_spec (length l) nr); [lia|]. now apply nth_error_nth'.
  - intros Hl. destruct (Nat.leb_spec (length l) nr); [|lia].
    destruct l as [|a l] using rev_ind; [contradiction|]. rewrite last_last, app_length. cbn [length].
    destruct (Nat.ltb_spec 0 (length l + 1)); [|lia]. rewrite app_nth2 by lia.
    now replace (length l + 1 - 1 - length l) with 0 by lia.
Qed.
Print Assumptions C14_get_point.

(** C14. [removePositions] reports the number of removed points. *)
Theorem C14_remove_count : forall (C : Type) (l : list C) s e,
  snd (remove_positions l s e) = length l - length (fst (remove_positions l s e)).
Proof.
  intros C l s e. rewrite remove_eq. destruct (Nat.leb_spec s e), (Nat.ltb_spec e (length l)); cbn [andb fst snd]; try lia.
  rewrite app_length, firstn_length, skipn_length. lia.
Qed.
Print Assumptions C14_remove_count.

Example C14_copies_witness : create_sub_path 0 [5; 6; 7; 8] 1 2 = Some [6; 7] /\
  get_points 0 [5; 6; 7; 8] 2 3 [1] = (true, [1; 7; 8]) /\ create_sub_path 0 [5; 6; 7; 8] 1 4 = None.
Proof. repeat split; reflexivity. Qed.

(** C14. Inserting a trajectory into itself is not the sequence operation (except at its end): the
    argument is read while it is being changed. *)
Theorem C14_insert_self_refuted : exists (l : list nat) pos,
  pos <= length l /\ insert_self 0 l pos <> spliced l pos l.
Proof. exists [1; 2; 3], 0. split; [cbn; lia|]. discriminate. Qed.
Print Assumptions C14_insert_self_refuted.

Theorem C14_insert_self_at_end : forall (C : Type) (zero : C) (l : list C), insert_self zero l (length l) = l ++ l.
Proof. intros C zero l. exact (insert_self_ok zero l). Qed.
Print Assumptions C14_insert_self_at_end.

Open Scope R_scope.

Lemma last_cons_any : forall (A : Type) (l : list A) (p d : A), last l p = last (p :: l) d.
Proof.
  intros A l p d. destruct l as [|a l]; [reflexivity|].
  change (last (p :: a :: l) d) with (last (a :: l) d). revert a.
  induction l as [|b l IH]; intros a; [reflexivity|]. apply (IH b).
Qed.

(** C15. [interpolate] returns the first point for t <= 0 and the last one for t >= 1; in between, if the
    path has positive length, the point at the fraction t of the arc length, together with the index of
    its segment; and a point of a path of length 0. *)
Theorem C15_interpolate : forall l t, l <> [] ->
  (t <= 0 -> traj_interpolate l t = Some (hd [] l, 0%Z)) /\
  (1 <= t -> traj_interpolate l t = Some (last l [], (Z.of_nat (length l) - 1)%Z)) /\
  (0 < t < 1 -> 0 < traj_length l -> exists q i, traj_interpolate l t = Some (q, Z.of_nat i) /\
     at_arc norm_diff blend l (t * arc_length norm_diff l) i q) /\
  (0 < t < 1 -> traj_length l = 0 -> exists i, traj_interpolate l t = Some (hd [] l, i)).
Proof.
  intros l t Hl. destruct l as [|p l]; [contradiction|]. unfold traj_interpolate.
  destruct (interpolate_ends norm_diff blend (traj_length (p :: l)) (Z.of_nat (length (p :: l)) - 1) p l t) as (H0 & H1).
  split; [exact H0|]. split; [|split].
  - intros H. rewrite (H1 H). do 2 f_equal. apply last_cons_any.
  - intros Ht Hp. rewrite <- traj_length_arc.
    apply interpolate_inner; auto. apply traj_length_arc.
  - intros Ht Hp. rewrite Hp. rewrite interpolate_degenerate by assumption. rewrite blend_self. now eexists.
Qed.
Print Assumptions C15_interpolate.

(** The point delivered divides its segment as claimed: its distance from the ends of the segment is
    proportional to the fraction. *)
Theorem C15_blend_divides : forall a b f, length a = length b -> 0 <= f <= 1 ->
  norm_diff a (blend a b f) = f * norm_diff a b /\ norm_diff (blend a b f) b = (1 - f) * norm_diff a b.
Proof. exact norm_blend. Qed.
Print Assumptions C15_blend_divides.

Example C15_witness : traj_length [[0; 0]; [3; 4]; [3; 10]] = 11.
Proof.
  unfold traj_length, get_length, norm_diff, norm2. cbn.
  replace ((3 - 0) * (3 - 0) + ((4 - 0) * (4 - 0) + 0)) with (5 * 5) by ring.
  replace ((3 - 3) * (3 - 3) + ((10 - 4) * (10 - 4) + 0)) with (6 * 6) by ring.
  rewrite !sqrt_square by lra. lra.
Qed.

(** C15. For a path of length 0 (for example a single point) the stored index is -1. *)
Theorem C15_index_refuted : exists l t q, l <> [] /\ 0 < t < 1 /\ traj_interpolate l t = Some (q, (-1)%Z).
Proof.
  exists [[1]], (1/2), [1]. split; [discriminate|]. split; [lra|]. unfold traj_interpolate.
  change (traj_length [[1]]) with 0. rewrite interpolate_degenerate by lra. now rewrite blend_self.
Qed.
Print Assumptions C15_index_refuted.
