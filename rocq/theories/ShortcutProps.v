(** C12, C13: the path processors. *)
From Coq Require Import Reals List Bool ZArith Lia Lra.
From Verif Require Import SampledModel SampledSpec SampledProofs SampledPlanModel MetricSpec
  TrajModel ShortcutModel ShortcutSpec ShortcutProofs.
Import ListNotations.
Open Scope R_scope.

(** C12. [shortenSolutionRandom] (and [optimize]) return, for every number of loops, all random numbers and
    a stop at any time, a path with the same ends, not longer than the input, each of whose steps is a
    step of the input or runs along a connection that [isPathValid] accepted. *)
Theorem C12_shorten : forall ds free dcd sp loops max_dist rand stop path,
  regular ds -> 0 < sp -> Forall (fun q => length q = length ds) path ->
  exists l, shorten ds free dcd sp loops max_dist rand stop path = Some l /\
    same_ends l path /\
    total_length (unweighted ds) l <= total_length (unweighted ds) path /\
    forall x y, consecutive l x y -> consecutive path x y \/ checked_step ds free dcd x y.
Proof.
  intros ds free dcd sp loops md rand stop path Hr Hs Hp.
  destruct (shorten_ok ds free dcd sp loops md rand stop path Hr Hs Hp) as (l & E & H1 & _ & H2 & H3). eauto.
Qed.
Print Assumptions C12_shorten.

(** C12. So collision coverage is kept: if every step of the input is covered by valid samples, every
    step of the result is. *)
Theorem C12_shorten_covered : forall ds free dcd sp loops max_dist rand stop path l,
  regular ds -> 0 < sp -> 0 < dcd -> Forall (fun q => length q = length ds) path ->
  (forall x y, consecutive path x y -> covered ds free (1.001 * dcd) x y) ->
  shorten ds free dcd sp loops max_dist rand stop path = Some l ->
  forall x y, consecutive l x y -> covered ds free (1.001 * dcd) x y.
Proof.
  intros ds free dcd sp loops md rand stop path l Hr Hs Hd Hp Hc E x y H.
  destruct (shorten_ok ds free dcd sp loops md rand stop path Hr Hs Hp) as (l' & E' & _ & _ & _ & H3).
  rewrite E in E'. injection E' as <-. destruct (H3 x y H) as [K|K]; [now apply Hc|now apply checked_covered].
Qed.
Print Assumptions C12_shorten_covered.

Example C12_witness : regular rail /\
  shorten rail (fun _ => true) 1 2 1 30 (fun _ => (0, 0)%nat) (fun _ => false) [[0]; [5]; [1]] = Some [[0]; [1]].
Proof. split; [exact rail_regular|exact rail_shortened]. Qed.

(** C12. [doPathPruning] on a path of at least two points terminates; the ends are kept, the path does not
    become longer, every step is a step of the input or an accepted connection, and no inner point is
    left whose neighbours could be connected. *)
Theorem C12_prune : forall ds free dcd path,
  regular ds -> Forall (fun q => length q = length ds) path ->
  (2 <= length path)%nat -> (Z.of_nat (length path) < 2 ^ 32)%Z ->
  exists l, (forall fuel, (2 * length path < fuel)%nat -> prune fuel ds free dcd path = Some l) /\
    same_ends l path /\
    total_length (unweighted ds) l <= total_length (unweighted ds) path /\
    (forall x y, consecutive l x y -> consecutive path x y \/ checked_step ds free dcd x y) /\
    (forall a x m y b, l = a ++ x :: m :: y :: b -> sampled_path_valid ds free dcd max_depth x y = false).
Proof.
  intros ds free dcd path Hr Hp Hn Hm.
  destruct (prune_ok ds free dcd path Hr Hp Hn Hm (S (2 * length path))%nat (Nat.lt_succ_diag_r _)) as (l & E & (H1 & _ & H2 & H3) & HL & NS).
  exists l. split.
  - intros fuel Hf. apply (prune_more (S (2 * length path))%nat); [lia|exact E].
  - split; [exact H1|]. split; [exact H2|]. split; [exact H3|]. intros a x m y b E'. apply (NS a x m y b E').
    assert (L := f_equal (@length _) E'). rewrite app_length in L. cbn in L. lia.
Qed.
Print Assumptions C12_prune.

(** C12. A path of one valid point makes [doPathPruning] loop forever: n - 2 is computed without sign. *)
Theorem C12_prune_single_refuted : exists ds free dcd path, regular ds /\ 0 < dcd /\ path <> [] /\
  Forall (fun q => length q = length ds) path /\ forall fuel, prune fuel ds free dcd path = None.
Proof.
  exists rail, (fun _ => true), 1, [[0]]. split; [exact rail_regular|]. split; [lra|]. split; [discriminate|].
  split; [repeat constructor|]. intros fuel. apply prune_endless; [lra|reflexivity].
Qed.
Print Assumptions C12_prune_single_refuted.

(** C12. The documented result of [doShortcut], the number of saved points, is wrong when points are
    inserted: here the path keeps its three points and 2 is returned. *)
Theorem C12_saved_points_refuted : exists ds sp l s e k l', regular ds /\ 0 < sp /\
  do_shortcut ds sp l s e = Some (k, l') /\ k <> (Z.of_nat (length l) - Z.of_nat (length l'))%Z.
Proof.
  exists rail, 5, [[0]; [7]; [10]], 0%nat, 2%nat. eexists _, _. split; [exact rail_regular|]. split; [lra|].
  split; [exact rail_not_saved|]. cbn. lia.
Qed.
Print Assumptions C12_saved_points_refuted.

(** C13. [ElasticBandProcessor::optimize] on a path of at least two points keeps both ends and does not add points,
    whatever the forces. *)
Theorem C13_ends : forall obstacle weights ds s opt_steps path, (2 <= length path)%nat ->
  exists l, band_optimize obstacle weights ds s opt_steps path = Band l /\ same_ends l path /\
    (2 <= length l <= length path)%nat.
Proof.
  intros obstacle weights ds s n path H. unfold band_optimize. rewrite TrajProofs.clone_eq. now apply band_steps_ok.
Qed.
Print Assumptions C13_ends.

(** C13. The pull of the neighbours is bounded by 20. *)
Theorem C13_neighbor_force_bounded : forall before act next, norm (neighbor_force before act next) <= 20.
Proof. exact neighbor_bounded. Qed.
Print Assumptions C13_neighbor_force_bounded.

(** C13. Shorter paths: every call with at least one step throws. *)
Theorem C13_short_path_refuted : forall obstacle weights ds s opt_steps path, (length path < 2)%nat -> (0 < opt_steps)%Z ->
  band_optimize obstacle weights ds s opt_steps path = OutOfRange.
Proof.
  intros obstacle weights ds s n path H Hn. unfold band_optimize. rewrite TrajProofs.clone_eq.
  destruct (Z.to_nat n) eqn:E; [lia|]. cbn [band_steps]. now destruct (Nat.ltb_spec (length path) 2); [|lia].
Qed.
Print Assumptions C13_short_path_refuted.

(** C13. Validity is not checked: a path all of whose configurations are valid is moved into the forbidden
    region, without any obstacle force and in one step. *)
Theorem C13_validity_refuted : exists ds free obstacle weights s path l q,
  regular ds /\ Forall (fun c => length c = length ds) path /\
  (forall x y z, consecutive path x y -> on_segment ds x y z -> free z = true) /\
  band_optimize obstacle weights ds s 1 path = Band l /\ In q l /\ free q = false.
Proof.
  destruct corner_cut as (l & E & N). eexists plane, corner_free, _, _, _, around_corner, l, _.
  split; [intros d [<-|[<-|[]]]; discriminate|]. split; [repeat constructor|].
  split; [exact around_corner_free|]. split; [exact E|]. split; [eapply nth_error_In, N|].
  cbn [corner_free]. destruct (Rlt_dec _ _); [|lra]. destruct (Rlt_dec _ _); [reflexivity|lra].
Qed.
Print Assumptions C13_validity_refuted.
