(** C51-C53: the collision, distance and tolerance queries on two bounding volume trees. *)
From Coq Require Import List ZArith QArith Bool PeanoNat Permutation Lia.
From Verif Require Import QueueModel QueueProofs PqpModel PqpSpec PqpProofs.
Import ListNotations.
Open Scope nat_scope.

Section Props.
Context {V G P X : Type}.

(** With the flag for all contacts the query terminates without leaving an array and reports the identifiers of
    exactly the touching pairs of triangles, each pair once. *)
Theorem C51_all_contacts : forall (g : geometry V G P X) o1 o2 x0,
  complete_tree o1 -> complete_tree o2 -> overlap_sound g o1 o2 x0 ->
  exists fuel0, forall fuel, fuel0 <= fuel -> exists r,
    pqp_collide g o1 o2 fuel false x0 = Some r /\ Permutation r (all_contacts g o1 o2).
Proof.
  intros g o1 o2 x0 (l1 & T1 & P1) (l2 & T2 & P2) H. exists (S (length l1 + length l2)). intros fuel Hf.
  destruct (collide_all_ok g o1 o2 x0 H fuel (x0, 0, 0) l1 l2 []) as (r & E & P').
  - split; [constructor|]. auto.
  - lia.
  - exists r. split; [exact E|]. rewrite P'. now apply contacts_perm.
Qed.

(** With the flag for the first contact it reports one touching pair if there is one, and nothing otherwise. *)
Theorem C51_first_contact : forall (g : geometry V G P X) o1 o2 x0,
  complete_tree o1 -> complete_tree o2 -> overlap_sound g o1 o2 x0 ->
  exists fuel0, forall fuel, fuel0 <= fuel -> exists r,
    pqp_collide g o1 o2 fuel true x0 = Some r /\
    ((exists c, r = [c] /\ In c (all_contacts g o1 o2)) \/ (r = [] /\ forall i j, ~ touch g o1 o2 i j)).
Proof.
  intros g o1 o2 x0 (l1 & T1 & P1) (l2 & T2 & P2) H. exists (S (length l1 + length l2)). intros fuel Hf.
  destruct (collide_first_ok g o1 o2 x0 H fuel (x0, 0, 0) l1 l2) as (r & E & I & L & N).
  - split; [constructor|]. auto.
  - lia.
  - exists r. split; [exact E|]. destruct r as [|c [|]]; [right|left|cbn in L; lia].
    + split; [reflexivity|]. intros i j HT. specialize (N eq_refl).
      assert (K : exists c, In c (contacts g o1 o2 l1 l2)).
      { destruct HT as (t1 & t2 & E1 & E2 & C). exists (tri_id t1, tri_id t2). apply in_contacts. exists i, j.
        split; [|split].
        - apply (Permutation_in _ (Permutation_sym P1)), in_seq. split; [lia|]. apply nth_error_Some. congruence.
        - apply (Permutation_in _ (Permutation_sym P2)), in_seq. split; [lia|]. apply nth_error_Some. congruence.
        - unfold contact_of. rewrite E1, E2, C. now left. }
      destruct K as (c & K). rewrite N in K. destruct K.
    + exists c. split; [reflexivity|]. eapply Permutation_in; [apply (contacts_perm g o1 o2 _ _ _ _ P1 P2)|]. apply I. now left.
Qed.

Lemma pqp_distance_ok : forall (g : geometry V G P X) o1 o2 x0 rel_err abs_err qsize junk last1 last2 l1 l2,
  tree o1 0 l1 -> tree o2 0 l2 -> Permutation l1 (seq 0 (length (m_tris o1))) -> Permutation l2 (seq 0 (length (m_tris o2))) ->
  bvdist_sound g o1 o2 x0 ->
  (forall i j d pts, apart g o1 o2 i j d pts -> (0 <= d)%Q) -> (0 <= rel_err)%Q -> (0 <= abs_err)%Q ->
  last1 < length (m_tris o1) -> last2 < length (m_tris o2) ->
  forall fuel, S (length l1 + length l2) + 2 * (length l1 * length l2) <= fuel -> exists r,
    pqp_distance g o1 o2 rel_err abs_err qsize junk fuel last1 last2 x0 = Some r /\
    (exists t1 t2, nth_error (m_tris o1) (d_last1 r) = Some t1 /\ nth_error (m_tris o2) (d_last2 r) = Some t2 /\
       g_tridist g (corners t1) (corners t2) = (d_dist r, d_pts r) /\ d_id1 r = tri_id t1 /\ d_id2 r = tri_id t2) /\
    (forall i j d pts, apart g o1 o2 i j d pts -> (d_dist r <= d + abs_err)%Q /\ (d_dist r <= d * (1 + rel_err))%Q).
Proof.
  intros g o1 o2 x0 rel_err abs_err qsize junk last1 last2 l1 l2 T1 T2 P1 P2 H Hpos Hr Ha H1 H2 fuel Hf. unfold pqp_distance.
  destruct (nth_error (m_tris o1) last1) as [t1|] eqn:E1; [|apply nth_error_None in E1; lia].
  destruct (nth_error (m_tris o2) last2) as [t2|] eqn:E2; [|apply nth_error_None in E2; lia].
  destruct (g_tridist g (corners t1) (corners t2)) as [d pts] eqn:Ed.
  set (res := DistRes d pts (tri_id t1) (tri_id t2) last1 last2).
  assert (R : res_ok g o1 o2 res) by (exists t1, t2; cbn; auto).
  assert (GP : good_pair g o1 o2 x0 (x0, 0, 0) l1 l2) by (split; [constructor|auto]).
  assert (FIN : forall r : dist_res P, all_fine g o1 o2 rel_err abs_err (d_dist r) l1 l2 ->
    forall i j d pts, apart g o1 o2 i j d pts -> (d_dist r <= d + abs_err)%Q /\ (d_dist r <= d * (1 + rel_err))%Q).
  { intros r F i j d' pts' A. apply (F i j) with pts'; auto; destruct A as (u1 & u2 & U1 & U2 & _).
    - apply (Permutation_in _ (Permutation_sym P1)), in_seq. split; [lia|]. apply nth_error_Some. congruence.
    - apply (Permutation_in _ (Permutation_sym P2)), in_seq. split; [lia|]. apply nth_error_Some. congruence. }
  destruct (Nat.leb_spec qsize 2).
  - destruct (distance_ok g o1 o2 x0 H rel_err abs_err Hr Ha Hpos fuel (x0, 0, 0) l1 l2 res GP ltac:(lia) R) as (r & E & R' & _ & F).
    exists r. split; [exact E|]. split; [exact R'|]. now apply FIN.
  - destruct (queue_distance_ok g o1 o2 x0 H rel_err abs_err Hr Ha Hpos qsize junk ltac:(lia) fuel None (x0, 0, 0) l1 l2 [] res) as (r & E & R' & _ & F & _); auto.
    + apply new_good.
    + cbn. lia.
    + constructor.
    + unfold wsum, weight. cbn [map list_sum fold_right fst snd]. lia.
    + exists r. split; [exact E|]. split; [exact R'|]. now apply FIN.
Qed.

(** The distance query, with or without the priority queue and whichever triangles the previous query left as
    starting pair, returns the distance and points of a pair of triangles with the identifiers of that pair, and
    this distance exceeds that of no pair by more than the allowed errors; the triangles it leaves for the next query
    exist. *)
Theorem C52_distance : forall (g : geometry V G P X) o1 o2 x0 rel_err abs_err qsize junk last1 last2,
  complete_tree o1 -> complete_tree o2 -> bvdist_sound g o1 o2 x0 ->
  (forall i j d pts, apart g o1 o2 i j d pts -> (0 <= d)%Q) -> (0 <= rel_err)%Q -> (0 <= abs_err)%Q ->
  last1 < length (m_tris o1) -> last2 < length (m_tris o2) ->
  exists fuel0, forall fuel, fuel0 <= fuel -> exists r,
    pqp_distance g o1 o2 rel_err abs_err qsize junk fuel last1 last2 x0 = Some r /\
    (exists t1 t2, nth_error (m_tris o1) (d_last1 r) = Some t1 /\ nth_error (m_tris o2) (d_last2 r) = Some t2 /\
       g_tridist g (corners t1) (corners t2) = (d_dist r, d_pts r) /\ d_id1 r = tri_id t1 /\ d_id2 r = tri_id t2) /\
    (forall i j d pts, apart g o1 o2 i j d pts -> (d_dist r <= d + abs_err)%Q /\ (d_dist r <= d * (1 + rel_err))%Q).
Proof.
  intros g o1 o2 x0 rel_err abs_err qsize junk last1 last2 (l1 & T1 & P1) (l2 & T2 & P2) H Hpos Hr Ha H1 H2.
  exists (S (length l1 + length l2) + 2 * (length l1 * length l2)). exact (pqp_distance_ok g o1 o2 x0 rel_err abs_err qsize junk last1 last2 l1 l2 T1 T2 P1 P2 H Hpos Hr Ha H1 H2).
Qed.

(** Without allowed errors (the way VirtualRobot calls it) the result is the exact minimum. *)
Theorem C52_exact : forall (g : geometry V G P X) o1 o2 x0 qsize junk last1 last2,
  complete_tree o1 -> complete_tree o2 -> bvdist_sound g o1 o2 x0 ->
  (forall i j d pts, apart g o1 o2 i j d pts -> (0 <= d)%Q) ->
  last1 < length (m_tris o1) -> last2 < length (m_tris o2) ->
  exists fuel0, forall fuel, fuel0 <= fuel -> exists r,
    pqp_distance g o1 o2 0 0 qsize junk fuel last1 last2 x0 = Some r /\
    (exists i j, apart g o1 o2 i j (d_dist r) (d_pts r)) /\
    (forall i j d pts, apart g o1 o2 i j d pts -> (d_dist r <= d)%Q).
Proof.
  intros g o1 o2 x0 qsize junk last1 last2 T1 T2 H Hpos H1 H2.
  destruct (C52_distance g o1 o2 x0 0 0 qsize junk last1 last2 T1 T2 H Hpos (Qle_refl 0) (Qle_refl 0) H1 H2) as (f0 & F).
  exists f0. intros fuel Hf. destruct (F fuel Hf) as (r & E & (t1 & t2 & E1 & E2 & Ed & _) & M). exists r. split; [exact E|].
  split; [exists (d_last1 r), (d_last2 r), t1, t2; auto|]. intros i j d pts A. destruct (M i j d pts A) as [M1 _].
  rewrite Qplus_0_r in M1. exact M1.
Qed.

(** The tolerance query reports a pair of triangles not further apart than the tolerance if there is one, and
    otherwise that all pairs are further apart; with the priority queue its capacity is never exceeded. *)
Theorem C53_tolerance : forall (g : geometry V G P X) o1 o2 x0 tol qsize junk,
  complete_tree o1 -> complete_tree o2 -> bvdist_sound g o1 o2 x0 ->
  exists fuel0, forall fuel, fuel0 <= fuel -> exists r,
    pqp_tolerance g o1 o2 tol qsize junk fuel x0 = Some r /\
    match r with
    | Some (d, pts) => (d <= tol)%Q /\ exists i j, apart g o1 o2 i j d pts
    | None => forall i j d pts, apart g o1 o2 i j d pts -> (tol < d)%Q
    end.
Proof.
  intros g o1 o2 x0 tol qsize junk (l1 & T1 & P1) (l2 & T2 & P2) H.
  exists (S (length l1 + length l2) + 2 * (length l1 * length l2)). intros fuel Hf. unfold pqp_tolerance, child.
  assert (GP : good_pair g o1 o2 x0 (x0, 0, 0) l1 l2) by (split; [constructor|auto]).
  destruct (tree_inv _ _ _ T1) as (v1 & E1 & _), (tree_inv _ _ _ T2) as (v2 & E2 & _). rewrite E1, E2.
  assert (FIN : forall r, outcome g o1 o2 tol r l1 l2 -> match r with
    | Some (d, pts) => (d <= tol)%Q /\ exists i j, apart g o1 o2 i j d pts
    | None => forall i j d pts, apart g o1 o2 i j d pts -> (tol < d)%Q end).
  { intros [[d pts]|]; cbn.
    - intros (i & j & _ & _ & A & D). eauto.
    - intros F i j d pts A. apply (F i j d pts); auto; destruct A as (u1 & u2 & U1 & U2 & _).
      + apply (Permutation_in _ (Permutation_sym P1)), in_seq. split; [lia|]. apply nth_error_Some. congruence.
      + apply (Permutation_in _ (Permutation_sym P2)), in_seq. split; [lia|]. apply nth_error_Some. congruence. }
  destruct (Qle_bool (g_bvdist g x0 (vol v1) (vol v2)) tol) eqn:B.
  - destruct (Nat.leb_spec qsize 2).
    + destruct (tolerance_ok g o1 o2 x0 H tol fuel (x0, 0, 0) l1 l2 GP ltac:(lia)) as (r & E & O).
      exists r. split; [exact E|]. now apply FIN.
    + destruct (queue_tolerance_ok g o1 o2 x0 H tol qsize junk ltac:(lia) fuel None (x0, 0, 0) l1 l2 [] None) as (r & E & O); auto.
      * apply new_good.
      * cbn. lia.
      * constructor.
      * unfold wsum, weight. cbn [map list_sum fold_right fst snd]. lia.
      * exists r. split; [exact E|]. apply FIN. destruct r as [[d pts]|]; cbn in *.
        -- destruct O as (l & [<-|[]] & N). exact N.
        -- apply (O (l1, l2)). now left.
  - exists None. split; [reflexivity|]. apply (FIN None). cbn. apply lower_far with (g_bvdist g x0 (vol v1) (vol v2)); [|exact B].
    exact (good_lower g o1 o2 x0 H (x0, 0, 0) l1 l2 v1 v2 GP E1 E2).
Qed.
End Props.
Print Assumptions C51_all_contacts.
Print Assumptions C51_first_contact.
Print Assumptions C52_distance.
Print Assumptions C52_exact.
Print Assumptions C53_tolerance.
