(** Proofs for C77: merging and removing vertices. *)
From Coq Require Import List ZArith Bool Arith Lia.
From Verif Require Import MeshModel MeshSpec MeshProofs.
Import ListNotations.
Open Scope nat_scope.

Lemma set_nth_length {A} : forall (l : list A) i x, length (set_nth l i x) = length l.
Proof. induction l as [|y l IH]; intros [|i] x; cbn [set_nth length]; [reflexivity..|]. rewrite IH. reflexivity. Qed.
Lemma set_nth_same {A} : forall (l : list A) i x, i < length l -> nth_error (set_nth l i x) i = Some x.
Proof. induction l as [|y l IH]; intros [|i] x L; cbn [set_nth length nth_error] in *; [lia|lia|reflexivity|]. apply IH. lia. Qed.
Lemma set_nth_other {A} : forall (l : list A) i k x, k <> i -> nth_error (set_nth l i x) k = nth_error l k.
Proof. induction l as [|y l IH]; intros [|i] [|k] x N; cbn [set_nth nth_error]; try reflexivity; [lia|]. apply IH. lia. Qed.
Lemma in_insert j k s : In k (insert j s) <-> k = j \/ In k s.
Proof.
  unfold insert. destruct (existsb (Nat.eqb j) s) eqn:E.
  - apply existsb_exists in E. destruct E as (x & X & EX). apply Nat.eqb_eq in EX. subst x. split; [auto|]. intros [->|H]; assumption.
  - cbn [In]. split; [intros [<-|H]; auto|intros [->|H]; auto].
Qed.
Lemma nth_error_eq {A} : forall l l' : list A, length l = length l' -> (forall i, i < length l -> nth_error l i = nth_error l' i) -> l = l'.
Proof.
  induction l as [|x l IH]; intros [|y l'] L H; cbn [length] in *; [reflexivity|lia|lia|]. assert (E := H 0 ltac:(lia)). cbn in E. injection E as ->. f_equal. apply IH; [lia|]. intros i I. apply (H (S i)). lia.
Qed.
Definition has (vf : list (list nat)) (v j : nat) : Prop := exists s, nth_error vf v = Some s /\ In j s.
(** Corners of a face. *)
Definition at_corner {N} (f : face N) (k : nat) : Prop := exists c, c < 3 /\ corner (f_vertex f) c = Some k.
Lemma at_corner_cases {N} (f : face N) k : at_corner f k <-> i1 (f_vertex f) = Some k \/ i2 (f_vertex f) = Some k \/ i3 (f_vertex f) = Some k.
Proof.
  split.
  - intros (c & C & E). destruct c as [|[|[|c]]]; cbn [corner] in E; [auto|auto|auto|lia].
  - intros [E|[E|E]]; [exists 0|exists 1|exists 2]; (split; [lia|exact E]).
Qed.
Lemma mentions_spec {N} k (f : face N) : mentions k f = true <-> at_corner f k.
Proof.
  rewrite at_corner_cases. unfold mentions. rewrite !orb_true_iff. assert (U : forall v, uses k v = true <-> v = Some k).
  { intros [v|]; cbn [uses]; [rewrite Nat.eqb_eq; split; [intros ->; reflexivity|intros E; injection E as ->; reflexivity]|split; discriminate]. }
  rewrite !U. tauto.
Qed.
Lemma register_spec v j vf : (exists i, v = Some i /\ i < length vf) -> exists vf', register v j (Some vf) = Some vf' /\ length vf' = length vf /\
  forall x y, has vf' x y <-> has vf x y \/ (v = Some x /\ y = j).
Proof.
  intros (i & -> & I). cbn [register]. destruct (nth_error vf i) as [s|] eqn:E; [|apply nth_error_None in E; lia]. eexists. split; [reflexivity|]. split; [apply set_nth_length|].
  intros x y. unfold has. destruct (Nat.eq_dec x i) as [->|N].
  - rewrite set_nth_same by exact I. rewrite E. split.
    + intros (s' & S' & Y). injection S' as <-. apply in_insert in Y. destruct Y as [->|Y]; [auto|left; exists s; auto].
    + intros [(s' & S' & Y)|[_ ->]]; [injection S' as <-|]; (eexists; split; [reflexivity|]); apply in_insert; auto.
  - rewrite set_nth_other by exact N. split; [auto|]. intros [H|[E' _]]; [exact H|]. injection E' as ->. contradiction.
Qed.
Lemma register_none v j vf : register v j (Some vf) <> None -> exists i, v = Some i /\ i < length vf.
Proof.
  cbn [register]. destruct v as [i|]; [|congruence]. destruct (nth_error vf i) as [s|] eqn:E; [|congruence]. intros _. exists i. split; [reflexivity|]. apply nth_error_Some. congruence.
Qed.
Lemma face_map_none {N} : forall (fs : list (face N)) j, face_map fs j None = None.
Proof. induction fs as [|f fs IH]; intros j; cbn [face_map]; [reflexivity|]. unfold register at 1 2 3. apply IH. Qed.
Lemma face_map_spec {N} : forall (fs : list (face N)) j vf, Forall (fun f => in_range (length vf) (f_vertex f)) fs ->
  exists vf', face_map fs j (Some vf) = Some vf' /\ length vf' = length vf /\ forall v x, has vf' v x <-> has vf v x \/ exists f, nth_error fs (x - j) = Some f /\ j <= x /\ at_corner f v.
Proof.
  induction fs as [|f fs IH]; intros j vf F; cbn [face_map].
  - exists vf. split; [reflexivity|]. split; [reflexivity|]. intros v x. split; [auto|]. intros [H|(f & E & _)]; [exact H|]. destruct (x - j); discriminate E.
  - inversion F as [|? ? R F']; subst.
    destruct (register_spec (i1 (f_vertex f)) j vf (R 0 ltac:(lia))) as (vf1 & E1 & L1 & H1). rewrite E1.
    destruct (register_spec (i2 (f_vertex f)) j vf1) as (vf2 & E2 & L2 & H2); [rewrite L1; apply (R 1); lia|]. rewrite E2.
    destruct (register_spec (i3 (f_vertex f)) j vf2) as (vf3 & E3 & L3 & H3); [rewrite L2, L1; apply (R 2); lia|]. rewrite E3.
    destruct (IH (S j) vf3) as (vf' & E & L & H); [rewrite L3, L2, L1; exact F'|]. exists vf'. split; [exact E|]. split; [lia|]. intros v x. rewrite H, H3, H2, H1.
    assert (C := at_corner_cases f v). split.
    + intros [[[[A|[A ->]]|[A ->]]|[A ->]]|(g & G & GL & GC)]; [auto|right; exists f; rewrite Nat.sub_diag; cbn [nth_error]; (split; [reflexivity|]); (split; [lia|]); tauto..|].
      right. exists g. split; [|split; [lia|exact GC]]. replace (x - j) with (S (x - S j)) by lia. exact G.
    + intros [A|(g & G & GL & GC)]; [auto|]. destruct (Nat.eq_dec x j) as [->|NE].
      * rewrite Nat.sub_diag in G. cbn [nth_error] in G. injection G as <-. left. apply C in GC. destruct GC as [GC|[GC|GC]]; rewrite GC; [left; left; right|left; right|right]; auto.
      * right. exists g. split; [|split; [lia|exact GC]]. replace (x - j) with (S (x - S j)) in G by lia. exact G.
Qed.
Lemma face_map_sound {N} : forall (fs : list (face N)) j vf, face_map fs j (Some vf) <> None -> Forall (fun f => in_range (length vf) (f_vertex f)) fs.
Proof.
  induction fs as [|f fs IH]; intros j vf; cbn [face_map]; [constructor|].
  destruct (register (i1 (f_vertex f)) j (Some vf)) as [vf1|] eqn:E1; [|intros X; exfalso; apply X; unfold register at 1 2; apply face_map_none].
  destruct (register_none (i1 (f_vertex f)) j vf) as (a & A & LA); [congruence|]. destruct (register_spec (i1 (f_vertex f)) j vf) as (q1 & Q1 & L1 & _); [exists a; auto|]. rewrite E1 in Q1. injection Q1 as <-.
  destruct (register (i2 (f_vertex f)) j (Some vf1)) as [vf2|] eqn:E2; [|intros X; exfalso; apply X; unfold register; apply face_map_none].
  destruct (register_none (i2 (f_vertex f)) j vf1) as (b & B & LB); [congruence|]. destruct (register_spec (i2 (f_vertex f)) j vf1) as (q2 & Q2 & L2 & _); [exists b; auto|]. rewrite E2 in Q2. injection Q2 as <-.
  destruct (register (i3 (f_vertex f)) j (Some vf2)) as [vf3|] eqn:E3; [|intros X; exfalso; apply X; apply face_map_none].
  destruct (register_none (i3 (f_vertex f)) j vf2) as (c & C & LC); [congruence|]. destruct (register_spec (i3 (f_vertex f)) j vf2) as (q3 & Q3 & L3 & _); [exists c; auto|]. rewrite E3 in Q3. injection Q3 as <-.
  intros X. constructor; [|specialize (IH (S j) vf3 X); rewrite L3, L2, L1 in IH; exact IH]. apply in_range_intro. exists a, b, c. destruct (f_vertex f) as [x y z]. cbn [i1 i2 i3] in *. subst. split; [reflexivity|lia].
Qed.
(** ** Removing *)
Lemma kept_length {A B} : forall (vs : list A) (vf : list (list B)), length vf = length vs -> length (kept vs vf) = length (filter (fun s => match s with [] => false | _ => true end) vf).
Proof. induction vs as [|v vs IH]; intros [|s vf] L; cbn [length kept filter] in *; try lia. destruct s; cbn [length]; rewrite IH by lia; reflexivity. Qed.
Lemma kept_at {A B} : forall (vs : list A) (vf : list (list B)) v s, nth_error vf v = Some s -> s <> [] -> v < length vs -> nth_error (kept vs vf) (new_index vf v) = nth_error vs v.
Proof.
  induction vs as [|x vs IH]; intros [|t vf] v s E NE L; cbn [length] in L; [lia|lia|destruct v; discriminate E|]. destruct v as [|v]; cbn [nth_error] in E; cbn [kept new_index nth_error].
  - injection E as ->. destruct s as [|y s]; [congruence|]. reflexivity.
  - destruct t as [|y t]; cbn [nth_error]; apply (IH vf v s E NE); lia.
Qed.
Lemma new_index_onto {A B} : forall (vs : list A) (vf : list (list B)) i, length vf = length vs -> i < length (kept vs vf) -> exists v s, nth_error vf v = Some s /\ s <> [] /\ v < length vs /\ new_index vf v = i.
Proof.
  induction vs as [|x vs IH]; intros [|t vf] i L I; cbn [length kept] in *; try lia. destruct t as [|y t].
  - destruct (IH vf i ltac:(lia) I) as (v & s & E & NE & LV & NI). exists (S v), s. cbn [nth_error new_index]. auto with arith.
  - destruct i as [|i].
    + exists 0, (y :: t). cbn. split; [reflexivity|]. split; [discriminate|]. split; [lia|reflexivity].
    + cbn [length] in I. destruct (IH vf i ltac:(lia) ltac:(lia)) as (v & s & E & NE & LV & NI). exists (S v), s. cbn [nth_error new_index]. rewrite NI. auto with arith.
Qed.
Lemma kept_incl {A B} : forall (vs : list A) (vf : list (list B)) v, In v (kept vs vf) -> In v vs.
Proof. induction vs as [|x vs IH]; intros [|[|y t] vf] v; cbn [kept In]; try tauto; [intros H; right; apply (IH vf), H|intros [<-|H]; [auto|right; apply (IH vf), H]]. Qed.
Lemma has_nonempty vf v j : has vf v j -> exists s, nth_error vf v = Some s /\ s <> [].
Proof. intros (s & E & I). exists s. split; [exact E|]. intros ->. destruct I. Qed.
Lemma nth_empty {A} (l : list A) : forall v s, nth_error (map (fun _ => @nil nat) l) v = Some s -> s = [].
Proof. intros v s E. apply nth_error_In in E. apply in_map_iff in E. destruct E as (x & <- & _). reflexivity. Qed.
Lemma has_empty {A} (l : list A) v j : ~ has (map (fun _ => @nil nat) l) v j.
Proof. intros (s & E & I). rewrite (nth_empty l v s E) in I. destruct I. Qed.
Lemma renumber_corner {N} vf (f : face N) c k : corner (f_vertex f) c = Some k -> corner (f_vertex (renumber vf f)) c = Some (new_index vf k).
Proof. unfold renumber. destruct (f_vertex f) as [x y z]. cbn [f_vertex]. destruct c as [|[|c]]; cbn [corner i1 i2 i3]; intros ->; reflexivity. Qed.
Lemma points_corner {N} vs (f : face N) vs' (g : face N) : (forall c, c < 3 -> at_ vs (corner (f_vertex f) c) = at_ vs' (corner (f_vertex g) c)) -> points vs f = points vs' g.
Proof. intros H. unfold points. assert (A := H 0 ltac:(lia)). assert (B := H 1 ltac:(lia)). assert (C := H 2 ltac:(lia)). cbn [corner] in *. rewrite A, B, C. reflexivity. Qed.
Definition same_rest {N} (f g : face N) : Prop := f_color g = f_color f /\ f_nid g = f_nid f /\ f_normal g = f_normal f.
Lemma remove_unused_spec {N} (m : mesh N) : sound m -> exists m' n, remove_unused m = Some (m', n) /\
  sound m' /\ triangles m' = triangles m /\ Forall2 same_rest (m_faces m) (m_faces m') /\ m_normals m' = m_normals m /\ m_colors m' = m_colors m /\ m_box m' = m_box m /\
  n + length (m_vertices m') = length (m_vertices m) /\ (forall v, In v (m_vertices m') -> In v (m_vertices m)) /\
  (forall i, i < length (m_vertices m') -> used m' i) /\
  exists ren, (forall f c k, In f (m_faces m) -> c < 3 -> corner (f_vertex f) c = Some k -> nth_error (m_vertices m') (ren k) = nth_error (m_vertices m) k) /\
    (forall i, used m' i <-> exists k, used m k /\ ren k = i) /\ (forall j c k, corner_at m j c k -> corner_at m' j c (ren k)).
Proof.
  intros S. unfold remove_unused. destruct (face_map_spec (m_faces m) 0 (map (fun _ => []) (m_vertices m))) as (vf & E & L & H); [rewrite map_length; exact S|]. rewrite map_length in L. rewrite E.
  assert (H' : forall v x, has vf v x <-> exists f, nth_error (m_faces m) x = Some f /\ at_corner f v).
  { intros v x. rewrite H, Nat.sub_0_r. split; [intros [A|(f & F & _ & C)]; [apply has_empty in A; contradiction|exists f; auto]|intros (f & F & C); right; exists f; auto with arith]. }
  assert (U : forall f c k, In f (m_faces m) -> c < 3 -> corner (f_vertex f) c = Some k -> exists s, nth_error vf k = Some s /\ s <> []).
  { intros f c k F C K. apply In_nth_error in F. destruct F as (x & X). apply (has_nonempty vf k x). apply H'. exists f. split; [exact X|]. exists c. auto. }
  assert (SK : forall f c, In f (m_faces m) -> c < 3 -> exists k, corner (f_vertex f) c = Some k /\ k < length (m_vertices m)) by (intros f c F C; unfold sound in S; rewrite Forall_forall in S; apply (S f F c C)).
  assert (RE : forall f c k, In f (m_faces m) -> c < 3 -> corner (f_vertex f) c = Some k -> nth_error (kept (m_vertices m) vf) (new_index vf k) = nth_error (m_vertices m) k).
  { intros f c k F C K. destruct (U f c k F C K) as (s & ES & NS). apply (kept_at _ vf k s ES NS). destruct (SK f c F C) as (k' & K' & LK). congruence. }
  eexists. eexists. split; [reflexivity|]. cbn [m_vertices m_faces m_normals m_colors m_box]. unfold used. cbn [m_faces].
  assert (UI : forall i, (exists f c, In f (map (renumber vf) (m_faces m)) /\ c < 3 /\ corner (f_vertex f) c = Some i) <-> exists k, used m k /\ new_index vf k = i).
  { intros i. split.
    - intros (g & c & G & C & K). apply in_map_iff in G. destruct G as (f & <- & F). destruct (SK f c F C) as (k & K' & _). rewrite (renumber_corner vf f c k K') in K. injection K as <-. exists k. split; [exists f, c; auto|reflexivity].
    - intros (k & (f & c & F & C & K) & <-). exists (renumber vf f), c. split; [apply in_map, F|]. split; [exact C|]. apply renumber_corner, K. }
  split; [|split; [|split; [|do 3 (split; [reflexivity|]); split; [|split; [apply kept_incl|split; [|exists (new_index vf); split; [exact RE|split; [exact UI|intros j c k (C & f & F & K); split; [exact C|]; exists (renumber vf f); cbn [m_faces]; rewrite nth_error_map, F; split; [reflexivity|apply renumber_corner, K]]]]]]]]].
  - unfold sound. cbn [m_faces m_vertices]. apply Forall_forall. intros g G. apply in_map_iff in G. destruct G as (f & <- & F). intros c C. destruct (SK f c F C) as (k & K & LK).
    exists (new_index vf k). split; [apply renumber_corner, K|]. apply nth_error_Some. rewrite (RE f c k F C K). apply nth_error_Some, LK.
  - unfold triangles. cbn [m_faces m_vertices]. rewrite map_map. apply map_ext_in. intros f F. apply points_corner. intros c C. destruct (SK f c F C) as (k & K & LK). rewrite K, (renumber_corner vf f c k K). cbn [at_]. apply (RE f c k F C K).
  - clear. induction (m_faces m) as [|f fs IH]; cbn [map]; constructor; [|exact IH]. repeat split.
  - assert (KL : length (kept (m_vertices m) vf) <= length (m_vertices m)); [|lia]. rewrite kept_length by exact L. rewrite <- L. clear. induction vf as [|[|y s] vf IH]; cbn [filter length]; lia.
  - intros i I. apply UI. destruct (new_index_onto (m_vertices m) vf i L I) as (v & s & ES & NS & LV & NI). exists v. split; [|exact NI]. destruct s as [|x s]; [congruence|].
    destruct (proj1 (H' v x)) as (f & F & c & C & K); [exists (x :: s); cbn; auto|]. exists f, c. split; [apply (nth_error_In _ _ F)|]. auto.
Qed.
Lemma remove_unused_none {N} (m : mesh N) : remove_unused m <> None -> sound m.
Proof.
  unfold remove_unused. destruct (face_map (m_faces m) 0 (Some (map (fun _ => []) (m_vertices m)))) as [vf|] eqn:E; [|congruence]. intros _. assert (Q := face_map_sound (m_faces m) 0 (map (fun _ => []) (m_vertices m)) ltac:(congruence)). rewrite map_length in Q. exact Q.
Qed.
(** ** Merging *)
Definition fits {N} (n : nat) (s : list (face N) * list (list nat)) : Prop :=
  length (snd s) = n /\ Forall (fun f => in_range n (f_vertex f)) (fst s) /\ forall j f k, nth_error (fst s) j = Some f -> at_corner f k -> has (snd s) k j.
Lemma redirect_corner {N} k i (f : face N) c : corner (f_vertex (redirect k i f)) c = swap_id k i (corner (f_vertex f) c).
Proof. unfold redirect. cbn [f_vertex]. destruct c as [|[|c]]; reflexivity. Qed.
Lemma redirect_range {N} k i n (f : face N) : i < n -> in_range n (f_vertex f) -> in_range n (f_vertex (redirect k i f)).
Proof.
  intros I R c C. rewrite redirect_corner. destruct (R c C) as (x & -> & X). cbn [swap_id]. destruct (Nat.eqb_spec x k); [exists i; auto|exists x; auto].
Qed.
Lemma redirect_id {N} k i (f : face N) : ~ at_corner f k -> redirect k i f = f.
Proof.
  intros H. rewrite at_corner_cases in H. destruct f as [[x y z] fc fn nn]. unfold redirect. cbn [f_vertex f_color f_nid f_normal i1 i2 i3] in *. unfold swap_id.
  assert (U : forall v, v <> Some k -> match v with Some v0 => if v0 =? k then Some i else Some v0 | None => None end = v) by (intros [v|] NV; [destruct (Nat.eqb_spec v k); [subst; congruence|reflexivity]|reflexivity]).
  rewrite !U by tauto. reflexivity.
Qed.
Lemma redirect_twice {N} k i (f : face N) : redirect k i (redirect k i f) = redirect k i f.
Proof.
  unfold redirect. cbn [f_vertex f_color f_nid f_normal i1 i2 i3]. unfold swap_id.
  assert (U : forall v, match match v with Some v0 => if v0 =? k then Some i else Some v0 | None => None end with Some v0 => if v0 =? k then Some i else Some v0 | None => None end =
    match v with Some v0 => if v0 =? k then Some i else Some v0 | None => None end) by (intros [v|]; [|reflexivity]; destruct (Nat.eqb_spec v k) as [E|N0]; [destruct (Nat.eqb_spec i k); reflexivity|destruct (Nat.eqb_spec v k); [contradiction|reflexivity]]).
  rewrite !U. reflexivity.
Qed.
Lemma move_face_spec {N} n k i (s : list (face N) * list (list nat)) j : i < n -> fits n s -> fits n (move_face k i s j) /\ length (fst (move_face k i s j)) = length (fst s) /\
  (forall x, nth_error (fst (move_face k i s j)) x = if x =? j then option_map (redirect k i) (nth_error (fst s) x) else nth_error (fst s) x).
Proof.
  destruct s as [fs vf]. intros I (L & R & H). cbn [fst snd] in *. unfold move_face. destruct (nth_error fs j) as [f|] eqn:E.
  - assert (LJ : j < length fs) by (apply nth_error_Some; congruence). cbn [fst]. split; [|split; [apply set_nth_length|]].
    + set (vf' := if mentions k f then match nth_error vf i with Some t => set_nth vf i (insert j t) | None => vf end else vf).
      assert (L' : length vf' = n) by (unfold vf'; destruct (mentions k f); [destruct (nth_error vf i); [rewrite set_nth_length|]|]; exact L).
      assert (MONO : forall v y, has vf v y -> has vf' v y).
      { intros v y (t & T & Y). unfold vf'. destruct (mentions k f); [|exists t; auto]. destruct (nth_error vf i) as [u|] eqn:EU; [|exists t; auto]. destruct (Nat.eq_dec v i) as [->|NE].
        - rewrite T in EU. injection EU as <-. exists (insert j t). split; [apply set_nth_same; lia|]. apply in_insert. auto.
        - exists t. split; [rewrite set_nth_other by exact NE; exact T|exact Y]. }
      split; [exact L'|]. cbn [fst snd]. split.
      * rewrite Forall_forall in *. intros g G. apply In_nth_error in G. destruct G as (x & X). destruct (Nat.eq_dec x j) as [->|NE].
        -- rewrite set_nth_same in X by exact LJ. injection X as <-. apply redirect_range; [exact I|]. apply R. apply (nth_error_In _ _ E).
        -- rewrite set_nth_other in X by exact NE. apply R. apply (nth_error_In _ _ X).
      * intros x g v X C. destruct (Nat.eq_dec x j) as [->|NE]; [|rewrite set_nth_other in X by exact NE; apply MONO, (H x g v X C)].
        rewrite set_nth_same in X by exact LJ. injection X as <-. destruct C as (c & C & V). rewrite redirect_corner in V. destruct (corner (f_vertex f) c) as [u|] eqn:EU; [|discriminate V]. cbn [swap_id] in V.
        destruct (Nat.eqb_spec u k) as [->|NK]; injection V as <-.
        -- assert (M : mentions k f = true) by (apply mentions_spec; exists c; auto). unfold vf'. rewrite M. destruct (nth_error vf i) as [t|] eqn:ET; [|apply nth_error_None in ET; lia].
           exists (insert j t). split; [apply set_nth_same; lia|]. apply in_insert. auto.
        -- apply MONO. apply (H j f u E). exists c. auto.
    + intros x. destruct (Nat.eqb_spec x j) as [->|NE]; [rewrite set_nth_same by exact LJ; rewrite E; reflexivity|apply set_nth_other, NE].
  - cbn [fst]. split; [repeat split; assumption|]. split; [reflexivity|]. intros x. destruct (Nat.eqb_spec x j) as [->|NE]; [rewrite E|]; reflexivity.
Qed.
Lemma move_faces {N} n k i : i < n -> forall t (s : list (face N) * list (list nat)), fits n s -> let s' := fold_left (move_face k i) t s in fits n s' /\ length (fst s') = length (fst s) /\
  forall x, nth_error (fst s') x = if existsb (Nat.eqb x) t then option_map (redirect k i) (nth_error (fst s) x) else nth_error (fst s) x.
Proof.
  intros I. induction t as [|j t IH]; intros s F; cbn [fold_left existsb]; cbv zeta; [auto|]. destruct (move_face_spec n k i s j I F) as (F1 & L1 & X1). destruct (IH _ F1) as (F2 & L2 & X2).
  split; [exact F2|]. split; [lia|]. intros x. rewrite X2, X1. destruct (x =? j); cbn [orb]; [|reflexivity]. destruct (existsb (Nat.eqb x) t); [|reflexivity]. destruct (nth_error (fst s) x); cbn [option_map]; [rewrite redirect_twice|]; reflexivity.
Qed.
Lemma move_vertex_spec {N} n k i (s : list (face N) * list (list nat)) : i < n -> fits n s -> fits n (move_vertex i s k) /\ fst (move_vertex i s k) = map (redirect k i) (fst s).
Proof.
  intros I F. unfold move_vertex. set (t := match nth_error (snd s) k with Some t => t | None => [] end). destruct (move_faces n k i I t s F) as (F' & L & X). split; [exact F'|].
  apply nth_error_eq; [rewrite L, map_length; reflexivity|]. intros x LX. rewrite X. rewrite nth_error_map. destruct (nth_error (fst s) x) as [f|] eqn:E; [|destruct (existsb (Nat.eqb x) t); reflexivity]. cbn [option_map].
  destruct (existsb (Nat.eqb x) t) eqn:ET; [reflexivity|]. rewrite redirect_id; [reflexivity|]. intros C. destruct F as (_ & _ & H). destruct (H x f k E C) as (u & EU & IU).
  assert (T : existsb (Nat.eqb x) t = true); [|congruence]. apply existsb_exists. exists x. unfold t. rewrite EU. split; [exact IU|apply Nat.eqb_refl].
Qed.
Definition hop (near : nat -> list nat) (v i : nat) : nat := if existsb (Nat.eqb v) (near i) then i else v.
Definition relabel {N} (g : nat -> nat) (f : face N) : face N :=
  let r := fun v => match v with Some v => Some (g v) | None => None end in
  Face (Ids (r (i1 (f_vertex f))) (r (i2 (f_vertex f))) (r (i3 (f_vertex f)))) (f_color f) (f_nid f) (f_normal f).
Lemma relabel_ext {N} g h (f : face N) : (forall v, g v = h v) -> relabel g f = relabel h f.
Proof. intros E. unfold relabel. destruct (f_vertex f) as [[x|] [y|] [z|]]; cbn [i1 i2 i3]; rewrite ?E; reflexivity. Qed.
Lemma relabel_comp {N} g h (f : face N) : relabel g (relabel h f) = relabel (fun v => g (h v)) f.
Proof. unfold relabel. cbn [f_vertex f_color f_nid f_normal]. destruct (f_vertex f) as [[x|] [y|] [z|]]; reflexivity. Qed.
Lemma relabel_id {N} (f : face N) : relabel (fun v => v) f = f.
Proof. unfold relabel. destruct f as [[[x|] [y|] [z|]] fc fn nn]; reflexivity. Qed.
Lemma relabel_corner {N} g (f : face N) c : corner (f_vertex (relabel g f)) c = option_map g (corner (f_vertex f) c).
Proof. unfold relabel. cbn [f_vertex]. destruct (f_vertex f) as [x y z]. destruct c as [|[|c]]; reflexivity. Qed.
Lemma redirect_relabel {N} k i (f : face N) : redirect k i f = relabel (fun v => if v =? k then i else v) f.
Proof. unfold redirect, relabel, swap_id. destruct (f_vertex f) as [[x|] [y|] [z|]]; cbn [i1 i2 i3]; repeat match goal with |- context [?a =? k] => destruct (a =? k) end; reflexivity. Qed.
Lemma move_vertices {N} n i : i < n -> forall ks (s : list (face N) * list (list nat)), fits n s -> let s' := fold_left (move_vertex i) ks s in
  fits n s' /\ fst s' = map (relabel (fun v => if existsb (Nat.eqb v) ks then i else v)) (fst s).
Proof.
  intros I. induction ks as [|k ks IH]; intros s F; cbn [fold_left existsb]; cbv zeta; [split; [exact F|]; rewrite <- (map_id (fst s)) at 1; apply map_ext; intros f; symmetry; apply relabel_id|].
  destruct (move_vertex_spec n k i s I F) as (F1 & E1). destruct (IH _ F1) as (F2 & E2). split; [exact F2|]. rewrite E2, E1, map_map. apply map_ext. intros f. rewrite redirect_relabel, relabel_comp. apply relabel_ext.
  intros v. destruct (Nat.eqb_spec v k) as [->|NE]; cbn [orb]; [destruct (existsb (Nat.eqb i) ks); reflexivity|reflexivity].
Qed.
Lemma merge_rounds {N} n near : forall is_ (s : list (face N) * list (list nat)), Forall (fun i => i < n) is_ -> fits n s -> let s' := fold_left (fun s i => fold_left (move_vertex i) (near i) s) is_ s in
  fits n s' /\ fst s' = map (relabel (fun v => fold_left (hop near) is_ v)) (fst s).
Proof.
  induction is_ as [|i is_ IH]; intros s A F; cbn [fold_left]; cbv zeta; [split; [exact F|]; rewrite <- (map_id (fst s)) at 1; apply map_ext; intros f; symmetry; apply relabel_id|].
  inversion A; subst. destruct (move_vertices n i ltac:(assumption) (near i) s F) as (F1 & E1). destruct (IH _ ltac:(assumption) F1) as (F2 & E2). split; [exact F2|]. rewrite E2, E1, map_map. apply map_ext. intros f. rewrite relabel_comp. reflexivity.
Qed.
Lemma merge_spec {N} near (m : mesh N) : sound m ->
  let final := fun v => fold_left (hop (near (m_vertices m))) (seq 0 (length (m_vertices m))) v in
  let m1 := Mesh (m_vertices m) (m_normals m) (m_colors m) (map (relabel final) (m_faces m)) (m_box m) in
  sound m1 /\ merge near false m = Some m1 /\ merge near true m = option_map fst (remove_unused m1).
Proof.
  intros S final m1. unfold merge. destruct (face_map_spec (m_faces m) 0 (map (fun _ => []) (m_vertices m))) as (vf & E & L & H); [rewrite map_length; exact S|]. rewrite map_length in L. rewrite E.
  assert (F0 : fits (length (m_vertices m)) (m_faces m, vf)).
  { split; [exact L|]. split; [exact S|]. cbn [fst snd]. intros j f k J C. apply H. right. exists f. rewrite Nat.sub_0_r. auto with arith. }
  assert (A : Forall (fun i => i < length (m_vertices m)) (seq 0 (length (m_vertices m)))) by (apply Forall_forall; intros i; rewrite in_seq; lia).
  destruct (merge_rounds (length (m_vertices m)) (near (m_vertices m)) (seq 0 (length (m_vertices m))) _ A F0) as (F1 & E1).
  destruct (fold_left (fun s i => fold_left (move_vertex i) (near (m_vertices m) i) s) (seq 0 (length (m_vertices m))) (m_faces m, vf)) as [fs vf'] eqn:EF. cbn [fst] in E1. fold final in E1. subst fs.
  split; [exact (proj1 (proj2 F1))|]. split; [reflexivity|]. fold m1. destruct (remove_unused m1) as [[m2 r]|]; reflexivity.
Qed.
(** *** Where a vertex goes *)
Section HOP.
Variables (t : Z) (near : list vtx -> nat -> list nat) (vs : list vtx).
Hypothesis EX : exact t near vs.
Let n := length vs.
Definition cl (i k : nat) : Prop := exists p q, nth_error vs i = Some p /\ nth_error vs k = Some q /\ close t p q.
Lemma sqdist_sym p q : sqdist p q = sqdist q p.
Proof. unfold sqdist. ring. Qed.
Lemma sqdist_nonneg p q : (0 <= sqdist p q)%Z.
Proof. unfold sqdist. assert (A := Z.square_nonneg (vx p - vx q)). assert (B := Z.square_nonneg (vy p - vy q)). assert (C := Z.square_nonneg (vz p - vz q)). lia. Qed.
Lemma sqdist_refl p : sqdist p p = 0%Z.
Proof. unfold sqdist. ring. Qed.
Lemma cl_sym i k : cl i k -> cl k i.
Proof. intros (p & q & P & Q & C). exists q, p. unfold close in *. rewrite sqdist_sym. auto. Qed.
Lemma near_cl i k : i < n -> (existsb (Nat.eqb k) (near vs i) = true <-> cl i k).
Proof.
  intros I. destruct (nth_error vs i) as [p|] eqn:P; [|apply nth_error_None in P; unfold n in I; lia]. rewrite existsb_exists. split.
  - intros (x & X & E). apply Nat.eqb_eq in E. subst x. apply (EX i p P) in X. destruct X as (q & Q & C). exists p, q. auto.
  - intros (p' & q & P' & Q & C). rewrite P in P'. injection P' as <-. exists k. split; [apply (EX i p P); exists q; auto|apply Nat.eqb_refl].
Qed.
Lemma cl_lt i k : cl i k -> i < n /\ k < n.
Proof. intros (p & q & P & Q & _). split; apply nth_error_Some; congruence. Qed.
Lemma hop_cases v i : i < n -> (hop (near vs) v i = i /\ cl i v) \/ (hop (near vs) v i = v /\ ~ cl i v).
Proof.
  intros I. unfold hop. assert (Q := near_cl i v I). destruct (existsb (Nat.eqb v) (near vs i)); [left|right]; (split; [reflexivity|]); [apply Q; reflexivity|]. intros C. apply Q in C. discriminate C.
Qed.
Definition after (i v : nat) : nat := fold_left (hop (near vs)) (seq 0 i) v.
Lemma after_S i v : after (S i) v = hop (near vs) (after i v) i.
Proof. unfold after. rewrite seq_S, fold_left_app. reflexivity. Qed.
Lemma after_range i v : i <= n -> v < n -> after i v < n.
Proof.
  intros I V. induction i as [|i IH]; [exact V|]. rewrite after_S. destruct (hop_cases (after i v) i ltac:(lia)) as [[-> _]|[-> _]]; [lia|apply IH; lia].
Qed.
Lemma after_chain i v p : i <= n -> nth_error vs v = Some p -> exists q, nth_error vs (after i v) = Some q /\ chain vs t p q.
Proof.
  intros I P. induction i as [|i IH]; [exists p; split; [exact P|]; apply chain_here, (nth_error_In _ _ P)|]. destruct (IH ltac:(lia)) as (q & Q & C). rewrite after_S. destruct (hop_cases (after i v) i ltac:(lia)) as [[-> K]|[-> _]]; [|exists q; auto].
  destruct K as (a & b & A & B & AB). rewrite Q in B. injection B as <-. exists a. split; [exact A|]. apply (chain_step _ _ _ q); [exact C|apply (nth_error_In _ _ A)|]. unfold close in *. rewrite sqdist_sym. exact AB.
Qed.
Lemma after_apart i v w : i <= n -> v < n -> w < n -> after i v < i -> after i v <> after i w -> ~ cl (after i v) (after i w).
Proof.
  revert v w. induction i as [|i IH]; intros v w I V W L NE; [lia|]. rewrite !after_S in *.
  destruct (hop_cases (after i v) i ltac:(lia)) as [[E1 C1]|[E1 C1]], (hop_cases (after i w) i ltac:(lia)) as [[E2 C2]|[E2 C2]]; rewrite E1, E2 in *; [congruence|exact C2|intros C; apply C1, cl_sym, C|].
  destruct (Nat.eq_dec (after i v) i) as [E|NI]; [rewrite E in *; exact C2|]. apply IH; [lia..|exact NE].
Qed.
End HOP.
