(** Proofs about Gram-Schmidt. *)
From Coq Require Import Reals List Arith Lra Lia.
From Verif Require Import GramModel GramSpec.
Import ListNotations.
Open Scope R_scope.

Definition dim (n : nat) (v : vecx) : Prop := length v = n.

Lemma ldot_comm a b : ldot a b = ldot b a.
Proof. revert b; induction a as [|x a IH]; destruct b as [|y b]; cbn [ldot]; try reflexivity. rewrite IH. ring. Qed.
Lemma ldot_scale k a b : ldot (lscale k a) b = k * ldot a b.
Proof. revert b; induction a as [|x a IH]; destruct b as [|y b]; cbn [ldot lscale map]; try ring. unfold lscale in IH. rewrite IH. ring. Qed.
Lemma ldot_scale_r k a b : ldot a (lscale k b) = k * ldot a b.
Proof. rewrite ldot_comm, ldot_scale, ldot_comm. reflexivity. Qed.
Lemma ldot_sub a k b c : length a = length b -> ldot (lsub a k b) c = ldot a c - k * ldot b c.
Proof.
  revert b c; induction a as [|x a IH]; destruct b as [|y b]; intros c H; cbn [length] in H; try discriminate; cbn [lsub ldot]; [ring|].
  destruct c as [|z c]; cbn [ldot]; [ring|]. rewrite IH by lia. ring.
Qed.
Lemma ldot_nonneg a : 0 <= ldot a a.
Proof. induction a as [|x a IH]; cbn [ldot]; [lra|]. assert (K := Rle_0_sqr x). unfold Rsqr in K. lra. Qed.
Lemma ldot_zero a : ldot a a = 0 -> a = repeat 0 (length a).
Proof.
  induction a as [|x a IH]; cbn [ldot length repeat]; [reflexivity|]. intros H. assert (K := Rle_0_sqr x). unfold Rsqr in K. assert (N := ldot_nonneg a).
  rewrite <- IH by lra. f_equal. apply Rsqr_0_uniq. unfold Rsqr. lra.
Qed.
Lemma len_scale k a : length (lscale k a) = length a.
Proof. apply map_length. Qed.
Lemma len_sub a k b : length a = length b -> length (lsub a k b) = length a.
Proof. revert b; induction a as [|x a IH]; destruct b as [|y b]; cbn [length lsub]; intros; try lia. rewrite IH by lia. reflexivity. Qed.
Lemma len_normalize a : length (lnormalize a) = length a.
Proof. unfold lnormalize. destruct (Rlt_dec 0 (ldot a a)); [apply len_scale|reflexivity]. Qed.
Lemma lsub_plus a k b : lsub a k b = vplus a (lscale (- k) b).
Proof. revert b; induction a as [|x a IH]; destruct b as [|y b]; cbn [lsub vplus lscale map]; try reflexivity. rewrite IH. unfold lscale. f_equal. ring. Qed.

Lemma normalize_unit a : 0 < ldot a a -> ldot (lnormalize a) (lnormalize a) = 1 /\ exists k, k <> 0 /\ lnormalize a = lscale k a.
Proof.
  intros P. unfold lnormalize. destruct (Rlt_dec 0 (ldot a a)); [|contradiction].
  assert (S := sqrt_sqrt (ldot a a) ltac:(lra)). assert (Q : 0 < sqrt (ldot a a)) by (apply sqrt_lt_R0, P). set (s := sqrt (ldot a a)) in *. clearbody s. split.
  - rewrite ldot_scale, ldot_scale_r, <- S. field. lra.
  - exists (/ s). split; [apply Rinv_neq_0_compat; lra|reflexivity].
Qed.

(** * Spans *)
Lemma span_mono n l l' v : (forall x, In x l -> span n l' x) -> span n l v -> span n l' v.
Proof. intros H S. induction S; [constructor|apply H; assumption|apply span_plus; assumption|apply span_scale; assumption]. Qed.
Lemma span_app n l l' v : span n l v -> span n (l ++ l') v.
Proof. apply span_mono. intros x X. apply span_in, in_or_app; auto. Qed.
Lemma span_lsub n l a k b : span n l a -> span n l b -> span n l (lsub a k b).
Proof. intros A B. rewrite lsub_plus. apply span_plus; [exact A|apply span_scale, B]. Qed.
Lemma span_len n l v : Forall (dim n) l -> span n l v -> length v = n.
Proof.
  intros D S. induction S; [apply repeat_length|rewrite Forall_forall in D; apply D; assumption| |rewrite map_length; assumption].
  clear -IHS1 IHS2. revert v n IHS1 IHS2. induction u as [|x u IH]; destruct v as [|y v]; cbn [length vplus]; intros n A B; try lia. rewrite (IH v (pred n)); lia.
Qed.
Lemma lscale_lscale j k a : lscale j (lscale k a) = lscale (j * k) a.
Proof. unfold lscale. rewrite map_map. apply map_ext. intros; ring. Qed.
Lemma lscale_one a : lscale 1 a = a.
Proof. unfold lscale. rewrite <- (map_id a) at 2. apply map_ext. intros; ring. Qed.
Lemma lsub_back a k b : length a = length b -> vplus (lsub a k b) (lscale k b) = a.
Proof. revert b; induction a as [|x a IH]; destruct b as [|y b]; cbn [length lsub vplus lscale map]; intros; try lia; [reflexivity|]. f_equal; [ring|apply IH; lia]. Qed.

(** * One step *)
Lemma on_app q x : orthonormal q -> (forall u, In u q -> ldot x u = 0) -> ldot x x = 1 -> orthonormal (q ++ [x]).
Proof.
  intros Q O U i j u v I J.
  assert (C : forall k w, nth_error (q ++ [x]) k = Some w -> ((k < length q)%nat /\ nth_error q k = Some w) \/ (k = length q /\ w = x)).
  { intros k w H. destruct (Nat.lt_ge_cases k (length q)) as [L|L]; [left; rewrite nth_error_app1 in H by exact L; auto|].
    rewrite nth_error_app2 in H by exact L. destruct (k - length q)%nat eqn:E; [cbn in H; injection H as ->; right; split; [lia|reflexivity]|].
    cbn in H. destruct n; discriminate. }
  destruct (C _ _ I) as [[LI HI]|[-> ->]], (C _ _ J) as [[LJ HJ]|[-> ->]].
  - apply Q; assumption.
  - destruct (Nat.eq_dec i (length q)); [lia|]. rewrite ldot_comm. apply O, (nth_error_In _ _ HI).
  - destruct (Nat.eq_dec (length q) j); [lia|]. apply O, (nth_error_In _ _ HJ).
  - destruct (Nat.eq_dec (length q) (length q)); [exact U|congruence].
Qed.
Lemma on_in q u : orthonormal q -> In u q -> ldot u u = 1.
Proof. intros Q I. apply In_nth_error in I. destruct I as [i I]. rewrite (Q i i u u I I). destruct (Nat.eq_dec i i); [reflexivity|congruence]. Qed.

(** Subtracting the products with an orthonormal family. *)
Lemma fold_dot n x w q v : Forall (dim n) q -> dim n v -> 
  ldot (fold_left (fun v q => lsub v (ldot x q) q) q v) w = ldot v w - fold_right (fun u s => ldot x u * ldot u w + s) 0 q.
Proof.
  revert v; induction q as [|u q IH]; intros v D V; cbn [fold_left fold_right]; [ring|]. inversion D as [|? ? D1 D2]; subst.
  rewrite IH; [|exact D2|unfold dim in *; rewrite len_sub; congruence]. rewrite ldot_sub by (unfold dim in *; congruence). ring.
Qed.
Lemma fold_len n x q v : Forall (dim n) q -> dim n v -> dim n (fold_left (fun v q => lsub v (ldot x q) q) q v).
Proof.
  revert v; induction q as [|u q IH]; intros v D V; cbn [fold_left]; [exact V|]. inversion D as [|? ? D1 D2]; subst.
  apply IH; [exact D2|]. unfold dim in *. rewrite len_sub; congruence.
Qed.
Lemma fold_span n x q v : span n (v :: q) (fold_left (fun v q => lsub v (ldot x q) q) q v).
Proof.
  assert (G : forall l v, span n l v -> (forall u, In u q -> span n l u) -> span n l (fold_left (fun v q => lsub v (ldot x q) q) q v)).
  { clear v. induction q as [|u q IH]; intros l v V A; cbn [fold_left]; [exact V|]. apply IH; [|intros y Y; apply A; right; exact Y].
    apply span_lsub; [exact V|apply A; left; reflexivity]. }
  apply G; [apply span_in; left; reflexivity|]. intros u U. apply span_in; right; exact U.
Qed.
Lemma fold_span_back n x q v : Forall (dim n) q -> dim n v -> span n (fold_left (fun v q => lsub v (ldot x q) q) q v :: q) v.
Proof.
  assert (G : forall l v, Forall (dim n) q -> dim n v -> (forall u, In u q -> span n l u) -> span n l (fold_left (fun v q => lsub v (ldot x q) q) q v) -> span n l v).
  { clear v. induction q as [|u q IH]; intros l v D V A H; cbn [fold_left] in H; [exact H|]. inversion D as [|? ? D1 D2]; subst.
    assert (S : span n l (lsub v (ldot x u) u)) by (apply IH; [exact D2|unfold dim in *; rewrite len_sub; congruence|intros y Y; apply A; right; exact Y|exact H]).
    rewrite <- (lsub_back v (ldot x u) u) by (unfold dim in *; congruence). apply span_plus; [exact S|]. apply span_scale, A. left; reflexivity. }
  intros D V. apply G; [exact D|exact V| |apply span_in; left; reflexivity]. intros u U. apply span_in; right; exact U.
Qed.
Lemma sum_on x q w : orthonormal q -> In w q -> fold_right (fun u s => ldot x u * ldot u w + s) 0 q = ldot x w.
Proof.
  intros Q I. apply In_nth_error in I. destruct I as [j J].
  assert (G : forall l k, (forall i u, nth_error l i = Some u -> ldot u w = if Nat.eq_dec (k + i) j then 1 else 0) ->
    fold_right (fun u s => ldot x u * ldot u w + s) 0 l = match nth_error l (j - k) with Some u => if Nat.leb k j then ldot x u else 0 | None => 0 end).
  { induction l as [|u l IH]; intros k H; cbn [fold_right]; [destruct (j - k)%nat; reflexivity|].
    assert (H0 := H 0%nat u eq_refl). rewrite Nat.add_0_r in H0. rewrite H0.
    rewrite (IH (S k)) by (intros i u' Hu; replace (S k + i)%nat with (k + S i)%nat by lia; apply H; exact Hu).
    destruct (Nat.eq_dec k j) as [-> |N].
    - rewrite Nat.sub_diag. cbn [nth_error]. rewrite Nat.leb_refl. replace (Nat.leb (S j) j) with false by (symmetry; apply Nat.leb_gt; lia).
      destruct (nth_error l (j - S j)); ring.
    - destruct (Nat.lt_ge_cases k j) as [L|L].
      + replace (j - k)%nat with (S (j - S k)) by lia. cbn [nth_error]. replace (Nat.leb (S k) j) with true by (symmetry; apply Nat.leb_le; lia). replace (Nat.leb k j) with true by (symmetry; apply Nat.leb_le; lia).
        destruct (nth_error l (j - S k)); ring.
      + replace (Nat.leb (S k) j) with false by (symmetry; apply Nat.leb_gt; lia). replace (Nat.leb k j) with false by (symmetry; apply Nat.leb_gt; lia).
        destruct (nth_error l (j - S k)); destruct (nth_error (u :: l) (j - k)); ring. }
  rewrite (G q 0%nat); [rewrite Nat.sub_0_r, J; reflexivity|]. intros i u U. apply Q; assumption.
Qed.

Lemma gs_step_ok n done x : orthonormal done -> Forall (dim n) done -> dim n x -> ~ span n done x ->
  let y := gs_step done x in orthonormal (done ++ [y]) /\ dim n y /\ span n (done ++ [x]) y /\ span n (done ++ [y]) x.
Proof.
  intros O D X NS y. unfold y, gs_step. set (z := fold_left _ done x).
  assert (DZ : dim n z) by (apply fold_len; assumption).
  assert (OZ : forall u, In u done -> ldot z u = 0).
  { intros u U. unfold z. rewrite (fold_dot n) by assumption. rewrite sum_on by assumption. ring. }
  assert (PZ : 0 < ldot z z).
  { destruct (Req_dec (ldot z z) 0) as [E|E]; [|assert (K := ldot_nonneg z); lra]. exfalso. apply NS.
    assert (S := fold_span_back n x done x D X). fold z in S. apply (span_mono n (z :: done)); [|exact S]. intros w [<- |W]; [|apply span_in, W].
    rewrite (ldot_zero z E), DZ. constructor. }
  destruct (normalize_unit z PZ) as (U & k & K & E).
  split; [|split; [|split]].
  - apply on_app; [exact O| |exact U]. intros u V. rewrite E, ldot_scale, OZ by exact V. ring.
  - unfold dim. rewrite len_normalize. exact DZ.
  - rewrite E. apply span_scale. apply (span_mono n (x :: done)); [|apply fold_span]. intros w [<- |W]; apply span_in, in_or_app; cbn; auto.
  - assert (S := fold_span_back n x done x D X). fold z in S. apply (span_mono n (z :: done)); [|exact S]. intros w [<- |W]; [|apply span_in, in_or_app; auto].
    assert (EZ : lscale (/ k) (lnormalize z) = z) by (rewrite E, lscale_lscale; replace (/ k * k) with 1 by (field; exact K); apply lscale_one).
    assert (SZ : span n (done ++ [lnormalize z]) (lscale (/ k) (lnormalize z))) by (apply span_scale, span_in, in_or_app; right; left; reflexivity).
    rewrite EZ in SZ. exact SZ.
Qed.

(** Families with the same linear combinations. *)
Definition same_span (n : nat) (l l' : list vecx) : Prop := forall v, span n l v <-> span n l' v.
Lemma same_span_in n l l' : (forall v, In v l -> span n l' v) -> (forall v, In v l' -> span n l v) -> same_span n l l'.
Proof. intros A B v. split; apply span_mono; assumption. Qed.
Lemma same_span_app n l l' x y : same_span n l l' -> span n (l' ++ [y]) x -> span n (l' ++ [x]) y -> same_span n (l ++ [x]) (l' ++ [y]).
Proof.
  intros S A B. apply same_span_in; intros v V; apply in_app_or in V.
  - destruct V as [V|[<- |[]]]; [|exact A]. apply span_app, S, span_in, V.
  - destruct V as [V|[<- |[]]]; [apply span_app, S, span_in, V|]. apply (span_mono n (l' ++ [x])); [|exact B]. intros w W. apply in_app_or in W.
    destruct W as [W|[<- |[]]]; [apply span_app, S, span_in, W|apply span_in, in_or_app; cbn; auto].
Qed.

Lemma gs_loop_ok n rest : forall src done, orthonormal done -> Forall (dim n) done -> Forall (dim n) rest -> same_span n src done -> length src = length done -> independent n (src ++ rest) ->
  orthonormal (gs_loop done rest) /\ same_span n (src ++ rest) (gs_loop done rest) /\ length (gs_loop done rest) = length (src ++ rest) /\
  (exists tl, gs_loop done rest = done ++ tl) /\
  (forall i, (length done <= i <= length (src ++ rest))%nat -> same_span n (firstn i (src ++ rest)) (firstn i (gs_loop done rest))).
Proof.
  induction rest as [|x rest IH]; intros src done O D DR S L I; cbn [gs_loop].
  - rewrite app_nil_r. split; [exact O|]. split; [exact S|]. split; [symmetry; exact L|]. split; [exists []; rewrite app_nil_r; reflexivity|].
    intros i Hi. rewrite L in Hi. assert (i = length done) by lia. subst i. rewrite <- L at 1. rewrite !firstn_all. exact S.
  - inversion DR as [|? ? DX DR']; subst.
    assert (NS : ~ span n done x) by (intros C; apply (I src x rest eq_refl), S, C).
    destruct (gs_step_ok n done x O D DX NS) as (O' & DY & SY & SX). set (y := gs_step done x) in *.
    destruct (IH (src ++ [x]) (done ++ [y])) as (A & B & C & (tl & T) & F).
    + exact O'.
    + apply Forall_app; split; [exact D|constructor; [exact DY|constructor]].
    + exact DR'.
    + apply same_span_app; assumption.
    + rewrite !app_length; cbn; lia.
    + rewrite <- app_assoc. exact I.
    + rewrite <- app_assoc in B, C. cbn [app] in B, C. split; [exact A|]. split; [exact B|]. split; [exact C|].
      split; [exists (y :: tl); rewrite T, <- app_assoc; reflexivity|].
      intros i Hi. destruct (Nat.eq_dec i (length done)) as [-> |N].
      * rewrite T, <- app_assoc. rewrite <- L at 1. rewrite !firstn_app, !Nat.sub_diag, !firstn_O, !app_nil_r, !firstn_all. exact S.
      * assert (F' := F i). rewrite <- app_assoc in F'. cbn [app] in F'. apply F'. rewrite app_length; cbn [length]. lia.
Qed.

(** * The search for the start *)
Lemma nonzero_false x : nonzero x = false <-> x = 0.
Proof. unfold nonzero. destruct (Req_EM_T x 0); split; congruence. Qed.
Lemma nonzero_true x : nonzero x = true <-> x <> 0.
Proof. unfold nonzero. destruct (Req_EM_T x 0); split; congruence. Qed.
(** Each vector of [l] is orthogonal to all before it, [done] included. *)
Definition chain (done l : list vecx) : Prop := forall l1 x l2, l = l1 ++ x :: l2 -> forall q, In q (done ++ l1) -> ldot q x = 0.
Lemma chain_cons done x l : chain done (x :: l) <-> (forall q, In q done -> ldot q x = 0) /\ chain (done ++ [x]) l.
Proof.
  split.
  - intros C. split; [intros q Q; apply (C [] x l eq_refl); rewrite app_nil_r; exact Q|]. intros l1 y l2 E q Q. apply (C (x :: l1) y l2); [cbn; rewrite E; reflexivity|]. rewrite <- app_assoc in Q. exact Q.
  - intros [A B] l1 y l2 E q Q. destruct l1 as [|z l1]; cbn in E; injection E as -> E.
    + apply A. rewrite app_nil_r in Q. exact Q.
    + apply (B l1 y l2 E). rewrite <- app_assoc. exact Q.
Qed.
Lemma chain_nil done : chain done [].
Proof. intros l1 x l2 E. destruct l1; discriminate. Qed.
Lemma find_start_ok rest : forall done, match find_start done rest with
  | None => chain done rest
  | Some (d, r) => exists mid, rest = mid ++ r /\ d = done ++ mid /\ chain done mid /\ exists x r', r = x :: r' /\ exists q, In q d /\ ldot q x <> 0
  end.
Proof.
  induction rest as [|x rest IH]; intros done; cbn [find_start]; [apply chain_nil|].
  destruct (existsb (fun q => nonzero (ldot q x)) done) eqn:E.
  - exists []. split; [reflexivity|]. split; [rewrite app_nil_r; reflexivity|]. split; [apply chain_nil|]. exists x, rest. split; [reflexivity|].
    apply existsb_exists in E. destruct E as (q & Q & N). exists q. split; [exact Q|]. apply nonzero_true, N.
  - assert (A : forall q, In q done -> ldot q x = 0).
    { intros q Q. apply nonzero_false. destruct (nonzero (ldot q x)) eqn:N; [|reflexivity]. assert (existsb (fun q => nonzero (ldot q x)) done = true) by (apply existsb_exists; exists q; auto). congruence. }
    assert (H := IH (done ++ [x])). destruct (find_start (done ++ [x]) rest) as [[d r]|].
    + destruct H as (mid & R & D & C & T). exists (x :: mid). split; [rewrite R; reflexivity|]. split; [rewrite D, <- app_assoc; reflexivity|]. split; [|exact T].
      apply chain_cons. auto.
    + apply chain_cons; auto.
Qed.

Lemma chain_on done mid : orthonormal done -> chain done mid -> (forall v, In v mid -> ldot v v = 1) -> orthonormal (done ++ mid).
Proof.
  revert done; induction mid as [|x mid IH]; intros done O C U; [rewrite app_nil_r; exact O|]. apply chain_cons in C. destruct C as [A C].
  replace (done ++ x :: mid) with ((done ++ [x]) ++ mid) by (rewrite <- app_assoc; reflexivity).
  apply IH; [|exact C|intros v V; apply U; right; exact V]. apply on_app; [exact O|intros u V; rewrite ldot_comm; apply A, V|apply U; left; reflexivity].
Qed.

(** Orthogonality to the first vector does not depend on its length. *)
Lemma chain_first k b mid : k <> 0 -> chain [lscale k b] mid <-> chain [b] mid.
Proof.
  intros K. split; intros C l1 x l2 E q Q; assert (G := C l1 x l2 E); cbn [app] in *.
  - destruct Q as [<- |Q]; [|apply G; right; exact Q]. assert (H := G (lscale k b) (or_introl eq_refl)). rewrite ldot_scale in H. apply Rmult_integral in H. destruct H; [contradiction|assumption].
  - destruct Q as [<- |Q]; [|apply G; right; exact Q]. rewrite ldot_scale, (G b (or_introl eq_refl)). ring.
Qed.
Lemma chain_leading b mid r i : chain [b] mid -> (i <= length mid)%nat -> leading_orthogonal (b :: mid ++ r) i.
Proof.
  intros C I a c u v H A V. destruct c as [|c]; [lia|]. cbn [nth_error] in V. rewrite nth_error_app1 in V by lia.
  destruct (nth_error_split _ _ V) as (l1 & l2 & E & L). apply (C l1 v l2 E). destruct a as [|a]; cbn [nth_error] in A; [injection A as ->; left; reflexivity|].
  right. rewrite nth_error_app1 in A by lia. rewrite E in A. rewrite nth_error_app1 in A by lia. apply (nth_error_In _ _ A).
Qed.
Lemma leading_chain b l : leading_orthogonal (b :: l) (length l) -> chain [b] l.
Proof.
  intros H l1 x l2 E q Q. cbn [app] in Q. assert (X : nth_error (b :: l) (S (length l1)) = Some x) by (cbn; rewrite E, nth_error_app2, Nat.sub_diag by lia; reflexivity).
  assert (LE : (S (length l1) <= length l)%nat) by (rewrite E, app_length; cbn; lia).
  destruct Q as [<- |Q]; [apply (H 0%nat (S (length l1))); [lia|reflexivity|exact X]|].
  apply In_nth_error in Q. destruct Q as [a A]. assert (a < length l1)%nat by (apply nth_error_Some; congruence).
  apply (H (S a) (S (length l1))); [lia| |exact X]. cbn. rewrite E, nth_error_app1 by assumption. exact A.
Qed.
