(** Proofs for C82 to C84: the tables and single cells. *)
From Coq Require Import List ZArith QArith Bool Arith Lia Permutation Relations.
From Verif Require Import McModel McSpec.
Import ListNotations.
Open Scope Z_scope.

Ltac p3 := apply f_equal2; [apply f_equal2|]; lia.
(** ** Everything about one cell, for all 256 cases *)
Definition local_look (bits : list bool) (e : Z) : option Z := if Z.testbit (nth (index_of bits) edge_table 0) e then Some e else None.
Definition local (bits : list bool) : option (list (Z * Z * Z)) :=
  if nth (index_of bits) edge_table 0 =? 0 then Some [] else row_triangles (local_look bits) (nth (index_of bits) tri_table []).
Definition loc (bits : list bool) : list (Z * Z * Z) := match local bits with Some l => l | None => [] end.
Definition ends (e : Z) : nat * nat := nth (Z.to_nat e) edges (O, O).
(** The faces at the low and the high end of each axis: corners and edges, in corresponding order. *)
Definition unit (d : nat) : point := match d with O => (1, 0, 0) | 1%nat => (0, 1, 0) | _ => (0, 0, 1) end.
Definition low_corner (d i : nat) : nat := nth i (match d with O => [0; 3; 4; 7] | 1 => [0; 1; 4; 5] | _ => [0; 1; 2; 3] end)%nat O.
Definition high_corner (d i : nat) : nat := nth i (match d with O => [1; 2; 5; 6] | 1 => [3; 2; 7; 6] | _ => [4; 5; 6; 7] end)%nat O.
Definition lo (d i : nat) : Z := nth i (match d with O => [3; 7; 8; 11] | 1%nat => [0; 4; 8; 9] | _ => [0; 1; 2; 3] end) 0.
Definition hi (d i : nat) : Z := nth i (match d with O => [1; 5; 9; 10] | 1%nat => [2; 6; 11; 10] | _ => [4; 5; 6; 7] end) 0.
Definition low_bits (d : nat) (bits : list bool) : list bool := map (fun i => nth (low_corner d i) bits false) (seq 0 4).
Definition high_bits (d : nat) (bits : list bool) : list bool := map (fun i => nth (high_corner d i) bits false) (seq 0 4).
Definition eq2 (a b : Z * Z) : bool := (fst a =? fst b) && (snd a =? snd b).
Definition mem (x : Z * Z) (l : list (Z * Z)) : bool := existsb (eq2 x) l.
Definition embed (d : nat) (fb : list bool) : list bool := map (fun k => existsb (fun i => (low_corner d i =? k)%nat && nth i fb false) (seq 0 4)) (seq 0 8).
Definition seg (d : nat) (fb : list bool) (a b : nat) : bool := mem (lo d a, lo d b) (sides (loc (embed d fb))).
Definition three := seq 0 3. Definition four := seq 0 4. Definition twelve : list Z := map Z.of_nat (seq 0 12).
Fixpoint nodup2 (l : list (Z * Z)) : bool := match l with [] => true | x :: l => negb (mem x l) && nodup2 l end.
Definition differ (bits : list bool) (e : Z) : bool := xorb (nth (fst (ends e)) bits false) (nth (snd (ends e)) bits false).
Definition check (bits : list bool) : bool :=
  match local bits with None => false | Some l => (length l <=? 5)%nat && forallb (fun e => (0 <=? e) && (e <? 12) && differ bits e) (vertices l) end &&
  forallb (fun e => implb (differ bits e) (existsb (Z.eqb e) (vertices (loc bits)))) twelve &&
  nodup2 (sides (loc bits)) && forallb (fun s => negb (fst s =? snd s)) (sides (loc bits)) &&
  forallb (fun s => mem (snd s, fst s) (sides (loc bits)) || existsb (fun d => existsb (fun a => existsb (fun b => eq2 s (lo d a, lo d b) || eq2 s (hi d a, hi d b)) four) four) three) (sides (loc bits)) &&
  forallb (fun d => forallb (fun a => forallb (fun b => Bool.eqb (mem (lo d a, lo d b) (sides (loc bits))) (seg d (low_bits d bits) a b) && Bool.eqb (mem (hi d b, hi d a) (sides (loc bits))) (seg d (high_bits d bits) a b)) four) four) three &&
  Bool.eqb (match loc bits with [] => true | _ => false end) (forallb (fun k => Bool.eqb (nth k bits false) (nth 0 bits false)) (seq 0 8)).
Fixpoint all_bits (n : nat) : list (list bool) := match n with O => [[]] | S n => map (cons false) (all_bits n) ++ map (cons true) (all_bits n) end.
Lemma all_bits_in : forall n l, length l = n -> In l (all_bits n).
Proof.
  induction n as [|n IH]; intros [|b l] L; cbn [length] in L; try lia; [left; reflexivity|]. cbn [all_bits]. apply in_or_app. destruct b; [right|left]; apply in_map, IH; lia.
Qed.
Lemma check_all : forallb check (all_bits 8) = true.
Proof. vm_compute. reflexivity. Qed.
Lemma check_bits bits : length bits = 8%nat -> check bits = true.
Proof. intros L. assert (H := check_all). rewrite forallb_forall in H. apply H, all_bits_in, L. Qed.
Lemma seg_all : forallb (fun d => forallb (fun fb => forallb (fun a => forallb (fun b => negb (seg d fb a b && seg d fb b a) && implb (forallb (fun i => Bool.eqb (nth i fb false) (nth 0 fb false)) four) (negb (seg d fb a b))) four) four) (all_bits 4)) three = true.
Proof. vm_compute. reflexivity. Qed.
Lemma mem_in x l : mem x l = true <-> In x l.
Proof.
  unfold mem. rewrite existsb_exists. split; [intros (y & Y & E); unfold eq2 in E; apply andb_true_iff in E; rewrite !Z.eqb_eq in E; destruct x, y; cbn [fst snd] in E; destruct E as [-> ->]; exact Y|].
  intros I. exists x. split; [exact I|]. unfold eq2. rewrite !Z.eqb_refl. reflexivity.
Qed.
Lemma nodup2_spec l : nodup2 l = true -> NoDup l.
Proof. induction l as [|x l IH]; intros H; [constructor|]. cbn [nodup2] in H. apply andb_true_iff in H. destruct H as [A B]. constructor; [|apply IH, B]. intros I. apply mem_in in I. rewrite I in A. discriminate. Qed.
Record facts (bits : list bool) : Prop := Facts {
  f_local : exists l, local bits = Some l /\ loc bits = l /\ (length l <= 5)%nat;
  f_used : forall e, In e (vertices (loc bits)) -> 0 <= e < 12 /\ differ bits e = true;
  f_cross : forall e, 0 <= e < 12 -> differ bits e = true -> In e (vertices (loc bits));
  f_nodup : NoDup (sides (loc bits));
  f_proper : forall a b, In (a, b) (sides (loc bits)) -> a <> b;
  f_reverse : forall a b, In (a, b) (sides (loc bits)) -> In (b, a) (sides (loc bits)) \/ exists d i j, (d < 3)%nat /\ (i < 4)%nat /\ (j < 4)%nat /\ ((a = lo d i /\ b = lo d j) \/ (a = hi d i /\ b = hi d j));
  f_low : forall d i j, (d < 3)%nat -> (i < 4)%nat -> (j < 4)%nat -> (In (lo d i, lo d j) (sides (loc bits)) <-> seg d (low_bits d bits) i j = true);
  f_high : forall d i j, (d < 3)%nat -> (i < 4)%nat -> (j < 4)%nat -> (In (hi d j, hi d i) (sides (loc bits)) <-> seg d (high_bits d bits) i j = true);
  f_empty : loc bits = [] <-> forall k, (k < 8)%nat -> nth k bits false = nth 0 bits false }.
Lemma in_seq0 k n : (k < n)%nat -> In k (seq 0 n). Proof. intros. apply in_seq. lia. Qed.
Lemma facts_hold bits : length bits = 8%nat -> facts bits.
Proof.
  intros L. assert (C := check_bits bits L). unfold check in C. rewrite !andb_true_iff in C. destruct C as ((((((C1 & C2) & C3) & C4) & C5) & C6) & C7).
  destruct (local bits) as [l|] eqn:EL; [|discriminate]. assert (LL : loc bits = l) by (unfold loc; rewrite EL; reflexivity). apply andb_true_iff in C1. destruct C1 as [C1 C1']. rewrite forallb_forall in C1', C2, C4, C5, C6. constructor.
  - exists l. split; [exact EL|]. split; [exact LL|]. apply Nat.leb_le, C1.
  - intros e I. rewrite LL in I. apply C1' in I. rewrite !andb_true_iff, Z.leb_le, Z.ltb_lt in I. tauto.
  - intros e E DF. assert (I : In e twelve). { unfold twelve. apply in_map_iff. exists (Z.to_nat e). split; [lia|]. apply in_seq. lia. } apply C2 in I. rewrite DF in I. cbn [implb] in I. apply existsb_exists in I. destruct I as (x & X & EX). apply Z.eqb_eq in EX. subst x. exact X.
  - apply nodup2_spec, C3.
  - intros a b I. apply C4 in I. cbn [fst snd] in I. destruct (Z.eqb_spec a b); [discriminate|assumption].
  - intros a b I. apply C5 in I. apply orb_true_iff in I. cbn [fst snd] in I. destruct I as [I|I]; [left; apply mem_in, I|right]. apply existsb_exists in I. destruct I as (d & D & I). apply existsb_exists in I. destruct I as (i & II & I). apply existsb_exists in I. destruct I as (j & J & I).
    unfold three, four in *. apply in_seq in D, II, J. exists d, i, j. split; [lia|]. split; [lia|]. split; [lia|]. apply orb_true_iff in I. unfold eq2 in I. cbn [fst snd] in I. rewrite !andb_true_iff, !Z.eqb_eq in I. tauto.
  - intros d i j D I J. specialize (C6 d (in_seq0 _ _ D)). cbv beta in C6. rewrite forallb_forall in C6. specialize (C6 i (in_seq0 _ _ I)). cbv beta in C6. rewrite forallb_forall in C6. specialize (C6 j (in_seq0 _ _ J)). apply andb_true_iff in C6. destruct C6 as [X _]. apply Bool.eqb_prop in X. rewrite <- X. symmetry. apply mem_in.
  - intros d i j D I J. specialize (C6 d (in_seq0 _ _ D)). cbv beta in C6. rewrite forallb_forall in C6. specialize (C6 i (in_seq0 _ _ I)). cbv beta in C6. rewrite forallb_forall in C6. specialize (C6 j (in_seq0 _ _ J)). apply andb_true_iff in C6. destruct C6 as [_ X]. apply Bool.eqb_prop in X. rewrite <- X. symmetry. apply mem_in.
  - apply Bool.eqb_prop in C7. split.
    + intros E. rewrite E in C7. symmetry in C7. rewrite forallb_forall in C7. intros k K. apply Bool.eqb_prop, C7, in_seq0, K.
    + intros E. destruct (loc bits); [reflexivity|]. exfalso. assert (X : forallb (fun k => Bool.eqb (nth k bits false) (nth 0 bits false)) (seq 0 8) = true) by (apply forallb_forall; intros k K; apply in_seq in K; rewrite (E k) by lia; apply Bool.eqb_reflx). rewrite X in C7. discriminate.
Qed.
Lemma seg_facts d fb i j : (d < 3)%nat -> length fb = 4%nat -> (i < 4)%nat -> (j < 4)%nat -> ~ (seg d fb i j = true /\ seg d fb j i = true) /\ ((forall k, (k < 4)%nat -> nth k fb false = nth 0 fb false) -> seg d fb i j = false).
Proof.
  intros D L I J. assert (H := seg_all). rewrite forallb_forall in H. specialize (H d (in_seq0 _ _ D)). cbv beta in H. rewrite forallb_forall in H. specialize (H fb (all_bits_in 4 fb L)). cbv beta in H. rewrite forallb_forall in H. specialize (H i (in_seq0 _ _ I)). cbv beta in H. rewrite forallb_forall in H. specialize (H j (in_seq0 _ _ J)). cbv beta in H.
  apply andb_true_iff in H. destruct H as [A B]. split; [intros [X Y]; rewrite X, Y in A; discriminate|]. intros E. assert (X : forallb (fun k => Bool.eqb (nth k fb false) (nth 0 fb false)) four = true) by (apply forallb_forall; intros k K; apply in_seq in K; rewrite (E k) by lia; apply Bool.eqb_reflx). rewrite X in B. cbn [implb] in B. destruct (seg d fb i j); [discriminate|reflexivity].
Qed.

(** ** From the table to the triangles *)
Definition tmap {A B} (h : A -> B) (t : A * A * A) : B * B * B := let '(a, b, c) := t in (h a, h b, h c).
Definition pmap {A B} (h : A -> B) (s : A * A) : B * B := (h (fst s), h (snd s)).
Lemma row_map {A B} (h : A -> B) (look : Z -> option A) : forall n row, (length row <= n)%nat -> row_triangles (fun e => option_map h (look e)) row = option_map (map (tmap h)) (row_triangles look row).
Proof.
  induction n as [|n IH]; intros [|a row] L; cbn [length] in L; try lia; [reflexivity..|]. cbn [row_triangles]. destruct (a =? -1); [reflexivity|]. destruct row as [|b [|c row]]; try reflexivity. cbn [length] in L. rewrite IH by lia. destruct (look a), (look b), (look c), (row_triangles look row); reflexivity.
Qed.
Lemma row_ext {A} (l1 l2 : Z -> option A) (E : forall e, l1 e = l2 e) : forall n row, (length row <= n)%nat -> row_triangles l1 row = row_triangles l2 row.
Proof.
  induction n as [|n IH]; intros [|a row] L; cbn [length] in L; try lia; [reflexivity..|]. cbn [row_triangles]. destruct (a =? -1); [reflexivity|]. destruct row as [|b [|c row]]; try reflexivity. cbn [length] in L. rewrite !E, IH by lia. reflexivity.
Qed.
Definition vat {V} (vert : point -> point -> V) (c : point) (e : Z) : V := vert (corner c (fst (ends e))) (corner c (snd (ends e))).
Lemma bits_length f iso c : length (bits_of f iso c) = 8%nat.
Proof. reflexivity. Qed.
Lemma polygonise_spec {V} (vert : point -> point -> V) f iso c : polygonise vert f iso c = Some (map (tmap (vat vert c)) (loc (bits_of f iso c))).
Proof.
  destruct (f_local _ (facts_hold _ (bits_length f iso c))) as (l & E & EL & _). rewrite EL. unfold polygonise. unfold local in E. set (bits := bits_of f iso c) in *. destruct (_ =? 0); [injection E as <-; reflexivity|].
  rewrite (row_ext (vertlist vert (index_of bits) c) (fun e => option_map (vat vert c) (local_look bits e))) with (n := length (nth (index_of bits) tri_table [])); [|intros e; unfold vertlist, local_look, vat, ends; destruct (Z.testbit _ e); [|reflexivity]; cbn [option_map]; destruct (nth (Z.to_nat e) edges (O, O)); reflexivity|lia].
  rewrite (row_map _ _ (length (nth (index_of bits) tri_table []))) by lia. rewrite E. reflexivity.
Qed.
Lemma sides_map {A B} (h : A -> B) l : sides (map (tmap h) l) = map (pmap h) (sides l).
Proof. induction l as [|[[a b] c] l IH]; [reflexivity|]. cbn [map tmap]. unfold sides in *. cbn [flat_map app map pmap fst snd]. rewrite IH. reflexivity. Qed.
Lemma vertices_map {A B} (h : A -> B) l : vertices (map (tmap h) l) = map h (vertices l).
Proof. induction l as [|[[a b] c] l IH]; [reflexivity|]. cbn [map tmap]. unfold vertices in *. cbn [flat_map app map]. rewrite IH. reflexivity. Qed.
Lemma sides_app {V} (a b : list (V * V * V)) : sides (a ++ b) = sides a ++ sides b.
Proof. unfold sides. rewrite !flat_map_concat_map, map_app, concat_app. reflexivity. Qed.
Lemma side_vertex {V} (ts : list (V * V * V)) a b : In (a, b) (sides ts) -> In a (vertices ts) /\ In b (vertices ts).
Proof.
  unfold sides, vertices. rewrite !in_flat_map. intros (((x & y) & z) & T & [E|[E|[E|[]]]]); injection E as <- <-; split; exists (x, y, z); (split; [exact T|]); cbn; tauto.
Qed.
(** The triangles of a cell, named by midpoints. *)
Definition tris (f : point -> Z) (iso : Z) (c : point) : list (point * point * point) := map (tmap (vat midpoint c)) (loc (bits_of f iso c)).
Lemma gather_spec {V} (vert : point -> point -> V) f iso cs : gather vert f iso cs = Some (flat_map (fun c => map (tmap (vat vert c)) (loc (bits_of f iso c))) cs).
Proof. induction cs as [|c cs IH]; [reflexivity|]. cbn [gather flat_map]. rewrite polygonise_spec, IH. reflexivity. Qed.
(** Geometry of names. *)
Lemma plus3_assoc a b c : plus3 a (plus3 b c) = plus3 (plus3 a b) c.
Proof. destruct a as [[? ?] ?], b as [[? ?] ?], c as [[? ?] ?]. cbn [plus3]. p3. Qed.
Lemma plus3_comm a b : plus3 a b = plus3 b a.
Proof. destruct a as [[? ?] ?], b as [[? ?] ?]. cbn [plus3]. p3. Qed.
Lemma plus3_inj a b c : plus3 a b = plus3 a c -> b = c.
Proof. destruct a as [[? ?] ?], b as [[? ?] ?], c as [[? ?] ?]. cbn [plus3]. intros E. injection E as ? ? ?. p3. Qed.
Definition name (e : Z) : point := midpoint (nth (fst (ends e)) corners (0, 0, 0)) (nth (snd (ends e)) corners (0, 0, 0)).
Lemma vat_midpoint c e : vat midpoint c e = plus3 (plus3 c c) (name e).
Proof. unfold vat, name, midpoint, corner. destruct c as [[x y] z]. destruct (nth (fst (ends e)) corners (0, 0, 0)) as [[? ?] ?], (nth (snd (ends e)) corners (0, 0, 0)) as [[? ?] ?]. cbn [plus3]. p3. Qed.
Lemma lt3 d : (d < 3)%nat -> d = 0%nat \/ d = 1%nat \/ d = 2%nat. Proof. lia. Qed.
Lemma lt4 d : (d < 4)%nat -> d = 0%nat \/ d = 1%nat \/ d = 2%nat \/ d = 3%nat. Proof. lia. Qed.
Lemma vat_shared c d i : (d < 3)%nat -> (i < 4)%nat -> vat midpoint c (hi d i) = vat midpoint (plus3 c (unit d)) (lo d i).
Proof.
  intros D I. rewrite !vat_midpoint. assert (E : name (hi d i) = plus3 (plus3 (unit d) (unit d)) (name (lo d i))). { destruct (lt3 d D) as [->|[->| ->]], (lt4 i I) as [->|[->|[->| ->]]]; reflexivity. }
  rewrite E. rewrite plus3_assoc. f_equal. destruct c as [[x y] z], (unit d) as [[u v] w]. cbn [plus3]. p3.
Qed.
Lemma bits_shared f iso c d : (d < 3)%nat -> high_bits d (bits_of f iso c) = low_bits d (bits_of f iso (plus3 c (unit d))).
Proof.
  intros D. destruct c as [[x y] z]. destruct (lt3 d D) as [->|[->| ->]]; unfold high_bits, low_bits, bits_of; cbn [map seq nth high_corner low_corner unit plus3 corner corners]; unfold corner; cbn [nth corners plus3];
    repeat (apply f_equal2; [apply f_equal; p3|]); try reflexivity.
Qed.
Lemma low_bits_length d bits : length (low_bits d bits) = 4%nat. Proof. reflexivity. Qed.
(** The side of a triangle on the upper face of a cell is, the other way round, one of the next cell. *)
Lemma face_up f iso c d i j : (d < 3)%nat -> (i < 4)%nat -> (j < 4)%nat -> In (hi d i, hi d j) (sides (loc (bits_of f iso c))) <-> In (lo d j, lo d i) (sides (loc (bits_of f iso (plus3 c (unit d))))).
Proof.
  intros D I J. rewrite (f_high _ (facts_hold _ (bits_length f iso c)) d j i D J I), (f_low _ (facts_hold _ (bits_length f iso (plus3 c (unit d)))) d j i D J I), bits_shared by exact D. reflexivity.
Qed.
Lemma in_tris f iso c a b : In (a, b) (sides (tris f iso c)) <-> exists e e', In (e, e') (sides (loc (bits_of f iso c))) /\ a = vat midpoint c e /\ b = vat midpoint c e'.
Proof.
  unfold tris. rewrite sides_map, in_map_iff. split; [intros ([e e'] & E & I); injection E as <- <-; exists e, e'; auto|intros (e & e' & I & -> & ->); exists (e, e'); auto].
Qed.
(** Two names shared by two cells are on a common face. *)
Definition apart (d : nat) (e1 e1' e2 e2' : Z) : bool := existsb (fun i => existsb (fun j => ((e1 =? hi d i) && (e1' =? lo d i) && (e2 =? hi d j) && (e2' =? lo d j))) four) four.
Definition sub3 (a b : point) : point := let '(x, y, z) := a in let '(x', y', z') := b in (x - x', y - y', z - z').
Lemma shared_all : forallb (fun e1 => forallb (fun e1' => forallb (fun e2 => forallb (fun e2' =>
  implb (negb (e1 =? e2) && negb (e1 =? e1') && peq (sub3 (name e1) (name e1')) (sub3 (name e2) (name e2')) && (let '(x, y, z) := sub3 (name e1) (name e1') in Z.even x && Z.even y && Z.even z))
    (existsb (fun d => (apart d e1 e1' e2 e2' && peq (sub3 (name e1) (name e1')) (plus3 (unit d) (unit d))) || (apart d e1' e1 e2' e2 && peq (sub3 (name e1') (name e1)) (plus3 (unit d) (unit d)))) three)) twelve) twelve) twelve) twelve = true.
Proof. vm_compute. reflexivity. Qed.
Lemma peq_eq a b : peq a b = true <-> a = b.
Proof. destruct a as [[x y] z], b as [[x' y'] z']. cbn [peq]. rewrite !andb_true_iff, !Z.eqb_eq. split; [intros [[-> ->] ->]; reflexivity|intros E; injection E as -> -> ->; auto]. Qed.
Lemma in_twelve e : 0 <= e < 12 -> In e twelve.
Proof. intros E. unfold twelve. apply in_map_iff. exists (Z.to_nat e). split; [lia|apply in_seq; lia]. Qed.
Lemma apart_spec d e1 e1' e2 e2' : apart d e1 e1' e2 e2' = true -> exists i j, (i < 4)%nat /\ (j < 4)%nat /\ e1 = hi d i /\ e1' = lo d i /\ e2 = hi d j /\ e2' = lo d j.
Proof.
  intros H. apply existsb_exists in H. destruct H as (i & I & H). apply existsb_exists in H. destruct H as (j & J & H). unfold four in *. apply in_seq in I, J. rewrite !andb_true_iff, !Z.eqb_eq in H. exists i, j. repeat split; try lia; tauto.
Qed.
Lemma shared c c' e1 e1' e2 e2' : c <> c' -> 0 <= e1 < 12 -> 0 <= e1' < 12 -> 0 <= e2 < 12 -> 0 <= e2' < 12 -> e1 <> e2 -> vat midpoint c e1 = vat midpoint c' e1' -> vat midpoint c e2 = vat midpoint c' e2' ->
  exists d i j, (d < 3)%nat /\ (i < 4)%nat /\ (j < 4)%nat /\ ((c' = plus3 c (unit d) /\ e1 = hi d i /\ e1' = lo d i /\ e2 = hi d j /\ e2' = lo d j) \/ (c = plus3 c' (unit d) /\ e1' = hi d i /\ e1 = lo d i /\ e2' = hi d j /\ e2 = lo d j)).
Proof.
  intros NE R1 R1' R2 R2' N12 E1 E2. rewrite !vat_midpoint in E1, E2. assert (S1 : sub3 (name e1) (name e1') = sub3 (plus3 c' c') (plus3 c c)) by (clear - E1; destruct c as [[? ?] ?], c' as [[? ?] ?], (name e1) as [[? ?] ?], (name e1') as [[? ?] ?]; cbn [plus3 sub3] in *; injection E1 as ? ? ?; p3).
  assert (S2 : sub3 (name e2) (name e2') = sub3 (plus3 c' c') (plus3 c c)) by (clear - E2; destruct c as [[? ?] ?], c' as [[? ?] ?], (name e2) as [[? ?] ?], (name e2') as [[? ?] ?]; cbn [plus3 sub3] in *; injection E2 as ? ? ?; p3).
  assert (S3 : sub3 (name e1') (name e1) = sub3 (plus3 c c) (plus3 c' c')) by (clear - E1; destruct c as [[? ?] ?], c' as [[? ?] ?], (name e1) as [[? ?] ?], (name e1') as [[? ?] ?]; cbn [plus3 sub3] in *; injection E1 as ? ? ?; p3).
  assert (EV : (let '(x, y, z) := sub3 (plus3 c' c') (plus3 c c) in Z.even x && Z.even y && Z.even z) = true). { destruct c as [[x y] z], c' as [[x' y'] z']. cbn [plus3 sub3]. replace (x' + x' - (x + x)) with (2 * (x' - x)) by lia. replace (y' + y' - (y + y)) with (2 * (y' - y)) by lia. replace (z' + z' - (z + z)) with (2 * (z' - z)) by lia. rewrite !Z.even_mul. reflexivity. }
  assert (N11 : e1 <> e1'). { intros ->. apply NE. destruct c as [[? ?] ?], c' as [[? ?] ?], (name e1') as [[? ?] ?]. cbn [plus3] in E1. injection E1 as ? ? ?. p3. }
  assert (H := shared_all). rewrite forallb_forall in H. specialize (H e1 (in_twelve _ R1)). cbv beta in H. rewrite forallb_forall in H. specialize (H e1' (in_twelve _ R1')). cbv beta in H. rewrite forallb_forall in H. specialize (H e2 (in_twelve _ R2)). cbv beta in H. rewrite forallb_forall in H. specialize (H e2' (in_twelve _ R2')). cbv beta in H.
  destruct (Z.eqb_spec e1 e2); [congruence|]. destruct (Z.eqb_spec e1 e1'); [congruence|]. rewrite S1, S2, S3 in H. rewrite EV in H. rewrite (proj2 (peq_eq _ _) eq_refl) in H. cbn [negb andb implb] in H. apply existsb_exists in H. destruct H as (d & D & H). unfold three in D. apply in_seq in D. apply orb_true_iff in H.
  assert (HALF : forall a b u, sub3 (plus3 a a) (plus3 b b) = plus3 u u -> a = plus3 b u) by (intros [[? ?] ?] [[? ?] ?] [[? ?] ?]; cbn [plus3 sub3]; intros EQ; injection EQ as ? ? ?; p3).
  destruct H as [H|H]; apply andb_true_iff in H; destruct H as [H P]; apply apart_spec in H; destruct H as (i & j & I & J & A1 & A2 & A3 & A4); apply peq_eq in P; apply HALF in P; exists d, i, j; (split; [lia|]); (split; [lia|]); (split; [lia|]); [left|right]; auto.
Qed.
Lemma name_nodup : forallb (fun e => forallb (fun e' => implb (peq (name e) (name e')) (e =? e')) twelve) twelve = true.
Proof. vm_compute. reflexivity. Qed.
Lemma vat_inj c e e' : 0 <= e < 12 -> 0 <= e' < 12 -> vat midpoint c e = vat midpoint c e' -> e = e'.
Proof.
  intros R R' E. rewrite !vat_midpoint in E. apply plus3_inj in E. assert (H := name_nodup). rewrite forallb_forall in H. specialize (H e (in_twelve _ R)). cbv beta in H. rewrite forallb_forall in H. specialize (H e' (in_twelve _ R')). cbv beta in H. rewrite E, (proj2 (peq_eq _ _) eq_refl) in H. apply Z.eqb_eq, H.
Qed.
Lemma local_range bits e e' : length bits = 8%nat -> In (e, e') (sides (loc bits)) -> 0 <= e < 12 /\ 0 <= e' < 12 /\ e <> e'.
Proof. intros L I. assert (F := facts_hold bits L). destruct (side_vertex _ _ _ I) as [A B]. apply (f_used _ F) in A, B. assert (N := f_proper _ F _ _ I). tauto. Qed.
Lemma tris_nodup f iso c : NoDup (sides (tris f iso c)).
Proof.
  unfold tris. rewrite sides_map. assert (F := facts_hold _ (bits_length f iso c)). assert (R : forall s, In s (sides (loc (bits_of f iso c))) -> 0 <= fst s < 12 /\ 0 <= snd s < 12) by (intros [e e'] I; destruct (local_range _ _ _ (bits_length f iso c) I) as (A & B & _); auto).
  generalize (f_nodup _ F) R. generalize (sides (loc (bits_of f iso c))). clear. induction 1 as [|x l N ND IH]; intros R; [constructor|]. cbn [map]. constructor; [|apply IH; intros s I; apply R; right; exact I].
  intros I. apply in_map_iff in I. destruct I as (y & E & Y). apply N. destruct (R x (or_introl eq_refl)) as [A B]. destruct (R y (or_intror Y)) as [A' B']. unfold pmap in E. injection E as E1 E2. apply vat_inj in E1; [|assumption..]. apply vat_inj in E2; [|assumption..]. replace x with y; [exact Y|]. destruct x, y. cbn [fst snd] in *. congruence.
Qed.
Lemma tris_disjoint f iso c c' s : c <> c' -> In s (sides (tris f iso c)) -> In s (sides (tris f iso c')) -> False.
Proof.
  intros NE I I'. destruct s as [a b]. apply in_tris in I, I'. destruct I as (e1 & e2 & I & A & B). destruct I' as (e1' & e2' & I' & A' & B'). destruct (local_range _ _ _ (bits_length f iso c) I) as (R1 & R2 & N). destruct (local_range _ _ _ (bits_length f iso c') I') as (R1' & R2' & N').
  destruct (shared c c' e1 e1' e2 e2' NE R1 R1' R2 R2' N ltac:(congruence) ltac:(congruence)) as (d & i & j & D & LI & LJ & [(-> & -> & -> & -> & ->)|(-> & -> & -> & -> & ->)]).
  - apply face_up in I; [|assumption..]. assert (F := facts_hold _ (bits_length f iso (plus3 c (unit d)))). apply (f_low _ F) in I, I'; try assumption. destruct (seg_facts d (low_bits d (bits_of f iso (plus3 c (unit d)))) i j D (low_bits_length _ _) LI LJ) as [X _]. apply X. auto.
  - apply face_up in I'; [|assumption..]. assert (F := facts_hold _ (bits_length f iso (plus3 c' (unit d)))). apply (f_low _ F) in I, I'; try assumption. destruct (seg_facts d (low_bits d (bits_of f iso (plus3 c' (unit d)))) i j D (low_bits_length _ _) LI LJ) as [X _]. apply X. auto.
Qed.
Lemma flat_nodup f iso cs : NoDup cs -> NoDup (sides (flat_map (tris f iso) cs)).
Proof.
  induction 1 as [|c cs N ND IH]; [constructor|]. cbn [flat_map]. rewrite sides_app. assert (G : forall s, In s (sides (flat_map (tris f iso) cs)) -> exists c', In c' cs /\ In s (sides (tris f iso c'))).
  { intros s. clear. induction cs as [|c cs IH]; [intros []|]. cbn [flat_map]. rewrite sides_app, in_app_iff. intros [I|I]; [exists c; split; [left; reflexivity|exact I]|]. destruct (IH I) as (c' & C & X). exists c'. split; [right; exact C|exact X]. }
  assert (T := tris_nodup f iso c). assert (DJ : forall s, In s (sides (tris f iso c)) -> In s (sides (flat_map (tris f iso) cs)) -> False) by (intros s I J; destruct (G s J) as (c' & C & X); apply (tris_disjoint f iso c c' s); [intros ->; auto|exact I|exact X]).
  revert T DJ. generalize (sides (tris f iso c)). induction l as [|x l IHl]; intros T DJ; [exact IH|]. inversion T; subst. cbn [app]. constructor; [rewrite in_app_iff; intros [I|I]; [auto|apply (DJ x (or_introl eq_refl) I)]|apply IHl; [assumption|intros s I J; apply (DJ s (or_intror I) J)]].
Qed.
Lemma in_flat_sides f iso cs s : In s (sides (flat_map (tris f iso) cs)) <-> exists c, In c cs /\ In s (sides (tris f iso c)).
Proof.
  induction cs as [|c cs IH]; [split; [intros []|intros (c & [] & _)]|]. cbn [flat_map]. rewrite sides_app, in_app_iff, IH. split; [intros [I|(c' & C & I)]; [exists c; split; [left; reflexivity|exact I]|exists c'; split; [right; exact C|exact I]]|intros (c' & [<-|C] & I); [left; exact I|right; exists c'; auto]].
Qed.
Lemma coordinate_plus d a b : coordinate d (plus3 a b) = coordinate d a + coordinate d b.
Proof. destruct a as [[? ?] ?], b as [[? ?] ?], d as [|[|d]]; reflexivity. Qed.
Lemma low_plane d i : (d < 3)%nat -> (i < 4)%nat -> coordinate d (name (lo d i)) = 0 /\ coordinate d (name (hi d i)) = 2.
Proof. intros D I. destruct (lt3 d D) as [->|[->| ->]], (lt4 i I) as [->|[->|[->| ->]]]; split; reflexivity. Qed.
Definition minus (d : nat) (c : point) : point := sub3 c (unit d).
Lemma minus_plus d c : plus3 (minus d c) (unit d) = c.
Proof. unfold minus. destruct c as [[? ?] ?], (unit d) as [[? ?] ?]. cbn [plus3 sub3]. p3. Qed.
(** A side of a cell has its reverse in the cell or in the neighbour across a face. *)
Lemma reverse_or_face f iso c a b : In (a, b) (sides (tris f iso c)) -> In (b, a) (sides (tris f iso c)) \/ exists d, (d < 3)%nat /\
  ((In (b, a) (sides (tris f iso (plus3 c (unit d)))) /\ coordinate d a = 2 * coordinate d c + 2 /\ coordinate d b = 2 * coordinate d c + 2 /\ exists i j, (i < 4)%nat /\ (j < 4)%nat /\ seg d (low_bits d (bits_of f iso (plus3 c (unit d)))) i j = true) \/
   (In (b, a) (sides (tris f iso (minus d c))) /\ coordinate d a = 2 * coordinate d c /\ coordinate d b = 2 * coordinate d c /\ exists i j, (i < 4)%nat /\ (j < 4)%nat /\ seg d (low_bits d (bits_of f iso c)) i j = true)).
Proof.
  intros I. apply in_tris in I. destruct I as (e & e' & I & -> & ->). destruct (f_reverse _ (facts_hold _ (bits_length f iso c)) e e' I) as [R|(d & i & j & D & LI & LJ & [[-> ->]|[-> ->]])]; [left; apply in_tris; exists e', e; auto|right; exists d; split; [exact D|]..].
  - right. split; [|split; [|split]].
    + apply in_tris. exists (hi d j), (hi d i). split; [apply face_up; [assumption..|rewrite minus_plus; exact I]|]. rewrite !vat_shared by assumption. rewrite minus_plus. auto.
    + rewrite vat_midpoint, !coordinate_plus. destruct (low_plane d i D LI) as [-> _]. lia.
    + rewrite vat_midpoint, !coordinate_plus. destruct (low_plane d j D LJ) as [-> _]. lia.
    + exists i, j. split; [exact LI|]. split; [exact LJ|]. apply (f_low _ (facts_hold _ (bits_length f iso c)) d i j D LI LJ). exact I.
  - left. split; [|split; [|split]].
    + apply in_tris. exists (lo d j), (lo d i). split; [apply face_up; assumption|]. rewrite !vat_shared by assumption. auto.
    + rewrite vat_midpoint, !coordinate_plus. destruct (low_plane d i D LI) as [_ ->]. lia.
    + rewrite vat_midpoint, !coordinate_plus. destruct (low_plane d j D LJ) as [_ ->]. lia.
    + exists j, i. split; [exact LJ|]. split; [exact LI|]. apply (f_low _ (facts_hold _ (bits_length f iso (plus3 c (unit d)))) d j i D LJ LI). apply face_up; assumption.
Qed.
