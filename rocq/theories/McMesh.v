(** Proofs for C82 to C85: sets of cells. *)
From Coq Require Import List ZArith QArith Bool Arith Lia Permutation Relations.
From Verif Require Import McModel McSpec McProofs.
Import ListNotations.
Open Scope Z_scope.

(** ** Cells *)
Lemma nth_bits f iso c k : (k < 8)%nat -> nth k (bits_of f iso c) false = above f iso (corner c k).
Proof. intros K. unfold bits_of. rewrite (nth_indep _ false (above f iso (corner c 0))) by (rewrite map_length, seq_length; exact K). rewrite (map_nth (fun i => above f iso (corner c i))), seq_nth by exact K. reflexivity. Qed.
Lemma crosses_above f iso p q : crosses f iso p q <-> above f iso p <> above f iso q.
Proof. unfold crosses, above. destruct (Z.ltb_spec iso (f p)), (Z.ltb_spec iso (f q)); split; intros; try congruence; try lia; try discriminate; exfalso; lia. Qed.
Lemma hull_above size f iso : hull_one_side size f iso -> exists b, forall p, on_hull size p -> above f iso p = b.
Proof. unfold above. intros [H|H]; [exists true|exists false]; intros p P; specialize (H p P); [apply Z.ltb_lt, H|apply Z.ltb_ge, H]. Qed.
Lemma corners_all o : (forall d, (d < 3)%nat -> 0 <= coordinate d o <= 1) -> In o corners.
Proof.
  destruct o as [[x y] z]. intros H. assert (X := H 0%nat ltac:(lia)). assert (Y := H 1%nat ltac:(lia)). assert (Z1 := H 2%nat ltac:(lia)). cbn [coordinate] in *.
  assert (X' : x = 0 \/ x = 1) by lia. assert (Y' : y = 0 \/ y = 1) by lia. assert (Z' : z = 0 \/ z = 1) by lia. destruct X' as [->| ->], Y' as [->| ->], Z' as [->| ->]; cbn; tauto.
Qed.
Lemma corner_range k d : (k < 8)%nat -> 0 <= coordinate d (nth k corners (0, 0, 0)) <= 1.
Proof. intros K. destruct k as [|[|[|[|[|[|[|[|k]]]]]]]]; [..|lia]; destruct d as [|[|d]]; cbn; lia. Qed.
Lemma corner_of_spec c p : corner_of c p <-> exists k, (k < 8)%nat /\ p = corner c k.
Proof.
  split.
  - intros H. assert (I : In (sub3 p c) corners) by (apply corners_all; intros d _; specialize (H d); destruct p as [[? ?] ?], c as [[? ?] ?], d as [|[|d]]; cbn [coordinate sub3] in *; lia). apply (In_nth _ _ (0, 0, 0)) in I. destruct I as (k & K & E). exists k. split; [exact K|]. unfold corner. replace (nth k corners (0, 0, 0)) with (sub3 p c) by (symmetry; exact E). destruct p as [[? ?] ?], c as [[? ?] ?]. cbn [plus3 sub3]. p3.
  - intros (k & K & ->) d. unfold corner. rewrite coordinate_plus. assert (R := corner_range k d K). lia.
Qed.
Lemma meets_index f iso c : meets f iso c <-> exists i k, (i < 8)%nat /\ (k < 8)%nat /\ crosses f iso (corner c i) (corner c k).
Proof.
  split; [intros (p & q & P & Q' & X); apply corner_of_spec in P, Q'; destruct P as (i & I & ->), Q' as (k & K & ->); exists i, k; auto|intros (i & k & I & K & X); exists (corner c i), (corner c k); split; [apply corner_of_spec; exists i; auto|]; split; [apply corner_of_spec; exists k; auto|exact X]].
Qed.
Lemma beside_around c c' : beside c c' <-> In c' (around c).
Proof.
  destruct c as [[x y] z], c' as [[x' y'] z']. unfold beside, joined, around. split.
  - intros (d & D & H). destruct (lt3 d D) as [->|[->| ->]]; cbn [plus3 map In] in *; destruct H as [H|H]; injection H as -> -> ->; [left|right; left|do 2 right; left|do 3 right; left|do 4 right; left|do 5 right; left]; p3.
  - cbn [plus3 map In]. intros [H|[H|[H|[H|[H|[H|[]]]]]]]; injection H as <- <- <-; [exists 0%nat|exists 0%nat|exists 1%nat|exists 1%nat|exists 2%nat|exists 2%nat]; (split; [lia|]); [left|right|left|right|left|right]; p3.
Qed.
Lemma meets_loc f iso c : meets f iso c <-> loc (bits_of f iso c) <> [].
Proof.
  assert (F := f_empty _ (facts_hold _ (bits_length f iso c))). split.
  - rewrite meets_index. intros (i & k & I & K & X) E. apply crosses_above in X. apply X. assert (G := proj1 F E). rewrite <- !nth_bits by assumption. rewrite (G i I), (G k K). reflexivity.
  - intros N. destruct (existsb (fun k => negb (Bool.eqb (above f iso (corner c k)) (above f iso (corner c 0)))) (seq 0 8)) eqn:E.
    + apply existsb_exists in E. destruct E as (k & K & E). apply in_seq in K. apply meets_index. exists k, O. split; [lia|]. split; [lia|]. apply crosses_above. intros X. rewrite X, Bool.eqb_reflx in E. discriminate.
    + exfalso. apply N. apply F. intros k K. rewrite !nth_bits by lia. assert (X : In k (seq 0 8)) by (apply in_seq; lia). destruct (Bool.eqb (above f iso (corner c k)) (above f iso (corner c 0))) eqn:B; [apply Bool.eqb_prop, B|]. assert (Y : existsb (fun k => negb (Bool.eqb (above f iso (corner c k)) (above f iso (corner c 0)))) (seq 0 8) = true) by (apply existsb_exists; exists k; rewrite B; auto). congruence.
Qed.
Lemma meets_tris f iso c : meets f iso c <-> tris f iso c <> [].
Proof. rewrite meets_loc. unfold tris. destruct (loc (bits_of f iso c)); cbn [map]; split; congruence. Qed.
Lemma sides_meet f iso c s : In s (sides (tris f iso c)) -> meets f iso c.
Proof. intros I. apply meets_tris. intros E. rewrite E in I. destruct I. Qed.
Lemma beside_up c d : (d < 3)%nat -> beside c (plus3 c (unit d)).
Proof. intros D. apply beside_around. unfold around. apply in_map. destruct (lt3 d D) as [->|[->| ->]]; cbn; tauto. Qed.
Lemma beside_down c d : (d < 3)%nat -> beside c (minus d c).
Proof.
  intros D. apply beside_around. unfold around. replace (minus d c) with (plus3 c (sub3 (0, 0, 0) (unit d))) by (unfold minus; destruct c as [[? ?] ?], (unit d) as [[? ?] ?]; cbn [plus3 sub3]; p3).
  apply in_map. destruct (lt3 d D) as [->|[->| ->]]; cbn; tauto.
Qed.
Lemma coordinate_unit d d' : (d < 3)%nat -> coordinate d (unit d) = 1 /\ ((d' < 3)%nat -> d' <> d -> coordinate d' (unit d) = 0).
Proof. intros D. destruct (lt3 d D) as [->|[->| ->]]; (split; [reflexivity|intros D'; destruct (lt3 d' D') as [->|[->| ->]]; intros; try reflexivity; congruence]). Qed.
Lemma coordinate_minus d' d c : coordinate d' (minus d c) = coordinate d' c - coordinate d' (unit d).
Proof. unfold minus. destruct c as [[? ?] ?], (unit d) as [[? ?] ?], d' as [|[|?]]; reflexivity. Qed.
Lemma coordinate_big d p : (2 <= d)%nat -> coordinate d p = coordinate 2 p.
Proof. intros D. destruct d as [|[|d]]; [lia..|]. destruct p as [[? ?] ?]. reflexivity. Qed.
Lemma all_coordinates (P : Z -> Prop) p : (forall d, (d < 3)%nat -> P (coordinate d p)) <-> forall d, P (coordinate d p).
Proof. split; [intros H d|intros H d _; apply H]. destruct (Nat.lt_ge_cases d 3) as [L|L]; [apply H, L|rewrite coordinate_big by lia; apply H; lia]. Qed.
Lemma cell_up size c d : (d < 3)%nat -> cell size c -> cell size (plus3 c (unit d)) \/ coordinate d c + 1 = size.
Proof.
  intros D C. destruct (Z.eq_dec (coordinate d c + 1) size) as [E|E]; [right; exact E|left]. refine (proj1 (all_coordinates (fun z => 0 <= z < size) _) _). intros d' D'. rewrite coordinate_plus. specialize (C d'). destruct (Nat.eq_dec d' d) as [->|N].
  - rewrite (proj1 (coordinate_unit d d D)). specialize (C). lia.
  - rewrite (proj2 (coordinate_unit d d' D) D' N). lia.
Qed.
Lemma cell_down size c d : (d < 3)%nat -> cell size c -> cell size (minus d c) \/ coordinate d c = 0.
Proof.
  intros D C. destruct (Z.eq_dec (coordinate d c) 0) as [E|E]; [right; exact E|left]. refine (proj1 (all_coordinates (fun z => 0 <= z < size) _) _). intros d' D'. rewrite coordinate_minus. specialize (C d'). destruct (Nat.eq_dec d' d) as [->|N].
  - rewrite (proj1 (coordinate_unit d d D)). lia.
  - rewrite (proj2 (coordinate_unit d d' D) D' N). lia.
Qed.
Lemma corner_in_grid size c k : cell size c -> (k < 8)%nat -> in_grid size (corner c k).
Proof. intros C K d. unfold corner. rewrite coordinate_plus. assert (R := corner_range k d K). specialize (C d). lia. Qed.
Lemma low_corner_plane d i : (d < 3)%nat -> (i < 4)%nat -> (low_corner d i < 8)%nat /\ coordinate d (nth (low_corner d i) corners (0, 0, 0)) = 0 /\ (high_corner d i < 8)%nat /\ coordinate d (nth (high_corner d i) corners (0, 0, 0)) = 1.
Proof. intros D I. destruct (lt3 d D) as [->|[->| ->]], (lt4 i I) as [->|[->|[->| ->]]]; cbn; repeat split; lia. Qed.
Lemma nth_low d bits i : (i < 4)%nat -> nth i (low_bits d bits) false = nth (low_corner d i) bits false.
Proof. intros I. destruct (lt4 i I) as [->|[->|[->| ->]]]; reflexivity. Qed.
Lemma nth_high d bits i : (i < 4)%nat -> nth i (high_bits d bits) false = nth (high_corner d i) bits false.
Proof. intros I. destruct (lt4 i I) as [->|[->|[->| ->]]]; reflexivity. Qed.
(** No side lies on the hull if the field is on one side of the level there. *)
Lemma no_seg_low size f iso c d i j : hull_one_side size f iso -> (d < 3)%nat -> (i < 4)%nat -> (j < 4)%nat -> cell size c -> coordinate d c = 0 -> seg d (low_bits d (bits_of f iso c)) i j = true -> False.
Proof.
  intros HH D I J C Z0 SG. destruct (hull_above _ _ _ HH) as (b & H). destruct (seg_facts d (low_bits d (bits_of f iso c)) i j D (low_bits_length _ _) I J) as [_ X]. rewrite X in SG; [discriminate|]. intros k K. assert (G : forall k, (k < 4)%nat -> nth k (low_bits d (bits_of f iso c)) false = b).
  { intros k' K'. rewrite nth_low by exact K'. destruct (low_corner_plane d k' D K') as (A & B & _). rewrite nth_bits by exact A. apply H. split; [apply corner_in_grid; assumption|]. exists d. left. unfold corner. rewrite coordinate_plus, B. lia. }
  rewrite (G k K), (G 0%nat ltac:(lia)). reflexivity.
Qed.
Lemma no_seg_high size f iso c d i j : hull_one_side size f iso -> (d < 3)%nat -> (i < 4)%nat -> (j < 4)%nat -> cell size c -> coordinate d c + 1 = size -> seg d (low_bits d (bits_of f iso (plus3 c (unit d)))) i j = true -> False.
Proof.
  intros HH D I J C Z0 SG. destruct (hull_above _ _ _ HH) as (b & H). rewrite <- bits_shared in SG by exact D. destruct (seg_facts d (high_bits d (bits_of f iso c)) i j D eq_refl I J) as [_ X]. rewrite X in SG; [discriminate|]. intros k K. assert (G : forall k, (k < 4)%nat -> nth k (high_bits d (bits_of f iso c)) false = b).
  { intros k' K'. rewrite nth_high by exact K'. destruct (low_corner_plane d k' D K') as (_ & _ & A & B). rewrite nth_bits by exact A. apply H. split; [apply corner_in_grid; assumption|]. exists d. right. unfold corner. rewrite coordinate_plus, B. lia. }
  rewrite (G k K), (G 0%nat ltac:(lia)). reflexivity.
Qed.
(** Every side has its reverse, or lies on the hull. *)
Lemma closed size f iso cs a b : (forall c, In c cs -> cell size c) -> complete size f iso cs -> In (a, b) (sides (flat_map (tris f iso) cs)) ->
  In (b, a) (sides (flat_map (tris f iso) cs)) \/ (rim size a b /\ ~ hull_one_side size f iso).
Proof.
  intros CC CO I. apply in_flat_sides in I. destruct I as (c & C & I). assert (M := sides_meet _ _ _ _ I). destruct (reverse_or_face f iso c a b I) as [R|(d & D & [(R & A & B & i & j & LI & LJ & SG)|(R & A & B & i & j & LI & LJ & SG)])].
  - left. apply in_flat_sides. exists c. auto.
  - destruct (cell_up size c d D (CC c C)) as [U|E].
    + left. apply in_flat_sides. exists (plus3 c (unit d)). split; [|exact R]. apply (CO c); [exact C|exact M|apply beside_up, D|exact U|exact (sides_meet _ _ _ _ R)].
    + right. split; [exists d; right; lia|]. intros H. apply (no_seg_high size f iso c d i j H D LI LJ (CC c C) E SG).
  - destruct (cell_down size c d D (CC c C)) as [U|E].
    + left. apply in_flat_sides. exists (minus d c). split; [|exact R]. apply (CO c); [exact C|exact M|apply beside_down, D|exact U|exact (sides_meet _ _ _ _ R)].
    + right. split; [exists d; left; lia|]. intros H. apply (no_seg_low size f iso c d i j H D LI LJ (CC c C) E SG).
Qed.
(** ** All cells *)
Lemma in_upto n k : In k (upto n) <-> 0 <= k < n.
Proof. unfold upto. rewrite in_map_iff. split; [intros (i & <- & I); apply in_seq in I; lia|intros H; exists (Z.to_nat k); split; [lia|apply in_seq; lia]]. Qed.
Lemma upto_nodup n : NoDup (upto n).
Proof. unfold upto. apply FinFun.Injective_map_NoDup; [intros a b; lia|apply seq_NoDup]. Qed.
Lemma upto_length n : length (upto n) = Z.to_nat n.
Proof. unfold upto. rewrite map_length, seq_length. reflexivity. Qed.
Lemma in_cells size c : In c (cells size) <-> cell size c.
Proof.
  unfold cells. rewrite in_flat_map. split.
  - intros (i & I & J). apply in_flat_map in J. destruct J as (j & J & K). apply in_map_iff in K. destruct K as (k & <- & K). apply in_upto in I, J, K. intros d. destruct d as [|[|d]]; cbn [coordinate]; assumption.
  - destruct c as [[x y] z]. intros C. exists x. split; [apply in_upto; exact (C 0%nat)|]. apply in_flat_map. exists y. split; [apply in_upto; exact (C 1%nat)|]. apply in_map_iff. exists z. split; [reflexivity|apply in_upto; exact (C 2%nat)].
Qed.
Lemma nodup_app_disj {A} (l l' : list A) : NoDup l -> NoDup l' -> (forall x, In x l -> In x l' -> False) -> NoDup (l ++ l').
Proof. induction 1 as [|x l N ND IH]; intros ND' DJ; [exact ND'|]. cbn [app]. constructor; [rewrite in_app_iff; intros [I|I]; [auto|apply (DJ x (or_introl eq_refl) I)]|apply IH; [exact ND'|intros y I J; apply (DJ y (or_intror I) J)]]. Qed.
Lemma nodup_flat {A B} (g : A -> list B) (k : B -> A) l : NoDup l -> (forall a, NoDup (g a)) -> (forall a b, In b (g a) -> k b = a) -> NoDup (flat_map g l).
Proof.
  intros ND G K. induction ND as [|a l N ND IH]; [constructor|]. cbn [flat_map]. apply nodup_app_disj; [apply G|exact IH|]. intros x I J. apply in_flat_map in J. destruct J as (b & B' & J). apply K in I, J. congruence.
Qed.
Lemma cells_nodup size : NoDup (cells size).
Proof.
  unfold cells. apply (nodup_flat _ (fun c : point => fst (fst c))); [apply upto_nodup|intros i|].
  - apply (nodup_flat _ (fun c : point => snd (fst c))); [apply upto_nodup|intros j; apply FinFun.Injective_map_NoDup; [intros a b E; congruence|apply upto_nodup]|]. intros j b I. apply in_map_iff in I. destruct I as (k & <- & _). reflexivity.
  - intros i b I. apply in_flat_map in I. destruct I as (j & _ & I). apply in_map_iff in I. destruct I as (k & <- & _). reflexivity.
Qed.
Lemma flat_length {A B} (g : A -> list B) n l : (forall a, In a l -> length (g a) = n) -> length (flat_map g l) = (length l * n)%nat.
Proof. induction l as [|a l IH]; intros G; [reflexivity|]. cbn [flat_map length]. rewrite app_length, (G a (or_introl eq_refl)), IH by (intros; apply G; right; assumption). lia. Qed.
Lemma cells_length size : 0 <= size -> length (cells size) = Z.to_nat (size * size * size).
Proof.
  intros P. unfold cells. rewrite (flat_length _ (Z.to_nat size * Z.to_nat size)); [rewrite upto_length, !Z2Nat.inj_mul by lia; lia|]. intros i _. rewrite (flat_length _ (Z.to_nat size)); [rewrite upto_length; reflexivity|]. intros j _. rewrite map_length, upto_length. reflexivity.
Qed.
(** ** Positions *)
Definition swap {V} (s : V * V) : V * V := (snd s, fst s).
Lemma occurs_perm {V} (eqb : V -> V -> bool) a b l l' : Permutation l l' -> occurs eqb a b l = occurs eqb a b l'.
Proof. unfold occurs. induction 1 as [|x l l' P IH|x y l|l l' l'' P IH P' IH']; [reflexivity| | |congruence]; cbn [filter]; [destruct (_ && _); cbn [length]; congruence|]. destruct (eqb (fst x) a && eqb (snd x) b), (eqb (fst y) a && eqb (snd y) b); reflexivity. Qed.
Lemma occurs_swap {V} (eqb : V -> V -> bool) a b l : occurs eqb a b (map swap l) = occurs eqb b a l.
Proof. unfold occurs. induction l as [|[x y] l IH]; [reflexivity|]. cbn [map swap filter fst snd]. rewrite andb_comm. destruct (eqb x b && eqb y a); cbn [length]; rewrite IH; reflexivity. Qed.
Lemma swap_perm {V} (l : list (V * V)) : NoDup l -> (forall a b, In (a, b) l -> In (b, a) l) -> Permutation l (map swap l).
Proof.
  intros ND C. apply NoDup_Permutation; [exact ND| |].
  - apply FinFun.Injective_map_NoDup; [|exact ND]. intros [a b] [a' b'] E. unfold swap in E. cbn [fst snd] in E. congruence.
  - intros [a b]. rewrite in_map_iff. split; [intros I; exists (b, a); split; [reflexivity|apply C, I]|intros ([a' b'] & E & I); unfold swap in E; cbn [fst snd] in E; injection E as <- <-; apply C, I].
Qed.
Lemma balanced {V W} (eqb : W -> W -> bool) (pos : V -> W) (l : list (V * V)) a b : NoDup l -> (forall a b, In (a, b) l -> In (b, a) l) -> occurs eqb a b (map (pmap pos) l) = occurs eqb b a (map (pmap pos) l).
Proof.
  intros ND C. rewrite <- (occurs_swap eqb a b). rewrite map_map. rewrite (occurs_perm eqb a b _ (map (pmap pos) (map swap l))); [rewrite map_map; apply f_equal; apply map_ext; intros [x y]; reflexivity|]. apply Permutation_map, swap_perm; assumption.
Qed.
(** Interpolation does not depend on the order of the ends. *)
Lemma crosses_cases f iso p q : crosses f iso p q -> (f p <= iso < f q) \/ (f q <= iso < f p).
Proof. unfold crosses. lia. Qed.
Lemma mix_swap iso v1 v2 a b : v1 <> v2 -> mix (inject_Z (iso - v1) / inject_Z (v2 - v1)) a b = mix (inject_Z (iso - v2) / inject_Z (v1 - v2)) b a.
Proof.
  intros N. unfold mix. apply Qred_complete. assert (N1 : ~ (inject_Z v2 + - inject_Z v1 == 0)%Q) by (rewrite <- inject_Z_opp, <- inject_Z_plus; intros X; apply (proj1 (inject_Z_injective _ 0)) in X; lia). assert (N2 : ~ (inject_Z v1 + - inject_Z v2 == 0)%Q) by (rewrite <- inject_Z_opp, <- inject_Z_plus; intros X; apply (proj1 (inject_Z_injective _ 0)) in X; lia).
  unfold Z.sub. rewrite !inject_Z_plus, !inject_Z_opp. field. split; intros X; first [apply N1; rewrite <- X; ring|apply N2; rewrite <- X; ring].
Qed.
Lemma interp_swap th iso f p q : 0 <= th -> crosses f iso p q -> th <= Z.abs (iso - f p) \/ th <= Z.abs (iso - f q) -> interp th iso f p q = interp th iso f q p.
Proof.
  intros T X N. assert (C := crosses_cases f iso p q X). unfold interp. cbv zeta. destruct (Z.ltb_spec (Z.abs (iso - f p)) th), (Z.ltb_spec (Z.abs (iso - f q)) th); try lia; try reflexivity.
  destruct (Z.ltb_spec (Z.abs (f p - f q)) th); [lia|]. destruct (Z.ltb_spec (Z.abs (f q - f p)) th); [lia|]. destruct p as [[x1 y1] z1], q as [[x2 y2] z2]. rewrite !(mix_swap iso (f (x1, y1, z1)) (f (x2, y2, z2))) by lia. reflexivity.
Qed.
(** The ends of the edge with a name. *)
Definition down (k : point) : point := let '(x, y, z) := k in (x / 2, y / 2, z / 2).
Definition up (k : point) : point := let '(x, y, z) := k in ((x + 1) / 2, (y + 1) / 2, (z + 1) / 2).
Lemma ends_check : forallb (fun e => let p := nth (fst (ends e)) corners (0, 0, 0) in let q := nth (snd (ends e)) corners (0, 0, 0) in
  (fst (ends e) <? 8)%nat && (snd (ends e) <? 8)%nat && existsb (fun d => peq q (plus3 p (unit d)) || peq p (plus3 q (unit d))) three) twelve = true.
Proof. vm_compute. reflexivity. Qed.
Lemma ends_spec c e : 0 <= e < 12 -> (fst (ends e) < 8)%nat /\ (snd (ends e) < 8)%nat /\ exists d, (d < 3)%nat /\ (corner c (snd (ends e)) = plus3 (corner c (fst (ends e))) (unit d) \/ corner c (fst (ends e)) = plus3 (corner c (snd (ends e))) (unit d)).
Proof.
  intros R. assert (H := ends_check). rewrite forallb_forall in H. specialize (H e (in_twelve _ R)). cbv beta zeta in H. rewrite !andb_true_iff, !Nat.ltb_lt in H. destruct H as [[A B] H]. split; [exact A|]. split; [exact B|]. apply existsb_exists in H. destruct H as (d & D & H). unfold three in D. apply in_seq in D. exists d. split; [lia|]. unfold corner.
  apply orb_true_iff in H. rewrite !peq_eq in H. destruct H as [H|H]; [left|right]; rewrite H at 1; apply plus3_assoc.
Qed.
Lemma down_up p d : (d < 3)%nat -> down (midpoint p (plus3 p (unit d))) = p /\ up (midpoint p (plus3 p (unit d))) = plus3 p (unit d).
Proof.
  intros D. destruct p as [[x y] z]. unfold midpoint. destruct (lt3 d D) as [->|[->| ->]]; cbn [unit plus3 down up]; split; (apply f_equal2; [apply f_equal2|]); Z.div_mod_to_equations; lia.
Qed.
Lemma midpoint_comm p q : midpoint p q = midpoint q p. Proof. apply plus3_comm. Qed.
Lemma edge_joined c e : 0 <= e < 12 -> joined (corner c (fst (ends e))) (corner c (snd (ends e))).
Proof. intros R. destruct (ends_spec c e R) as (_ & _ & d & D & X). exists d. split; [exact D|]. exact X. Qed.
Lemma differ_crosses f iso c e : 0 <= e < 12 -> differ (bits_of f iso c) e = true <-> crosses f iso (corner c (fst (ends e))) (corner c (snd (ends e))).
Proof. intros R. destruct (ends_spec c e R) as (A & B & _). rewrite crosses_above. unfold differ. rewrite !nth_bits by assumption. destruct (above f iso (corner c (fst (ends e)))), (above f iso (corner c (snd (ends e)))); cbn [xorb]; split; congruence. Qed.
Lemma position th size iso f c e : 0 <= th -> no_thin_edge th size f iso -> cell size c -> In e (vertices (loc (bits_of f iso c))) ->
  vat (interp th iso f) c e = interp th iso f (down (vat midpoint c e)) (up (vat midpoint c e)).
Proof.
  intros T NT C I. destruct (f_used _ (facts_hold _ (bits_length f iso c)) e I) as [R DF]. apply (differ_crosses f iso c e R) in DF. destruct (ends_spec c e R) as (A & B & d & D & X). assert (JN := edge_joined c e R). unfold vat. assert (P := corner_in_grid size c _ C A). assert (Q' := corner_in_grid size c _ C B). assert (TH := NT _ _ P Q' JN DF).
  destruct X as [X|X].
  - rewrite X in *. destruct (down_up (corner c (fst (ends e))) d D) as [-> ->]. reflexivity.
  - rewrite X in *. rewrite (midpoint_comm (plus3 (corner c (snd (ends e))) (unit d)) (corner c (snd (ends e)))). destruct (down_up (corner c (snd (ends e))) d D) as [-> ->]. apply interp_swap; assumption.
Qed.
Lemma tmap_ext_in {A B} (g h : A -> B) (l : list (A * A * A)) : (forall e, In e (vertices l) -> g e = h e) -> map (tmap g) l = map (tmap h) l.
Proof.
  intros H. apply map_ext_in. intros [[a b] c] I. cbn [tmap]. assert (V : forall e, e = a \/ e = b \/ e = c -> g e = h e) by (intros e E; apply H; unfold vertices; apply in_flat_map; exists (a, b, c); split; [exact I|cbn; intuition auto]). rewrite !V by auto. reflexivity.
Qed.
Lemma tmap_tmap {A B C} (g : B -> C) (h : A -> B) l : map (tmap g) (map (tmap h) l) = map (tmap (fun x => g (h x))) l.
Proof. rewrite map_map. apply map_ext. intros [[a b] c]. reflexivity. Qed.
Lemma gather_positions th size iso f cs : 0 <= th -> no_thin_edge th size f iso -> (forall c, In c cs -> cell size c) ->
  gather (interp th iso f) f iso cs = Some (map (tmap (fun k => interp th iso f (down k) (up k))) (flat_map (tris f iso) cs)).
Proof.
  intros T NT CC. rewrite gather_spec. apply f_equal. induction cs as [|c cs IH]; [reflexivity|]. cbn [flat_map]. rewrite map_app, <- IH by (intros; apply CC; right; assumption). apply f_equal2; [|reflexivity]. unfold tris. rewrite tmap_tmap. apply tmap_ext_in. intros e I. apply (position th size); try assumption. apply CC. left. reflexivity.
Qed.
Lemma positions_balanced th size iso f cs ts : 0 <= th -> no_thin_edge th size f iso -> hull_one_side size f iso -> NoDup cs -> (forall c, In c cs -> cell size c) -> complete size f iso cs -> gather (interp th iso f) f iso cs = Some ts ->
  forall p q, occurs same_place p q (sides ts) = occurs same_place q p (sides ts).
Proof.
  intros T NT H ND CC CO G p q. rewrite (gather_positions th size) in G by assumption. injection G as <-. rewrite sides_map. apply balanced; [apply flat_nodup, ND|]. intros a b I. destruct (closed size f iso cs a b CC CO I) as [X|[_ X]]; [exact X|contradiction].
Qed.
(** ** Vertices *)
Lemma in_vertices_flat {V} (g : point -> list (V * V * V)) cs v : In v (vertices (flat_map g cs)) <-> exists c, In c cs /\ In v (vertices (g c)).
Proof.
  unfold vertices. rewrite in_flat_map. split.
  - intros (t & T & I). apply in_flat_map in T. destruct T as (c & C & T). exists c. split; [exact C|]. apply in_flat_map. exists t. auto.
  - intros (c & C & I). apply in_flat_map in I. destruct I as (t & T & I). exists t. split; [apply in_flat_map; exists c; auto|exact I].
Qed.
Lemma vertex_from {V} (vert : point -> point -> V) size f iso cs ts v : (forall c, In c cs -> cell size c) -> gather vert f iso cs = Some ts -> In v (vertices ts) -> exists p q, in_grid size p /\ in_grid size q /\ joined p q /\ crosses f iso p q /\ v = vert p q.
Proof.
  intros CC G I. rewrite gather_spec in G. injection G as <-. apply in_vertices_flat in I. destruct I as (c & C & I). rewrite vertices_map in I. apply in_map_iff in I. destruct I as (e & <- & I). destruct (f_used _ (facts_hold _ (bits_length f iso c)) e I) as [R DF]. destruct (ends_spec c e R) as (A & B & _).
  exists (corner c (fst (ends e))), (corner c (snd (ends e))). split; [apply corner_in_grid; auto|]. split; [apply corner_in_grid; auto|]. split; [apply edge_joined, R|]. split; [apply differ_crosses; assumption|reflexivity].
Qed.
Lemma edge_find : forallb (fun d => forallb (fun o => implb (forallb (fun d' => (0 <=? coordinate d' o) && (coordinate d' o <=? 1)) three && (coordinate d o =? 0))
  (existsb (fun e => (peq (nth (fst (ends e)) corners (0, 0, 0)) o && peq (nth (snd (ends e)) corners (0, 0, 0)) (plus3 o (unit d))) || (peq (nth (snd (ends e)) corners (0, 0, 0)) o && peq (nth (fst (ends e)) corners (0, 0, 0)) (plus3 o (unit d)))) twelve)) corners) three = true.
Proof. vm_compute. reflexivity. Qed.
Lemma cell_of_edge size p d : (d < 3)%nat -> in_grid size p -> in_grid size (plus3 p (unit d)) -> exists c e, cell size c /\ 0 <= e < 12 /\ ((corner c (fst (ends e)) = p /\ corner c (snd (ends e)) = plus3 p (unit d)) \/ (corner c (snd (ends e)) = p /\ corner c (fst (ends e)) = plus3 p (unit d))).
Proof.
  intros D P Q'. set (c := let '(x, y, z) := p in (Z.min x (size - 1), Z.min y (size - 1), Z.min z (size - 1))). set (o := sub3 p c).
  assert (CO : forall d', coordinate d' c = Z.min (coordinate d' p) (size - 1)) by (intros d'; unfold c; destruct p as [[? ?] ?], d' as [|[|d']]; reflexivity).
  assert (OO : forall d', coordinate d' o = coordinate d' p - coordinate d' c) by (intros d'; unfold o; destruct p as [[? ?] ?], c as [[? ?] ?], d' as [|[|d']]; reflexivity).
  assert (S0 : 0 < size) by (assert (A := P d); assert (B := Q' d); rewrite coordinate_plus, (proj1 (coordinate_unit d d D)) in B; lia).
  assert (OR : forall d', 0 <= coordinate d' o <= 1) by (intros d'; rewrite OO, CO; specialize (P d'); lia). assert (OD : coordinate d o = 0) by (rewrite OO, CO; assert (B := Q' d); rewrite coordinate_plus, (proj1 (coordinate_unit d d D)) in B; lia).
  assert (PC : plus3 c o = p) by (unfold o; destruct p as [[? ?] ?], c as [[? ?] ?]; cbn [plus3 sub3]; p3).
  assert (H := edge_find). rewrite forallb_forall in H. specialize (H d (in_seq0 _ _ D)). cbv beta in H. rewrite forallb_forall in H. specialize (H o (corners_all o (fun d' _ => OR d'))). cbv beta in H.
  assert (GD : forallb (fun d' => (0 <=? coordinate d' o) && (coordinate d' o <=? 1)) three && (coordinate d o =? 0) = true). { rewrite OD. rewrite andb_true_r. apply forallb_forall. intros d' _. specialize (OR d'). rewrite andb_true_iff, !Z.leb_le. exact OR. }
  rewrite GD in H. cbn [implb] in H. apply existsb_exists in H. destruct H as (e & E & H). unfold twelve in E. apply in_map_iff in E. destruct E as (n & <- & E). apply in_seq in E. exists c, (Z.of_nat n). split; [intros d'; rewrite CO; specialize (P d'); lia|]. split; [lia|]. unfold corner. rewrite orb_true_iff, !andb_true_iff, !peq_eq in H. rewrite <- PC.
  destruct H as [[H1 H2]|[H1 H2]]; rewrite H1, H2; [left|right]; (split; [reflexivity|rewrite plus3_assoc; reflexivity]).
Qed.
Lemma vertex_to {V} (vert : point -> point -> V) size f iso ts p q : process vert size f iso = Some ts -> in_grid size p -> in_grid size q -> joined p q -> crosses f iso p q -> In (vert p q) (vertices ts) \/ In (vert q p) (vertices ts).
Proof.
  intros G P Q' J X. unfold process in G. rewrite gather_spec in G. injection G as <-. assert (W : forall p d, (d < 3)%nat -> in_grid size p -> in_grid size (plus3 p (unit d)) -> crosses f iso p (plus3 p (unit d)) -> In (vert p (plus3 p (unit d))) (vertices (flat_map (fun c => map (tmap (vat vert c)) (loc (bits_of f iso c))) (cells size))) \/ In (vert (plus3 p (unit d)) p) (vertices (flat_map (fun c => map (tmap (vat vert c)) (loc (bits_of f iso c))) (cells size)))).
  { clear. intros p d D P Q' X. destruct (cell_of_edge size p d D P Q') as (c & e & C & R & E). assert (CR : crosses f iso (corner c (fst (ends e))) (corner c (snd (ends e)))) by (unfold crosses in *; destruct E as [[-> ->]|[-> ->]]; tauto). apply (differ_crosses f iso c e R) in CR. apply (f_cross _ (facts_hold _ (bits_length f iso c)) e R) in CR.
    destruct E as [[E1 E2]|[E1 E2]]; [left|right]; apply in_vertices_flat; exists c; (split; [apply in_cells, C|]); rewrite vertices_map; apply in_map_iff; exists e; (split; [|exact CR]); unfold vat; rewrite E1, E2; reflexivity. }
  destruct J as (d & D & [E|E]); subst.
  - apply W; assumption.
  - destruct (W q d D Q' P) as [I|I]; [destruct X as [X|X]; [right|left]; exact X|right; exact I|left; exact I].
Qed.
Lemma interp_hits th iso f p q : 0 <= th -> crosses f iso p q -> exists mu, hits th f iso p q mu /\ eq3 (interp th iso f p q) (at_mu mu p q).
Proof.
  intros T X. assert (C := crosses_cases f iso p q X). unfold interp. cbv zeta. assert (E0 : forall p q, eq3 (qpoint p) (at_mu 0 p q)) by (intros [[? ?] ?] [[? ?] ?]; cbn [qpoint at_mu eq3]; repeat split; ring). assert (E1 : forall p q, eq3 (qpoint q) (at_mu 1 p q)) by (intros [[? ?] ?] [[? ?] ?]; cbn [qpoint at_mu eq3]; unfold Z.sub; rewrite !inject_Z_plus, !inject_Z_opp; repeat split; ring).
  destruct (Z.ltb_spec (Z.abs (iso - f p)) th) as [L|L]; [exists 0%Q; split; [|apply E0]; split; [split; discriminate|right; left; split; [reflexivity|exact L]]|].
  destruct (Z.ltb_spec (Z.abs (iso - f q)) th) as [L'|L']; [exists 1%Q; split; [|apply E1]; split; [split; discriminate|right; right; split; [reflexivity|exact L']]|].
  destruct (Z.ltb_spec (Z.abs (f p - f q)) th); [lia|]. exists (inject_Z (iso - f p) / inject_Z (f q - f p))%Q. split; [split|].
  - destruct C as [C|C].
    + assert (PS : (0 < inject_Z (f q - f p))%Q) by (change 0%Q with (inject_Z 0); rewrite <- Zlt_Qlt; lia). split; [apply Qle_shift_div_l; [exact PS|]; setoid_replace (0 * inject_Z (f q - f p))%Q with (inject_Z 0) by ring; rewrite <- Zle_Qle; lia|apply Qle_shift_div_r; [exact PS|]; rewrite Qmult_1_l, <- Zle_Qle; lia].
    + assert (PS : (0 < inject_Z (f p - f q))%Q) by (change 0%Q with (inject_Z 0); rewrite <- Zlt_Qlt; lia). assert (EE : (inject_Z (iso - f p) / inject_Z (f q - f p) == inject_Z (f p - iso) / inject_Z (f p - f q))%Q). { replace (iso - f p) with (- (f p - iso)) by lia. replace (f q - f p) with (- (f p - f q)) by lia. rewrite !inject_Z_opp. field. intros Z0. rewrite Z0 in PS. apply (Qlt_irrefl 0 PS). }
      rewrite EE. split; [apply Qle_shift_div_l; [exact PS|]; setoid_replace (0 * inject_Z (f p - f q))%Q with (inject_Z 0) by ring; rewrite <- Zle_Qle; lia|apply Qle_shift_div_r; [exact PS|]; rewrite Qmult_1_l, <- Zle_Qle; lia].
  - left. assert (NZ : ~ (inject_Z (f q - f p) == 0)%Q) by (intros Z0; apply (proj1 (inject_Z_injective _ 0)) in Z0; lia). setoid_replace (inject_Z (iso - f p) / inject_Z (f q - f p) * inject_Z (f q - f p))%Q with (inject_Z (iso - f p)) by (field; exact NZ). rewrite <- inject_Z_plus. replace (f p + (iso - f p)) with iso by lia. reflexivity.
  - destruct p as [[x1 y1] z1], q as [[x2 y2] z2]. cbn [at_mu eq3]. unfold mix. rewrite !Qred_correct. unfold Z.sub. rewrite !inject_Z_plus, !inject_Z_opp. repeat split; reflexivity.
Qed.
