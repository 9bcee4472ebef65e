(** C101-C103, C104: helpers, grids and averages. *)
From Coq Require Import Reals List Bool Arith ZArith Lra Lia Permutation.
From Flocq Require Import Core.
From Verif Require Import QuatModel KinModel HelpSpec HelpModel HelpProofs.
Import ListNotations.
Open Scope R_scope.

(** C101: angles.  Without rounding every angle is shifted into [0, 2 pi] by whole turns, in finitely many steps; angles there already are unchanged. *)
Theorem C101_shift : forall a, exists b n, (forall fuel, (n <= fuel)%nat -> shift_0_2pi fuel a = Some b) /\ 0 <= b <= 2 * PI /\ same_direction b a /\ (0 <= a <= 2 * PI -> b = a).
Proof.
  intros a. assert (P := PI_RGT_0). assert (T0 : 0 < 2 * PI) by lra. destruct (enough (2 * PI) a T0) as (n & EN).
  assert (MONO : forall (r : R -> R) f1 f2 x y, (f1 <= f2)%nat -> shift_up r (2 * PI) f1 x = Some y -> shift_up r (2 * PI) f2 x = Some y).
  { intros r. induction f1 as [|f1 IH]; intros [|f2] x y L; cbn [shift_up]; destruct (Rlt_dec x 0); try lia; try discriminate; try (intros E; exact E). apply IH. lia. }
  assert (MOND : forall (r : R -> R) f1 f2 x y, (f1 <= f2)%nat -> shift_down r (2 * PI) (2 * PI) f1 x = Some y -> shift_down r (2 * PI) (2 * PI) f2 x = Some y).
  { intros r. induction f1 as [|f1 IH]; intros [|f2] x y L; cbn [shift_down]; destruct (Rlt_dec (2 * PI) x); try lia; try discriminate; try (intros E; exact E). apply IH. lia. }
  assert (U := up_ends (2 * PI) T0 n a). destruct (shift_up (fun x => x) (2 * PI) n a) as [a1|] eqn:E1. 2:{ destruct U; [|reflexivity]. specialize (EN n (le_n n)). pose proof (Rle_abs (- a)). rewrite Rabs_Ropp in H. lra. }
  destruct (up_some _ T0 _ _ _ E1) as (A1 & (k1 & A2) & A3 & A4).
  assert (D := down_ends (2 * PI) T0 n a1). destruct (shift_down (fun x => x) (2 * PI) (2 * PI) n a1) as [b|] eqn:E2. 2:{ destruct D; [|reflexivity]. specialize (EN n (le_n n)). pose proof (Rle_abs a). pose proof (Rabs_pos a). destruct (Rlt_dec a 0) as [L|G]; [specialize (A4 L); lra|rewrite A3 by lra; lra]. }
  destruct (down_some _ T0 _ _ _ E2) as (B1 & (k2 & B2) & B3 & B4). exists b, n. split; [|split; [split; [apply B4; lra|exact B1]|split]].
  - intros fuel L. unfold shift_0_2pi, shift_angle. rewrite (MONO _ _ _ _ _ L E1). exact (MOND _ _ _ _ _ L E2).
  - exists (Z.of_nat k1 - Z.of_nat k2)%Z. rewrite minus_IZR, <- !INR_IZR_INZ. rewrite B2, A2. ring.
  - intros (L0 & L1). rewrite B3 by (rewrite A3 by lra; exact L1). apply A3. exact L0.
Qed.
(** AngleModPI: into [-pi, pi]. *)
Theorem C101_mod_pi : forall a, exists b n, (forall fuel, (n <= fuel)%nat -> angle_mod fuel a = Some b) /\ - PI <= b <= PI /\ same_direction b a /\ (- PI <= a <= PI -> b = a).
Proof.
  intros a. destruct (C101_shift (a + PI)) as (b & n & E & (B0 & B1) & (k & K) & I). exists (b - PI), n. split; [intros fuel L; unfold angle_mod; rewrite (E fuel L); reflexivity|]. split; [lra|]. split; [exists k; lra|]. intros L. rewrite I; lra.
Qed.
(** The result is not a canonical representative: 0 and 2 pi are one direction but both stay. *)
Theorem C101_canonical_refuted : ~ (forall a b fuel, same_direction a b -> shift_0_2pi fuel a = shift_0_2pi fuel b).
Proof.
  intros H. assert (P := PI_RGT_0). specialize (H (2 * PI) 0 0%nat ltac:(exists 1%Z; lra)). unfold shift_0_2pi, shift_angle in H. cbn [shift_up] in H. destruct (Rlt_dec (2 * PI) 0); [lra|]. destruct (Rlt_dec 0 0); [lra|]. cbn [shift_down] in H. destruct (Rlt_dec (2 * PI) (2 * PI)); [lra|]. destruct (Rlt_dec (2 * PI) 0); [lra|]. injection H. lra.
Qed.
(** With the rounding of the machine the loop does not end for large angles: subtracting a turn from 2^30 gives 2^30 again. *)
Theorem C101_float_ends_refuted : ~ (forall a, to_float a = a -> exists fuel, shift_angle (fun x => to_float (to_double x)) (2 * m_pi) (2 * m_pi_f) fuel a <> None).
Proof.
  intros H. destruct (H 1073741824 (float_big 1073741824 ltac:(lra))) as (fuel & N). apply N. unfold shift_angle. assert (U : shift_up (fun x => to_float (to_double x)) (2 * m_pi) fuel 1073741824 = Some 1073741824) by (destruct fuel; cbn [shift_up]; destruct (Rlt_dec 1073741824 0); try lra; reflexivity). rewrite U. clear.
  assert (F : to_float (to_double (1073741824 - 2 * m_pi)) = 1073741824) by (apply float_big; destruct (double_big (1073741824 - 2 * m_pi)); [unfold m_pi; lra|lra]).
  induction fuel as [|fuel IH]; cbn [shift_down]; destruct (Rlt_dec (2 * m_pi_f) 1073741824) as [_|X]; try (unfold m_pi_f in X; lra); [reflexivity|]. rewrite F. exact IH.
Qed.
Example C101_case : exists n, shift_0_2pi n (- PI) = Some PI.
Proof. assert (P := PI_RGT_0). exists 1%nat. unfold shift_0_2pi, shift_angle. cbn [shift_up]. destruct (Rlt_dec (- PI) 0); [|lra]. destruct (Rlt_dec (- PI + 2 * PI) 0); [lra|]. cbn [shift_down]. destruct (Rlt_dec (2 * PI) (- PI + 2 * PI)); [lra|]. f_equal. ring. Qed.

(** C102: clamping gives the nearest value of the interval. *)
Theorem C102_clamp : forall mn mx v, mn <= mx -> mn <= clamp mn mx v <= mx /\ (forall x, mn <= x <= mx -> Rabs (clamp mn mx v - v) <= Rabs (x - v)) /\ (mn <= v <= mx -> clamp mn mx v = v).
Proof.
  intros mn mx v L. unfold clamp. destruct (Rlt_dec v mn); [|destruct (Rlt_dec mx v)]; (split; [lra|split; [|lra]]); intros x X; unfold Rabs; repeat destruct Rcase_abs; lra.
Qed.
(** Interpolation: ends, direction, bounds and inverse. *)
Theorem C102_lerp : forall a b f, lerp a b 0 = a /\ lerp a b 1 = b /\ lerp a b f = lerp b a (1 - f) /\ (0 <= f <= 1 -> Rmin a b <= lerp a b f <= Rmax a b) /\ (a <> b -> ilerp a b (lerp a b f) = f) /\ (a <> b -> lerp a b (ilerp a b f) = f).
Proof.
  intros a b f. unfold lerp, ilerp. split; [ring|]. split; [ring|]. split; [ring|]. split; [|split; intros N; field; lra].
  intros F. assert (U := Rmax_l a b). assert (U' := Rmax_r a b). assert (W := Rmin_l a b). assert (W' := Rmin_r a b). split; nra.
Qed.
Theorem C102_lerp_vec : forall a b f i, part i (lerp_vec a b f) = part i a * (1 - f) + part i b * f.
Proof. intros a b f [|[|i]]; reflexivity. Qed.
(** The integer variant passes through both ends, with equal steps; for an empty range it is the first end. *)
Theorem C102_lerp_int : forall a b mn mx v, (mn < mx)%Z ->
  lerp_int a b mn mx mn = a /\ lerp_int a b mn mx mx = b /\ lerp_int a b mn mx (v + 1) - lerp_int a b mn mx v = (b - a) / IZR (mx - mn) /\ lerp_int a b mn mn v = a.
Proof.
  intros a b mn mx v L. assert (D : IZR (mx - mn) <> 0) by (apply not_0_IZR; lia). unfold lerp_int, lerp. rewrite Z.eqb_refl. replace (mn =? mx)%Z with false by (symmetry; apply Z.eqb_neq; lia).
  replace (mn - mn)%Z with 0%Z by lia. replace (v + 1 - mn)%Z with (v - mn + 1)%Z by lia. rewrite plus_IZR. split; [field; exact D|]. split; [field; exact D|]. split; [field; exact D|reflexivity].
Qed.
Theorem C102_sign : forall x, IZR (sign x) * Rabs x = x /\ (sign x = 0%Z <-> x = 0) /\ sign (- x) = (- sign x)%Z.
Proof.
  intros x. unfold sign. destruct (Rlt_dec 0 x); destruct (Rlt_dec 0 (- x)); try lra; destruct (Req_EM_T x 0); destruct (Req_EM_T (- x) 0); try lra; (split; [unfold Rabs; destruct Rcase_abs; lra|split; [split; intros; try lra; try lia|reflexivity]]).
Qed.
(** Ranges: steps + 1 equally spaced values from the first to the last end. *)
Theorem C102_range : forall a b steps, (0 < steps)%Z -> length (float_range a b steps) = Z.to_nat (steps + 1) /\
  (forall i, (i <= Z.to_nat steps)%nat -> nth_error (float_range a b steps) i = Some (Some (a + (b - a) * INR i / IZR steps))) /\
  nth_error (float_range a b steps) 0 = Some (Some a) /\ nth_error (float_range a b steps) (Z.to_nat steps) = Some (Some b).
Proof.
  intros a b steps P. assert (D : IZR steps <> 0) by (apply not_0_IZR; lia). assert (G : forall i, (i <= Z.to_nat steps)%nat -> nth_error (float_range a b steps) i = Some (Some (a + (b - a) * INR i / IZR steps))).
  { intros i L. unfold float_range. rewrite nth_error_map. assert (N : nth_error (seq 0 (Z.to_nat (steps + 1))) i = Some i) by (rewrite (nth_error_nth' _ 0%nat) by (rewrite seq_length; lia); rewrite seq_nth by lia; reflexivity). rewrite N. cbn [option_map]. replace (steps =? 0)%Z with false by (symmetry; apply Z.eqb_neq; lia). do 2 f_equal. unfold lerp. field. exact D. }
  split; [unfold float_range; rewrite map_length, seq_length; reflexivity|]. split; [exact G|]. rewrite !G by lia. split; do 2 f_equal; [cbn [INR]; field; exact D|]. rewrite INR_IZR_INZ, Z2Nat.id by lia. field. exact D.
Qed.
(** A range with no steps is one value, which is no number. *)
Theorem C102_range_start_refuted : ~ (forall a b steps, (0 <= steps)%Z -> nth_error (float_range a b steps) 0 = Some (Some a)).
Proof. intros H. specialize (H 1 2 0%Z ltac:(lia)). discriminate H. Qed.
(** The vectors of a range are all combinations, ordered by x, then y, then z. *)
Theorem C102_vectors : forall xs ys zs, length (vector_range xs ys zs) = (length xs * (length ys * length zs))%nat /\ (forall v, In v (vector_range xs ys zs) <-> In (vx v) xs /\ In (vy v) ys /\ In (vz v) zs) /\
  forall i j k x y z, nth_error xs i = Some x -> nth_error ys j = Some y -> nth_error zs k = Some z -> nth_error (vector_range xs ys zs) ((i * length ys + j) * length zs + k) = Some (Vec x y z).
Proof.
  intros xs ys zs. assert (LEN : forall (A B : Type) (f : A -> list B) l n, (forall a, length (f a) = n) -> length (flat_map f l) = (length l * n)%nat) by (intros A B f l n F; induction l as [|a l IH]; [reflexivity|cbn [flat_map length]; rewrite app_length, F, IH; lia]).
  assert (LY : forall x, length (flat_map (fun y => map (fun z => Vec x y z) zs) ys) = (length ys * length zs)%nat) by (intros x; apply LEN; intros y; apply map_length).
  assert (NTH : forall (A B : Type) (f : A -> list B) n, (forall a, length (f a) = n) -> forall l i a m, nth_error l i = Some a -> (m < n)%nat -> nth_error (flat_map f l) (i * n + m) = nth_error (f a) m).
  { intros A B f n F. induction l as [|b l IH]; intros [|i] a m E M; try discriminate; cbn [flat_map].
    - injection E as ->. cbn [Nat.mul]. apply nth_error_app1. rewrite F. exact M.
    - cbn [nth_error] in E. rewrite nth_error_app2 by (rewrite F; lia). rewrite F. replace (S i * n + m - n)%nat with (i * n + m)%nat by lia. apply IH; assumption. }
  unfold vector_range. split; [apply LEN; exact LY|]. split.
  - intros [x y z]. cbn [vx vy vz]. split.
    + intros I. apply in_flat_map in I. destruct I as (x' & IX & I). apply in_flat_map in I. destruct I as (y' & IY & I). apply in_map_iff in I. destruct I as (z' & [= <- <- <-] & IZ). split; [|split]; assumption.
    + intros (IX & IY & IZ). apply in_flat_map. exists x. split; [exact IX|]. apply in_flat_map. exists y. split; [exact IY|]. apply in_map_iff. exists z. split; [reflexivity|exact IZ].
  - intros i j k x y z EX EY EZ. assert (K : (k < length zs)%nat) by (apply nth_error_Some; rewrite EZ; discriminate). assert (J : (j < length ys)%nat) by (apply nth_error_Some; rewrite EY; discriminate).
    replace ((i * length ys + j) * length zs + k)%nat with (i * (length ys * length zs) + (j * length zs + k))%nat by lia.
    rewrite (NTH _ _ _ _ LY xs i x _ EX) by nia. rewrite (NTH _ _ (fun y => map (fun z => Vec x y z) zs) (length zs) (fun y => map_length _ zs) ys j y k EY K). rewrite nth_error_map, EZ. reflexivity.
Qed.
Lemma fold_total i : forall l v, part i (fold_left vadd l v) = part i v + total (map (part i) l).
Proof. induction l as [|w l IH]; intros v; cbn [fold_left map total fold_right]; [lra|]. rewrite IH. destruct i as [|[|i]]; cbn [part vadd vx vy vz]; unfold total; lra. Qed.
(** The average: every component is the sum over the number; the zero vector if there are none. *)
Theorem C102_average : forall l i, (i < 3)%nat -> (l <> [] -> part i (average l) * INR (length l) = total (map (part i) l)) /\ (l = [] -> part i (average l) = 0) /\
  forall lo hi, l <> [] -> (forall v, In v l -> lo <= part i v <= hi) -> lo <= part i (average l) <= hi.
Proof.
  intros l i L. assert (S1 : l <> [] -> part i (average l) * INR (length l) = total (map (part i) l)).
  { intros N. destruct l as [|v l]; [congruence|]. unfold average. assert (Z0 : INR (length (v :: l)) <> 0) by (apply not_0_INR; discriminate). assert (F := fold_total i (v :: l) (Vec 0 0 0)). assert (V : forall k w, part i (vscale k w) = k * part i w) by (intros; destruct i as [|[|i]]; reflexivity). rewrite V, F. destruct i as [|[|i]]; cbn [part vx vy vz]; field; exact Z0. }
  split; [exact S1|]. split; [intros ->; destruct i as [|[|i]]; reflexivity|]. intros lo hi N B. specialize (S1 N).
  assert (T : INR (length l) * lo <= total (map (part i) l) <= INR (length l) * hi). { clear N S1. induction l as [|v l IH]; [cbn; lra|]. cbn [map total fold_right]. fold (total (map (part i) l)). cbn [length]. rewrite S_INR. specialize (B v (or_introl eq_refl)) as BV. specialize (IH (fun w I => B w (or_intror I))). lra. }
  assert (P : 0 < INR (length l)) by (apply lt_0_INR; destruct l; [congruence|cbn; lia]). rewrite <- S1 in T. nra.
Qed.
Example C102_case : vector_range [1; 2] [3] [4; 5] = [Vec 1 3 4; Vec 1 3 5; Vec 2 3 4; Vec 2 3 5].
Proof. reflexivity. Qed.
Example C102_clamp_case : clamp 0 1 7 = 1.
Proof. unfold clamp. destruct (Rlt_dec 7 0); [lra|]. destruct (Rlt_dec 1 7); lra. Qed.

(** C103: limiting a vector.  It throws exactly if there is neither one limit nor one for each component. *)
Theorem C103_throws : forall v m, limit_vector v m = Throws <-> length m <> 1%nat /\ length m <> length v.
Proof.
  intros v m. unfold limit_vector. destruct (Nat.eqb_spec (length m) 1) as [E|N]; destruct (Nat.eqb_spec (length m) (length v)) as [E'|N']; cbn [negb andb]; try destruct Req_EM_T; split; intros H; try discriminate; try (destruct H; congruence); try reflexivity; split; assumption.
Qed.
Definition over (v lim : list R) (i : nat) : Prop := 0 <= nth i lim 0 < Rabs (nth i v 0).
Lemma limit_at v m i : (i < length v)%nat -> nth (if Nat.eqb (length m) 1 then O else i) m 0 = nth i (limits_for v m) 0.
Proof.
  intros L. unfold limits_for. destruct m as [|x [|y m]]; cbn [length Nat.eqb nth]; [destruct i; reflexivity| |reflexivity]. symmetry. assert (R0 : forall n i, (i < n)%nat -> nth i (repeat x n) 0 = x) by (clear; induction n; intros [|i] L; cbn; try lia; [reflexivity|apply IHn; lia]). apply R0, L.
Qed.
Lemma scale_spec v m : let lim := limits_for v m in let s := limit_scale v m in
  0 <= s <= 1 /\ (forall i, (i < length v)%nat -> over v lim i -> s <= nth i lim 0 / Rabs (nth i v 0)) /\ (s = 1 \/ exists i, (i < length v)%nat /\ over v lim i /\ s = nth i lim 0 / Rabs (nth i v 0)).
Proof.
  cbv zeta. unfold limit_scale. set (f := fun scale i => _). set (lim := limits_for v m).
  assert (G : forall l s0, (forall i, In i l -> (i < length v)%nat) -> 0 <= s0 <= 1 -> let s := fold_left f l s0 in 0 <= s <= s0 /\ (forall i, In i l -> over v lim i -> s <= nth i lim 0 / Rabs (nth i v 0)) /\ (s = s0 \/ exists i, In i l /\ over v lim i /\ s = nth i lim 0 / Rabs (nth i v 0))).
  { induction l as [|i l IH]; intros s0 B S0; cbv zeta; cbn [fold_left]; [split; [lra|split; [intros i []|left; reflexivity]]|].
    assert (LI : (i < length v)%nat) by (apply B; left; reflexivity). assert (FI : f s0 i = if Rlt_dec (nth i lim 0) (Rabs (nth i v 0)) then (if Rle_dec 0 (nth i lim 0) then Rmin s0 (nth i lim 0 / Rabs (nth i v 0)) else s0) else s0) by (unfold f; cbv zeta; rewrite (limit_at v m i LI); reflexivity).
    assert (F1 : 0 <= f s0 i <= s0 /\ (over v lim i -> f s0 i <= nth i lim 0 / Rabs (nth i v 0)) /\ (f s0 i = s0 \/ over v lim i /\ f s0 i = nth i lim 0 / Rabs (nth i v 0))).
    { rewrite FI. unfold over. destruct Rlt_dec as [X|X]; [destruct Rle_dec as [Y|Y]|]; try (split; [lra|split; [lra|left; reflexivity]]). assert (0 <= nth i lim 0 / Rabs (nth i v 0)) by (apply Rmult_le_pos; [exact Y|left; apply Rinv_0_lt_compat; lra]). unfold Rmin. destruct Rle_dec; (split; [lra|split; [lra|]]); [left; reflexivity|right; split; [lra|reflexivity]]. }
    destruct F1 as (A & C & D). destruct (IH (f s0 i) (fun j J => B j (or_intror J)) ltac:(lra)) as (A' & C' & D'). set (s := fold_left f l (f s0 i)) in *. split; [lra|]. split.
    - intros j [<-|J] O; [specialize (C O); lra|apply C'; assumption].
    - destruct D' as [->|(j & J & O & E)]; [|right; exists j; split; [right; exact J|split; assumption]]. destruct D as [D|(O & E)]; [left; exact D|right; exists i; split; [left; reflexivity|split; assumption]]. }
  destruct (G (seq 0 (length v)) 1) as (A & C & D); [intros i I; apply in_seq in I; lia|lra|]. split; [exact A|]. split; [intros i L; apply C, in_seq; lia|]. destruct D as [D|(i & I & D)]; [left; exact D|right; exists i; apply in_seq in I; split; [lia|exact D]].
Qed.
Lemma within_over v m : length m = 1%nat \/ length m = length v -> (within v (limits_for v m) <-> forall i, (i < length v)%nat -> ~ over v (limits_for v m) i).
Proof.
  intros SZ. assert (LL : length (limits_for v m) = length v). { unfold limits_for. destruct m as [|x [|y m]]; [destruct SZ as [E|E]; [discriminate|exact E]|apply repeat_length|destruct SZ as [E|E]; [discriminate|exact E]]. }
  unfold within, over. split.
  - intros W i L O. destruct (W i (nth i v 0) (nth i (limits_for v m) 0)); [apply nth_error_nth'; exact L|apply nth_error_nth'; lia|lra|lra].
  - intros N i x l E1 E2. assert (L : (i < length v)%nat) by (apply nth_error_Some; rewrite E1; discriminate). specialize (N i L). rewrite (nth_error_nth _ _ _ E1), (nth_error_nth _ _ _ E2) in N. destruct (Rlt_dec l 0); [left; assumption|right]. destruct (Rle_dec (Rabs x) l); [assumption|destruct N; lra].
Qed.
(** A vector within its limits is unchanged. *)
Theorem C103_unchanged : forall v m, length m = 1%nat \/ length m = length v -> within v (limits_for v m) -> limit_vector v m = Limited v.
Proof.
  intros v m SZ W. pose proof (proj1 (within_over v m SZ) W) as W'; clear W; rename W' into W. destruct (scale_spec v m) as (A & _ & D). unfold limit_vector. replace (negb (Nat.eqb (length m) 1) && negb (Nat.eqb (length m) (length v)))%bool with false by (destruct SZ as [-> | ->]; rewrite Nat.eqb_refl; cbn [negb andb]; [reflexivity|symmetry; apply andb_false_r]).
  cbv zeta. destruct D as [->|(i & L & O & _)]; [|destruct (W i L O)]. destruct (Req_EM_T 1 0); [lra|]. f_equal. rewrite <- (map_id v) at 2. apply map_ext. intros x. field.
Qed.
(** The result keeps the direction, but is never shorter than the given vector. *)
Theorem C103_direction : forall v m r, limit_vector v m = Limited r -> exists k, 1 <= k /\ r = map (Rmult k) v.
Proof.
  intros v m r. unfold limit_vector. destruct (_ && _)%bool; [discriminate|]. cbv zeta. destruct (scale_spec v m) as ((A & B) & _). destruct (Req_EM_T (limit_scale v m) 0) as [|N]; [discriminate|]. intros [= <-]. exists (/ limit_scale v m). split; [rewrite <- Rinv_1; apply Rinv_le_contravar; lra|]. apply map_ext. intros x. unfold Rdiv. ring.
Qed.
(** A vector that exceeds its limits is made to exceed them further: the code divides by the scale. *)
Theorem C103_exceeds : forall v m, length m = 1%nat \/ length m = length v -> ~ within v (limits_for v m) ->
  limit_vector v m = NotFinite \/ exists r i x y l, limit_vector v m = Limited r /\ nth_error v i = Some x /\ nth_error r i = Some y /\ nth_error (limits_for v m) i = Some l /\ 0 <= l < Rabs x /\ Rabs x < Rabs y.
Proof.
  intros v m SZ W. destruct (scale_spec v m) as ((A & A') & C & D). assert (OK : (negb (Nat.eqb (length m) 1) && negb (Nat.eqb (length m) (length v)))%bool = false) by (destruct SZ as [-> | ->]; rewrite Nat.eqb_refl; cbn [negb andb]; [reflexivity|apply andb_false_r]).
  assert (EX : exists i, (i < length v)%nat /\ over v (limits_for v m) i /\ limit_scale v m < 1).
  { destruct D as [E|(i & L & O & E)]; [|exists i; split; [exact L|split; [exact O|]]; rewrite E; unfold over in O; apply (Rmult_lt_reg_r (Rabs (nth i v 0))); [lra|]; unfold Rdiv; rewrite Rmult_assoc, Rinv_l by lra; lra].
    exfalso. apply W, (proj2 (within_over v m SZ)). intros i L O. specialize (C i L O). rewrite E in C. unfold over in O. apply (Rmult_le_compat_r (Rabs (nth i v 0))) in C; [|lra]. unfold Rdiv in C. rewrite Rmult_assoc, Rinv_l in C by lra. lra. }
  destruct EX as (i & L & O & S1). unfold limit_vector. rewrite OK. cbv zeta. destruct (Req_EM_T (limit_scale v m) 0) as [E|N]; [left; reflexivity|right]. set (s := limit_scale v m) in *.
  exists (map (fun x => x / s) v), i, (nth i v 0), (nth i v 0 / s), (nth i (limits_for v m) 0). split; [reflexivity|]. split; [apply nth_error_nth'; exact L|]. split; [rewrite nth_error_map, (nth_error_nth' v 0 L); reflexivity|].
  assert (LL : length (limits_for v m) = length v). { unfold limits_for. destruct m as [|x [|y m]]; [destruct SZ as [X|X]; [discriminate|exact X]|apply repeat_length|destruct SZ as [X|X]; [discriminate|exact X]]. }
  split; [apply nth_error_nth'; lia|]. split; [exact O|]. unfold over in O. unfold Rdiv. rewrite Rabs_mult, Rabs_inv, (Rabs_pos_eq s) by lra. assert (1 < / s) by (rewrite <- Rinv_1; apply Rinv_lt_contravar; lra). nra.
Qed.
(** So the limit is not kept. *)
Theorem C103_limit_refuted : ~ (forall v m r, limit_vector v m = Limited r -> within r (limits_for v m)).
Proof.
  intros H. destruct (C103_exceeds [2] [1] (or_introl eq_refl)) as [E|(r & i & x & y & l & E & E1 & E2 & E3 & O & X)].
  - intros W. destruct (W O 2 1 eq_refl eq_refl) as [X|X]; [lra|]. rewrite Rabs_pos_eq in X; lra.
  - revert E. unfold limit_vector, limit_scale. cbn [length Nat.eqb negb andb seq fold_left nth]. cbv zeta. rewrite Rabs_pos_eq by lra. destruct Rlt_dec; [|lra]. destruct Rle_dec; [|lra]. rewrite Rmin_right by lra. destruct Req_EM_T; [lra|discriminate].
  - destruct (H [2] [1] r E i y l E2 E3); lra.
Qed.
(** Division by zero happens exactly if a component that is not zero has the limit zero. *)
Theorem C103_not_finite : forall v m, length m = 1%nat \/ length m = length v -> (limit_vector v m = NotFinite <-> exists i x, nth_error v i = Some x /\ x <> 0 /\ nth_error (limits_for v m) i = Some 0).
Proof.
  intros v m SZ. destruct (scale_spec v m) as ((A & A') & C & D). assert (OK : (negb (Nat.eqb (length m) 1) && negb (Nat.eqb (length m) (length v)))%bool = false) by (destruct SZ as [-> | ->]; rewrite Nat.eqb_refl; cbn [negb andb]; [reflexivity|apply andb_false_r]).
  assert (LL : length (limits_for v m) = length v). { unfold limits_for. destruct m as [|x [|y m]]; [destruct SZ as [X|X]; [discriminate|exact X]|apply repeat_length|destruct SZ as [X|X]; [discriminate|exact X]]. }
  unfold limit_vector. rewrite OK. cbv zeta. destruct (Req_EM_T (limit_scale v m) 0) as [E|N]; split; try (intros _; reflexivity); try discriminate.
  - intros _. destruct D as [D|(i & L & O & D)]; [lra|]. exists i, (nth i v 0). split; [apply nth_error_nth'; exact L|]. unfold over in O. split; [intros X; rewrite X, Rabs_R0 in O; lra|]. rewrite (nth_error_nth' _ 0) by lia. f_equal. rewrite E in D. symmetry in D. apply Rmult_integral in D. destruct D as [D|D]; [exact D|]. assert (0 < / Rabs (nth i v 0)) by (apply Rinv_0_lt_compat; lra). lra.
  - intros (i & x & E1 & X & E2). exfalso. apply N. assert (L : (i < length v)%nat) by (apply nth_error_Some; rewrite E1; discriminate). assert (P := Rabs_pos_lt x X). specialize (C i L). unfold over in C. rewrite (nth_error_nth _ _ _ E1), (nth_error_nth _ _ _ E2) in C. specialize (C ltac:(lra)). unfold Rdiv in C. rewrite Rmult_0_l in C. lra.
Qed.
Example C103_case : limit_vector [3; 1] [5] = Limited [3; 1] /\ limit_vector [3; 1] [1; 2; 3] = Throws.
Proof.
  split; [|reflexivity]. apply C103_unchanged; [left; reflexivity|]. intros [|[|i]] x l E1 E2; cbn in E1, E2; [| |destruct i; discriminate]; injection E1 as <-; injection E2 as <-; right; rewrite Rabs_pos_eq; lra.
Qed.

(** C104: grids.  The corners of the grid are the given points and neighbours have equal distances. *)
Theorem C104_corners : forall g, (0 < g_x g)%Z -> (0 < g_y g)%Z -> (0 < g_z g)%Z -> grid_get g 0 0 0 = g_p1 g /\ grid_get g (g_x g) (g_y g) (g_z g) = g_p2 g.
Proof.
  intros [[x1 y1 z1] [x2 y2 z2] nx ny nz]. unfold grid_get. cbn [g_x g_y g_z g_p1 g_p2 vx vy vz]. intros X Y Z0.
  destruct (C102_lerp_int x1 x2 0 nx 0 X) as (A1 & A2 & _). destruct (C102_lerp_int y1 y2 0 ny 0 Y) as (B1 & B2 & _). destruct (C102_lerp_int z1 z2 0 nz 0 Z0) as (D1 & D2 & _). rewrite A1, A2, B1, B2, D1, D2. split; reflexivity.
Qed.
Theorem C104_points : forall g, (0 <= g_x g)%Z -> (0 <= g_y g)%Z -> (0 <= g_z g)%Z ->
  Z.of_nat (length (grid_points g)) = ((g_x g + 1) * (g_y g + 1) * (g_z g + 1))%Z /\
  forall p, In p (grid_points g) <-> exists x y z, (0 <= x <= g_x g)%Z /\ (0 <= y <= g_y g)%Z /\ (0 <= z <= g_z g)%Z /\ p = grid_get g x y z.
Proof.
  intros g X Y Z0. assert (LEN : forall (A B : Type) (f : A -> list B) l n, (forall a, length (f a) = n) -> length (flat_map f l) = (length l * n)%nat) by (intros A B f l n F; induction l as [|a l IH]; [reflexivity|cbn [flat_map length]; rewrite app_length, F, IH; lia]).
  assert (UL : forall n, length (upto n) = Z.to_nat (n + 1)) by (intros; unfold upto; rewrite map_length, seq_length; reflexivity).
  assert (UI : forall n z, (0 <= n)%Z -> In z (upto n) <-> (0 <= z <= n)%Z). { intros n z N. unfold upto. rewrite in_map_iff. split; [intros (k & <- & I); apply in_seq in I; lia|intros L; exists (Z.to_nat z); split; [lia|apply in_seq; lia]]. }
  unfold grid_points. split.
  - rewrite (LEN _ _ _ _ (length (upto (g_y g)) * length (upto (g_z g)))%nat) by (intros x; apply LEN; intros y; apply map_length). rewrite !UL, !Nat2Z.inj_mul, !Z2Nat.id by lia. ring.
  - intros p. rewrite in_flat_map. split.
    + intros (x & IX & I). apply in_flat_map in I. destruct I as (y & IY & I). apply in_map_iff in I. destruct I as (z & <- & IZ). exists x, y, z. apply UI in IX; [|exact X]. apply UI in IY; [|exact Y]. apply UI in IZ; [|exact Z0]. split; [exact IX|]. split; [exact IY|]. split; [exact IZ|reflexivity].
    + intros (x & y & z & IX & IY & IZ & ->). exists x. split; [apply UI; assumption|]. apply in_flat_map. exists y. split; [apply UI; assumption|]. apply in_map_iff. exists z. split; [reflexivity|apply UI; assumption].
Qed.
(** Cells of an array: inside the cube the index is unique. *)
Theorem C104_cells : forall n x y z, (0 <= x < n)%Z -> (0 <= y < n)%Z -> (0 <= z < n)%Z -> exists i, cell n x y z = Some i /\
  forall x' y' z', (0 <= x' < n)%Z -> (0 <= y' < n)%Z -> (0 <= z' < n)%Z -> cell n x' y' z' = Some i -> x' = x /\ y' = y /\ z' = z.
Proof.
  intros n x y z X Y Z0. assert (B : forall x y z, (0 <= x < n)%Z -> (0 <= y < n)%Z -> (0 <= z < n)%Z -> (0 <= x + n * y + n * n * z < n * n * n)%Z) by (clear; intros x y z X Y Z0; split; [nia|]; assert (n * y <= n * (n - 1))%Z by nia; assert (n * n * z <= n * n * (n - 1))%Z by nia; nia).
  assert (C : forall x y z, (0 <= x < n)%Z -> (0 <= y < n)%Z -> (0 <= z < n)%Z -> cell n x y z = Some (Z.to_nat (x + n * y + n * n * z))) by (intros a b c A1 A2 A3; unfold cell; cbv zeta; specialize (B a b c A1 A2 A3); rewrite (proj2 (Z.leb_le _ _)), (proj2 (Z.ltb_lt _ _)) by lia; reflexivity).
  exists (Z.to_nat (x + n * y + n * n * z)). split; [apply C; assumption|]. intros x' y' z' X' Y' Z'. rewrite C by assumption. intros [= E]. specialize (B x y z X Y Z0) as B1. specialize (B x' y' z' X' Y' Z') as B2. apply Z2Nat.inj in E; [|lia|lia].
  assert (E1 : (x + n * (y + n * z) = x' + n * (y' + n * z'))%Z) by lia. destruct (Z.div_mod_unique n (y + n * z) (y' + n * z') x x' ltac:(lia) ltac:(lia) ltac:(lia)) as (A & ->). destruct (Z.div_mod_unique n z z' y y' ltac:(lia) ltac:(lia) ltac:(lia)) as (-> & ->). split; [|split]; reflexivity.
Qed.
Lemma update_same {A} (l : list A) f : forall i v, nth_error l i = Some v -> nth_error (KinModel.update l i f) i = Some (f v).
Proof. induction l as [|a l IH]; intros [|i] v E; try discriminate; cbn [KinModel.update nth_error] in *; [injection E as ->; reflexivity|apply IH, E]. Qed.
Lemma update_other {A} (l : list A) f : forall i j, i <> j -> nth_error (KinModel.update l i f) j = nth_error l j.
Proof. induction l as [|a l IH]; intros [|i] [|j] N; try reflexivity; try congruence; cbn [KinModel.update nth_error]. apply IH. congruence. Qed.
Lemma update_len {A} (l : list A) f : forall i, length (KinModel.update l i f) = length l.
Proof. induction l as [|a l IH]; intros [|i]; try reflexivity. cbn [KinModel.update length]. rewrite IH. reflexivity. Qed.
(** The cache is coherent: a cell holds a value exactly if it was asked for, and then it is the right one. *)
Definition coherent (f : Z -> Z -> Z -> R) (n : Z) (c : cache) : Prop :=
  c_size c = n /\ length (c_data c) = Z.to_nat (n * n * n) /\ NoDup (c_calls c) /\ (forall p, In p (c_calls c) -> inside n p) /\
  forall x y z i, inside n (x, y, z) -> cell n x y z = Some i -> (In (x, y, z) (c_calls c) /\ nth_error (c_data c) i = Some (Some (f x y z))) \/ (~ In (x, y, z) (c_calls c) /\ nth_error (c_data c) i = Some None).
Lemma get_coherent f n c x y z : coherent f n c -> inside n (x, y, z) -> exists c', cache_get f c x y z = Some (f x y z, c') /\ coherent f n c' /\ (forall p, In p (c_calls c') <-> In p (c_calls c) \/ p = (x, y, z)).
Proof.
  intros (SZ & LN & ND & IN & CO) I. destruct I as (X & Y & Z0). destruct (C104_cells n x y z X Y Z0) as (i & E & U). unfold cache_get. rewrite SZ, E. destruct (CO x y z i (Logic.conj X (Logic.conj Y Z0)) E) as [(J & N)|(J & N)]; rewrite N.
  - exists c. split; [reflexivity|]. split; [split; [exact SZ|split; [exact LN|split; [exact ND|split; [exact IN|exact CO]]]]|]. intros p. split; [left; assumption|intros [?| ->]; assumption].
  - cbv zeta. eexists. split; [reflexivity|]. split; [|intros p; cbn [c_calls]; split; [intros [<-|P]; [right; reflexivity|left; exact P]|intros [P| ->]; [right; exact P|left; reflexivity]]].
    split; [reflexivity|]. cbn [c_data c_calls]. split; [rewrite update_len; exact LN|]. split; [constructor; assumption|]. split; [intros p [<-|P]; [split; [exact X|split; assumption]|apply IN, P]|].
    intros x' y' z' i' I' E'. destruct (Nat.eq_dec i i') as [<-|NE].
    + destruct I' as (X' & Y' & Z'). destruct (U x' y' z' X' Y' Z' E') as (-> & -> & ->). left. split; [left; reflexivity|]. rewrite (update_same _ _ _ _ N). reflexivity.
    + rewrite update_other by exact NE. destruct (CO x' y' z' i' I' E') as [(J' & N')|(J' & N')]; [left; split; [right; exact J'|exact N']|right; split; [|exact N']]. intros [EQ|Q]; [|exact (J' Q)]. injection EQ as <- <- <-. congruence.
Qed.
(** Every sequence of calls inside the cube is answered with the data, and the data of a cell is computed exactly once if the cell is asked for. *)
Theorem C104_cache : forall f n l, (0 <= n)%Z -> (forall p, In p l -> inside n p) -> exists c, cache_run f (new_cache n) l = Some (map (fun p => let '(x, y, z) := p in f x y z) l, c) /\ NoDup (c_calls c) /\ forall p, In p (c_calls c) <-> In p l.
Proof.
  intros f n l N I. assert (C0 : coherent f n (new_cache n)).
  { split; [reflexivity|]. split; [apply repeat_length|]. split; [constructor|]. split; [intros p []|]. intros x y z i IN E. right. split; [intros []|]. cbn [new_cache c_data]. assert (L : (i < Z.to_nat (n * n * n))%nat). { revert E. unfold cell. cbv zeta. destruct (Z.leb_spec 0 (x + n * y + n * n * z)); [|discriminate]. destruct (Z.ltb_spec (x + n * y + n * n * z) (n * n * n)); [|discriminate]. intros [= <-]. lia. }
    rewrite (nth_error_nth' _ None) by (rewrite repeat_length; exact L). rewrite nth_repeat. reflexivity. }
  assert (G : forall l c, coherent f n c -> (forall p, In p l -> inside n p) -> exists c', cache_run f c l = Some (map (fun p => let '(x, y, z) := p in f x y z) l, c') /\ NoDup (c_calls c') /\ forall p, In p (c_calls c') <-> In p (c_calls c) \/ In p l).
  { induction l0 as [|[[x y] z] l0 IH]; intros c C J; cbn [cache_run map].
    - exists c. split; [reflexivity|]. split; [apply C|]. intros p. split; [left; assumption|intros [P|[]]; exact P].
    - destruct (get_coherent f n c x y z C (J _ (or_introl eq_refl))) as (c1 & E1 & C1 & K1). rewrite E1. destruct (IH c1 C1 (fun p P => J p (or_intror P))) as (c2 & E2 & N2 & K2). rewrite E2. exists c2. split; [reflexivity|]. split; [exact N2|]. intros p. rewrite K2, K1. cbn [In]. split; [intros [[P| ->]|P]; [left; exact P|right; left; reflexivity|right; right; exact P]|intros [P|[<-|P]]; [left; left; exact P|left; right; reflexivity|right; exact P]]. }
  destruct (G l (new_cache n) C0 I) as (c & E & ND & K). exists c. split; [exact E|]. split; [exact ND|]. intros p. rewrite K. cbn [new_cache c_calls In]. split; [intros [[]|P]; exact P|right; assumption].
Qed.
(** Outside the cube a call need not throw: it can give the data of another cell. *)
Theorem C104_outside_refuted : ~ (forall f n l vs c, cache_run f (new_cache n) l = Some (vs, c) -> vs = map (fun p => let '(x, y, z) := p in f x y z) l).
Proof.
  intros H. specialize (H (fun x _ _ => IZR x) 2%Z [(0, 1, 0); (2, 0, 0)]%Z _ _ eq_refl). injection H. lra.
Qed.
Example C104_case : exists c, cache_run (fun x y z => IZR (x + y + z)) (new_cache 2) [(0, 1, 0); (1, 1, 1); (0, 1, 0)]%Z = Some ([1; 3; 1], c) /\ c_calls c = [(1, 1, 1); (0, 1, 0)]%Z.
Proof. eexists. split; reflexivity. Qed.

Lemma weighted_sums : forall l s, fold_left weighted_add l s = (fst s + total (map (fun vw => fst vw * snd vw) l), snd s + total (map snd l)).
Proof. induction l as [|vw l IH]; intros [a b]; cbn [fold_left map total fold_right]; [f_equal; cbn; lra|]. rewrite IH. unfold weighted_add, total. cbn [fst snd]. f_equal; ring. Qed.
Lemma total_perm l l' : Permutation l l' -> total l = total l'.
Proof. unfold total. induction 1; cbn [fold_right]; lra. Qed.
(** The weighted average is the sum of the weighted values over the sum of the weights; division by zero if this is zero, as for no values at all. *)
Theorem C104_weighted : forall l, (total (map snd l) <> 0 -> exists m, weighted_average l = Some m /\ m * total (map snd l) = total (map (fun vw => fst vw * snd vw) l)) /\ (weighted_average l = None <-> total (map snd l) = 0) /\ (forall l', Permutation l l' -> weighted_average l = weighted_average l').
Proof.
  intros l. unfold weighted_average. rewrite weighted_sums. cbn [fst snd]. rewrite !Rplus_0_l. destruct (Req_EM_T (total (map snd l)) 0) as [E|N]; (split; [|split]).
  - intros X. destruct (X E).
  - split; [intros _; exact E|reflexivity].
  - intros l' P. rewrite weighted_sums. cbn [fst snd]. rewrite !Rplus_0_l. rewrite <- (total_perm _ _ (Permutation_map snd P)). destruct Req_EM_T; [reflexivity|congruence].
  - intros _. eexists. split; [reflexivity|]. field. exact N.
  - split; [discriminate|]. intros X. destruct (N X).
  - intros l' P. rewrite weighted_sums. cbn [fst snd]. rewrite !Rplus_0_l. rewrite <- (total_perm _ _ (Permutation_map snd P)), <- (total_perm _ _ (Permutation_map (fun vw => fst vw * snd vw) P)). destruct Req_EM_T; [congruence|reflexivity].
Qed.
(** With weights that are not negative it is between the smallest and the greatest value. *)
Theorem C104_weighted_between : forall l lo hi m, (forall v w, In (v, w) l -> 0 <= w /\ lo <= v <= hi) -> weighted_average l = Some m -> lo <= m <= hi.
Proof.
  intros l lo hi m B E. assert (T : 0 <= total (map snd l) /\ lo * total (map snd l) <= total (map (fun vw => fst vw * snd vw) l) <= hi * total (map snd l)).
  { clear E. induction l as [|[v w] l IH]; cbn [map total fold_right fst snd]; [lra|]. fold (total (map snd l)). fold (total (map (fun vw => fst vw * snd vw) l)). destruct (IH (fun v w I => B v w (or_intror I))). destruct (B v w (or_introl eq_refl)). nra. }
  destruct (C104_weighted l) as (A & C & _). assert (N : total (map snd l) <> 0) by (intros X; apply C in X; congruence). destruct (A N) as (m' & E' & M). rewrite E in E'. injection E' as <-. rewrite <- M in T. destruct T as (T0 & T1). assert (0 < total (map snd l)) by lra. nra.
Qed.
Example C104_weighted_case : weighted_average [(1, 1); (4, 2)] = Some 3.
Proof. unfold weighted_average. cbn [fold_left weighted_add fst snd]. destruct Req_EM_T; [lra|]. f_equal. field. Qed.

Print Assumptions C101_shift. Print Assumptions C101_mod_pi. Print Assumptions C101_canonical_refuted. Print Assumptions C101_float_ends_refuted.
Print Assumptions C102_clamp. Print Assumptions C102_lerp. Print Assumptions C102_lerp_vec. Print Assumptions C102_lerp_int. Print Assumptions C102_sign. Print Assumptions C102_range. Print Assumptions C102_range_start_refuted. Print Assumptions C102_vectors. Print Assumptions C102_average.
Print Assumptions C103_throws. Print Assumptions C103_unchanged. Print Assumptions C103_direction. Print Assumptions C103_exceeds. Print Assumptions C103_limit_refuted. Print Assumptions C103_not_finite.
Print Assumptions C104_corners. Print Assumptions C104_points. Print Assumptions C104_cells. Print Assumptions C104_cache. Print Assumptions C104_outside_refuted. Print Assumptions C104_weighted. Print Assumptions C104_weighted_between.
