From Coq Require Import Reals List Bool ZArith Lra Lia.
From Verif Require Import QuatModel QuatSpec RpyModel JointModel KinModel CrvModel CrvSpec.
Import ListNotations.
Open Scope R_scope.

Lemma lim_ext f g x l : (forall z, f z = g z) -> derivable_pt_lim f x l -> derivable_pt_lim g x l.
Proof. intros E D e P. destruct (D e P) as (d & H). exists d. intros h A B. rewrite <- !E. apply H; assumption. Qed.
Lemma lim_eq f x l l' : l = l' -> derivable_pt_lim f x l -> derivable_pt_lim f x l'.
Proof. intros ->. auto. Qed.
Lemma cubic_lim a b c d x : derivable_pt_lim (fun t => a + b * t + c * (t * t) + d * (t * t * t)) x (b + c * (2 * x) + d * (3 * (x * x))).
Proof.
  assert (I := derivable_pt_lim_id x). assert (I2 := derivable_pt_lim_mult _ _ x _ _ I I). assert (I3 := derivable_pt_lim_mult _ _ x _ _ I2 I).
  assert (A := derivable_pt_lim_const a x). assert (B := derivable_pt_lim_scal _ b x _ I). assert (C := derivable_pt_lim_scal _ c x _ I2). assert (D := derivable_pt_lim_scal _ d x _ I3).
  assert (H := derivable_pt_lim_plus _ _ x _ _ (derivable_pt_lim_plus _ _ x _ _ (derivable_pt_lim_plus _ _ x _ _ A B) C) D).
  refine (lim_ext _ _ x _ _ (lim_eq _ x _ _ _ H)).
  - intros z. unfold plus_fct, fct_cte, mult_real_fct, mult_fct, id. reflexivity.
  - unfold id, mult_fct. ring.
Qed.
Lemma glue f g h a l : g a = h a -> (forall x, x <= a -> f x = g x) -> (forall x, a <= x -> f x = h x) -> derivable_pt_lim g a l -> derivable_pt_lim h a l -> derivable_pt_lim f a l.
Proof.
  intros E FG FH DG DH e P. destruct (DG e P) as (d1 & H1). destruct (DH e P) as (d2 & H2). pose proof (cond_pos d1). pose proof (cond_pos d2).
  exists (mkposreal (Rmin d1 d2) (Rmin_pos _ _ (cond_pos d1) (cond_pos d2))). intros u N B. cbn [pos] in B. pose proof (Rmin_l d1 d2). pose proof (Rmin_r d1 d2).
  destruct (Rle_dec u 0) as [L|L].
  - rewrite (FG (a + u)) by lra. rewrite (FG a) by lra. apply H1; [exact N|lra].
  - rewrite (FH (a + u)) by lra. rewrite (FH a) by lra. apply H2; [exact N|lra].
Qed.
Lemma lim_local f g a l e : 0 < e -> (forall x, Rabs (x - a) < e -> f x = g x) -> derivable_pt_lim g a l -> derivable_pt_lim f a l.
Proof.
  intros P E D eps PE. destruct (D eps PE) as (d & H). exists (mkposreal (Rmin d e) (Rmin_pos _ _ (cond_pos d) P)). intros u N B. cbn [pos] in B. pose proof (Rmin_l d e). pose proof (Rmin_r d e).
  rewrite (E (a + u)), (E a); [apply H; [exact N|lra]| |]; [rewrite Rminus_eq_0, Rabs_R0; lra|replace (a + u - a) with u by ring; lra].
Qed.
Ltac comps := unfold vadd, vsub, vscale; cbn [vx vy vz].
Lemma bezier_tangent p0 p1 p2 p3 t : tangent (bezier_point p0 p1 p2 p3) t (bezier_derivative p0 p1 p2 p3 t).
Proof.
  assert (K : forall a b c d, derivable_pt_lim (fun t => pow3 (1 - t) * a + 3 * t * pow2 (1 - t) * b + 3 * pow2 t * (1 - t) * c + pow3 t * d) t
     (-3 * pow2 (1 - t) * a + 3 * pow2 (1 - t) * b - 6 * (1 - t) * t * b + 6 * (1 - t) * t * c - 3 * pow2 t * c + 3 * pow2 t * d)).
  { intros a b c d. refine (lim_ext _ _ t _ _ (lim_eq _ t _ _ _ (cubic_lim a (3 * b - 3 * a) (3 * a - 6 * b + 3 * c) (d - 3 * c + 3 * b - a) t))).
    - intros z. unfold pow2, pow3. ring.
    - unfold pow2. ring. }
  unfold tangent, bezier_point, bezier_derivative. comps. split; [apply K|]. split; apply K.
Qed.
Lemma line_tangent pos dir t : tangent (line_point pos dir) t (line_derivative pos dir t).
Proof.
  assert (K : forall a b, derivable_pt_lim (fun t => a + t * b) t b).
  { intros a b. refine (lim_ext _ _ t _ _ (lim_eq _ t _ _ _ (cubic_lim a b 0 0 t))); [intros z; ring|ring]. }
  unfold tangent, line_point, line_derivative. comps. split; [apply K|]. split; apply K.
Qed.
Lemma tangent_glue f g h a d : g a = h a -> (forall x, x <= a -> f x = g x) -> (forall x, a <= x -> f x = h x) -> tangent g a d -> tangent h a d -> tangent f a d.
Proof.
  intros E FG FH (G1 & G2 & G3) (H1 & H2 & H3). split; [|split].
  - apply (glue _ (fun s => vx (g s)) (fun s => vx (h s))); try assumption; [rewrite E; reflexivity|intros x L; rewrite FG by exact L; reflexivity|intros x L; rewrite FH by exact L; reflexivity].
  - apply (glue _ (fun s => vy (g s)) (fun s => vy (h s))); try assumption; [rewrite E; reflexivity|intros x L; rewrite FG by exact L; reflexivity|intros x L; rewrite FH by exact L; reflexivity].
  - apply (glue _ (fun s => vz (g s)) (fun s => vz (h s))); try assumption; [rewrite E; reflexivity|intros x L; rewrite FG by exact L; reflexivity|intros x L; rewrite FH by exact L; reflexivity].
Qed.
Lemma tangent_local f g a d e : 0 < e -> (forall x, Rabs (x - a) < e -> f x = g x) -> tangent g a d -> tangent f a d.
Proof.
  intros P E (G1 & G2 & G3). split; [|split].
  - apply (lim_local _ (fun s => vx (g s)) a _ e P); [|exact G1]. intros x L. rewrite E by exact L. reflexivity.
  - apply (lim_local _ (fun s => vy (g s)) a _ e P); [|exact G2]. intros x L. rewrite E by exact L. reflexivity.
  - apply (lim_local _ (fun s => vz (g s)) a _ e P); [|exact G3]. intros x L. rewrite E by exact L. reflexivity.
Qed.
Lemma tangent_eq f a d d' : d = d' -> tangent f a d -> tangent f a d'. Proof. intros ->. auto. Qed.
Lemma tangent_ext f g a d : (forall x, f x = g x) -> tangent f a d -> tangent g a d.
Proof. intros E. apply tangent_local with 1; [lra|]. intros x _. symmetry. apply E. Qed.
Lemma veq a b : vx a = vx b -> vy a = vy b -> vz a = vz b -> a = b. Proof. destruct a, b. cbn. congruence. Qed.

Section Continued.
Variables p0 p1 p2 p3 : vec3.
Let lower (t : R) : vec3 := line_point p0 (vscale 3 (vsub p1 p0)) t.
Let upper (t : R) : vec3 := line_point (vsub p3 (vscale 3 (vsub p3 p2))) (vscale 3 (vsub p3 p2)) t.
Lemma continued_lower t : t <= 0 -> continued_point p0 p1 p2 p3 t = lower t.
Proof.
  intros L. unfold continued_point, lower, line_point, bezier_point, pow2, pow3. destruct (Rle_dec 0 t) as [K|K].
  - destruct (Rle_dec t 1) as [_|N]; [|lra]. replace t with 0 by lra. apply veq; comps; ring.
  - apply veq; comps; ring.
Qed.
Lemma continued_upper t : 1 <= t -> continued_point p0 p1 p2 p3 t = upper t.
Proof.
  intros L. unfold continued_point, upper, line_point, bezier_point, pow2, pow3. destruct (Rle_dec 0 t) as [_|K]; [|lra]. destruct (Rle_dec t 1) as [N|N].
  - replace t with 1 by lra. apply veq; comps; ring.
  - apply veq; comps; ring.
Qed.
Lemma continued_middle t : 0 <= t <= 1 -> continued_point p0 p1 p2 p3 t = bezier_point p0 p1 p2 p3 t.
Proof. intros L. unfold continued_point. destruct (Rle_dec 0 t) as [_|K]; [|lra]. destruct (Rle_dec t 1) as [_|N]; [reflexivity|lra]. Qed.
Lemma clamp_middle t : t <= 1 -> 0 <= t -> continued_point p0 p1 p2 p3 t = bezier_point p0 p1 p2 p3 t. Proof. intros. apply continued_middle. lra. Qed.

Lemma continued_tangent t : tangent (continued_point p0 p1 p2 p3) t (continued_derivative p0 p1 p2 p3 t).
Proof.
  unfold continued_derivative. destruct (Rle_dec 0 t) as [L0|L0]; [destruct (Rle_dec t 1) as [L1|L1]|].
  - destruct (Req_dec t 0) as [->|N0]; [|destruct (Req_dec t 1) as [->|N1]].
    + apply tangent_local with (g := fun x => if Rle_dec 0 x then bezier_point p0 p1 p2 p3 x else lower x) (e := 1); [lra| |].
      { intros x B. apply Rabs_def2 in B. destruct (Rle_dec 0 x) as [L|L]; [apply continued_middle; lra|apply continued_lower; lra]. }
      apply tangent_glue with lower (bezier_point p0 p1 p2 p3).
      * unfold lower, line_point, bezier_point, pow2, pow3. apply veq; comps; ring.
      * intros x L. destruct (Rle_dec 0 x) as [K|K]; [|reflexivity]. replace x with 0 by lra. unfold lower, line_point, bezier_point, pow2, pow3. apply veq; comps; ring.
      * intros x L. destruct (Rle_dec 0 x) as [K|K]; [reflexivity|lra].
      * apply tangent_eq with (vscale 3 (vsub p1 p0)); [unfold bezier_derivative, pow2; apply veq; comps; ring|apply line_tangent].
      * apply bezier_tangent.
    + apply tangent_local with (g := fun x => if Rle_dec x 1 then bezier_point p0 p1 p2 p3 x else upper x) (e := 1); [lra| |].
      { intros x B. apply Rabs_def2 in B. destruct (Rle_dec x 1) as [L|L]; [apply continued_middle; lra|apply continued_upper; lra]. }
      apply tangent_glue with (bezier_point p0 p1 p2 p3) upper.
      * unfold upper, line_point, bezier_point, pow2, pow3. apply veq; comps; ring.
      * intros x L. destruct (Rle_dec x 1) as [K|K]; [reflexivity|lra].
      * intros x L. destruct (Rle_dec x 1) as [K|K]; [|reflexivity]. replace x with 1 by lra. unfold upper, line_point, bezier_point, pow2, pow3. apply veq; comps; ring.
      * apply bezier_tangent.
      * apply tangent_eq with (vscale 3 (vsub p3 p2)); [unfold bezier_derivative, pow2; apply veq; comps; ring|apply line_tangent].
    + apply tangent_local with (g := bezier_point p0 p1 p2 p3) (e := Rmin t (1 - t)); [apply Rmin_glb_lt; lra| |apply bezier_tangent].
      intros x B. pose proof (Rmin_l t (1 - t)). pose proof (Rmin_r t (1 - t)). apply Rabs_def2 in B. apply continued_middle. lra.
  - apply tangent_local with (g := upper) (e := t - 1); [lra| |apply tangent_eq with (vscale 3 (vsub p3 p2)); [reflexivity|apply line_tangent]].
    intros x B. apply Rabs_def2 in B. apply continued_upper. lra.
  - apply tangent_local with (g := lower) (e := - t); [lra| |apply tangent_eq with (vscale 3 (vsub p1 p0)); [apply veq; comps; ring|apply line_tangent]].
    intros x B. apply Rabs_def2 in B. apply continued_lower. lra.
Qed.
End Continued.

Lemma composite_tangent f d s e t : e <> s -> tangent f (ilerp s e t) d -> tangent (composite_point f s e) t (vscale (/ (e - s)) d).
Proof.
  intros N (D1 & D2 & D3). assert (IL : derivable_pt_lim (ilerp s e) t (/ (e - s))).
  { refine (lim_ext _ _ t _ _ (lim_eq _ t _ _ _ (cubic_lim (- s / (e - s)) (/ (e - s)) 0 0 t))); [intros z; unfold ilerp; field; lra|ring]. }
  unfold composite_point. split; [|split]; comps.
  - apply lim_eq with (vx d * / (e - s)); [ring|]. apply (derivable_pt_lim_comp (ilerp s e) (fun x => vx (f x))); assumption.
  - apply lim_eq with (vy d * / (e - s)); [ring|]. apply (derivable_pt_lim_comp (ilerp s e) (fun x => vy (f x))); assumption.
  - apply lim_eq with (vz d * / (e - s)); [ring|]. apply (derivable_pt_lim_comp (ilerp s e) (fun x => vz (f x))); assumption.
Qed.
Lemma transformed_tangent g f d t : tangent f t d -> tangent (transformed_point g f) t (mapply (prot g) d).
Proof.
  intros (D1 & D2 & D3). assert (K : forall a b c k, derivable_pt_lim (fun s => a * vx (f s) + b * vy (f s) + c * vz (f s) + k) t (a * vx d + b * vy d + c * vz d)).
  { intros a b c k. assert (H := derivable_pt_lim_plus _ _ t _ _ (derivable_pt_lim_plus _ _ t _ _ (derivable_pt_lim_plus _ _ t _ _ (derivable_pt_lim_scal _ a t _ D1) (derivable_pt_lim_scal _ b t _ D2)) (derivable_pt_lim_scal _ c t _ D3)) (derivable_pt_lim_const k t)).
    refine (lim_ext _ _ t _ _ (lim_eq _ t _ _ _ H)); [intros z; reflexivity|ring]. }
  unfold tangent, transformed_point, mapply, vadd. cbn [vx vy vz]. split; [apply K|]. split; apply K.
Qed.

(** Truncation and the index. *)
Lemma trunc_bounds x : (0 <= x -> IZR (trunc x) <= x < IZR (trunc x) + 1) /\ (x < 0 -> (trunc x <= 0)%Z).
Proof.
  unfold trunc. destruct (Rle_dec 0 x) as [L|L]; split; intros K; try lra.
  - destruct (base_Int_part x). lra.
  - destruct (base_Int_part (- x)) as [A B]. assert (-1 < IZR (Int_part (- x))) by lra. apply (lt_IZR (-1)) in H. lia.
Qed.
Lemma get_index_at t mn mx n k : mn < mx -> (k + 1 < n)%nat -> INR k <= (t - mn) / (mx - mn) * INR (n - 1) < INR k + 1 \/ (k = 0%nat /\ (t - mn) / (mx - mn) * INR (n - 1) < 1) \/ (S (S k) = n /\ INR k <= (t - mn) / (mx - mn) * INR (n - 1)) ->
  get_index t mn mx (Z.of_nat n) = (Z.of_nat k, (t - mn) / (mx - mn) * INR (n - 1) - INR k).
Proof.
  intros D L C. unfold get_index. destruct (Req_EM_T mn mx) as [E|_]; [lra|]. replace (IZR (Z.of_nat n - 1)) with (INR (n - 1)) by (rewrite INR_IZR_INZ; f_equal; lia).
  set (f := (t - mn) / (mx - mn) * INR (n - 1)) in *. clearbody f. cbv zeta.
  assert (E : Z.max 0 (Z.min (Z.of_nat n - 2) (trunc f)) = Z.of_nat k).
  { destruct (trunc_bounds f) as [T1 T2]. rewrite !INR_IZR_INZ in C. destruct (Rlt_dec f 0) as [N|N].
    - specialize (T2 N). destruct C as [C|[[-> C]|[E C]]]; [|lia|]; assert (0 <= IZR (Z.of_nat k)) by (apply IZR_le; lia); lra.
    - destruct T1 as [A B]; [lra|]. destruct C as [[C1 C2]|[[-> C]|[E C]]].
      + assert (trunc f < Z.of_nat k + 1)%Z by (apply lt_IZR; rewrite plus_IZR; lra). assert (Z.of_nat k < trunc f + 1)%Z by (apply lt_IZR; rewrite plus_IZR; lra). lia.
      + assert (trunc f < 1)%Z by (apply lt_IZR; lra). assert (-1 < trunc f)%Z by (apply lt_IZR; lra). lia.
      + assert (Z.of_nat k < trunc f + 1)%Z by (apply lt_IZR; rewrite plus_IZR; lra). lia. }
  rewrite E, <- INR_IZR_INZ. reflexivity.
Qed.

(** The closest sample. *)
Lemma closest_fold f p t1 t2 n : forall l a, exists t, fold_left (fun '(mt, md) i => let t := sample_at t1 t2 n i in let d := dist2 (f t) p in if Rlt_dec d md then (t, d) else (mt, md)) l (a, dist2 (f a) p) = (t, dist2 (f t) p) /\
  (t = a \/ exists i, In i l /\ t = sample_at t1 t2 n i) /\ dist2 (f t) p <= dist2 (f a) p /\ forall i, In i l -> dist2 (f t) p <= dist2 (f (sample_at t1 t2 n i)) p.
Proof.
  induction l as [|i l IH]; intros a; cbn [fold_left].
  - exists a. split; [reflexivity|]. split; [left; reflexivity|]. split; [lra|intros i []].
  - destruct (Rlt_dec (dist2 (f (sample_at t1 t2 n i)) p) (dist2 (f a) p)) as [L|L].
    + destruct (IH (sample_at t1 t2 n i)) as (t & E & M & LE & ALL). exists t. split; [exact E|]. split; [right; destruct M as [->|(j & I & ->)]; [exists i; split; [left|]; reflexivity|exists j; split; [right; exact I|reflexivity]]|].
      split; [lra|]. intros j [<-|I]; [exact LE|apply ALL, I].
    + destruct (IH a) as (t & E & M & LE & ALL). exists t. split; [exact E|]. split; [destruct M as [->|(j & I & ->)]; [left; reflexivity|right; exists j; split; [right; exact I|reflexivity]]|].
      split; [lra|]. intros j [<-|I]; [lra|apply ALL, I].
Qed.


(** Distances. *)
Lemma norm_distance a b : vnorm (vsub a b) = distance a b.
Proof. unfold vnorm, distance, vdot, vsub. cbn [vx vy vz]. reflexivity. Qed.
Lemma dist2_distance a b : sqrt (dist2 a b) = distance a b.
Proof. apply norm_distance. Qed.
Lemma distance_sq a b : 0 <= distance a b /\ distance a b * distance a b = (vx a - vx b) * (vx a - vx b) + (vy a - vy b) * (vy a - vy b) + (vz a - vz b) * (vz a - vz b).
Proof. unfold distance. split; [apply sqrt_pos|]. apply sqrt_sqrt. pose proof (Rle_0_sqr (vx a - vx b)). pose proof (Rle_0_sqr (vy a - vy b)). pose proof (Rle_0_sqr (vz a - vz b)). unfold Rsqr in *. lra. Qed.
Lemma distance_triangle a b c : distance a c <= distance a b + distance b c.
Proof.
  destruct (distance_sq a b) as [P1 S1]. destruct (distance_sq b c) as [P2 S2]. destruct (distance_sq a c) as [P3 S3].
  set (u1 := vx a - vx b) in *. set (u2 := vy a - vy b) in *. set (u3 := vz a - vz b) in *. set (v1 := vx b - vx c) in *. set (v2 := vy b - vy c) in *. set (v3 := vz b - vz c) in *.
  replace (vx a - vx c) with (u1 + v1) in S3 by (unfold u1, v1; ring). replace (vy a - vy c) with (u2 + v2) in S3 by (unfold u2, v2; ring). replace (vz a - vz c) with (u3 + v3) in S3 by (unfold u3, v3; ring).
  clearbody u1 u2 u3 v1 v2 v3. set (x := distance a b) in *. set (y := distance b c) in *. set (z := distance a c) in *. clearbody x y z.
  assert (C : u1 * v1 + u2 * v2 + u3 * v3 <= x * y).
  { apply Rsqr_incr_0_var; [|nra]. unfold Rsqr. replace (x * y * (x * y)) with ((x * x) * (y * y)) by ring. rewrite S1, S2.
    pose proof (Rle_0_sqr (u1 * v2 - u2 * v1)). pose proof (Rle_0_sqr (u1 * v3 - u3 * v1)). pose proof (Rle_0_sqr (u2 * v3 - u3 * v2)). unfold Rsqr in *. nra. }
  apply Rsqr_incr_0_var; [|lra]. unfold Rsqr. nra.
Qed.
Lemma distance_self a : distance a a = 0.
Proof. unfold distance. replace (_ + _ + _) with 0 by ring. apply sqrt_0. Qed.
Lemma distance_sym a b : distance a b = distance b a.
Proof. unfold distance. f_equal. ring. Qed.
(** The loop of GetLength adds up distances of consecutive samples. *)
Lemma length_fold (f : R -> vec3) (p : nat -> R) : forall n k l,
  fold_left (fun '(l, p0) i => let p1 := f (p i) in (l + vnorm (vsub p1 p0), p1)) (seq (S k) n) (l, f (p k)) =
  (l + fold_right Rplus 0 (map (fun i => distance (f (p i)) (f (p (S i)))) (seq k n)), f (p (k + n)%nat)).
Proof.
  induction n as [|n IH]; intros k l.
  - cbn. rewrite Nat.add_0_r. f_equal. ring.
  - cbn [seq fold_left map fold_right]. cbv zeta. rewrite IH, norm_distance, (distance_sym (f (p (S k)))). f_equal; [ring|]. do 2 f_equal. lia.
Qed.
Lemma chord (g : nat -> vec3) : forall n k, distance (g k) (g (k + n)%nat) <= fold_right Rplus 0 (map (fun i => distance (g i) (g (S i))) (seq k n)).
Proof.
  induction n as [|n IH]; intros k; cbn [seq map fold_right].
  - rewrite Nat.add_0_r, distance_self. lra.
  - pose proof (distance_triangle (g k) (g (S k)) (g (k + S n)%nat)). specialize (IH (S k)). replace (S k + n)%nat with (k + S n)%nat in IH by lia. lra.
Qed.
Lemma sum_const c : forall n k (h : nat -> R), (forall i, (k <= i < k + n)%nat -> h i = c) -> fold_right Rplus 0 (map h (seq k n)) = INR n * c.
Proof.
  induction n as [|n IH]; intros k h H; cbn [seq map fold_right]; [cbn; ring|]. rewrite IH by (intros i L; apply H; lia). rewrite H by lia. rewrite S_INR. ring.
Qed.
Lemma curve_length_sum f t1 t2 n : (0 < n)%nat -> curve_length f t1 t2 n = fold_right Rplus 0 (map (fun i => distance (f (sample_at t1 t2 n i)) (f (sample_at t1 t2 n (S i)))) (seq 0 n)).
Proof.
  intros P. unfold curve_length. assert (E : forall i, t1 + (t2 - t1) / INR n * INR i = sample_at t1 t2 n i).
  { intros i. unfold sample_at. field. apply not_0_INR. lia. }
  transitivity (fst (fold_left (fun '(l, p0) i => let p1 := f (sample_at t1 t2 n i) in (l + vnorm (vsub p1 p0), p1)) (seq 1 n) (0, f (sample_at t1 t2 n 0)))).
  - replace (sample_at t1 t2 n 0) with t1 by (unfold sample_at; cbn [INR]; field; apply not_0_INR; lia).
    assert (G : forall l acc, fold_left (fun '(l, p0) i => let p1 := f (t1 + (t2 - t1) / INR n * INR i) in (l + vnorm (vsub p1 p0), p1)) l acc = fold_left (fun '(l, p0) i => let p1 := f (sample_at t1 t2 n i) in (l + vnorm (vsub p1 p0), p1)) l acc).
    { induction l as [|i l IH]; intros [x y]; [reflexivity|]. cbn [fold_left]. cbv zeta. rewrite E. apply IH. }
    rewrite G. reflexivity.
  - rewrite (length_fold f (sample_at t1 t2 n)). cbn [fst]. ring.
Qed.
Lemma move_loop_const f' c dl : (forall x, vnorm (f' x) = c) -> forall n x, move_loop f' n dl x = x + INR n * (dl / sqrt (1 + c * c)).
Proof.
  intros H. induction n as [|n IH]; intros x; cbn [move_loop]; [cbn; ring|]. cbv zeta. rewrite H, IH, S_INR. ring.
Qed.
