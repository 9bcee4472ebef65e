(** C94, C95: curves. *)
From Coq Require Import Reals List Bool ZArith Lra Lia.
From Verif Require Import QuatModel QuatSpec RpyModel JointModel KinModel CrvModel CrvSpec CrvProofs.
Import ListNotations.
Open Scope R_scope.

(** C94: the reported derivative of a cubic Bezier curve is its derivative, at every parameter. *)
Theorem C94_bezier_derivative : forall p0 p1 p2 p3 t, tangent (bezier_point p0 p1 p2 p3) t (bezier_derivative p0 p1 p2 p3 t).
Proof. exact bezier_tangent. Qed.
(** The curve runs from the first to the last control point, in the directions of the inner ones, three times as fast. *)
Theorem C94_bezier_ends : forall p0 p1 p2 p3,
  bezier_point p0 p1 p2 p3 0 = p0 /\ bezier_point p0 p1 p2 p3 1 = p3 /\
  tangent (bezier_point p0 p1 p2 p3) 0 (Vec (3 * (vx p1 - vx p0)) (3 * (vy p1 - vy p0)) (3 * (vz p1 - vz p0))) /\
  tangent (bezier_point p0 p1 p2 p3) 1 (Vec (3 * (vx p3 - vx p2)) (3 * (vy p3 - vy p2)) (3 * (vz p3 - vz p2))).
Proof.
  intros p0 p1 p2 p3. split; [|split; [|split]].
  - unfold bezier_point, pow2, pow3. apply veq; comps; ring.
  - unfold bezier_point, pow2, pow3. apply veq; comps; ring.
  - eapply tangent_eq; [|apply bezier_tangent]. unfold bezier_derivative, pow2. apply veq; comps; ring.
  - eapply tangent_eq; [|apply bezier_tangent]. unfold bezier_derivative, pow2. apply veq; comps; ring.
Qed.
Theorem C94_bezier_in_hull : forall p0 p1 p2 p3 t, 0 <= t <= 1 -> in_hull4 p0 p1 p2 p3 (bezier_point p0 p1 p2 p3 t).
Proof.
  intros p0 p1 p2 p3 t [L U]. exists (pow3 (1 - t)), (3 * t * pow2 (1 - t)), (3 * pow2 t * (1 - t)), (pow3 t). unfold pow2, pow3.
  assert (0 <= 1 - t) by lra. assert (0 <= (1 - t) * (1 - t)) by (apply Rmult_le_pos; lra). assert (0 <= t * t) by (apply Rmult_le_pos; lra).
  split; [apply Rmult_le_pos; assumption|]. split; [apply Rmult_le_pos; [lra|assumption]|]. split; [apply Rmult_le_pos; lra|]. split; [apply Rmult_le_pos; lra|]. split; [ring|].
  unfold bezier_point, pow2, pow3. apply veq; comps; ring.
Qed.
(** Reversing the control points reverses the curve. *)
Theorem C94_bezier_reverse : forall p0 p1 p2 p3 t, bezier_point p3 p2 p1 p0 t = bezier_point p0 p1 p2 p3 (1 - t).
Proof. intros. unfold bezier_point, pow2, pow3. apply veq; comps; ring. Qed.
(** The sampled curve has one point more than steps, and starts and ends where the curve does. *)
Theorem C94_bezier_points : forall p0 p1 p2 p3 n, (0 < n)%nat ->
  length (bezier_points p0 p1 p2 p3 n) = S n /\ nth_error (bezier_points p0 p1 p2 p3 n) 0 = Some p0 /\ nth_error (bezier_points p0 p1 p2 p3 n) n = Some p3 /\
  forall i, (i <= n)%nat -> nth_error (bezier_points p0 p1 p2 p3 n) i = Some (bezier_point p0 p1 p2 p3 (INR i / INR n)).
Proof.
  intros p0 p1 p2 p3 n P. assert (N : INR n <> 0) by (apply not_0_INR; lia).
  assert (A : forall i, (i <= n)%nat -> nth_error (bezier_points p0 p1 p2 p3 n) i = Some (bezier_point p0 p1 p2 p3 (INR i / INR n))).
  { intros i L. unfold bezier_points. rewrite nth_error_map. rewrite (nth_error_nth' _ 0%nat) by (rewrite seq_length; lia). rewrite seq_nth by lia. cbn [option_map plus]. do 2 f_equal. field. exact N. }
  split; [unfold bezier_points; rewrite map_length, seq_length; reflexivity|]. destruct (C94_bezier_ends p0 p1 p2 p3) as (B0 & B1 & _).
  split; [rewrite A by lia; cbn [INR]; replace (0 / INR n) with 0 by (field; exact N); rewrite B0; reflexivity|].
  split; [rewrite A by lia; replace (INR n / INR n) with 1 by (field; exact N); rewrite B1; reflexivity|exact A].
Qed.

(** The linearly continued curve is the Bezier curve inside [0,1], moves on along its end tangents outside, and is differentiable everywhere with the reported derivative, also at both ends. *)
Theorem C94_continued : forall p0 p1 p2 p3,
  (forall t, 0 <= t <= 1 -> continued_point p0 p1 p2 p3 t = bezier_point p0 p1 p2 p3 t) /\
  (forall t, t <= 0 -> continued_point p0 p1 p2 p3 t = between p0 p1 (3 * t)) /\
  (forall t, 1 <= t -> continued_point p0 p1 p2 p3 t = between p3 p2 (3 * (1 - t))) /\
  (forall t, tangent (continued_point p0 p1 p2 p3) t (continued_derivative p0 p1 p2 p3 t)).
Proof.
  intros p0 p1 p2 p3. split; [apply continued_middle|]. split; [|split; [|apply continued_tangent]].
  - intros t L. rewrite continued_lower by exact L. unfold line_point, between. apply veq; comps; ring.
  - intros t L. rewrite continued_upper by exact L. unfold line_point, between. apply veq; comps; ring.
Qed.
Theorem C94_line : forall pos dir t, tangent (line_point pos dir) t (line_derivative pos dir t) /\ line_point pos dir 0 = pos.
Proof. intros. split; [apply line_tangent|]. unfold line_point. apply veq; comps; ring. Qed.
(** A curve stretched to the interval [s,e] runs through the curve once, and its derivative is the derivative of the stretched curve. *)
Theorem C94_composite : forall f f' s e, e <> s ->
  composite_point f s e s = f 0 /\ composite_point f s e e = f 1 /\
  (forall u, composite_point f s e (s + u * (e - s)) = f u) /\
  ((forall t, tangent f t (f' t)) -> forall t, tangent (composite_point f s e) t (composite_derivative f' s e t)).
Proof.
  intros f f' s e N. unfold composite_point at 1 2 3. unfold ilerp.
  split; [f_equal; field; lra|]. split; [f_equal; field; lra|]. split; [intros u; f_equal; field; lra|].
  intros D t. unfold composite_derivative. apply composite_tangent; [exact N|apply D].
Qed.
(** The points of a moved curve are the moved points; the reported derivative is its derivative; and a rigid motion keeps all distances along the curve. *)
Theorem C94_transformed_points : forall g f t, transformed_point g f t = moved g (f t).
Proof. intros g f t. unfold transformed_point, moved, mapply. apply veq; comps; ring. Qed.
Theorem C94_transformed : forall g f f', (forall t, tangent f t (f' t)) -> forall t, tangent (transformed_point g f) t (transformed_derivative g f' t).
Proof. intros g f f' D t. apply transformed_tangent, D. Qed.
Theorem C94_transformed_rigid : forall g f a b, rotation (prot g) -> distance (transformed_point g f a) (transformed_point g f b) = distance (f a) (f b).
Proof.
  intros g f a b (_ & O & _). rewrite <- !norm_distance. unfold vnorm. f_equal. set (u := vsub (f a) (f b)).
  replace (vsub (transformed_point g f a) (transformed_point g f b)) with (mapply (prot g) u).
  2:{ unfold transformed_point, u, mapply. apply veq; comps; ring. }
  clearbody u. destruct g as [[a0 a1 a2 a3 a4 a5 a6 a7 a8] q]. cbn [prot]. unfold mmul, mtrans, mid in O. cbn [m00 m01 m02 m10 m11 m12 m20 m21 m22] in O. injection O as O0 O1 O2 O3 O4 O5 O6 O7 O8. destruct u as [x y z]. unfold vdot, mapply. cbn [vx vy vz m00 m01 m02 m10 m11 m12 m20 m21 m22].
  transitivity (x * x * (a0 * a0 + a3 * a3 + a6 * a6) + y * y * (a1 * a1 + a4 * a4 + a7 * a7) + z * z * (a2 * a2 + a5 * a5 + a8 * a8) + 2 * x * y * (a0 * a1 + a3 * a4 + a6 * a7) + 2 * x * z * (a0 * a2 + a3 * a5 + a6 * a8) + 2 * y * z * (a1 * a2 + a4 * a5 + a7 * a8)); [ring|].
  rewrite O0, O1, O2, O4, O5, O8. ring.
Qed.

(** Examples: a curve from (0,0,0) to (3,0,0). *)
Definition ea := Vec 0 0 0. Definition eb := Vec 1 2 0. Definition ec := Vec 2 2 0. Definition ed := Vec 3 0 0.
Example C94_ex_middle : bezier_point ea eb ec ed (1/2) = Vec (3/2) (3/2) 0 /\ bezier_derivative ea eb ec ed (1/2) = Vec 3 0 0.
Proof. split; unfold bezier_point, bezier_derivative, pow2, pow3, ea, eb, ec, ed; apply veq; comps; field. Qed.
Example C94_ex_outside : continued_point ea eb ec ed 2 = Vec 6 (-6) 0.
Proof. destruct (C94_continued ea eb ec ed) as (_ & _ & H & _). rewrite H by lra. unfold between, ed, ec. apply veq; comps; ring. Qed.

(** C95: line strips and sampling.  A strip of at least two points passes through point [k] at the parameter mn + k (mx - mn) / (n - 1). *)
Theorem C95_strip_through_points : forall points mn mx k p, mn < mx -> (2 <= length points)%nat -> nth_error points k = Some p ->
  strip_point points mn mx (mn + INR k * (mx - mn) / INR (length points - 1)) = Some p.
Proof.
  intros points mn mx k p D L N. assert (K : (k < length points)%nat) by (apply nth_error_Some; rewrite N; discriminate).
  assert (NZ : INR (length points - 1) <> 0) by (apply not_0_INR; lia). set (t := mn + INR k * (mx - mn) / INR (length points - 1)).
  assert (F : (t - mn) / (mx - mn) * INR (length points - 1) = INR k) by (unfold t; field; split; [exact NZ|lra]).
  unfold strip_point. destruct (Nat.eq_dec (k + 1) (length points)) as [E|E].
  - rewrite (get_index_at t mn mx (length points) (k - 1) D); [|lia|].
    + rewrite F, Nat2Z.id. replace (S (k - 1)) with k by lia. rewrite N. destruct (nth_error points (k - 1)) as [q|] eqn:Q; [|apply nth_error_None in Q; lia].
      rewrite minus_INR by lia. cbn [INR]. f_equal. apply veq; comps; ring.
    + right. right. split; [lia|]. rewrite F. apply le_INR. lia.
  - rewrite (get_index_at t mn mx (length points) k D); [|lia|left; rewrite F; lra].
    rewrite F, Nat2Z.id, N. destruct (nth_error points (S k)) as [q|] eqn:Q; [|apply nth_error_None in Q; lia]. f_equal. apply veq; comps; ring.
Qed.
(** Between two points it is the straight line between them. *)
Theorem C95_strip_linear : forall points mn mx k a b u, mn < mx -> nth_error points k = Some a -> nth_error points (S k) = Some b -> 0 <= u <= 1 ->
  strip_point points mn mx (mn + (INR k + u) * (mx - mn) / INR (length points - 1)) = Some (between a b u).
Proof.
  intros points mn mx k a b u D A B U. assert (K : (S k < length points)%nat) by (apply nth_error_Some; rewrite B; discriminate).
  destruct (Req_dec u 1) as [->|NU].
  - replace (INR k + 1) with (INR (S k)) by (rewrite S_INR; reflexivity). rewrite (C95_strip_through_points _ _ _ _ b D); [|lia|exact B]. f_equal. unfold between. apply veq; cbn [QuatModel.vx QuatModel.vy QuatModel.vz]; ring.
  - assert (NZ : INR (length points - 1) <> 0) by (apply not_0_INR; lia). set (t := mn + (INR k + u) * (mx - mn) / INR (length points - 1)).
    assert (F : (t - mn) / (mx - mn) * INR (length points - 1) = INR k + u) by (unfold t; field; split; [exact NZ|lra]).
    unfold strip_point. rewrite (get_index_at t mn mx (length points) k D); [|lia|left; rewrite F; lra]. rewrite F, Nat2Z.id, A, B. f_equal. unfold between. apply veq; comps; ring.
Qed.
(** Outside its interval it goes on along its first and its last segment. *)
Theorem C95_strip_extends : forall points mn mx a b t, mn < mx -> 
  (nth_error points 0 = Some a -> nth_error points 1 = Some b -> t <= mn -> strip_point points mn mx t = Some (between a b ((t - mn) / (mx - mn) * INR (length points - 1)))) /\
  (forall pre, points = pre ++ [a; b] -> mx <= t -> strip_point points mn mx t = Some (between b a ((mx - t) / (mx - mn) * INR (length points - 1)))).
Proof.
  intros points mn mx a b t D. split.
  - intros A B T. assert (K : (1 < length points)%nat) by (apply nth_error_Some; rewrite B; discriminate). unfold strip_point.
    rewrite (get_index_at t mn mx (length points) 0 D); [|lia|right; left; split; [reflexivity|]].
    + change (Z.to_nat (Z.of_nat 0)) with 0%nat. rewrite A, B. f_equal. unfold between. cbn [INR]. apply veq; comps; ring.
    + assert ((t - mn) / (mx - mn) <= 0) by (unfold Rdiv; assert (0 < / (mx - mn)) by (apply Rinv_0_lt_compat; lra); nra). pose proof (pos_INR (length points - 1)). nra.
  - intros pre -> T. assert (LE : length (pre ++ [a; b]) = S (S (length pre))) by (rewrite app_length; cbn; lia). unfold strip_point. rewrite LE.
    rewrite (get_index_at t mn mx (S (S (length pre))) (length pre) D); [|lia|right; right; split; [reflexivity|]].
    + rewrite Nat2Z.id. rewrite !nth_error_app2 by lia. replace (S (length pre) - length pre)%nat with 1%nat by lia. rewrite Nat.sub_diag. cbn [nth_error]. f_equal.
      replace (S (S (length pre)) - 1)%nat with (S (length pre)) by lia. rewrite S_INR. set (n := INR (length pre)). clearbody n. assert (mx - mn <> 0) by lra. unfold between. apply veq; comps; field; assumption.
    + replace (S (S (length pre)) - 1)%nat with (S (length pre)) by lia. rewrite S_INR. assert (1 <= (t - mn) / (mx - mn)).
      { apply Rmult_le_reg_r with (mx - mn); [lra|]. unfold Rdiv. rewrite Rmult_assoc, Rinv_l by lra. lra. }
      pose proof (pos_INR (length pre)). nra.
Qed.
(** A strip of two points or more never throws, whatever the parameter; with an empty interval it stays at its first point. *)
Theorem C95_strip_total : forall points mn mx t, (2 <= length points)%nat -> strip_point points mn mx t <> None.
Proof.
  intros points mn mx t L. unfold strip_point, get_index. destruct (Req_EM_T mn mx) as [E|E].
  - change (Z.to_nat 0) with 0%nat. destruct points as [|a [|b r]]; cbn [length] in L; try lia. cbn. discriminate.
  - cbv zeta. set (i := Z.max 0 (Z.min (Z.of_nat (length points) - 2) (trunc ((t - mn) / (mx - mn) * IZR (Z.of_nat (length points) - 1))))). assert (B : (0 <= i <= Z.of_nat (length points) - 2)%Z) by lia. clearbody i.
    destruct (nth_error points (Z.to_nat i)) eqn:A; [|apply nth_error_None in A; lia]. destruct (nth_error points (S (Z.to_nat i))) eqn:C; [discriminate|]. apply nth_error_None in C. lia.
Qed.
Theorem C95_strip_empty_interval : forall a b r m t, strip_point (a :: b :: r) m m t = Some a.
Proof. intros. unfold strip_point, get_index. destruct (Req_EM_T m m) as [_|N]; [|destruct N; reflexivity]. cbn [Z.to_nat nth_error]. f_equal. apply veq; comps; ring. Qed.
(** A strip of a single point throws at every parameter, also at its own point. *)
Theorem C95_strip_single_refuted : ~ (forall points mn mx t, points <> [] -> strip_point points mn mx t <> None).
Proof.
  intros H. apply (H [Vec 0 0 0] 0 1 0); [discriminate|]. unfold strip_point. destruct (get_index 0 0 1 (Z.of_nat (length [Vec 0 0 0]))) as [i f]. destruct (nth_error [Vec 0 0 0] (Z.to_nat i)); [|reflexivity].
  replace (nth_error [Vec 0 0 0] (S (Z.to_nat i))) with (@None vec3) by (symmetry; apply nth_error_None; cbn; lia). reflexivity.
Qed.

(** The samples: n + 1 equidistant parameters from t1 to t2. *)
Theorem C95_segments : forall t1 t2 n, (0 < n)%nat -> length (segment_params t1 t2 n) = S n /\
  (forall i, (i <= n)%nat -> nth_error (segment_params t1 t2 n) i = Some (t1 + (t2 - t1) * (INR i / INR n))) /\
  nth_error (segment_params t1 t2 n) 0 = Some t1 /\ nth_error (segment_params t1 t2 n) n = Some t2 /\
  (t1 <= t2 -> forall t, In t (segment_params t1 t2 n) -> t1 <= t <= t2).
Proof.
  intros t1 t2 n P. assert (N : INR n <> 0) by (apply not_0_INR; lia). assert (PN : 0 < INR n) by (apply lt_0_INR; lia).
  assert (A : forall i, (i <= n)%nat -> nth_error (segment_params t1 t2 n) i = Some (t1 + (t2 - t1) * (INR i / INR n))).
  { intros i L. unfold segment_params. rewrite nth_error_map. rewrite (nth_error_nth' _ 0%nat) by (rewrite seq_length; lia). rewrite seq_nth by lia. cbn [option_map plus]. unfold sample_at. f_equal. field. exact N. }
  split; [unfold segment_params; rewrite map_length, seq_length; reflexivity|]. split; [exact A|].
  split; [rewrite A by lia; cbn [INR]; f_equal; field; exact N|]. split; [rewrite A by lia; f_equal; field; exact N|].
  intros L t I. unfold segment_params in I. apply in_map_iff in I. destruct I as (i & <- & I). apply in_seq in I. unfold sample_at. unfold Rdiv. rewrite Rmult_assoc.
  assert (0 <= INR i * / INR n <= 1).
  { assert (0 < / INR n) by (apply Rinv_0_lt_compat, PN). pose proof (pos_INR i). assert (INR i <= INR n) by (apply le_INR; lia). split; [nra|]. replace 1 with (INR n * / INR n) by (field; exact N). nra. }
  nra.
Qed.
(** The search for the closest point returns a sampled parameter, and no sampled point is nearer. *)
Theorem C95_closest : forall f p t1 t2 n, (0 < n)%nat ->
  In (closest f p t1 t2 n) (segment_params t1 t2 n) /\
  forall t, In t (segment_params t1 t2 n) -> distance (f (closest f p t1 t2 n)) p <= distance (f t) p.
Proof.
  intros f p t1 t2 n P. assert (N : INR n <> 0) by (apply not_0_INR; lia). destruct (closest_fold f p t1 t2 n (seq 1 n) t1) as (t & E & M & LE & ALL). assert (C : closest f p t1 t2 n = t) by exact (f_equal fst E). rewrite C.
  assert (Z0 : sample_at t1 t2 n 0 = t1) by (unfold sample_at; cbn [INR]; field; exact N). split.
  - unfold segment_params. apply in_map_iff. destruct M as [->|(i & I & ->)]; [exists 0%nat; split; [exact Z0|apply in_seq; lia]|exists i; split; [reflexivity|apply in_seq in I; apply in_seq; lia]].
  - intros u I. unfold segment_params in I. apply in_map_iff in I. destruct I as (i & <- & I). apply in_seq in I. rewrite <- !dist2_distance. apply sqrt_le_1_alt.
    destruct i as [|i]; [rewrite Z0; exact LE|apply ALL, in_seq; lia].
Qed.
(** The approximated length: at least the distance of the end points, and exact on straight lines. *)
Theorem C95_length_chord : forall f t1 t2 n, (0 < n)%nat -> distance (f t1) (f t2) <= curve_length f t1 t2 n.
Proof.
  intros f t1 t2 n P. assert (N : INR n <> 0) by (apply not_0_INR; lia). rewrite curve_length_sum by exact P. pose proof (chord (fun i => f (sample_at t1 t2 n i)) n 0) as C. cbv beta in C. cbn [plus] in C.
  replace (sample_at t1 t2 n 0) with t1 in C by (unfold sample_at; cbn [INR]; field; exact N). replace (sample_at t1 t2 n n) with t2 in C by (unfold sample_at; field; exact N). exact C.
Qed.
Theorem C95_length_line : forall pos dir t1 t2 n, (0 < n)%nat -> curve_length (line_point pos dir) t1 t2 n = distance (line_point pos dir t1) (line_point pos dir t2).
Proof.
  intros pos dir t1 t2 n P. assert (N : INR n <> 0) by (apply not_0_INR; lia). assert (PN : 0 < INR n) by (apply lt_0_INR; lia). rewrite curve_length_sum by exact P.
  assert (D : forall a b, distance (line_point pos dir a) (line_point pos dir b) = Rabs (a - b) * distance dir (Vec 0 0 0)).
  { intros a b. unfold distance, line_point. comps. rewrite <- sqrt_Rsqr_abs, <- sqrt_mult_alt by apply Rle_0_sqr. f_equal. unfold Rsqr. ring. }
  rewrite (sum_const (Rabs (t1 - t2) / INR n * distance dir (Vec 0 0 0))).
  - rewrite D. field. exact N.
  - intros i _. rewrite D. f_equal. replace (sample_at t1 t2 n i - sample_at t1 t2 n (S i)) with ((t1 - t2) * / INR n) by (unfold sample_at; rewrite S_INR; field; exact N).
    rewrite Rabs_mult, (Rabs_right (/ INR n)); [reflexivity|]. apply Rle_ge, Rlt_le, Rinv_0_lt_compat, PN.
Qed.
(** Moving by a length along a curve of constant speed c moves the parameter by length / sqrt (1 + c^2) ... *)
Theorem C95_move_constant_speed : forall f' c x l n, (0 < n)%nat -> (forall t, distance (f' t) (Vec 0 0 0) = c) -> move_length f' x l n = x + l / sqrt (1 + c * c).
Proof.
  intros f' c x l n P H. unfold move_length. assert (N : INR n <> 0) by (apply not_0_INR; lia). assert (S0 : sqrt (1 + c * c) <> 0) by (apply Rgt_not_eq, sqrt_lt_R0; nra).
  rewrite (move_loop_const f' c); [field; split; assumption|]. intros t. rewrite <- (H t). unfold vnorm, distance, vdot. cbn [vx vy vz]. f_equal. ring.
Qed.
(** ... so MoveLengthOnCurve does not move by the requested length: it follows the graph of the curve in parameter and space. *)
Theorem C95_move_length_refuted : ~ (forall f f' x l n, (0 < n)%nat -> 0 < l -> (forall t, tangent f t (f' t)) -> (forall t, distance (f' t) (Vec 0 0 0) = 1) -> (forall a b, distance (f a) (f b) = Rabs (a - b)) ->
  distance (f x) (f (move_length f' x l n)) = l).
Proof.
  intros H. set (d := Vec 1 0 0). set (o := Vec 0 0 0). assert (U : forall t, distance (line_derivative o d t) (Vec 0 0 0) = 1).
  { intros t. unfold distance, line_derivative, d. cbn [vx vy vz]. replace (_ + _ + _) with 1 by ring. apply sqrt_1. }
  assert (A : forall a b, distance (line_point o d a) (line_point o d b) = Rabs (a - b)).
  { intros a b. unfold distance, line_point, o, d. comps. rewrite <- sqrt_Rsqr_abs. f_equal. unfold Rsqr. ring. }
  specialize (H (line_point o d) (line_derivative o d) 0 1 1%nat ltac:(lia) ltac:(lra) (line_tangent o d) U A).
  rewrite A, (C95_move_constant_speed _ 1) in H; [|lia|exact U]. replace (1 + 1 * 1) with 2 in H by ring. assert (1 < sqrt 2) by (rewrite <- sqrt_1 at 1; apply sqrt_lt_1; lra). assert (Q : 0 < 1 / sqrt 2 < 1).
  { unfold Rdiv. rewrite Rmult_1_l. split; [apply Rinv_0_lt_compat; lra|]. rewrite <- Rinv_1. apply Rinv_lt_contravar; lra. }
  rewrite Rabs_left in H; lra.
Qed.
(** On a curve so fast that the parameter does not count the requested length is nearly met: the moved length is never more than requested. *)
Theorem C95_move_length_at_most : forall f' c x l n, (0 < n)%nat -> 0 <= l -> (forall t, distance (f' t) (Vec 0 0 0) = c) -> 0 <= (move_length f' x l n - x) * c <= l.
Proof.
  intros f' c x l n P L H. rewrite (C95_move_constant_speed f' c) by assumption. assert (C0 : 0 <= c) by (rewrite <- (H 0); apply sqrt_pos). assert (S0 : 0 < sqrt (1 + c * c)) by (apply sqrt_lt_R0; nra).
  assert (C1 : c <= sqrt (1 + c * c)) by (rewrite <- (sqrt_square c C0) at 1; apply sqrt_le_1_alt; lra). replace ((x + l / sqrt (1 + c * c) - x) * c) with (l * (c / sqrt (1 + c * c))) by (field; lra).
  assert (0 <= c / sqrt (1 + c * c) <= 1).
  { unfold Rdiv. assert (0 < / sqrt (1 + c * c)) by (apply Rinv_0_lt_compat, S0). split; [nra|]. apply Rle_trans with (sqrt (1 + c * c) * / sqrt (1 + c * c)); [apply Rmult_le_compat_r; lra|rewrite Rinv_r; lra]. }
  nra.
Qed.

(** Examples: the strip through ea, eb, ed on [0,2]. *)
Example C95_ex_strip : strip_point [ea; eb; ed] 0 2 1 = Some eb /\ strip_point [ea; eb; ed] 0 2 (3/2) = Some (Vec 2 1 0) /\ strip_point [ea; eb; ed] 0 2 3 = Some (Vec 5 (-2) 0).
Proof.
  split; [|split].
  - pose proof (C95_strip_through_points [ea; eb; ed] 0 2 1 eb ltac:(lra) ltac:(cbn; lia) eq_refl) as H. cbn [length] in H. replace (0 + INR 1 * (2 - 0) / INR (3 - 1)) with 1 in H by (cbn; field). exact H.
  - pose proof (C95_strip_linear [ea; eb; ed] 0 2 1 eb ed (1/2) ltac:(lra) eq_refl eq_refl ltac:(lra)) as H. cbn [length] in H. replace (0 + (INR 1 + 1/2) * (2 - 0) / INR (3 - 1)) with (3/2) in H by (cbn; field).
    rewrite H. f_equal. unfold between, eb, ed. apply veq; comps; field.
  - destruct (C95_strip_extends [ea; eb; ed] 0 2 eb ed 3 ltac:(lra)) as [_ H]. rewrite (H [ea] eq_refl ltac:(lra)). f_equal. unfold between, eb, ed. cbn [length]. replace (INR (3 - 1)) with 2 by (cbn; ring). apply veq; comps; field.
Qed.
Example C95_ex_length : curve_length (line_point ea (Vec 3 4 0)) 0 2 7 = 10.
Proof. rewrite C95_length_line by lia. unfold distance, line_point, ea. comps. replace (_ + _ + _) with (10 * 10) by ring. apply sqrt_square. lra. Qed.

Print Assumptions C94_bezier_derivative. Print Assumptions C94_bezier_ends. Print Assumptions C94_bezier_in_hull. Print Assumptions C94_bezier_reverse. Print Assumptions C94_bezier_points.
Print Assumptions C94_continued. Print Assumptions C94_line. Print Assumptions C94_composite. Print Assumptions C94_transformed_points. Print Assumptions C94_transformed. Print Assumptions C94_transformed_rigid.
Print Assumptions C95_strip_through_points. Print Assumptions C95_strip_linear. Print Assumptions C95_strip_extends. Print Assumptions C95_strip_total. Print Assumptions C95_strip_empty_interval. Print Assumptions C95_strip_single_refuted.
Print Assumptions C95_segments. Print Assumptions C95_closest. Print Assumptions C95_length_chord. Print Assumptions C95_length_line. Print Assumptions C95_move_constant_speed. Print Assumptions C95_move_length_refuted. Print Assumptions C95_move_length_at_most.
