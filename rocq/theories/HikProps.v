(** The properties C123 and C124: pseudo inverses and inverse Jacobians. *)
From mathcomp Require Import ssreflect ssrfun ssrbool eqtype ssrnat seq choice fintype bigop.
From mathcomp Require Import order ssralg zmodp ssrnum matrix ssrint rat.
From Coq Require List.
From Verif Require Import HikModel HikSpec HikProofs.
Set Implicit Arguments.
Unset Strict Implicit.
Unset Printing Implicit Defensive.
Import Order.TTheory GRing.Theory Num.Theory.
Local Open Scope ring_scope.

(** The rational numbers as an ordered field. *)
Notation rational := [realFieldType of rat].

(** * C123: pseudo inverses *)

Theorem C123_pseudo_inverse (F : realFieldType) (svd : svd_fun F) m n (a : 'M[F]_(m, n)) tol :
  is_svd a (svd m n a) -> separates tol (svd m n a) ->
  moore_penrose a (pseudo_inverse svd a tol).
Proof. exact: pseudo_inverse_mp. Qed.

Theorem C123_best_solution (F : realFieldType) (svd : svd_fun F) m n (a : 'M[F]_(m, n)) tol b :
  is_svd a (svd m n a) -> separates tol (svd m n a) ->
  best_solution a b (pseudo_inverse svd a tol *m b) /\ shortest a (pseudo_inverse svd a tol *m b).
Proof. by move=> s t; apply: moore_penrose_best; apply: pseudo_inverse_mp. Qed.

Theorem C123_any_decomposition (F : realFieldType) (svd svd' : svd_fun F) m n (a : 'M[F]_(m, n)) tol tol' :
  is_svd a (svd m n a) -> separates tol (svd m n a) ->
  is_svd a (svd' m n a) -> separates tol' (svd' m n a) ->
  pseudo_inverse svd a tol = pseudo_inverse svd' a tol'.
Proof. by move=> s1 t1 s2 t2; exact: (moore_penrose_unique (pseudo_inverse_mp s1 t1) (pseudo_inverse_mp s2 t2)). Qed.

Theorem C123_below_the_tolerance (F : realFieldType) (svd : svd_fun F) m n (a : 'M[F]_(m, n)) tol :
  is_svd a (svd m n a) -> 0 <= tol ->
  moore_penrose (truncated tol (svd m n a)) (pseudo_inverse svd a tol).
Proof. exact: pseudo_inverse_truncated. Qed.

Theorem C123_damped (F : realFieldType) (svd : svd_fun F) m n (a : 'M[F]_(m, n)) l b (x y : 'cV[F]_n) :
  is_svd a (svd m n a) -> l != 0 -> x = pseudo_inverse_damped svd a l *m b ->
  sqnorm (a *m x - b) + l ^+ 2 * sqnorm x <= sqnorm (a *m y - b) + l ^+ 2 * sqnorm y.
Proof. by move=> s l0 ex; exact: (damped_best y s l0 ex). Qed.

Lemma tol_pos : 0 < tolerance rational.
Proof. by rewrite invr_gt0 exprn_gt0 // ltr0n. Qed.

Lemma tol_one : tolerance rational < 1.
Proof. by rewrite invf_lt1 ?exprn_gt0 ?ltr0n // exprn_egt1 // ltr1n. Qed.

Opaque tolerance.

(** A decomposition for the 1 x 1 matrices with an entry that is not negative. *)
Definition svd1 : svd_fun rational := fun m n a => @Svd rational m n 1 (const_mx 1) (const_mx (\sum_i \sum_j a i j)) (const_mx 1).

Lemma const1 : const_mx 1 = 1%:M :> 'M[rat]_1.
Proof. by apply/matrixP => i j; rewrite !mxE !ord1. Qed.

Lemma svd1_sing (c : rat) : (\sum_(i < 1) \sum_(j < 1) (c%:M : 'M[rat]_1) i j) = c.
Proof. by rewrite !big_ord1 mxE eqxx. Qed.

Lemma diag1 (c : rat) : diag_mx (const_mx c : 'rV[rat]_1) = c%:M.
Proof. by rewrite diag_const_mx. Qed.

Lemma svd1_right (c : rat) : 0 <= c -> is_svd (c%:M : 'M[rat]_1) (svd1 c%:M).
Proof.
move=> c0; rewrite /is_svd /= svd1_sing diag1 const1 trmx1 !mul1mx !mulmx1.
by split=> //; split=> //; split=> // i; rewrite mxE.
Qed.

Lemma svd1_pinv (c tol : rat) : pseudo_inverse svd1 (c%:M : 'M[rat]_1) tol = (if tol < c then 1 / c else 0)%:M.
Proof.
by rewrite /pseudo_inverse /= svd1_sing map_const_mx diag1 const1 trmx1 mul1mx mulmx1.
Qed.

Lemma svd1_damped (c l : rat) : pseudo_inverse_damped svd1 (c%:M : 'M[rat]_1) l = (c / (c * c + l * l))%:M.
Proof.
by rewrite /pseudo_inverse_damped /= svd1_sing map_const_mx diag1 const1 trmx1 mul1mx mulmx1.
Qed.

(** A matrix of numbers that are not above the tolerance is treated as if it were zero, although it has an inverse. *)
Theorem C123_small_singular_values_refuted :
  exists (svd : svd_fun rational) (a : 'M[rat]_1),
    a \in unitmx /\ is_svd a (svd 1%N 1%N a) /\
    pseudo_inverse svd a (tolerance rational) = 0.
Proof.
exists svd1, (tolerance rational)%:M; split; [|split].
- by rewrite unitmxE det_scalar1 unitfE gt_eqF // tol_pos.
- by apply/svd1_right/ltW/tol_pos.
- by rewrite svd1_pinv ltxx -scalemx1 scale0r.
Qed.

(** The decomposition of a matrix with orthonormal rows. *)
Definition svd_rows : svd_fun rational := fun m n a => @Svd rational m n m 1%:M (const_mx 1) a^T.

Lemma svd_rows_right m n (a : 'M[rat]_(m, n)) : a *m a^T = 1%:M -> well_conditioned svd_rows a.
Proof.
move=> e; split.
- rewrite /is_svd /= diag_const_mx trmxK trmx1 !mul1mx; split=> //; split=> //; split=> // i.
  by rewrite mxE.
- by split=> [|i]; [apply: ltW; apply: tol_pos | right; rewrite mxE; apply: tol_one].
Qed.

Lemma svd_rows_pinv m n (a : 'M[rat]_(m, n)) (tol : rat) : tol < 1 -> pseudo_inverse svd_rows a tol = a^T.
Proof.
by move=> t1; rewrite /pseudo_inverse /= map_const_mx diag_const_mx t1 divr1 trmx1 !mulmx1.
Qed.

Definition row2 (a b : rat) : 'M[rat]_(1, 2) := \row_j (if j == 0 then a else b).
Definition scalar1 (a : rat) : 'cV[rat]_1 := const_mx a.

Lemma row2_mul (a b c d : rat) : row2 a b *m (row2 c d)^T = (a * c + b * d)%:M.
Proof.
apply/matrixP => i j; rewrite !mxE !ord1 big_ord_recl big_ord1 !mxE /=.
by [].
Qed.

Example C123_witness :
  well_conditioned svd_rows (row2 0 1) /\
  row2 0 1 *m (pseudo_inverse svd_rows (row2 0 1) (tolerance rational) *m scalar1 3%:R) = scalar1 3%:R.
Proof.
split; first by apply: svd_rows_right; rewrite row2_mul.
by rewrite svd_rows_pinv ?tol_one // mulmxA row2_mul mul0r add0r mulr1 mul1mx.
Qed.

(** * C124: the inverse Jacobian of a provider *)

Theorem C124_inverse_by_svd (F : realFieldType) dbl (svd : svd_fun F) sq (p : provider F) m n (a : 'M[F]_(m, n)) par x :
  p_method p = eSVD -> square_root sq (p_weights p) ->
  (let aw := a *m weight_matrix sq n (p_weights p) in
   is_svd aw (svd m n aw) /\ separates (if par != 0 then par else (10%:R ^+ 5)^-1) (svd m n aw)) ->
  update_inverse dbl svd sq p a par [::] = Done x ->
  forall b, best_solution a b (x *m b) /\
    (size (p_weights p) = n ->
     forall y : 'cV[F]_n, a *m y = a *m (x *m b) -> weighted (p_weights p) (x *m b) <= weighted (p_weights p) y) /\
    (size (p_weights p) <> n -> shortest a (x *m b)).
Proof. by move=> me sw cond; rewrite update_plain; apply: inner_svd. Qed.

Theorem C124_regularized (F : realFieldType) dbl (svd : svd_fun F) sq (p : provider F) m n (a : 'M[F]_(m, n)) par reg x :
  p_method p = eSVD -> square_root sq (p_weights p) -> size reg = m ->
  (let aw := diag_mx (\row_(i < m) nth 0 reg i) *m a *m weight_matrix sq n (p_weights p) in
   is_svd aw (svd m n aw) /\ separates (if par != 0 then par else (10%:R ^+ 5)^-1) (svd m n aw)) ->
  update_inverse dbl svd sq p a par reg = Done x ->
  forall b,
    (forall y : 'cV[F]_n, scaled_error reg a b (x *m b) <= scaled_error reg a b y) /\
    (size (p_weights p) = n ->
     forall y : 'cV[F]_n, a *m y = a *m (x *m b) -> weighted (p_weights p) (x *m b) <= weighted (p_weights p) y).
Proof.
move=> me sw szr cond; rewrite /update_inverse szr eqxx /=.
case e: inner_inverse => [z||] // -[<-] b.
have [h1 [h2 _]] := inner_svd me sw cond e (diagonal m reg *m b).
split=> [y|sz y ey].
- by rewrite !scaled_sqnorm -[z *m diagonal m reg *m b]mulmxA; apply: h1.
- rewrite -[z *m diagonal m reg *m b]mulmxA; apply: h2 => //.
  by rewrite -!mulmxA ey -!mulmxA.
Qed.

Lemma wsquare (F : realFieldType) (w u z : F) : w * (u + z) ^+ 2 = w * u ^+ 2 + (w * u * z *+ 2 + w * z ^+ 2).
Proof. by rewrite sqrrD mulrDr [w * (u ^+ 2 + _)]mulrDr mulrnAr [w * (u * z)]mulrA addrA. Qed.

Theorem C124_inverse_by_transpose (F : realFieldType) dbl (svd : svd_fun F) sq (p : provider F) m n (a : 'M[F]_(m, n)) par x :
  p_method p = eTranspose -> update_inverse dbl svd sq p a par [::] = Done x ->
  a *m x = 1%:M /\
  forall b : 'cV[F]_m,
    (size (p_weights p) = n -> (forall w, w \in p_weights p -> 0 < w) ->
     forall y : 'cV[F]_n, a *m y = b -> weighted (p_weights p) (x *m b) <= weighted (p_weights p) y) /\
    (size (p_weights p) <> n -> forall y : 'cV[F]_n, a *m y = b -> sqnorm (x *m b) <= sqnorm y).
Proof.
rewrite update_plain => me e; split; first exact: inner_transpose e.
move=> b; have ax := inner_transpose me e.
move: e; rewrite /inner_inverse me /inverse; case: eqP => [sz|nsz].
- case: ifP => // uw; case: ifP => // ug [ex]; split=> // _ wpos y ay.
  have wx : diagonal n (p_weights p) *m (x *m b) = a^T *m (invmx (a *m invmx (diagonal n (p_weights p)) *m a^T) *m b).
    by rewrite -ex -!mulmxA mulKVmx.
  set z := y - x *m b.
  have az : a *m z = 0 by rewrite mulmxBr ay mulmxA ax mul1mx subrr.
  have ey : y = x *m b + z by rewrite /z addrC subrK.
  have split_w : weighted (p_weights p) y =
      weighted (p_weights p) (x *m b) + (dot (diagonal n (p_weights p) *m (x *m b)) z *+ 2 + weighted (p_weights p) z).
    rewrite dotE -sumrMnl /weighted -!big_split /=; apply: eq_bigr => i _.
    have -> : y i 0 = (x *m b) i 0 + z i 0 by rewrite /z !mxE addrC subrK.
    by rewrite diagonal_mul wsquare.
  rewrite split_w ler_addl wx dot_mul trmxK az dot0r mul0rn add0r.
  apply: sumr_ge0 => i _; apply: mulr_ge0; last exact: sqr_ge0.
  by apply/ltW/wpos/mem_nth; rewrite sz.
- case: ifP => // ug [ex]; split=> // _ y ay.
  set z := y - x *m b.
  have az : a *m z = 0 by rewrite mulmxBr ay mulmxA ax mul1mx subrr.
  have ey : y = x *m b + z by rewrite /z addrC subrK.
  rewrite ey (@sqnormD _ _ (x *m b) z); first by rewrite ler_addl sqnorm_ge0.
  by rewrite -ex -mulmxA dot_mul trmxK az dot0r.
Qed.

Theorem C124_damped_inverse (F : realFieldType) (svd : svd_fun F) sq (p : provider F) m n (a : 'M[F]_(m, n)) par l x :
  p_method p = eSVDDamped -> is_svd a (svd m n a) ->
  l = (if par != 0 then par else p_lambda p) -> l != 0 ->
  update_inverse false svd sq p a par [::] = Done x ->
  forall b (y : 'cV[F]_n),
    sqnorm (a *m (x *m b) - b) + l ^+ 2 * sqnorm (x *m b) <= sqnorm (a *m y - b) + l ^+ 2 * sqnorm y.
Proof.
move=> me s el l0; rewrite update_plain /inner_inverse me /= -el => -[<-] b y.
exact: (damped_best y s l0 erefl).
Qed.

(** The versions for double ignore the damping set by setDampedSvdLambda: the damping is always 1. *)
Theorem C124_damping_in_double_precision_refuted :
  exists (svd : svd_fun rational) sq (p : provider rational) (a : 'M[rat]_1) x (b y : 'cV[rat]_1),
    p_method p = eSVDDamped /\ p_lambda p != 0 /\ is_svd a (svd 1%N 1%N a) /\
    update_inverse true svd sq p a 0 [::] = Done x /\
    sqnorm (a *m y - b) + p_lambda p ^+ 2 * sqnorm y < sqnorm (a *m (x *m b) - b) + p_lambda p ^+ 2 * sqnorm (x *m b).
Proof.
exists svd1, id, (@Provider rational true eSVDDamped [::] 2%:R 1 1 1%:M 1 0), 1%:M.
exists (1 / (1 * 1 + 1 * 1))%:M, 1%:M, 0; split; [|split; [|split; [|split]]] => //.
- exact: (@svd1_right 1).
- by rewrite update_plain /inner_inverse /= svd1_damped.
- by rewrite [p_lambda _]/= !mul1mx mulmx1 /sqnorm !big_ord1 !mxE.
Qed.

Theorem C124_weights_must_be_positive (F : realFieldType) dbl (svd : svd_fun F) sq (p : provider F) m n (a : 'M[F]_(m, n)) par reg :
  p_method p = eSVD -> size (p_weights p) = n ->
  (update_inverse dbl svd sq p a par reg = Thrown <-> exists2 x, x \in p_weights p & x <= 0).
Proof.
move=> me sz; rewrite /update_inverse /inner_inverse me sz eqxx.
split.
- by case: hasP => // -[x xi xl] _; exists x.
- by move/hasP => ->.
Qed.

Theorem C124_weights_without_effect (F : realFieldType) dbl (svd : svd_fun F) sq i me w w' l r c (j : 'M[F]_(r, c)) r' (e : 'cV[F]_r')
    m n (a : 'M[F]_(m, n)) par reg :
  me = eSVDDamped \/ (size w <> n /\ size w' <> n) ->
  update_inverse dbl svd sq (Provider i me w l j e) a par reg = update_inverse dbl svd sq (Provider i me w' l j e) a par reg.
Proof.
rewrite /update_inverse /inner_inverse /= => -[->|[/eqP/negbTE -> /eqP/negbTE ->]] //.
Qed.

Example C124_witness :
  let p := @Provider rational true eSVD [:: 1; 4%:R] 1 1 2 (row2 0 1) 1 0 in
  let sq := fun x : rat => if x == 1 / 4%:R then 1 / 2%:R else x in
  square_root sq (p_weights p) /\ size (p_weights p) = 2%N /\
  exists x, update_inverse false svd_rows sq p (row2 0 1) 0 [::] = Done x.
Proof.
split; [|split=> //].
- by move=> x; rewrite !inE => /orP [/eqP ->|/eqP ->].
- by rewrite update_plain /inner_inverse /=; eexists.
Qed.

Print Assumptions C123_pseudo_inverse.
Print Assumptions C123_best_solution.
Print Assumptions C123_any_decomposition.
Print Assumptions C123_below_the_tolerance.
Print Assumptions C123_damped.
Print Assumptions C123_small_singular_values_refuted.
Print Assumptions C124_inverse_by_svd.
Print Assumptions C124_regularized.
Print Assumptions C124_inverse_by_transpose.
Print Assumptions C124_damped_inverse.
Print Assumptions C124_damping_in_double_precision_refuted.
Print Assumptions C124_weights_must_be_positive.
Print Assumptions C124_weights_without_effect.
