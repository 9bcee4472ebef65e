(** Proofs about pseudo inverses and combined steps. *)
From mathcomp Require Import ssreflect ssrfun ssrbool eqtype ssrnat seq choice fintype bigop.
From mathcomp Require Import order ssralg zmodp ssrnum matrix.
From Coq Require List.
From Verif Require Import HikModel HikSpec.
Set Implicit Arguments.
Unset Strict Implicit.
Unset Printing Implicit Defensive.
Import Order.TTheory GRing.Theory Num.Theory.
Local Open Scope ring_scope.

Section Field.
Variable F : realFieldType.

Definition dot n (u v : 'cV[F]_n) : F := (u^T *m v) 0 0.

Lemma dotE n (u v : 'cV[F]_n) : dot u v = \sum_i u i 0 * v i 0.
Proof. by rewrite /dot mxE; apply: eq_bigr => i _; rewrite mxE. Qed.

Lemma sqnorm_dot n (v : 'cV[F]_n) : sqnorm v = dot v v.
Proof. by rewrite dotE /sqnorm; apply: eq_bigr => i _; rewrite expr2. Qed.

Lemma sqnorm_ge0 n (v : 'cV[F]_n) : 0 <= sqnorm v.
Proof. by apply: sumr_ge0 => i _; exact: sqr_ge0. Qed.

Lemma dotC n (u v : 'cV[F]_n) : dot u v = dot v u.
Proof. by rewrite !dotE; apply: eq_bigr => i _; rewrite mulrC. Qed.

Lemma dotDl n (u v w : 'cV[F]_n) : dot (u + v) w = dot u w + dot v w.
Proof. by rewrite /dot linearD /= mulmxDl mxE. Qed.

Lemma dotDr n (u v w : 'cV[F]_n) : dot w (u + v) = dot w u + dot w v.
Proof. by rewrite /dot mulmxDr mxE. Qed.

Lemma sqnormD n (u v : 'cV[F]_n) : dot u v = 0 -> sqnorm (u + v) = sqnorm u + sqnorm v.
Proof.
move=> uv; rewrite !sqnorm_dot dotDl !dotDr [dot v u]dotC uv.
by rewrite addr0 add0r.
Qed.

Lemma dot_mul m n (a : 'M[F]_(m, n)) u v : dot (a *m u) v = dot u (a^T *m v).
Proof. by rewrite /dot trmx_mul mulmxA. Qed.

Lemma dot0r n (u : 'cV[F]_n) : dot u 0 = 0.
Proof. by rewrite /dot mulmx0 mxE. Qed.

(** Least squares *)
Lemma projector_best m n (a : 'M[F]_(m, n)) g b :
  a *m g *m a = a -> (a *m g)^T = a *m g -> best_solution a b (g *m b).
Proof.
move=> aga ag y.
have -> : a *m y - b = (a *m (g *m b) - b) + a *m (y - g *m b).
  by rewrite mulmxBr [RHS]addrC addrA subrK.
rewrite (@sqnormD _ (a *m (g *m b) - b) (a *m (y - g *m b))); first by rewrite ler_addl sqnorm_ge0.
rewrite dotC dot_mul.
have -> : a^T *m (a *m (g *m b) - b) = 0.
  rewrite mulmxBr !mulmxA.
  have -> : a^T *m a *m g = a^T by rewrite -mulmxA -ag -trmx_mul aga.
  by rewrite subrr.
exact: dot0r.
Qed.

Lemma projector_shortest m n (a : 'M[F]_(m, n)) g b :
  g *m a *m g = g -> (g *m a)^T = g *m a -> shortest a (g *m b).
Proof.
move=> gag ga y ay.
have -> : y = g *m b + (y - g *m b) by rewrite addrC subrK.
rewrite (@sqnormD _ (g *m b) (y - g *m b)); first by rewrite ler_addl sqnorm_ge0.
have -> : g *m b = (g *m a)^T *m (g *m b) by rewrite ga !mulmxA gag.
rewrite dot_mul trmxK.
rewrite mulmxBr -!mulmxA ay [a *m (_ *m (_ *m _))]mulmxA.
have -> : a *m (g *m a)^T *m (g *m b) = a *m (g *m b) by rewrite ga !mulmxA -!mulmxA [g *m (a *m _)]mulmxA [g *m a *m _]mulmxA gag.
by rewrite subrr dot0r.
Qed.

Lemma moore_penrose_best m n (a : 'M[F]_(m, n)) g b :
  moore_penrose a g -> best_solution a b (g *m b) /\ shortest a (g *m b).
Proof.
by case=> aga [gag [ag ga]]; split; [apply: projector_best | apply: projector_shortest].
Qed.

Lemma moore_penrose_unique m n (a : 'M[F]_(m, n)) g h :
  moore_penrose a g -> moore_penrose a h -> g = h.
Proof.
case=> aga [gag [ag ga]] [aha [hah [ah ha]]].
have e1 : a *m g = a *m h.
  have : (a *m h *m (a *m g))^T = a *m g by rewrite mulmxA aha ag.
  by rewrite trmx_mul ag ah mulmxA aga => <-.
have e2 : g *m a = h *m a.
  have : (g *m a *m (h *m a))^T = g *m a by rewrite mulmxA -[g *m a *m h]mulmxA -[g *m (a *m h) *m a]mulmxA aha ga.
  by rewrite trmx_mul ga ha mulmxA -[h *m a *m g]mulmxA -[h *m (a *m g) *m a]mulmxA aga => <-.
by rewrite -gag -mulmxA e1 mulmxA e2 hah.
Qed.

(** Diagonal matrices *)
Lemma diag_mul n (x y : 'rV[F]_n) : diag_mx x *m diag_mx y = diag_mx (\row_i (x 0 i * y 0 i)).
Proof.
apply/matrixP => i j; rewrite mul_diag_mx !mxE.
by case: (i =P j) => [->|_]; rewrite ?mulr1n ?mulr0n ?mulr0.
Qed.

Lemma svd_mul m n (d : svd_of F m n) (x y : 'rV[F]_(sv_count d)) :
  (mat_v d)^T *m mat_v d = 1%:M ->
  (mat_u d *m diag_mx x *m (mat_v d)^T) *m (mat_v d *m diag_mx y *m (mat_u d)^T) =
  mat_u d *m diag_mx (\row_i (x 0 i * y 0 i)) *m (mat_u d)^T.
Proof.
move=> vv; rewrite -!mulmxA [(mat_v d)^T *m (_ *m _)]mulmxA vv mul1mx.
by rewrite [diag_mx x *m (_ *m _)]mulmxA diag_mul.
Qed.

Lemma svd_mul' m n (d : svd_of F m n) (x y : 'rV[F]_(sv_count d)) :
  (mat_u d)^T *m mat_u d = 1%:M ->
  (mat_v d *m diag_mx y *m (mat_u d)^T) *m (mat_u d *m diag_mx x *m (mat_v d)^T) =
  mat_v d *m diag_mx (\row_i (y 0 i * x 0 i)) *m (mat_v d)^T.
Proof.
move=> uu; rewrite -!mulmxA [(mat_u d)^T *m (_ *m _)]mulmxA uu mul1mx.
by rewrite [diag_mx y *m (_ *m _)]mulmxA diag_mul.
Qed.

Lemma sandwich m n (u : 'M[F]_(m, n)) x : (u *m diag_mx x *m u^T)^T = u *m diag_mx x *m u^T.
Proof. by rewrite !trmx_mul trmxK tr_diag_mx mulmxA. Qed.

Lemma svd_moore_penrose m n (d : svd_of F m n) (x y : 'rV[F]_(sv_count d)) :
  (mat_u d)^T *m mat_u d = 1%:M -> (mat_v d)^T *m mat_v d = 1%:M ->
  (forall i, x 0 i * y 0 i * x 0 i = x 0 i) -> (forall i, y 0 i * x 0 i * y 0 i = y 0 i) ->
  moore_penrose (mat_u d *m diag_mx x *m (mat_v d)^T) (mat_v d *m diag_mx y *m (mat_u d)^T).
Proof.
move=> uu vv xyx yxy; split; [|split; [|split]].
- rewrite svd_mul // -!mulmxA [(mat_u d)^T *m (_ *m _)]mulmxA uu mul1mx.
  rewrite [diag_mx _ *m (diag_mx _ *m _)]mulmxA diag_mul.
  by do 3 f_equal; apply/rowP => i; rewrite !mxE xyx.
- rewrite svd_mul' // -!mulmxA [(mat_v d)^T *m (_ *m _)]mulmxA vv mul1mx.
  rewrite [diag_mx _ *m (diag_mx _ *m _)]mulmxA diag_mul.
  by do 3 f_equal; apply/rowP => i; rewrite !mxE yxy.
- by rewrite svd_mul // sandwich.
- by rewrite svd_mul' // sandwich.
Qed.

Lemma pseudo_inverse_truncated (svd : svd_fun F) m n (a : 'M[F]_(m, n)) tol :
  is_svd a (svd m n a) -> 0 <= tol -> moore_penrose (truncated tol (svd m n a)) (pseudo_inverse svd a tol).
Proof.
case=> _ [uu [vv _]] t0; apply: svd_moore_penrose => // i; rewrite !mxE.
- case: ifP => [h|_]; last by rewrite mulr0.
  by rewrite mul1r divff ?mul1r // gt_eqF // (le_lt_trans t0).
- case: ifP => [h|_]; last by rewrite mulr0.
  by rewrite mul1r mulVf ?mul1r // gt_eqF // (le_lt_trans t0).
Qed.

Lemma pseudo_inverse_mp (svd : svd_fun F) m n (a : 'M[F]_(m, n)) tol :
  is_svd a (svd m n a) -> separates tol (svd m n a) -> moore_penrose a (pseudo_inverse svd a tol).
Proof.
move=> s [t0 sep]; have := pseudo_inverse_truncated s t0.
have -> // : truncated tol (svd m n a) = a.
case: s => ea _; move: (svd m n a) ea sep => d -> sep.
rewrite /truncated; do 3 f_equal; apply/rowP => i; rewrite mxE.
by case: (sep i) => [-> | ->] //; case: ifP.
Qed.

(** Damped least squares *)
Lemma damped_normal (svd : svd_fun F) m n (a : 'M[F]_(m, n)) l :
  is_svd a (svd m n a) -> l != 0 ->
  a^T *m (a *m pseudo_inverse_damped svd a l) + (l * l) *: pseudo_inverse_damped svd a l = a^T.
Proof.
move=> [ea [uu [vv _]]] l0; rewrite /pseudo_inverse_damped; move: (svd m n a) ea uu vv => d ea uu vv.
set y := map_mx _ _.
have at_ : a^T = mat_v d *m diag_mx (sing d) *m (mat_u d)^T.
  by rewrite ea !trmx_mul trmxK tr_diag_mx mulmxA.
rewrite at_ {1}ea svd_mul // -!mulmxA [(mat_u d)^T *m (_ *m _)]mulmxA uu mul1mx.
rewrite [diag_mx _ *m (diag_mx _ *m _)]mulmxA diag_mul -linearZ /= -mulmxDr; f_equal.
rewrite scalemxAl -mulmxDl; f_equal.
rewrite -linearZ /= -linearD /=; f_equal; apply/rowP => i; rewrite !mxE.
set s := sing d 0 i.
have nz : s * s + l * l != 0.
  by rewrite gt_eqF // -!expr2 ltr_paddl ?sqr_ge0 // lt_def sqr_ge0 expf_neq0.
by rewrite [s * (s * _)]mulrA -mulrDl mulrC divfK.
Qed.

Lemma sqnormD2 n (u v : 'cV[F]_n) : sqnorm (u + v) = sqnorm u + (dot u v *+ 2 + sqnorm v).
Proof. by rewrite !sqnorm_dot dotDl !dotDr [dot v u]dotC mulr2n !addrA. Qed.

Lemma dotZl n c (u v : 'cV[F]_n) : dot (c *: u) v = c * dot u v.
Proof. by rewrite /dot linearZ /= -scalemxAl mxE. Qed.

Lemma damped_best (svd : svd_fun F) m n (a : 'M[F]_(m, n)) l b (y : 'cV[F]_n) :
  is_svd a (svd m n a) -> l != 0 ->
  forall x, x = pseudo_inverse_damped svd a l *m b ->
  sqnorm (a *m x - b) + l ^+ 2 * sqnorm x <= sqnorm (a *m y - b) + l ^+ 2 * sqnorm y.
Proof.
move=> sv l0 x ex; have nrm := damped_normal sv l0.
move: (pseudo_inverse_damped svd a l) nrm ex => g nrm ex.
have key : a^T *m (a *m x - b) + (l * l) *: x = 0.
  rewrite mulmxBr -addrA [- _ + _]addrC addrA.
  have -> : a^T *m (a *m x) + l * l *: x =
            (a^T *m (a *m g) + l * l *: g) *m b.
    by rewrite mulmxDl -scalemxAl -!mulmxA -ex.
  by rewrite nrm subrr.
have -> : a *m y - b = (a *m x - b) + a *m (y - x).
  by rewrite mulmxBr [RHS]addrC addrA subrK.
have ey : y = x + (y - x) by rewrite addrC subrK.
rewrite {2}ey (@sqnormD2 _ (a *m x - b)) (@sqnormD2 _ x) mulrDr.
rewrite addrACA ler_addl.
have -> : dot (a *m x - b) (a *m (y - x)) *+ 2 + sqnorm (a *m (y - x)) +
          l ^+ 2 * (dot x (y - x) *+ 2 + sqnorm (y - x)) =
          (dot (y - x) (a^T *m (a *m x - b) + (l * l) *: x)) *+ 2 +
          (sqnorm (a *m (y - x)) + l ^+ 2 * sqnorm (y - x)).
  rewrite [dot (y - x) (_ + _)]dotDr -dot_mul [dot (y - x) (_ *: _)]dotC dotZl -expr2 mulrDr mulrnDl mulrnAr.
  by rewrite [dot (a *m x - b) _]dotC addrACA.
by rewrite key dot0r mul0rn add0r addr_ge0 ?sqnorm_ge0 // mulr_ge0 ?sqnorm_ge0 ?sqr_ge0.
Qed.

(** Weights *)
Lemma diagonal_mul n (w : seq F) (x : 'cV[F]_n) i : (diagonal n w *m x) i 0 = nth 0 w i * x i 0.
Proof. by rewrite /diagonal mul_diag_mx !mxE. Qed.

Lemma diagonal_ones m : @diagonal F m (if size (@nil F) != m then nseq m 1 else [::]) = 1%:M.
Proof.
apply/matrixP => i j; rewrite !mxE.
case: ifP => [_|/negbFE/eqP e]; first by rewrite nth_nseq ltn_ord.
by have := ltn_ord i; rewrite -{2}e.
Qed.

Section Weights.
Variables (n : nat) (w : seq F) (sq : F -> F).
Hypothesis szw : size w = n.
Hypothesis wpos : forall x, x \in w -> 0 < x.
Hypothesis sqw : square_root sq w.

Let k := [seq sq (1 / x) | x <- w].
Let dk := diagonal n k.
Let dki := diagonal n [seq x * sq (1 / x) | x <- w].

Lemma wi (i : 'I_n) : nth 0 w i \in w.
Proof. by rewrite mem_nth // szw. Qed.

Lemma nth_k (i : 'I_n) : nth 0 k i = sq (1 / nth 0 w i).
Proof. by rewrite (nth_map 0) ?szw. Qed.

Lemma k_one (i : 'I_n) : nth 0 w i * (sq (1 / nth 0 w i) * sq (1 / nth 0 w i)) = 1.
Proof. by rewrite (sqw (wi i)) mul1r divff // gt_eqF // wpos // wi. Qed.

Lemma weighted_dk (x : 'cV[F]_n) : weighted w (dk *m x) = sqnorm x.
Proof.
apply: eq_bigr => i _; rewrite diagonal_mul nth_k exprMn mulrA.
by rewrite [sq _ ^+ 2]expr2 k_one mul1r.
Qed.

Lemma dk_dki (x : 'cV[F]_n) : dk *m (dki *m x) = x.
Proof.
apply/colP => i; rewrite !diagonal_mul nth_k (nth_map 0) ?szw //.
by rewrite mulrA mulrCA k_one mul1r.
Qed.

Lemma weight_matrix_dk : weight_matrix sq n w = dk.
Proof.
rewrite /weight_matrix szw eqxx /dk /diagonal; f_equal; apply/rowP => i.
by rewrite !mxE nth_k.
Qed.

Lemma weighted_best m (a : 'M[F]_(m, n)) g b : moore_penrose (a *m dk) g ->
  best_solution a b (dk *m g *m b) /\
  forall y : 'cV[F]_n, a *m y = a *m (dk *m g *m b) -> weighted w (dk *m g *m b) <= weighted w y.
Proof.
move=> /(moore_penrose_best b) [bs sh]; split => y.
- by have := bs (dki *m y); rewrite -mulmxA -[a *m dk *m _]mulmxA dk_dki !mulmxA.
- move=> e; rewrite -mulmxA weighted_dk -(dk_dki y) weighted_dk.
  by apply: sh; rewrite -mulmxA dk_dki e !mulmxA.
Qed.

End Weights.

Lemma scaled_sqnorm m n r (a : 'M[F]_(m, n)) b x :
  scaled_error r a b x = sqnorm (diagonal m r *m a *m x - diagonal m r *m b).
Proof.
apply: eq_bigr => i _.
by rewrite -mulmxA -mulmxBr diagonal_mul.
Qed.

Lemma positive_weights (w : seq F) : has (fun x => x <= 0) w = false -> forall x, x \in w -> 0 < x.
Proof. by move/hasPn => h x /h; rewrite -ltNge. Qed.

(** The inverse of a provider by singular values *)
Lemma inner_svd dbl svd sq (p : provider F) m n (a : 'M[F]_(m, n)) par x :
  p_method p = eSVD -> square_root sq (p_weights p) ->
  (let tol := if par != 0 then par else (10%:R ^+ 5)^-1 in
   let aw := a *m weight_matrix sq n (p_weights p) in
   is_svd aw (svd m n aw) /\ separates tol (svd m n aw)) ->
  inner_inverse dbl svd sq p a par = Done x ->
  forall b, best_solution a b (x *m b) /\
    (size (p_weights p) = n ->
     forall y : 'cV[F]_n, a *m y = a *m (x *m b) -> weighted (p_weights p) (x *m b) <= weighted (p_weights p) y) /\
    (size (p_weights p) <> n -> shortest a (x *m b)).
Proof.
rewrite /inner_inverse => -> sqw; case: (size (p_weights p) =P n) => [szw|nszw] cond.
- case hp: (has _ _) => // -[<-] b; have wpos := positive_weights hp.
  rewrite (weight_matrix_dk sq szw) in cond; case: cond => c1 c2.
  have := weighted_best szw wpos sqw b (pseudo_inverse_mp c1 c2).
  by case=> h1 h2; split => //; split.
- case=> <- b; move: cond; rewrite /weight_matrix.
  have -> : (size (p_weights p) == n) = false by apply/eqP.
  rewrite mulmx1 => -[c1 c2].
  by have [h1 h2] := moore_penrose_best b (pseudo_inverse_mp c1 c2).
Qed.

Lemma right_inverse_best m n (a : 'M[F]_(m, n)) x : a *m x = 1%:M -> forall b, best_solution a b (x *m b).
Proof. by move=> e b; apply: projector_best; rewrite e ?mul1mx // trmx1. Qed.

Lemma inner_transpose dbl svd sq (p : provider F) m n (a : 'M[F]_(m, n)) par x :
  p_method p = eTranspose -> inner_inverse dbl svd sq p a par = Done x -> a *m x = 1%:M.
Proof.
rewrite /inner_inverse /inverse => ->; case: eqP => _.
- case: ifP => // _; case: ifP => // u [<-].
  by rewrite !mulmxA mulmxV.
- by case: ifP => // u [<-]; rewrite !mulmxA mulmxV.
Qed.

(** Without regularization *)
Lemma update_plain dbl svd sq (p : provider F) m n (a : 'M[F]_(m, n)) par :
  update_inverse dbl svd sq p a par [::] = inner_inverse dbl svd sq p a par.
Proof.
rewrite /update_inverse diagonal_ones mul1mx.
by case: inner_inverse => // x; rewrite mulmx1.
Qed.

(** Fitting *)
Lemma fit_offers n (p : provider F) t : fit n p = Some t <-> offers p t.
Proof.
split.
- case: p => ini meth w l m c j em e; rewrite /fit /=.
  case: eqP => // e1; case: eqP => // e2.
  by subst c em => -[<-]; rewrite (eq_axiomK (erefl n)) !castmx_id.
- case=> ini meth w l m j e; rewrite /fit /=.
  case: eqP => // e1; case: eqP => // e2.
  by rewrite !castmx_id.
Qed.

Lemma all_fit_offers n (ps : seq (provider F)) ts : all_fit n ps = Some ts <-> List.Forall2 (@offers F n) ps ts.
Proof.
elim: ps ts => [|p ps IH] ts /=; split.
- by case=> <-.
- by move=> h; inversion h.
- case e: (fit n p) => [t|] //; case e': (all_fit n ps) => [ts'|] // -[<-].
  by constructor; [apply/fit_offers | apply/IH].
- move=> h; inversion h as [|? t ? ts' o os]; subst.
  by move/fit_offers: o => ->; move/IH: os => ->.
Qed.

Lemma offers_fun n (p : provider F) (t t' : task F n) : offers p t -> offers p t' -> t = t'.
Proof. by move=> /fit_offers e /fit_offers; rewrite e => -[]. Qed.

(** Stacks *)
Lemma sqnorm_col m1 m2 (u : 'cV[F]_m1) (v : 'cV[F]_m2) : sqnorm (col_mx u v) = sqnorm u + sqnorm v.
Proof.
rewrite /sqnorm big_split_ord; congr (_ + _); apply: eq_bigr => i _.
- by rewrite col_mxEu.
- by rewrite col_mxEd.
Qed.

Lemma stack_miss n step (ts : seq (task F n)) x :
  sqnorm (stack_jac ts *m x - step *: stack_err ts) = \sum_(t <- ts) miss step t x.
Proof.
elim: ts => [|t ts IH]; first by rewrite big_nil /sqnorm big_ord0.
rewrite big_cons -IH /= mul_col_mx scale_col_mx opp_col_mx add_col_mx.
exact: sqnorm_col.
Qed.

Lemma stack_same n (ts : seq (task F n)) (x y : 'cV[F]_n) :
  stack_jac ts *m x = stack_jac ts *m y <-> forall t, List.In t ts -> t_jac t *m x = t_jac t *m y.
Proof.
elim: ts => [|t ts IH] /=; first by split=> // _; apply/matrixP => -[].
rewrite !mul_col_mx; split.
- by move/eq_col_mx => [e1 /IH e2] u [<- // | ]; apply: e2.
- move=> h; congr col_mx; first by apply: h; left.
  by apply/IH => u i; apply: h; right.
Qed.

Lemma stack_transpose n (ts : seq (task F n)) :
  (stack_jac ts)^T *m stack_err ts = \sum_(t <- ts) (t_jac t)^T *m t_err t.
Proof.
elim: ts => [|t ts IH]; first by rewrite big_nil mulmx0.
by rewrite big_cons /= tr_col_mx mul_row_col IH.
Qed.

Lemma piled_stack n (ts : seq (task F n)) : @piled F n ts = @stack_jac F n ts.
Proof. reflexivity. Qed.

(** Priorities *)
Lemma tilde_kept m n k (ja : 'M[F]_(m, n)) (gi : 'M[F]_(n, m)) (j : 'M[F]_(k, n)) g :
  moore_penrose ja gi -> moore_penrose (j *m (1%:M - gi *m ja)) g -> ja *m g = 0.
Proof.
move=> [aga [_ [_ ga]]] [_ [gag [_ ga']]].
have -> : g = (1%:M - gi *m ja)^T *m (j^T *m g^T *m g).
  by rewrite -{1}gag -{1}ga' !trmx_mul -!mulmxA.
rewrite linearB /= trmx1 ga [ja *m (_ *m _)]mulmxA mulmxBr mulmx1 [ja *m (gi *m ja)]mulmxA aga.
by rewrite subrr mul0mx.
Qed.

Lemma rcons_split (T : Type) (s : seq T) x before y after :
  rcons s x = before ++ y :: after ->
  (after = [::] /\ before = s /\ y = x) \/ exists after', after = rcons after' x /\ s = before ++ y :: after'.
Proof.
elim: s before => [|z s IH] [|b before] /=.
- by case=> -> <-; left.
- by case=> _; case: before.
- by case=> -> <-; right; exists s.
- by case=> -> /IH [[-> [-> ->]]|[after' [-> ->]]]; [left | right; exists after'].
Qed.

Lemma step_prioritized svd step n (above : seq (task F n)) (res : 'cV[F]_n) t :
  prioritized step above res ->
  well_conditioned svd (piled above) ->
  (forall g, moore_penrose (piled above) g -> well_conditioned svd (t_jac t *m (1%:M - g *m piled above))) ->
  let ja := stack_jac above in
  let pa := 1%:M - pseudo_inverse svd ja (tolerance F) *m ja in
  prioritized step (rcons above t)
    (res + pseudo_inverse svd (t_jac t *m pa) (tolerance F) *m (step *: t_err t - t_jac t *m res)).
Proof.
move=> pr [c1 c2] c3 ja pa.
have mp1 : moore_penrose ja (pseudo_inverse svd ja (tolerance F)) by apply: pseudo_inverse_mp.
case: (c3 _ mp1) => c4 c5.
have mp2 : moore_penrose (t_jac t *m pa) (pseudo_inverse svd (t_jac t *m pa) (tolerance F)) by apply: pseudo_inverse_mp.
have kept := tilde_kept mp1 mp2.
move: mp1 mp2 kept; rewrite -/pa.
set gi := pseudo_inverse svd ja _; set g := pseudo_inverse svd (t_jac t *m pa) _ => mp1 mp2 kept.
set d := g *m _.
have jd : ja *m d = 0 by rewrite /d mulmxA kept mul0mx.
have keep u : List.In u above -> t_jac u *m (res + d) = t_jac u *m res.
  move=> i; have : ja *m d = ja *m 0 by rewrite jd mulmx0.
  move/(@stack_same n) => /(_ u i); rewrite mulmx0 mulmxDr => ->.
  by rewrite addr0.
have papply z : ja *m z = 0 -> pa *m z = z.
  by move=> e; rewrite /pa mulmxBl mul1mx -mulmxA e mulmx0 subr0.
move=> before u after e y hy.
case: (rcons_split e) => [[_ [eb eu]]|[after' [_ ea]]].
- subst before u.
  have jy : ja *m (y - res) = 0.
    rewrite mulmxBr; apply/eqP; rewrite subr_eq0; apply/eqP/stack_same => v i.
    by rewrite (hy _ i) keep.
  have [bs _] := moore_penrose_best (step *: t_err t - t_jac t *m res) mp2.
  have := bs (y - res); rewrite -/d /miss.
  rewrite -![t_jac t *m pa *m _]mulmxA (papply _ _ jd) (papply _ _ jy).
  by rewrite mulmxBr !opprB !addrA subrK mulmxDr [t_jac t *m d + _]addrC.
- have i : List.In u above by rewrite ea; apply/List.in_or_app; right; left.
  rewrite {1}/miss (keep _ i); apply: (pr before u after' ea) => v iv.
  by rewrite hy // keep // ea; apply/List.in_or_app; left.
Qed.

Lemma loop_prioritized svd step n (todo above : seq (task F n)) (res : 'cV[F]_n) :
  prioritized step above res ->
  (forall before t after, above ++ todo = before ++ t :: after -> before <> [::] ->
     well_conditioned svd (piled before) /\
     forall g, moore_penrose (piled before) g -> well_conditioned svd (t_jac t *m (1%:M - g *m piled before))) ->
  above <> [::] ->
  prioritized step (above ++ todo) (hier_loop svd eSVD step above res todo).
Proof.
elim: todo above res => [|t todo IH] above res pr cond ne; first by rewrite cats0.
have [c1 c2] := cond above t todo erefl ne.
rewrite -cat_rcons /=; apply: IH.
- exact: step_prioritized.
- by rewrite cat_rcons.
- by case: (above) ne.
Qed.

Lemma collect_tasks svd sq n (ps : seq (provider F)) ts :
  hier_collect svd sq n ps = Done ts -> List.Forall2 (@offers F n) ps ts /\ all (@p_init F) ps.
Proof.
elim: ps ts => [|p ps IH] ts /=; first by case=> <-.
case: (p_init p) => //=; case e: (fit n p) => [t|] //.
case: update_inverse => [x||] //; case e': (hier_collect svd sq n ps) => [ts'||] // [<-];
  have [h1 h2] := IH _ e'; split=> //; constructor=> //; exact/fit_offers.
Qed.

Lemma first_prioritized step n (t : task F n) x :
  best_solution (t_jac t) (t_err t) (x *m t_err t) -> prioritized step [:: t] (step *: (x *m t_err t)).
Proof.
move=> bs before u after e y _.
have eu : u = t.
  by move: e; case: before => [|b before] /=; case=> // _; case: before.
rewrite {before after e}eu /miss -scalemxAr -scalerBr.
have sqZ k (v : 'cV[F]_k) : sqnorm (step *: v) = step ^+ 2 * sqnorm v.
  by rewrite /sqnorm mulr_sumr; apply: eq_bigr => i _; rewrite mxE exprMn.
case: (step =P 0) => [->|/eqP nz].
  by rewrite scale0r {1}/sqnorm big1 ?sqnorm_ge0 // => i _; rewrite mxE expr0n.
have -> : t_jac t *m y - step *: t_err t = step *: (t_jac t *m (step^-1 *: y) - t_err t).
  by rewrite scalerBr -scalemxAr scalerA divff // scale1r.
by rewrite !sqZ ler_wpmul2l ?sqr_ge0 // bs.
Qed.

End Field.
