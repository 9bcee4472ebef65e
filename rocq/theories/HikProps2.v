(** The properties C125 and C126: stacked and prioritized steps. *)
From mathcomp Require Import ssreflect ssrfun ssrbool eqtype ssrnat seq choice fintype bigop.
From mathcomp Require Import order ssralg zmodp ssrnum matrix ssrint rat.
From Coq Require List.
From Verif Require Import HikModel HikSpec HikProofs HikProps.
Set Implicit Arguments.
Unset Strict Implicit.
Unset Printing Implicit Defensive.
Import Order.TTheory GRing.Theory Num.Theory.
Local Open Scope ring_scope.

(** * C125: several tasks at once *)

Theorem C125_when_it_throws (F : realFieldType) (svd : svd_fun F) meth (p0 : provider F) ps step :
  stacked_step svd meth p0 ps step = Thrown <->
  p_init p0 = false \/ ~ exists ts, List.Forall2 (@offers F (p_cols p0)) (p0 :: ps) ts.
Proof.
rewrite /stacked_step; case: (p_init p0); last by split=> // _; left.
case e: (all_fit _ _) => [ts|]; split=> //.
- by case=> // -[]; exists ts; apply/all_fit_offers.
- by move=> _; right=> -[ts] /all_fit_offers; rewrite e.
Qed.

Theorem C125_best_step (F : realFieldType) (svd : svd_fun F) (p0 : provider F) ps step x ts :
  stacked_step svd eSVD p0 ps step = Done x ->
  List.Forall2 (@offers F (p_cols p0)) (p0 :: ps) ts ->
  well_conditioned svd (piled ts) ->
  (forall y, \sum_(t <- ts) miss step t x <= \sum_(t <- ts) miss step t y) /\
  (forall y : 'cV[F]_(p_cols p0), (forall t, List.In t ts -> t_jac t *m y = t_jac t *m x) -> sqnorm x <= sqnorm y).
Proof.
rewrite /stacked_step => + /all_fit_offers e [c1 c2]; rewrite {}e.
case: (p_init p0) => //= -[<-]; rewrite scalemxAr.
have [bs sh] := moore_penrose_best (step *: stack_err ts) (pseudo_inverse_mp c1 c2).
split=> y.
- by rewrite -!stack_miss; apply: bs.
- by move=> /stack_same; apply: sh.
Qed.

Theorem C125_damped_step (F : realFieldType) (svd : svd_fun F) (p0 : provider F) ps step x ts :
  stacked_step svd eSVDDamped p0 ps step = Done x ->
  List.Forall2 (@offers F (p_cols p0)) (p0 :: ps) ts ->
  is_svd (piled ts) (svd _ _ (piled ts)) ->
  forall y, \sum_(t <- ts) miss step t x + sqnorm x <= \sum_(t <- ts) miss step t y + sqnorm y.
Proof.
rewrite /stacked_step => + /all_fit_offers e c1 y; rewrite {}e.
case: (p_init p0) => //= -[<-]; rewrite scalemxAr.
have := damped_best y c1 (oner_neq0 F) (erefl (pseudo_inverse_damped svd (piled ts) 1 *m (step *: stack_err ts))).
by rewrite expr1n !mul1r -!stack_miss.
Qed.

Theorem C125_transposed_step (F : realFieldType) (svd : svd_fun F) (p0 : provider F) ps step x ts :
  stacked_step svd eTranspose p0 ps step = Done x ->
  List.Forall2 (@offers F (p_cols p0)) (p0 :: ps) ts ->
  x = step *: \sum_(t <- ts) (t_jac t)^T *m t_err t.
Proof.
rewrite /stacked_step => + /all_fit_offers e; rewrite {}e.
by case: (p_init p0) => //= -[<-]; rewrite stack_transpose.
Qed.

(** Two providers on one joint, with the Jacobians [c] and [d] and the errors [e] and [f]. *)
Definition prov (i : bool) (c e : rat) : provider rational := @Provider rational i eSVD [::] 0 1 1 c%:M 1 e%:M.
Definition job (c e : rat) : task rational 1 := @Task rational 1 1 c%:M e%:M.

Lemma prov_offers i c e : offers (prov i c e) (job c e).
Proof. exact: Offers. Qed.

(** Only the first provider is asked whether it is initialized. *)
Theorem C125_provider_not_initialized_refuted :
  exists (svd : svd_fun rational) p0 p1 x,
    p_init p1 = false /\ stacked_step svd eTranspose p0 [:: p1] 1 = Done x.
Proof.
exists svd1, (prov true 1 1), (prov false 1 1).
have e : all_fit 1 [:: prov true 1 1; prov false 1 1] = Some [:: job 1 1; job 1 1].
  by apply/all_fit_offers; do 2 (constructor; first exact: prov_offers); constructor.
by eexists; split=> //; rewrite /stacked_step [p_cols _]/= e.
Qed.

(** * C126: tasks with priorities *)

Theorem C126_when_it_throws (F : realFieldType) (svd : svd_fun F) sq meth n (p0 : provider F) ps step :
  hierarchical_step svd sq meth n p0 ps step = Thrown <->
  exists2 p, List.In p (p0 :: ps) &
    p_init p = false \/ (~ exists t : task F n, offers p t) \/
    (p_method p = eSVD /\ size (p_weights p) = n /\ exists2 w, w \in p_weights p & w <= 0).
Proof.
have one p (t : task F n) : update_inverse true svd sq p (t_jac t) 0 [::] = Thrown <->
    p_method p = eSVD /\ size (p_weights p) = n /\ exists2 w, w \in p_weights p & w <= 0.
  split.
  - rewrite update_plain /inner_inverse /inverse; case me: (p_method p).
    + case: (size (p_weights p) =P n) => [sz|_]; last by [].
      case: hasP => [[w wi wl] _|_]; last by [].
      by split=> //; split=> //; exists w.
    + by [].
    + case: (size (p_weights p) == n).
      * case: (diagonal n (p_weights p) \in unitmx); last by move=> h; discriminate h.
        by case: (_ \in unitmx) => h; discriminate h.
      * by case: (_ \in unitmx) => h; discriminate h.
  - by case=> me [sz h]; apply/C124_weights_must_be_positive.
have col qs : hier_collect svd sq n qs = Thrown <-> exists2 p, List.In p qs &
    p_init p = false \/ (~ exists t : task F n, offers p t) \/
    (p_method p = eSVD /\ size (p_weights p) = n /\ exists2 w, w \in p_weights p & w <= 0).
  elim: qs => [|q qs IH] /=; first by split=> // -[].
  case i: (p_init q) => /=; last by split=> // _; exists q; left.
  case e: (fit n q) => [t|]; last first.
    split=> // _; exists q; first by left.
    by right; left=> -[t] /fit_offers; rewrite e.
  have o : offers q t by apply/fit_offers.
  have rest : (exists2 p, List.In p qs & p_init p = false \/ (~ exists t : task F n, offers p t) \/
      (p_method p = eSVD /\ size (p_weights p) = n /\ exists2 w, w \in p_weights p & w <= 0)) ->
      hier_collect svd sq n qs = Thrown by move/IH.
  case u: (update_inverse true svd sq q (t_jac t) 0 [::]) => [x||].
  - split.
    + case h: (hier_collect svd sq n qs) => [ts||] // _.
      by case/IH: h => p ip hp; exists p => //; right.
    + case=> p [<-|ip] hp; last by rewrite (rest (ex_intro2 _ _ p ip hp)).
      case: hp => [h|[h|h]].
      * by rewrite i in h.
      * by case: h; exists t.
      * by move/one: h => /(_ t); rewrite u.
  - split=> // _; exists q; first by left.
    by right; right; apply/one; exact: u.
  - split.
    + case h: (hier_collect svd sq n qs) => [ts||] // _.
      by case/IH: h => p ip hp; exists p => //; right.
    + case=> p [<-|ip] hp; last by rewrite (rest (ex_intro2 _ _ p ip hp)).
      case: hp => [h|[h|h]].
      * by rewrite i in h.
      * by case: h; exists t.
      * by move/one: h => /(_ t); rewrite u.
split.
- rewrite /hierarchical_step; case h: (hier_collect _ _ _ _) => [[|t ts]||] //; last by move/col: h.
  case u: update_inverse => [x||] // _.
  have [fo _] := collect_tasks h; inversion fo as [|? ? ? ? o fo']; subst.
  by exists p0; [left | right; right; apply/one; exact: u].
- by move/col; rewrite /hierarchical_step => ->.
Qed.

Theorem C126_priorities (F : realFieldType) (svd : svd_fun F) sq n (p0 : provider F) ps step x t0 ts :
  hierarchical_step svd sq eSVD n p0 ps step = Done x ->
  List.Forall2 (@offers F n) (p0 :: ps) (t0 :: ts) ->
  p_method p0 = eTranspose \/
    (p_method p0 = eSVD /\ square_root sq (p_weights p0) /\
     well_conditioned svd (t_jac t0 *m weight_matrix sq n (p_weights p0))) ->
  (forall before t after, t0 :: ts = before ++ t :: after -> before <> [::] ->
     well_conditioned svd (piled before) /\
     forall g, moore_penrose (piled before) g -> well_conditioned svd (t_jac t *m (1%:M - g *m piled before))) ->
  prioritized step (t0 :: ts) x.
Proof.
move=> + fo c0 cond; rewrite /hierarchical_step.
case h: (hier_collect svd sq n (p0 :: ps)) => [[|t0' ts']||] //.
have [fo' _] := collect_tasks h.
have [e0 e1] : t0' = t0 /\ ts' = ts.
  have : Some (t0' :: ts') = Some (t0 :: ts).
    by move/all_fit_offers: fo => <-; move/all_fit_offers: fo' => <-.
  by case=> -> ->.
subst t0' ts'; case u: update_inverse => [j||] // -[<-].
apply: (loop_prioritized (above := [:: t0])) => //.
apply: first_prioritized.
rewrite update_plain in u; case: c0 => [me|[me [sw wc]]].
- exact: (right_inverse_best (inner_transpose me u)).
- have wc' : let tol := if (0 : F) != 0 then 0 else (10%:R ^+ 5)^-1 in
     let aw := t_jac t0 *m weight_matrix sq n (p_weights p0) in
     is_svd aw (svd _ n aw) /\ separates tol (svd _ n aw) by rewrite eqxx.
  by have [] := inner_svd me sw wc' u (t_err t0).
Qed.

Lemma col1 (c : rat) (z : 'M[rat]_(0, 1)) : col_mx (c%:M : 'M[rat]_1) z = c%:M :> 'M[rat]_1.
Proof.
apply/matrixP => i j; rewrite !mxE; case: splitP => [k _|[]//].
by rewrite !ord1 !mxE.
Qed.

(** The inverse of one number by each of the methods. *)
Definition number_inverse (meth : inverse_method) (a : rat) : rat :=
  match meth with
  | eTranspose => a
  | eSVD => if tolerance rational < a then 1 / a else 0
  | eSVDDamped => a / (a * a + 10%:R * 10%:R)
  end.

Lemma method_number meth (a : rat) :
  method_inverse svd1 meth 10%:R (a%:M : 'M[rat]_1) = (number_inverse meth a)%:M.
Proof. by rewrite /method_inverse; case: meth; rewrite ?svd1_pinv ?svd1_damped ?tr_scalar_mx. Qed.

Lemma hier_one meth step (c d e res : rat) :
  hier_loop svd1 meth step [:: job c e] res%:M [:: job d 0] =
  (res + number_inverse meth (d * (1 - number_inverse meth c * c)) * (0 - d * res))%:M.
Proof.
have st : stack_jac [:: job c e] = c%:M :> 'M[rat]_1 by exact: col1.
have lp : hier_loop svd1 meth step [:: job c e] res%:M [:: job d 0] =
    let ja := (stack_jac [:: job c e] : 'M[rat]_1) in
    res%:M + method_inverse svd1 meth 10%:R (d%:M *m (1%:M - method_inverse svd1 meth 10%:R ja *m ja)) *m
      (step *: (0 : rat)%:M - d%:M *m res%:M) by [].
rewrite lp; cbv zeta; rewrite st method_number.
have sB (x y : rat) : x%:M - y%:M = (x - y)%:M :> 'M[rat]_1 by rewrite raddfB.
have sD (x y : rat) : x%:M + y%:M = (x + y)%:M :> 'M[rat]_1 by rewrite raddfD.
by rewrite -!scalar_mxM scale_scalar_mx mulr0 !sB -!scalar_mxM method_number -!scalar_mxM sD.
Qed.

Lemma hier_two sq meth (c d e : rat) :
  tolerance rational < c ->
  hierarchical_step svd1 sq meth 1 (prov true c e) [:: prov true d 0] 1 =
  Done ((e / c + number_inverse meth (d * (1 - number_inverse meth c * c)) * (0 - d * (e / c)))%:M).
Proof.
move=> tc.
have f i a b : fit 1 (prov i a b) = Some (job a b) by apply/fit_offers/prov_offers.
have ui i a b : update_inverse true svd1 sq (prov i a b) (a%:M : 'M[rat]_1) 0 [::] =
    Done (pseudo_inverse svd1 (a%:M : 'M[rat]_1) (tolerance rational)).
  by rewrite update_plain /inner_inverse eqxx.
have hc : hier_collect svd1 sq 1 [:: prov true c e; prov true d 0] = Done [:: job c e; job d 0].
  by rewrite /hier_collect !f [p_init _]/= [t_jac _]/= ui [p_init _]/= [t_jac _]/= ui.
rewrite /hierarchical_step hc [t_jac _]/= ui svd1_pinv tc [t_err _]/= scale1r -scalar_mxM.
have -> : 1 / c * e = e / c by rewrite mulrC mulrA mulr1.
by rewrite hier_one.
Qed.

Lemma not_prioritized (c e d x : rat) :
  c != 0 -> c * x != e -> ~ prioritized 1 [:: job c e; job d 0] (x%:M : 'cV[rat]_1).
Proof.
move=> c0 ne /(_ [::] (job c e) [:: job d 0] erefl (e / c)%:M) h.
have {h}: miss 1 (job c e) x%:M <= miss 1 (job c e) (e / c)%:M by apply: h.
rewrite /miss [t_jac _]/= [t_err _]/= -!scalar_mxM !scale1r [c * (e / c)]mulrC (divfK c0) subrr.
rewrite {2}/sqnorm big_ord1 mxE expr0n leNgt => /negP; apply.
rewrite /sqnorm big_ord1 !mxE eqxx !mulr1n lt_def sqr_ge0 andbT expf_neq0 //.
by rewrite subr_eq0.
Qed.

(** With the transposed Jacobian a task of lower priority disturbs the one above it. *)
Theorem C126_transpose_refuted :
  exists (svd : svd_fun rational) sq p0 p1 x t0 t1,
    p_method p0 = eSVD /\ List.Forall2 (@offers rational 1) [:: p0; p1] [:: t0; t1] /\
    well_conditioned svd (t_jac t0) /\
    hierarchical_step svd sq eTranspose 1 p0 [:: p1] 1 = Done x /\ ~ prioritized 1 [:: t0; t1] x.
Proof.
have t2 : tolerance rational < 2%:R by apply: (lt_trans tol_one).
exists svd1, id, (prov true 2%:R 1), (prov true 1 0); eexists; exists (job 2%:R 1), (job 1 0).
split; first exact: erefl.
split; first by apply: List.Forall2_cons; [exact: prov_offers | apply: List.Forall2_cons; [exact: prov_offers | exact: List.Forall2_nil]].
split; first split.
- exact: (@svd1_right 2%:R).
- split=> [|i]; first by apply: ltW; apply: tol_pos.
  by right; rewrite mxE svd1_sing; apply: t2.
- split; first by rewrite hier_two.
  by apply: not_prioritized.
Qed.

Lemma hundred : (0 : rat) < 10%:R * 10%:R.
Proof. by rewrite mulr_gt0 // ltr0n. Qed.

Lemma damped_not_zero (a : rat) : a != 0 -> number_inverse eSVDDamped a != 0.
Proof.
move=> a0; rewrite /number_inverse mulf_neq0 // invr_neq0 // gt_eqF //.
by apply: ltr_paddl; [rewrite -expr2 sqr_ge0 | exact: hundred].
Qed.

Lemma damped_one : 1 - number_inverse eSVDDamped 1 * 1 != 0.
Proof.
by rewrite mulr1 subr_eq0 eq_sym lt_eqF.
Qed.

Lemma damped_number : number_inverse eSVDDamped (1 * (1 - number_inverse eSVDDamped 1 * 1)) != 0.
Proof. by apply: damped_not_zero; apply: mulf_neq0; [exact: oner_neq0 | exact: damped_one]. Qed.

Lemma one_off (k : rat) : k != 0 -> 1 * (1 / 1 + k * (0 - 1 * (1 / 1))) != 1.
Proof.
move=> k0; rewrite divr1 !mul1r sub0r mulrN1 -subr_eq0 addrAC subrr sub0r oppr_eq0.
exact: k0.
Qed.

(** With the damped inverse a task of lower priority disturbs the one above it. *)
Theorem C126_damped_refuted :
  exists (svd : svd_fun rational) sq p0 p1 x t0 t1,
    p_method p0 = eSVD /\ List.Forall2 (@offers rational 1) [:: p0; p1] [:: t0; t1] /\
    well_conditioned svd (t_jac t0) /\
    hierarchical_step svd sq eSVDDamped 1 p0 [:: p1] 1 = Done x /\ ~ prioritized 1 [:: t0; t1] x.
Proof.
exists svd1, id, (prov true 1 1), (prov true 1 0); eexists; exists (job 1 1), (job 1 0).
split; first exact: erefl.
split; first by apply: List.Forall2_cons; [exact: prov_offers | apply: List.Forall2_cons; [exact: prov_offers | exact: List.Forall2_nil]].
split; first split.
- exact: (@svd1_right 1).
- split=> [|i]; first by apply: ltW; apply: tol_pos.
  by right; rewrite mxE svd1_sing; apply: tol_one.
- split; first by rewrite hier_two ?tol_one.
  apply: not_prioritized; first exact: oner_neq0.
  exact: one_off damped_number.
Qed.

(** Two joints, two tasks: the first joint by 1, the sum of both joints by 3. *)
Definition p_first : provider rational := @Provider rational true eSVD [::] 0 1 2 (row2 1 0) 1 (scalar1 1).
Definition p_second : provider rational := @Provider rational true eSVD [::] 0 1 2 (row2 1 1) 1 (scalar1 3%:R).
Definition t_first : task rational 2 := @Task rational 2 1 (row2 1 0) (scalar1 1).
Definition t_second : task rational 2 := @Task rational 2 1 (row2 1 1) (scalar1 3%:R).

Lemma piled_first : piled [:: t_first] = row2 1 0 :> 'M[rat]_(1, 2).
Proof.
apply/matrixP => i j; rewrite /= mxE; case: splitP => [k _|[]//].
by rewrite !ord1.
Qed.

Lemma rows_moore_penrose m n (a : 'M[rat]_(m, n)) : a *m a^T = 1%:M -> @moore_penrose rational m n a a^T.
Proof.
move=> e; split; [|split; [|split]]; rewrite ?e ?mul1mx ?trmx1 //.
- by rewrite -mulmxA e mulmx1.
- by rewrite trmx_mul trmxK.
Qed.

Lemma two_split (T : Type) (a b : T) before t after :
  [:: a; b] = before ++ t :: after -> before <> [::] -> before = [:: a] /\ t = b.
Proof.
case: before => [|x [|y before]] //=; first by case=> -> ->.
by case=> _ _; case: before.
Qed.

Lemma first_rows : row2 1 0 *m (row2 1 0)^T = 1%:M.
Proof. by rewrite row2_mul. Qed.

Lemma second_rows : row2 0 1 *m (row2 0 1)^T = 1%:M.
Proof. by rewrite row2_mul. Qed.

Lemma row2_sub (a b c d : rat) : row2 a b - row2 c d = row2 (a - c) (b - d).
Proof. by apply/matrixP => i j; rewrite !mxE; case: (j == 0). Qed.

Lemma second_left : row2 1 1 *m (1%:M - (row2 1 0)^T *m row2 1 0) = row2 0 1.
Proof.
rewrite mulmxBr mulmx1 mulmxA row2_mul mulr1 mulr0 addr0 mul1mx row2_sub.
by rewrite subrr subr0.
Qed.

Lemma second_conditioned : well_conditioned svd_rows (row2 1 1 *m (1%:M - (row2 1 0)^T *m row2 1 0)).
Proof. rewrite second_left; exact: (svd_rows_right second_rows). Qed.

Lemma first_conditioned (a : 'M[rat]_(1, 2)) : a = row2 1 0 ->
  well_conditioned svd_rows a /\
  forall g, moore_penrose (F := rational) a g -> well_conditioned svd_rows (row2 1 1 *m (1%:M - g *m a)).
Proof.
move=> ->; split; first exact: (svd_rows_right first_rows).
move=> g mg; rewrite (moore_penrose_unique mg (rows_moore_penrose first_rows)).
exact: second_conditioned.
Qed.

Lemma plain_inverse (p : provider rational) (a : 'M[rat]_(1, 2)) : p_method p = eSVD -> p_weights p = [::] ->
  update_inverse true svd_rows id p a 0 [::] = Done (pseudo_inverse svd_rows a (tolerance rational)).
Proof. by move=> me w; rewrite update_plain /inner_inverse me w eqxx. Qed.

Lemma both_collected : hier_collect svd_rows id 2 [:: p_first; p_second] = Done [:: t_first; t_second].
Proof.
have f1 : fit 2 p_first = Some t_first by apply/fit_offers; exact: Offers.
have f2 : fit 2 p_second = Some t_second by apply/fit_offers; exact: Offers.
have u1 := plain_inverse (t_jac t_first) (erefl (p_method p_first)) (erefl (p_weights p_first)).
have u2 := plain_inverse (t_jac t_second) (erefl (p_method p_second)) (erefl (p_weights p_second)).
have i1 : p_init p_first = true by exact: erefl.
have i2 : p_init p_second = true by exact: erefl.
by rewrite /hier_collect f1 f2 u1 u2 i1 i2.
Qed.

Lemma step_found : exists x, hierarchical_step svd_rows id eSVD 2 p_first [:: p_second] 1 = Done x.
Proof.
have u1 := plain_inverse (t_jac t_first) (erefl (p_method p_first)) (erefl (p_weights p_first)).
rewrite /hierarchical_step both_collected u1.
by eexists; exact: erefl.
Qed.

Lemma offered : List.Forall2 (@offers rational 2) [:: p_first; p_second] [:: t_first; t_second].
Proof.
apply: List.Forall2_cons; first exact: Offers.
apply: List.Forall2_cons; [exact: Offers | exact: List.Forall2_nil].
Qed.

Lemma no_weights : t_jac t_first *m weight_matrix (F := rational) id 2 (p_weights p_first) = row2 1 0.
Proof. by rewrite /weight_matrix mulmx1. Qed.

Lemma no_weights_conditioned :
  well_conditioned svd_rows (t_jac t_first *m weight_matrix (F := rational) id 2 (p_weights p_first)).
Proof. rewrite no_weights; exact: (svd_rows_right first_rows). Qed.

Lemma all_conditioned before t after : [:: t_first; t_second] = before ++ t :: after -> before <> [::] ->
  well_conditioned svd_rows (piled before) /\
  forall g, moore_penrose (piled before) g -> well_conditioned svd_rows (t_jac t *m (1%:M - g *m piled before)).
Proof.
move=> e ne; case: (two_split e ne) => -> ->.
exact: (first_conditioned piled_first).
Qed.

Example C126_witness :
  List.Forall2 (@offers rational 2) [:: p_first; p_second] [:: t_first; t_second] /\
  well_conditioned svd_rows (t_jac t_first *m weight_matrix (F := rational) id 2 (p_weights p_first)) /\
  (forall before t after, [:: t_first; t_second] = before ++ t :: after -> before <> [::] ->
     well_conditioned svd_rows (piled before) /\
     forall g, moore_penrose (piled before) g ->
       well_conditioned svd_rows (t_jac t *m (1%:M - g *m piled before))) /\
  exists x, hierarchical_step svd_rows id eSVD 2 p_first [:: p_second] 1 = Done x.
Proof. exact: (conj offered (conj no_weights_conditioned (conj all_conditioned step_found))). Qed.

(** Two joints, two tasks at once: the first joint by 1 and the second one by 3. *)
Definition p_other : provider rational := @Provider rational true eSVD [::] 0 1 2 (row2 0 1) 1 (scalar1 3%:R).
Definition t_other : task rational 2 := @Task rational 2 1 (row2 0 1) (scalar1 3%:R).

Lemma piled_both : piled [:: t_first; t_other] = 1%:M :> 'M[rat]_2.
Proof.
apply/matrixP => i j; rewrite /= !mxE; case: splitP => k ek.
- have -> : i = 0 by apply/val_inj; rewrite /= ek; case: k ek => -[].
  by rewrite mxE; case: j => -[|[|]].
- have -> : i = 1 by apply/val_inj; rewrite /= ek; case: k ek => -[].
  rewrite mxE; case: splitP => [l _|[]//]; rewrite mxE.
  by case: j => -[|[|]].
Qed.

Lemma both_conditioned (a : 'M[rat]_2) : a = 1%:M -> well_conditioned svd_rows a.
Proof. by move=> ->; apply: svd_rows_right; rewrite trmx1 mulmx1. Qed.

Lemma offered_both : List.Forall2 (@offers rational 2) [:: p_first; p_other] [:: t_first; t_other].
Proof.
apply: List.Forall2_cons; first exact: Offers.
apply: List.Forall2_cons; [exact: Offers | exact: List.Forall2_nil].
Qed.

Lemma stacked_found : exists x, stacked_step svd_rows eSVD p_first [:: p_other] 1 = Done x.
Proof.
have e : all_fit 2 [:: p_first; p_other] = Some [:: t_first; t_other] by apply/all_fit_offers; exact: offered_both.
have i1 : p_init p_first = true by exact: erefl.
rewrite /stacked_step i1.
change (p_cols p_first) with 2%N; rewrite e.
by eexists; exact: erefl.
Qed.

Example C125_witness :
  List.Forall2 (@offers rational 2) [:: p_first; p_other] [:: t_first; t_other] /\
  well_conditioned svd_rows (piled [:: t_first; t_other]) /\
  exists x, stacked_step svd_rows eSVD p_first [:: p_other] 1 = Done x.
Proof. exact: (conj offered_both (conj (both_conditioned piled_both) stacked_found)). Qed.

Print Assumptions C125_when_it_throws.
Print Assumptions C125_best_step.
Print Assumptions C125_damped_step.
Print Assumptions C125_transposed_step.
Print Assumptions C125_provider_not_initialized_refuted.
Print Assumptions C126_when_it_throws.
Print Assumptions C126_priorities.
Print Assumptions C126_transpose_refuted.
Print Assumptions C126_damped_refuted.
