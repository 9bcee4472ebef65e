(** What the properties of pseudo inverses and of combined steps mean, in terms of matrices and of sums of squares only. *)
From mathcomp Require Import ssreflect ssrfun ssrbool eqtype ssrnat seq choice fintype bigop.
From mathcomp Require Import ssralg zmodp ssrnum matrix.
From Coq Require List.
From Verif Require Import HikModel.
Set Implicit Arguments.
Unset Strict Implicit.
Unset Printing Implicit Defensive.
Import GRing.Theory Num.Theory.
Local Open Scope ring_scope.

Section Field.
Variable F : realFieldType.

(** The squared length of a vector. *)
Definition sqnorm n (v : 'cV[F]_n) : F := \sum_i v i 0 ^+ 2.

(** The sum of the squares of the entries, each one with its weight. *)
Definition weighted n (w : seq F) (v : 'cV[F]_n) : F := \sum_(i < n) nth 0 w i * v i 0 ^+ 2.

(** What a (thin) singular value decomposition is: A = U diag(s) V^T, U and V have orthonormal columns, s is not negative. *)
Definition is_svd m n (a : 'M[F]_(m, n)) (d : svd_of F m n) : Prop :=
  a = mat_u d *m diag_mx (sing d) *m (mat_v d)^T /\
  (mat_u d)^T *m mat_u d = 1%:M /\ (mat_v d)^T *m mat_v d = 1%:M /\
  forall i, 0 <= sing d 0 i.

(** The tolerance separates the singular values that are zero from those that are not. *)
Definition separates (tol : F) m n (d : svd_of F m n) : Prop :=
  0 <= tol /\ forall i, sing d 0 i = 0 \/ tol < sing d 0 i.

(** The four equations of Moore and Penrose. *)
Definition moore_penrose m n (a : 'M[F]_(m, n)) (g : 'M[F]_(n, m)) : Prop :=
  a *m g *m a = a /\ g *m a *m g = g /\ (a *m g)^T = a *m g /\ (g *m a)^T = g *m a.

(** [x] solves [a x = b] as well as possible. *)
Definition best_solution m n (a : 'M[F]_(m, n)) (b : 'cV[F]_m) (x : 'cV[F]_n) : Prop :=
  forall y : 'cV[F]_n, sqnorm (a *m x - b) <= sqnorm (a *m y - b).

(** [x] is the shortest one among the vectors that [a] maps to the same place. *)
Definition shortest m n (a : 'M[F]_(m, n)) (x : 'cV[F]_n) : Prop :=
  forall y : 'cV[F]_n, a *m y = a *m x -> sqnorm x <= sqnorm y.

(** The matrix with the singular values that are not above the tolerance left out. *)
Definition truncated (tol : F) m n (d : svd_of F m n) : 'M[F]_(m, n) :=
  mat_u d *m diag_mx (\row_i (if tol < sing d 0 i then sing d 0 i else 0)) *m (mat_v d)^T.

(** [p] offers the Jacobian and the error of [t]: the sizes agree. *)
Inductive offers n : provider F -> task F n -> Prop :=
  Offers (ini : bool) (meth : inverse_method) (w : seq F) (l : F) (m : nat) (j : 'M[F]_(m, n)) (e : 'cV[F]_m) :
    offers (Provider ini meth w l j e) (Task j e).

(** How badly the step [x] fails at the task [t], of which it is to do the fraction [step]. *)
Definition miss n (step : F) (t : task F n) (x : 'cV[F]_n) : F := sqnorm (t_jac t *m x - step *: t_err t).

(** The Jacobians of several tasks, one below the other. *)
Fixpoint piled_rows n (ts : seq (task F n)) : nat :=
  match ts with [::] => 0 | t :: ts' => t_rows t + piled_rows ts' end.
Fixpoint piled n (ts : seq (task F n)) : 'M[F]_(piled_rows ts, n) :=
  match ts with [::] => 0 | t :: ts' => col_mx (t_jac t) (piled ts') end.

(** The decomposition found for [a] is right, and the tolerance of the solvers (0.00001) separates the zero singular values
    from the others. *)
Definition well_conditioned (svd : svd_fun F) m n (a : 'M[F]_(m, n)) : Prop :=
  is_svd a (svd m n a) /\ separates ((10%:R ^+ 5)^-1) (svd m n a).

(** The error of [a x = b], each row scaled by its regularization. *)
Definition scaled_error m n (r : seq F) (a : 'M[F]_(m, n)) (b : 'cV[F]_m) (x : 'cV[F]_n) : F :=
  \sum_(i < m) (nth 0 r i * (a *m x - b) i 0) ^+ 2.

(** The matrix by which the joint weights enter: the diagonal of the square roots of 1/weight, if there are as many weights
    as joints. *)
Definition weight_matrix (sq : F -> F) n (w : seq F) : 'M[F]_n :=
  if size w == n then diag_mx (\row_(i < n) sq (1 / nth 0 w i)) else 1%:M.

(** [sq] is a square root of what it is applied to. *)
Definition square_root (sq : F -> F) (w : seq F) : Prop :=
  forall x, x \in w -> sq (1 / x) * sq (1 / x) = 1 / x.

(** Strict priorities: no step that treats the tasks before the k-th one in the same way is better at the k-th one. *)
Definition prioritized n (step : F) (ts : seq (task F n)) (x : 'cV[F]_n) : Prop :=
  forall before t after, ts = before ++ t :: after ->
  forall y : 'cV[F]_n,
    (forall t', List.In t' before -> t_jac t' *m y = t_jac t' *m x) ->
    miss step t x <= miss step t y.

End Field.
