(** Model of the pseudo inverses of VirtualRobot/MathTools.cpp (getPseudoInverse, getPseudoInverseDamped and their
    double versions), of the inverse Jacobians of VirtualRobot/IK/JacobiProvider.cpp and of the two ways to combine
    several tasks into one step: VirtualRobot/IK/StackedIK.cpp and VirtualRobot/IK/HierarchicalIK.cpp.

    Simplifications: numbers are the elements of an arbitrary ordered field (rounding, overflow, infinities and NaN are left
    out, and the constant 0.00001f is the fraction 1/100000); the singular value decomposition of Eigen and the square root
    are function arguments.  VR_ASSERT is what it is in a release build: nothing. *)
From mathcomp Require Import ssreflect ssrfun ssrbool eqtype ssrnat seq choice fintype bigop.
From mathcomp Require Import ssralg zmodp ssrnum matrix.
Set Implicit Arguments.
Unset Strict Implicit.
Unset Printing Implicit Defensive.
Import GRing.Theory Num.Theory.
Local Open Scope ring_scope.

(** How a call ends: with a result, with an exception, or with a result that means nothing (the inverse of a singular
    matrix; an element of an empty vector). *)
Inductive outcome (A : Type) := Done (a : A) | Thrown | Undefined.
Arguments Thrown {A}.
Arguments Undefined {A}.

(** JacobiProvider::InverseJacobiMethod (IK/JacobiProvider.h:45-50) *)
Inductive inverse_method := eSVD | eSVDDamped | eTranspose.

Section Field.
Variable F : realFieldType.

(** What Eigen::JacobiSVD with ComputeThinU | ComputeThinV hands out: matrixU(), singularValues() and matrixV().  The
    number of singular values (for Eigen the smaller one of the two sizes) is part of the answer. *)
Record svd_of (m n : nat) := Svd {
  sv_count : nat;
  mat_u : 'M[F]_(m, sv_count);
  sing : 'rV[F]_sv_count;
  mat_v : 'M[F]_(n, sv_count) }.

Definition svd_fun := forall m n : nat, 'M[F]_(m, n) -> svd_of m n.

(** MathTools::getPseudoInverse, getPseudoInverseD (MathTools.cpp:1808-1846) *)
Definition pseudo_inverse (svd : svd_fun) m n (a : 'M[F]_(m, n)) (tol : F) : 'M[F]_(n, m) :=
  let d := svd m n a in
  mat_v d *m diag_mx (map_mx (fun s => if tol < s then 1 / s else 0) (sing d)) *m (mat_u d)^T.

(** MathTools::getPseudoInverseDamped, getPseudoInverseDampedD (MathTools.cpp:1849-1877).  A singular value 0 with
    lambda = 0 is 0/0 in the code; here it gives 0, and no theorem speaks about lambda = 0. *)
Definition pseudo_inverse_damped (svd : svd_fun) m n (a : 'M[F]_(m, n)) (lambda : F) : 'M[F]_(n, m) :=
  let d := svd m n a in
  mat_v d *m diag_mx (map_mx (fun s => s / (s * s + lambda * lambda)) (sing d)) *m (mat_u d)^T.

(** A JacobiProvider (IK/JacobiProvider.h:93-112): whether it is initialized, the method, the joint weights, the damping;
    and what its virtual functions getJacobianMatrix() and getError() answer.  Regularizations are arguments of the calls. *)
Record provider := Provider {
  p_init : bool;
  p_method : inverse_method;
  p_weights : seq F;
  p_lambda : F;
  p_rows : nat;
  p_cols : nat;
  p_jac : 'M[F]_(p_rows, p_cols);
  p_erows : nat;
  p_err : 'cV[F]_p_erows }.

(** VectorXf::asDiagonal() of the right length *)
Definition diagonal (n : nat) (w : seq F) : 'M[F]_n := diag_mx (\row_(i < n) nth 0 w i).

(** Eigen's inverse() of a square matrix *)
Definition inverse n (a : 'M[F]_n) : outcome 'M[F]_n :=
  if a \in unitmx then Done (invmx a) else Undefined.

(** 0.00001f *)
Definition tolerance : F := (10%:R ^+ 5)^-1.

(** JacobiProvider::updatePseudoInverseJacobianMatrixInternal (IK/JacobiProvider.cpp:155-230; [dbl] = false) and
    updatePseudoInverseJacobianMatrixDInternal (246-316; [dbl] = true), with [par] the argument invParameter and [sq] the
    square root. *)
Definition inner_inverse (dbl : bool) (svd : svd_fun) (sq : F -> F) (p : provider) m n (a : 'M[F]_(m, n)) (par : F)
  : outcome 'M[F]_(n, m) :=
  match p_method p with
  | eTranspose =>
      if size (p_weights p) == n then
        match inverse (diagonal n (p_weights p)) with
        | Done w1 =>
            match inverse (a *m w1 *m a^T) with
            | Done g => Done (w1 *m a^T *m g)
            | Thrown => Thrown
            | Undefined => Undefined
            end
        | Thrown => Thrown
        | Undefined => Undefined
        end
      else
        match inverse (a *m a^T) with
        | Done g => Done (a^T *m g)
        | Thrown => Thrown
        | Undefined => Undefined
        end
  | eSVD =>
      let tol := if par != 0 then par else tolerance in
      if size (p_weights p) == n then
        if has (fun x => x <= 0) (p_weights p) then Thrown
        else
          let w12 := diagonal n [seq sq (1 / x) | x <- p_weights p] in
          Done (w12 *m pseudo_inverse svd (a *m w12) tol)
      else Done (pseudo_inverse svd a tol)
  | eSVDDamped =>
      let lambda := if par != 0 then par else if dbl then 1 else p_lambda p in
      Done (pseudo_inverse_damped svd a lambda)
  end.

(** JacobiProvider::updatePseudoInverseJacobianMatrix (IK/JacobiProvider.cpp:140-153) and
    updatePseudoInverseJacobianMatrixD (232-244): the regularization, replaced by ones if its length is not the number of
    rows. *)
Definition update_inverse (dbl : bool) (svd : svd_fun) (sq : F -> F) (p : provider) m n (a : 'M[F]_(m, n)) (par : F)
    (reg : seq F) : outcome 'M[F]_(n, m) :=
  let r := if size reg != m then nseq m 1 else reg in
  match inner_inverse dbl svd sq p (diagonal m r *m a) par with
  | Done x => Done (x *m diagonal m r)
  | Thrown => Thrown
  | Undefined => Undefined
  end.

(** A Jacobian with the error that goes with it, after the checks on their sizes. *)
Record task (n : nat) := Task { t_rows : nat; t_jac : 'M[F]_(t_rows, n); t_err : 'cV[F]_t_rows }.

(** The checks of the sizes: J.cols() != total_cols and J.rows() != e.rows() (IK/StackedIK.cpp:61-62), the same checks in
    IK/HierarchicalIK.cpp:67-75. *)
Definition fit n (p : provider) : option (task n) :=
  match p_cols p =P n, p_erows p =P p_rows p with
  | ReflectT e1, ReflectT e2 =>
      Some (Task (castmx (erefl, e1) (p_jac p)) (castmx (e2, erefl) (p_err p)))
  | _, _ => None
  end.

Fixpoint all_fit n (ps : seq provider) : option (seq (task n)) :=
  match ps with
  | [::] => Some [::]
  | p :: ps' =>
      match fit n p, all_fit n ps' with
      | Some t, Some ts => Some (t :: ts)
      | _, _ => None
      end
  end.

(** The stacked Jacobian and the stacked error (IK/StackedIK.cpp:67-80; the stacked Jacobian also in
    IK/HierarchicalIK.cpp:112-120): the blocks one below the other. *)
Fixpoint stack_rows n (ts : seq (task n)) : nat :=
  match ts with [::] => 0 | t :: ts' => t_rows t + stack_rows ts' end.
Fixpoint stack_jac n (ts : seq (task n)) : 'M[F]_(stack_rows ts, n) :=
  match ts with [::] => 0 | t :: ts' => col_mx (t_jac t) (stack_jac ts') end.
Fixpoint stack_err n (ts : seq (task n)) : 'cV[F]_(stack_rows ts) :=
  match ts with [::] => 0 | t :: ts' => col_mx (t_err t) (stack_err ts') end.

(** The switch over the method in IK/StackedIK.cpp:85-98 (lambda = 1) and twice in IK/HierarchicalIK.cpp:127-140 and
    164-177 (lambda = 10) *)
Definition method_inverse (svd : svd_fun) (meth : inverse_method) (lambda : F) m n (a : 'M[F]_(m, n)) : 'M[F]_(n, m) :=
  match meth with
  | eTranspose => a^T
  | eSVD => pseudo_inverse svd a tolerance
  | eSVDDamped => pseudo_inverse_damped svd a lambda
  end.

(** StackedIK::computeStep (IK/StackedIK.cpp:47-102) of the providers [p0] :: [ps] (an empty vector is read out of its
    bounds).  The loop asks the first provider whether it is initialized, each time. *)
Definition stacked_step (svd : svd_fun) (meth : inverse_method) (p0 : provider) (ps : seq provider) (step : F)
  : outcome 'cV[F]_(p_cols p0) :=
  if ~~ p_init p0 then Thrown
  else
    match all_fit (p_cols p0) (p0 :: ps) with
    | None => Thrown
    | Some ts => Done (step *: (method_inverse svd meth 1 (stack_jac ts) *m stack_err ts))
    end.

(** The loop of HierarchicalIK::computeStep over the second and later tasks (IK/HierarchicalIK.cpp:104-198): [above] are the
    tasks already treated, [res] is result_i_min1. *)
Fixpoint hier_loop (svd : svd_fun) (meth : inverse_method) (step : F) n (above : seq (task n)) (res : 'cV[F]_n)
    (todo : seq (task n)) : 'cV[F]_n :=
  match todo with
  | [::] => res
  | t :: todo' =>
      let ja := stack_jac above in
      let ja_inv := method_inverse svd meth 10%:R ja in
      let pa := 1%:M - ja_inv *m ja in
      let j_tilde := t_jac t *m pa in
      let j_tilde_inv := method_inverse svd meth 10%:R j_tilde in
      hier_loop svd meth step (rcons above t)
        (res + j_tilde_inv *m (step *: t_err t - t_jac t *m res)) todo'
  end.

(** The first loop of HierarchicalIK::computeStep (IK/HierarchicalIK.cpp:47-76): each provider is asked for its Jacobian,
    the inverse of it by its own method, and its error.  Of the inverses only the first one is used later; the others
    matter only because computing them may throw. *)
Fixpoint hier_collect (svd : svd_fun) (sq : F -> F) n (ps : seq provider)
  : outcome (seq (task n)) :=
  match ps with
  | [::] => Done [::]
  | p :: ps' =>
      if ~~ p_init p then Thrown
      else
        match fit n p with
        | None => Thrown
        | Some t =>
            match update_inverse true svd sq p (t_jac t) 0 [::] with
            | Thrown => Thrown
            | _ =>
                match hier_collect svd sq n ps' with
                | Done ts => Done (t :: ts)
                | Thrown => Thrown
                | Undefined => Undefined
                end
            end
        end
  end.

(** HierarchicalIK::computeStep (IK/HierarchicalIK.cpp:25-201) for a node set of [n] joints and the providers
    [p0] :: [ps] *)
Definition hierarchical_step (svd : svd_fun) (sq : F -> F) (meth : inverse_method) n (p0 : provider) (ps : seq provider)
    (step : F) : outcome 'cV[F]_n :=
  match hier_collect svd sq n (p0 :: ps) with
  | Done (t0 :: ts) =>
      match update_inverse true svd sq p0 (t_jac t0) 0 [::] with
      | Done j_inv => Done (hier_loop svd meth step [:: t0] (step *: (j_inv *m t_err t0)) ts)
      | Thrown => Thrown
      | Undefined => Undefined
      end
  | Done [::] => Undefined
  | Thrown => Thrown
  | Undefined => Undefined
  end.

End Field.
