(** What the property talks about: orthonormal families, spans, linear independence. *)
From Coq Require Import Reals List.
From Verif Require Import GramModel.
Import ListNotations.
Open Scope R_scope.

(** Vectors that are pairwise orthogonal and of length one. *)
Definition orthonormal (q : list vecx) : Prop :=
  forall i j u v, nth_error q i = Some u -> nth_error q j = Some v -> ldot u v = if Nat.eq_dec i j then 1 else 0.
(** The linear combinations of a family of vectors with [n] coefficients. *)
Fixpoint vplus (a b : vecx) : vecx := match a, b with x :: a, y :: b => (x + y) :: vplus a b | _, _ => [] end.
Inductive span (n : nat) (l : list vecx) : vecx -> Prop :=
| span_zero : span n l (repeat 0 n)
| span_in : forall v, In v l -> span n l v
| span_plus : forall u v, span n l u -> span n l v -> span n l (vplus u v)
| span_scale : forall k v, span n l v -> span n l (map (Rmult k) v).
(** Linear independence: no vector is a linear combination of those before it. *)
Definition independent (n : nat) (l : list vecx) : Prop := forall l1 x l2, l = l1 ++ x :: l2 -> ~ span n l1 x.
(** The first [i + 1] vectors are pairwise orthogonal. *)
Definition leading_orthogonal (b : list vecx) (i : nat) : Prop :=
  forall a c u v, (a < c <= i)%nat -> nth_error b a = Some u -> nth_error b c = Some v -> ldot u v = 0.
