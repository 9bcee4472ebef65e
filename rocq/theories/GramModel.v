(** Model of [MathTools::GramSchmidt], VirtualRobot/MathTools.cpp:1018-1185, over the real numbers. *)
From Coq Require Import Reals List Arith.
Import ListNotations.
Open Scope R_scope.

(** An [Eigen::VectorXf]: the list of its coefficients. *)
Notation vecx := (list R).
(** [dot]. *)
Fixpoint ldot (a b : vecx) : R := match a, b with x :: a, y :: b => x * y + ldot a b | _, _ => 0 end.
(** [k * a]. *)
Definition lscale (k : R) (a : vecx) : vecx := map (Rmult k) a.
(** [a -= k * b]. *)
Fixpoint lsub (a : vecx) (k : R) (b : vecx) : vecx := match a, b with x :: a, y :: b => (x - k * y) :: lsub a k b | _, _ => [] end.
(** [normalize] (a zero vector is left alone). *)
Definition lnormalize (a : vecx) : vecx := if Rlt_dec 0 (ldot a a) then lscale (/ sqrt (ldot a a)) a else a.

(** How the call ends: with a value and the new content of the argument, with an exception, or in a failed assertion. *)
Inductive outcome := Ret (r : bool) (basis : list vecx) | Throw | Assert.

(** The search for the first vector that is not orthogonal to all before it (lines 1126-1147): the vectors before it, and it with the rest. *)
Definition nonzero (x : R) : bool := if Req_EM_T x 0 then false else true.
Fixpoint find_start (done rest : list vecx) : option (list vecx * list vecx) :=
  match rest with
  | [] => None
  | x :: r => if existsb (fun q => nonzero (ldot q x)) done then Some (done, rest) else find_start (done ++ [x]) r
  end.
(** One vector of the main loop (lines 1158-1182): the products are those of the original vector. *)
Definition gs_step (done : list vecx) (x : vecx) : vecx := lnormalize (fold_left (fun v q => lsub v (ldot x q) q) done x).
Fixpoint gs_loop (done rest : list vecx) : list vecx :=
  match rest with [] => done | x :: r => gs_loop (done ++ [gs_step done x]) r end.

(** The function.  [complete] stands for lines 1030-1077: the rank is determined by Eigen's FullPivLU, and missing directions are replaced
    by random linearly independent vectors; [None] if that fails.  The copy into an [Eigen::Vector3f] (line 1161) only works in three dimensions. *)
Definition gram_schmidt (complete : list vecx -> option (list vecx)) (basis : list vecx) : outcome :=
  if Nat.eqb (length basis) 0 then Throw
  else if negb (forallb (fun v => Nat.eqb (length v) (length basis)) basis) then Assert
  else match complete basis with
       | None => Ret false basis
       | Some [] => Ret true []
       | Some (b0 :: b) =>
           let b0 := lnormalize b0 in
           match find_start [b0] b with
           | None => Ret true (b0 :: b)
           | Some (done, rest) => if Nat.eqb (length basis) 3 then Ret true (gs_loop done rest) else Assert
           end
       end.
