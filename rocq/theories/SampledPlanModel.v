(** CSpaceSampled as the C-space of the planners: the interface of PlannerModel filled with the code of
    SampledModel.  Vectors of the dimension of the C-space are lists of that length. *)
From Coq Require Import Reals List Bool ZArith Lia.
From Verif Require Import SampledModel.
From Verif Require PlannerModel.
Import ListNotations.
Open Scope R_scope.

(** [Eigen::VectorXf] with [dimension] rows. *)
Definition vec (n : nat) : Type := { q : config | (length q =? n)%nat = true }.

Definition resize (n : nat) (q : config) : config := firstn n (q ++ repeat 0 n).

Lemma resize_length : forall n q, (length (resize n q) =? n)%nat = true.
Proof.
  intros n q. apply Nat.eqb_eq. unfold resize. rewrite firstn_length, app_length, repeat_length. lia.
Qed.

(** A list of the right length as a vector (other lists never occur). *)
Definition pack (n : nat) (q : config) : vec n := exist _ (resize n q) (resize_length n q).

(** Enough loop iterations for a distance [d] in steps of [s]. *)
Definition steps (d s : R) : nat := S (S (Z.to_nat (up (d / s)))).

Definition unweighted (ds : list dim) : list dim := map (fun d => Dim (d_kind d) 1) ds.

(** Recursion levels of [isPathValid]: [recursionMaxDepth] = 1000, CSpaceSampled.cpp:23. *)
Definition max_depth : nat := 999.

(** CSpaceSampled with dimensions [ds], [isCollisionFree] = [coll], [isSatisfyingConstraints] = [constr],
    [isInBoundary] = [inside], [samplingSizeDCD] = [dcd] and [samplingSizePaths] = [sp];
    CSpaceSampled.h:59-129, CSpace.h:60-330. *)
Definition sampled_cspace (ds : list dim) (coll constr inside : config -> bool) (dcd sp : R)
  : PlannerModel.cspace :=
  let n := length ds in
  let free q := (coll q && constr q)%bool in
  PlannerModel.CSpaceI (vec n) R
    (fun a b => if Rlt_dec a b then true else false)
    (fun a b => if Rle_dec a b then true else false)
    Rdiv
    (fun a b => calc_dist ds (proj1_sig a) (proj1_sig b))
    (fun a b => calc_dist2 (unweighted ds) (proj1_sig a) (proj1_sig b))
    (fun a b f => pack n (interpolate ds (proj1_sig a) (proj1_sig b) f))
    (fun a b => sampled_path_valid ds free dcd max_depth (proj1_sig a) (proj1_sig b))
    (fun a b =>
       match sampled_create_path (steps (calc_dist ds (proj1_sig a) (proj1_sig b)) sp) ds sp
               (proj1_sig a) (proj1_sig b) with
       | Some l => map (pack n) l
       | None => []
       end)
    (fun a b =>
       match sampled_create_path_until (steps (calc_dist ds (proj1_sig a) (proj1_sig b)) dcd) ds
               free inside dcd sp (proj1_sig a) (proj1_sig b) with
       | Some (l, len) => (map (pack n) l, if Req_EM_T len 1 then true else false)
       | None => ([], false)
       end)
    (fun a => coll (proj1_sig a))
    (fun a => inside (proj1_sig a)).
