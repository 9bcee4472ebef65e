(** What a built model is. *)
From Coq Require Import List ZArith QArith Bool PeanoNat Permutation.
From Verif Require Import PqpModel PqpSpec PqpBuildModel.
Import ListNotations.
Open Scope nat_scope.

Section Spec.
Context {V G : Type}.

(** The model [m] holds the triangles [tris] in some order below a binary tree; every volume of the array is fitted (in
    world coordinates, [w]) to exactly the triangles below it and stored relative to the volume of its parent. *)
Definition built (bd : builder V G) (tris : list (tri G)) (m : model V G) : Prop :=
  Permutation (m_tris m) tris /\
  length (m_bvs m) = 2 * length tris - 1 /\
  tree m 0 (seq 0 (length tris)) /\
  exists w : nat -> V,
    (forall b l, tree m b l -> exists ts, Permutation ts (map (fun i => nth_error (m_tris m) i) l) /\
       exists us, ts = map Some us /\ w b = fit bd us) /\
    (exists r, nth_error (m_bvs m) 0 = Some r /\ vol r = relative bd (world bd) (w 0)) /\
    (forall b v k, b < length (m_bvs m) -> nth_error (m_bvs m) b = Some v -> (0 <= first_child v)%Z ->
       k = Z.to_nat (first_child v) \/ k = Z.to_nat (first_child v) + 1 ->
       exists c, nth_error (m_bvs m) k = Some c /\ vol c = relative bd (w b) (w k)).
End Spec.

Section Laws.
Context {V G P X : Type}.

(** What the geometric computations have to provide.  [placed x v1 v2]: [x] is the transformation from [v1] to [v2],
    both in world coordinates; [start] computes it for the roots. *)
Record laws (bd : builder V G) (g : geometry V G P X) (start : V -> V -> X) (placed : X -> V -> V -> Prop) : Prop := Laws {
  law_start : forall v1 v2, placed (start (relative bd (world bd) v1) (relative bd (world bd) v2)) v1 v2;
  law_enter1 : forall x v1 v2 c, placed x v1 v2 -> placed (g_enter1 g x (relative bd v1 c)) c v2;
  law_enter2 : forall x v1 v2 c, placed x v1 v2 -> placed (g_enter2 g x (relative bd v2 c)) v1 c;
  law_overlap : forall x ts1 ts2 p1 p2 t1 t2, placed x (fit bd ts1) (fit bd ts2) -> In t1 ts1 -> In t2 ts2 ->
    g_contact g (corners t1) (corners t2) = true ->
    g_overlap g x (relative bd p1 (fit bd ts1)) (relative bd p2 (fit bd ts2)) = true;
  law_distance : forall x ts1 ts2 p1 p2 t1 t2, placed x (fit bd ts1) (fit bd ts2) -> In t1 ts1 -> In t2 ts2 ->
    (g_bvdist g x (relative bd p1 (fit bd ts1)) (relative bd p2 (fit bd ts2)) <= fst (g_tridist g (corners t1) (corners t2)))%Q;
  law_positive : forall t1 t2, (0 <= fst (g_tridist g t1 t2))%Q }.

(** The identifiers of the touching pairs. *)
Definition touching (g : geometry V G P X) (tris1 tris2 : list (tri G)) : list (Z * Z) :=
  flat_map (fun t1 => flat_map (fun t2 => if g_contact g (corners t1) (corners t2) then [(tri_id t1, tri_id t2)] else []) tris2) tris1.
End Laws.
