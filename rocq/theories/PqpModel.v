(** Model of the traversals of PQP, VirtualRobot/CollisionDetection/PQP/PQP++/PQP.cpp: collision, distance and
    tolerance queries on two bounding volume trees stored in arrays.  The geometric computations are parameters
    (record [geometry]); distances are rational numbers (finite floats), sums and products in the error tests are
    not rounded (they are exact for the error bounds 0 that VirtualRobot passes).  The counters of tests and the
    timer are left out.  [None] is undefined behaviour (an access outside an array) or exhausted fuel. *)
From Coq Require Import List ZArith QArith Bool PeanoNat.
From Verif Require Import QueueModel.
Import ListNotations.
Open Scope nat_scope.

Section Pqp.
Context {V G P X : Type}.

(** [struct BV], BV.h:53-81: [first_child] and the volume. *)
Record bvol := BVol { first_child : Z; vol : V }.
(** [struct Tri], Tri.h: the corners and the identifier. *)
Record tri := Tri { corners : G; tri_id : Z }.
(** [class PQP_Model], PQP_Internal.h:46-62: the arrays [tris] and [b]. *)
Record model := Model { m_tris : list tri; m_bvs : list bvol }.

(** The geometric computations; [X] stands for the transformation (R, T) of the second volume relative to the
    first.  [g_size]: [BV::GetSize]; [g_enter1], [g_enter2]: the transformation after the step to a child of the
    first or second volume; [g_overlap]: [BV_Overlap]; [g_contact]: [TriContact] on the triangles at
    (res->R, res->T); [g_bvdist]: [BV_Distance]; [g_tridist]: [TriDistance] with its two points. *)
Record geometry := Geometry {
  g_size : V -> Q; g_enter1 : X -> V -> X; g_enter2 : X -> V -> X;
  g_overlap : X -> V -> V -> bool; g_contact : G -> G -> bool;
  g_bvdist : X -> V -> V -> Q; g_tridist : G -> G -> Q * P }.

Variable g : geometry.
Variables o1 o2 : model.

(** [child] and [Leaf], PQP_Internal.h:64-67, BV.h:72-75. *)
Definition child (o : model) (b : nat) : option bvol := nth_error (m_bvs o) b.
Definition leaf (v : bvol) : bool := (first_child v <? 0)%Z.
Definition first (v : bvol) : nat := Z.to_nat (first_child v).
(** [&o->tris[-o->child(b)->first_child - 1]]. *)
Definition tri_index (v : bvol) : nat := Z.to_nat (- first_child v - 1).
Definition tri_of (o : model) (v : bvol) : option tri := nth_error (m_tris o) (tri_index v).

Definition qlt (a b : Q) : bool := negb (Qle_bool b a).

(** A pair of volumes: transformation and two indices. *)
Definition pair : Type := X * nat * nat.

(** The two pairs visited next: "decide whose children to visit next", PQP.cpp:681-741, 861-907, 1013-1089,
    1275-1325, 1424-1507.  The first component of the result is the pair built from the first child. *)
Definition descend (p : pair) : option (pair * bvol * bvol * (pair * bvol * bvol)) :=
  let '(x, b1, b2) := p in
  match child o1 b1, child o2 b2 with
  | Some v1, Some v2 =>
      if leaf v2 || (negb (leaf v1) && qlt (g_size g (vol v2)) (g_size g (vol v1))) then
        match child o1 (first v1), child o1 (first v1 + 1) with
        | Some a, Some c =>
            Some ((g_enter1 g x (vol a), first v1, b2), a, v2, ((g_enter1 g x (vol c), first v1 + 1, b2), c, v2))
        | _, _ => None
        end
      else
        match child o2 (first v2), child o2 (first v2 + 1) with
        | Some a, Some c =>
            Some ((g_enter2 g x (vol a), b1, first v2), v1, a, ((g_enter2 g x (vol c), b1, first v2 + 1), v1, c))
        | _, _ => None
        end
  | _, _ => None
  end.

(** Both volumes are leaves: the triangles below them. *)
Definition leaves (p : pair) : option (option (tri * nat * (tri * nat))) :=
  let '(x, b1, b2) := p in
  match child o1 b1, child o2 b2 with
  | Some v1, Some v2 =>
      if leaf v1 && leaf v2 then
        match tri_of o1 v1, tri_of o2 v2 with
        | Some t1, Some t2 => Some (Some ((t1, tri_index v1), (t2, tri_index v2)))
        | _, _ => None
        end
      else Some None
  | _, _ => None
  end.

(** [PQP_Checker::CollideRecurse], PQP.cpp:617-741; [first_contact] is [flag == PQP_FIRST_CONTACT]; [res] is the
    list of reported pairs ([PQP_CollideResult::Add], PQP.cpp:331-346). *)
Fixpoint collide (fuel : nat) (first_contact : bool) (res : list (Z * Z)) (p : pair) : option (list (Z * Z)) :=
  match fuel with
  | O => None
  | S fuel =>
      let '(x, b1, b2) := p in
      match child o1 b1, child o2 b2 with
      | Some v1, Some v2 =>
          if negb (g_overlap g x (vol v1) (vol v2)) then Some res
          else
            match leaves p with
            | None => None
            | Some (Some ((t1, _), (t2, _))) =>
                Some (if g_contact g (corners t1) (corners t2) then res ++ [(tri_id t1, tri_id t2)] else res)
            | Some None =>
                match descend p with
                | None => None
                | Some (pa, _, _, (pc, _, _)) =>
                    match collide fuel first_contact res pa with
                    | None => None
                    | Some res =>
                        if first_contact && negb (length res =? 0) then Some res
                        else collide fuel first_contact res pc
                    end
                end
            end
      | _, _ => None
      end
  end.

(** [PQP_Checker::PQP_Collide], PQP.cpp:743-806, on processed models; [x0] is the transformation of the root
    volumes. *)
Definition pqp_collide (fuel : nat) (first_contact : bool) (x0 : X) : option (list (Z * Z)) :=
  collide fuel first_contact [] (x0, 0, 0).

(** [struct PQP_DistanceResult]: distance, points, identifiers; and the indices of [o1->last_tri] and
    [o2->last_tri]. *)
Record dist_res := DistRes { d_dist : Q; d_pts : P; d_id1 : Z; d_id2 : Z; d_last1 : nat; d_last2 : nat }.

Section Distance.
Variables rel_err abs_err : Q.

(** The update at a pair of triangles, PQP.cpp:831-855, 968-993. *)
Definition tri_update (res : dist_res) (a : tri * nat * (tri * nat)) : dist_res :=
  let '((t1, i1), (t2, i2)) := a in
  let '(d, pts) := g_tridist g (corners t1) (corners t2) in
  if qlt d (d_dist res) then DistRes d pts (tri_id t1) (tri_id t2) i1 i2 else res.

(** "(d < (res->distance - res->abs_err)) || (d * (1 + res->rel_err) < res->distance)". *)
Definition worth (res : dist_res) (d : Q) : bool :=
  qlt d (d_dist res - abs_err) || qlt (d * (1 + rel_err)) (d_dist res).

(** [PQP_Checker::DistanceRecurse], PQP.cpp:817-948. *)
Fixpoint distance (fuel : nat) (res : dist_res) (p : pair) : option dist_res :=
  match fuel with
  | O => None
  | S fuel =>
      match leaves p with
      | None => None
      | Some (Some a) => Some (tri_update res a)
      | Some None =>
          match descend p with
          | None => None
          | Some (pa, a1, a2, (pc, c1, c2)) =>
              let d1 := g_bvdist g (fst (fst pa)) (vol a1) (vol a2) in
              let d2 := g_bvdist g (fst (fst pc)) (vol c1) (vol c2) in
              let visit d p (res : dist_res) := if worth res d then distance fuel res p else Some res in
              if qlt d2 d1 then
                match visit d2 pc res with Some res => visit d1 pa res | None => None end
              else
                match visit d1 pa res with Some res => visit d2 pc res | None => None end
          end
      end
  end.

(** [PQP_Checker::DistanceQueueRecurse], PQP.cpp:950-1106, from the test of [p] on: the body of the loop, then the
    extraction of the next test.  [None] as queue: the call starts, with a new queue over unspecified memory. *)
Variable qsize : nat.
Variable junk : nat -> nat -> test pair * nat.

Fixpoint queue_distance (fuel : nat) (q : option (queue pair)) (res : dist_res) (p : pair) : option dist_res :=
  match fuel with
  | O => None
  | S fuel' =>
      let q := match q with Some q => q | None => new_queue qsize (junk fuel) end in
      let next (q : queue pair) (res : dist_res) : option dist_res :=
        if q_n q =? 0 then Some res
        else
          match extract_min q with
          | None => None
          | Some (t, q) =>
              if Qle_bool (d_dist res) (t_d t + abs_err) && Qle_bool (d_dist res) (t_d t * (1 + rel_err)) then Some res
              else queue_distance fuel' (Some q) res (t_data t)
          end in
      match leaves p with
      | None => None
      | Some (Some a) => next q (tri_update res a)
      | Some None =>
          if q_n q =? q_size q - 1 then
            match queue_distance fuel' None res p with Some res => next q res | None => None end
          else
            match descend p with
            | None => None
            | Some (pa, a1, a2, (pc, c1, c2)) =>
                let d1 := g_bvdist g (fst (fst pa)) (vol a1) (vol a2) in
                let d2 := g_bvdist g (fst (fst pc)) (vol c1) (vol c2) in
                match add_test q (Test d1 pa) with
                | None => None
                | Some q => match add_test q (Test d2 pc) with None => None | Some q => next q res end
                end
            end
      end
  end.

(** [PQP_Checker::PQP_Distance], PQP.cpp:1108-1234, on processed models: the initial bound from the last triangles
    ([last1], [last2]: indices of [last_tri]), then the traversal.  The points stay in the coordinate system of the
    first model. *)
Definition pqp_distance (fuel : nat) (last1 last2 : nat) (x0 : X) : option dist_res :=
  match nth_error (m_tris o1) last1, nth_error (m_tris o2) last2 with
  | Some t1, Some t2 =>
      let '(d, pts) := g_tridist g (corners t1) (corners t2) in
      let res := DistRes d pts (tri_id t1) (tri_id t2) last1 last2 in
      if qsize <=? 2 then distance fuel res (x0, 0, 0) else queue_distance fuel None res (x0, 0, 0)
  | _, _ => None
  end.
End Distance.

Section Tolerance.
(** [struct PQP_ToleranceResult]: [None] while [closer_than_tolerance] is 0, else distance and points. *)
Definition tol_res : Type := option (Q * P).
Variable tol : Q.

Definition tol_update (res : tol_res) (a : tri * nat * (tri * nat)) : tol_res :=
  let '((t1, _), (t2, _)) := a in
  let '(d, pts) := g_tridist g (corners t1) (corners t2) in
  if Qle_bool d tol then Some (d, pts) else res.

(** [PQP_Checker::ToleranceRecurse], PQP.cpp:1239-1366. *)
Fixpoint tolerance (fuel : nat) (res : tol_res) (p : pair) : option tol_res :=
  match fuel with
  | O => None
  | S fuel =>
      match leaves p with
      | None => None
      | Some (Some a) => Some (tol_update res a)
      | Some None =>
          match descend p with
          | None => None
          | Some (pa, a1, a2, (pc, c1, c2)) =>
              let d1 := g_bvdist g (fst (fst pa)) (vol a1) (vol a2) in
              let d2 := g_bvdist g (fst (fst pc)) (vol c1) (vol c2) in
              let visit d p (res : tol_res) := if Qle_bool d tol then tolerance fuel res p else Some res in
              let both da pa dc pc :=
                match visit da pa res with
                | None => None
                | Some (Some r) => Some (Some r)
                | Some None => visit dc pc None
                end in
              if qlt d2 d1 then both d2 pc d1 pa else both d1 pa d2 pc
          end
      end
  end.

Variable qsize : nat.
Variable junk : nat -> nat -> test pair * nat.

Definition add_close (q : queue pair) (t : test pair) : option (queue pair) :=
  if Qle_bool (t_d t) tol then add_test q t else Some q.

(** [PQP_Checker::ToleranceQueueRecurse], PQP.cpp:1368-1529. *)
Fixpoint queue_tolerance (fuel : nat) (q : option (queue pair)) (res : tol_res) (p : pair) : option tol_res :=
  match fuel with
  | O => None
  | S fuel' =>
      let q := match q with Some q => q | None => new_queue qsize (junk fuel) end in
      let next (q : queue pair) : option tol_res :=
        if q_n q =? 0 then Some None
        else
          match min_test q with
          | None => None
          | Some m =>
              if qlt tol m then Some None
              else
                match extract_min q with
                | None => None
                | Some (t, q) => queue_tolerance fuel' (Some q) None (t_data t)
                end
          end in
      match leaves p with
      | None => None
      | Some (Some ((t1, _), (t2, _))) =>
          let '(d, pts) := g_tridist g (corners t1) (corners t2) in
          if Qle_bool d tol then Some (Some (d, pts)) else next q
      | Some None =>
          if q_n q =? q_size q - 1 then
            match queue_tolerance fuel' None res p with
            | None => None
            | Some (Some r) => Some (Some r)
            | Some None => next q
            end
          else
            match descend p with
            | None => None
            | Some (pa, a1, a2, (pc, c1, c2)) =>
                let d1 := g_bvdist g (fst (fst pa)) (vol a1) (vol a2) in
                let d2 := g_bvdist g (fst (fst pc)) (vol c1) (vol c2) in
                match add_close q (Test d1 pa) with
                | None => None
                | Some q => match add_close q (Test d2 pc) with None => None | Some q => next q end
                end
            end
      end
  end.

(** [PQP_Checker::PQP_Tolerance], PQP.cpp:1531-1622; a negative tolerance counts as 0 ([tol] is the value after
    that). *)
Definition pqp_tolerance (fuel : nat) (x0 : X) : option tol_res :=
  match child o1 0, child o2 0 with
  | Some v1, Some v2 =>
      if Qle_bool (g_bvdist g x0 (vol v1) (vol v2)) tol then
        if qsize <=? 2 then tolerance fuel None (x0, 0, 0) else queue_tolerance fuel None None (x0, 0, 0)
      else Some None
  | _, _ => None
  end.
End Tolerance.
End Pqp.
Arguments bvol : clear implicits.
Arguments tri : clear implicits.
Arguments model : clear implicits.
Arguments geometry : clear implicits.
Arguments pair : clear implicits.
Arguments dist_res : clear implicits.
Arguments tol_res : clear implicits.
