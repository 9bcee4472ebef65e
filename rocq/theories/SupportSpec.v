(** Vocabulary for C72 and C73. *)
From Coq Require Import Reals List ZArith Arith.
From Verif Require Import QuatModel RpyModel BBoxModel BBoxSpec SupportModel HullSpec.
Import ListNotations.
Open Scope R_scope.

(** The bounding box of a model holds its vertices. *)
Definition fits (m : colmodel) : Prop := exists l h, span (cm_box m) l h /\ ordered l h /\ forall v, In v (cm_vertices m) -> within l h v.
(** The vertices of a model in the world. *)
Definition world_vertex (m : colmodel) (x : vec3) : Prop := exists v, In v (cm_vertices m) /\ x = image (cm_pose m) v.

Notation real := (fun p : point => (IZR (fst p), IZR (snd p))).
Definition plane_dist2 (p q : R * R) : R := sqrt ((fst p - fst q) * (fst p - fst q) + (snd p - snd q) * (snd p - snd q)).
(** b lies on the border of the polygon with the vertices vs: on the segment between two neighbours. *)
Definition on_border (vs : list point) (b : R * R) : Prop :=
  exists i a c t, nth_error vs i = Some a /\ nth_error vs (if Nat.eq_dec (S i) (length vs) then 0 else S i)%nat = Some c /\ 0 <= t <= 1 /\
    b = (IZR (fst a) + t * (IZR (fst c) - IZR (fst a)), IZR (snd a) + t * (IZR (snd c) - IZR (snd a))).
(** D is the distance of p to the border. *)
Definition border_distance (vs : list point) (p : R * R) (D : R) : Prop :=
  (exists b, on_border vs b /\ plane_dist2 p b = D) /\ forall b, on_border vs b -> D <= plane_dist2 p b.
(** c is the centre of the smallest axis aligned rectangle around the points. *)
Definition rectangle_center (vs : list point) (c : R * R) : Prop :=
  exists l r d u, In l vs /\ In r vs /\ In d vs /\ In u vs /\
    (forall v, In v vs -> (fst l <= fst v <= fst r /\ snd d <= snd v <= snd u)%Z) /\
    c = ((IZR (fst l) + IZR (fst r)) / 2, (IZR (snd d) + IZR (snd u)) / 2).
