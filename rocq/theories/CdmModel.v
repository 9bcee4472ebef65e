(** Model of the collision detection manager, VirtualRobot/CollisionDetection/CDManager.cpp.  A set of scene objects is its address; its
    contents are part of the state, as single objects are wrapped in new sets.  The answers of the collision checker for two sets are
    arguments: [collide a b], and [dist a b] with the nearest points and triangle ids in a value of type D.  Distances are rationals
    (every finite float is one).  Warnings and the names of the sets are left out; the collision checker is not null. *)
From Coq Require Import List Bool Arith QArith.
Import ListNotations.

(** The members colModels and colModelPairs, and the contents of the sets; [next] is the address of the next new set.  The map is
    kept in the order of first insertion; its own order only decides which of several equally near pairs is reported. *)
Record cdm := Cdm { col_models : list nat; col_pairs : list (nat * list nat); content : nat -> list nat; next : nat }.
Definition new_cdm (content : nat -> list nat) (next : nat) : cdm := Cdm [] [] content next.

(** The body of the loop of _hasSceneObjectSet, 333-344. *)
Definition same_set (content : nat -> list nat) (m x : nat) : bool :=
  (x =? m) || match content m, content x with [a], [b] => b =? a | _, _ => false end.
(** _hasSceneObjectSet, 331-347. *)
Definition has_set (s : cdm) (m : nat) : bool := existsb (same_set (content s) m) (col_models s).
(** hasSceneObjectSet, 318-329, and hasSceneObject, 349-360. *)
Definition has_scene_object_set (s : cdm) (m : nat) : bool := existsb (fun x => x =? m) (col_models s).
Definition has_scene_object (s : cdm) (o : nat) : bool := existsb (fun x => match content s x with [b] => b =? o | _ => false end) (col_models s).
(** [if (!_hasSceneObjectSet(m)) colModels.push_back(m)]. *)
Definition note (s : cdm) (m : nat) : cdm := if has_set s m then s else Cdm (col_models s ++ [m]) (col_pairs s) (content s) (next s).
(** [colModelPairs[m1].push_back(m2)]. *)
Fixpoint push (m1 m2 : nat) (l : list (nat * list nat)) : list (nat * list nat) :=
  match l with
  | [] => [(m1, [m2])]
  | (k, v) :: l => if k =? m1 then (k, v ++ [m2]) :: l else (k, v) :: push m1 m2 l
  end.
Definition enter (s : cdm) (m1 m2 : nat) : cdm := Cdm (col_models s) (push m1 m2 (col_pairs s)) (content s) (next s).
(** addCollisionModelPair(set, set), 362-380. *)
Definition add_pair (s : cdm) (m1 m2 : option nat) : cdm :=
  match m1, m2 with
  | Some m1, Some m2 => enter (note (note s m1) m2) m1 m2
  | _, _ => s
  end.
(** addCollisionModel(set), 32-54.  The loop goes over colModels, and the first addCollisionModelPair may append m to that vector.  If
    the vector has no [room] for it the loop goes on with invalid iterators: None (undefined).  (With room only the past-the-end
    iterator is invalid; the loop is taken to visit the sets that were there before.) *)
Definition add_model (room : bool) (s : cdm) (m : option nat) : option cdm :=
  match m with
  | None => Some s
  | Some m => let others := filter (fun x => negb (m =? x)) (col_models s) in
              if negb room && negb (has_set s m) && negb (match others with [] => true | _ => false end) then None
              else Some (note (fold_left (fun s x => add_pair s (Some x) (Some m)) others s) m)
  end.
(** A new set with one object: 60-61, 389-390, 401-404; addSceneObject fails for an object of another collision checker ([fits]). *)
Definition wrap (fits : nat -> bool) (s : cdm) (o : nat) : cdm * nat :=
  (Cdm (col_models s) (col_pairs s) (fun x => if x =? next s then (if fits o then [o] else []) else content s x) (S (next s)), next s).
(** addCollisionModel(object), 56-64. *)
Definition add_object (fits : nat -> bool) (room : bool) (s : cdm) (o : option nat) : option cdm :=
  match o with
  | None => Some s
  | Some o => let (s, m) := wrap fits s o in add_model room s (Some m)
  end.
(** addCollisionModelPair(object, set), 382-392. *)
Definition add_object_set (fits : nat -> bool) (s : cdm) (o m : option nat) : cdm :=
  match o, m with
  | Some o, Some m => let (s, m1) := wrap fits s o in add_pair s (Some m1) (Some m)
  | _, _ => s
  end.
(** addCollisionModelPair(object, object), 394-407. *)
Definition add_object_pair (fits : nat -> bool) (s : cdm) (o1 o2 : option nat) : cdm :=
  match o1, o2 with
  | Some o1, Some o2 => let (s, m1) := wrap fits s o1 in let (s, m2) := wrap fits s o2 in add_pair s (Some m1) (Some m2)
  | _, _ => s
  end.
(** isInCollision(m, sets), 272-283, and isInCollision(), 285-305. *)
Definition is_in_collision (collide : nat -> nat -> bool) (s : cdm) : bool :=
  existsb (fun p => existsb (collide (fst p)) (snd p)) (col_pairs s).
(** isInCollision(m), 66-88: all other sets. *)
Definition is_in_collision_with (collide : nat -> nat -> bool) (s : cdm) (m : nat) : bool :=
  existsb (fun x => negb (m =? x) && collide x m) (col_models s).
(** [if (tmp < minDist) minDist = tmp]. *)
Definition less (a b : Q) : bool := if Qlt_le_dec a b then true else false.
Definition nearer (m t : Q) : Q := if less t m then t else m.
(** FLT_MAX. *)
Definition flt_max : Q := inject_Z ((2 ^ 24 - 1) * 2 ^ 104).
(** getDistance(m, sets), 121-136, and getDistance(), 139-164. *)
Definition dist_to (dist : nat -> nat -> Q) (m : nat) (sets : list nat) : Q := fold_left (fun d x => nearer d (dist m x)) sets flt_max.
Definition get_distance (dist : nat -> nat -> Q) (s : cdm) : Q := fold_left (fun d p => nearer d (dist_to dist (fst p) (snd p))) (col_pairs s) flt_max.
(** getDistance(m), 91-117. *)
Definition get_distance_with (dist : nat -> nat -> Q) (s : cdm) (m : nat) : Q :=
  fold_left (fun d x => if negb (m =? x) then nearer d (dist x m) else d) (col_models s) flt_max.
(** The versions with points: the data of a pair are kept with its distance; the data stay as they are if nothing is nearer than
    FLT_MAX.  getDistance(m, sets, P1, ...), 166-193, getDistance(P1, ...), 195-233, where the data of the inner call start from
    uninitialised variables ([junk]), and getDistance(m, P1, ...), 235-268. *)
Definition keep {D} (b t : Q * D) : Q * D := if less (fst t) (fst b) then t else b.
Definition points_to {D} (dist : nat -> nat -> Q * D) (m : nat) (sets : list nat) (old : D) : Q * D :=
  fold_left (fun b x => keep b (dist m x)) sets (flt_max, old).
Definition get_points {D} (dist : nat -> nat -> Q * D) (junk : nat -> D) (s : cdm) (old : D) : Q * D :=
  fold_left (fun b p => keep b (points_to dist (fst p) (snd p) (junk (fst p)))) (col_pairs s) (flt_max, old).
Definition get_points_with {D} (dist : nat -> nat -> Q * D) (s : cdm) (m : nat) (old : D) : Q * D := points_to dist m (col_models s) old.
