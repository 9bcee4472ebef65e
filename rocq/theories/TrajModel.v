(** Model of VirtualRobot/Trajectory.cpp.  A trajectory is the vector [path] of its points; point
    vectors are lists of real numbers ([float] taken to be exact). *)
From Coq Require Import List Reals ZArith Bool.
Import ListNotations.

(** [std::vector::insert] and [erase] at an index inside the range. *)
Fixpoint vec_insert {A : Type} (pos : nat) (c : A) (l : list A) : list A :=
  match pos, l with
  | O, _ => c :: l
  | S pos, x :: l => x :: vec_insert pos c l
  | S _, [] => []
  end.
Fixpoint vec_erase {A : Type} (pos : nat) (l : list A) : list A :=
  match pos, l with
  | _, [] => []
  | O, _ :: l => l
  | S pos, x :: l => x :: vec_erase pos l
  end.

Section Points.
Context {C : Type} (zero : C).

(** [Trajectory::addPoint], Trajectory.cpp:39-43. *)
Definition add_point (l : list C) (c : C) : list C := l ++ [c].

(** [Trajectory::getPoint], Trajectory.cpp:51-70. *)
Definition get_point (l : list C) (nr : nat) : C :=
  if length l <=? nr then
    if 0 <? length l then nth (length l - 1) l zero else zero
  else nth nr l zero.

(** The loop of [clone] and [createSubPath]: adds the points i, i+1, ..., (count of them). *)
Fixpoint copy_points (l : list C) (i count : nat) (acc : list C) : list C :=
  match count with
  | O => acc
  | S count => copy_points l (S i) count (add_point acc (get_point l i))
  end.

(** [Trajectory::clone], Trajectory.cpp:72-82; also [CSpacePath::clone], CSpacePath.cpp:29-39. *)
Definition clone (l : list C) : list C := copy_points l 0 (length l) [].

(** [Trajectory::createSubPath], Trajectory.cpp:85-101; [None] is the null pointer. *)
Definition create_sub_path (l : list C) (s e : nat) : option (list C) :=
  if ((length l <=? s) || (length l <=? e))%bool then None
  else Some (copy_points l s (S e - s) []).

(** [Trajectory::getPoints(start, end, store)], Trajectory.cpp:105-124: result and the vector
    [store] afterwards. *)
Definition get_points (l : list C) (s e : nat) (store : list C) : bool * list C :=
  if ((e <? s) || (length l <=? e))%bool then (false, store)
  else (true, copy_points l s (S e - s) store).

(** [Trajectory::erasePosition], Trajectory.cpp:127-139. *)
Definition erase_position (l : list C) (pos : nat) : list C :=
  if length l <=? pos then l else vec_erase pos l.

(** The loop of [removePositions]; the iterator stays at index [s]. *)
Fixpoint remove_loop (count : nat) (l : list C) (s result : nat) : list C * nat :=
  match count with
  | O => (l, result)
  | S count => if s =? length l then (l, result) else remove_loop count (vec_erase s l) s (S result)
  end.

(** [Trajectory::removePositions], Trajectory.cpp:142-173. *)
Definition remove_positions (l : list C) (s e : nat) : list C * nat :=
  if ((length l <=? s) || (length l <=? e))%bool then (l, 0)
  else if e <? s then (l, 0)
  else remove_loop (S e - s) l s 0.

(** [Trajectory::insertPosition(pos, c)], Trajectory.cpp:176-189. *)
Definition insert_position (l : list C) (pos : nat) (c : C) : list C :=
  if length l <? pos then l else vec_insert pos c l.

(** [Trajectory::insertPosition(pos, newConfigurations)], Trajectory.cpp:191-201. *)
Fixpoint insert_positions (l : list C) (pos : nat) (cs : list C) : list C :=
  match cs with
  | [] => l
  | c :: cs => insert_positions (insert_position l pos c) (S pos) cs
  end.

(** The loop of [insertTrajectory]: [i] points of [other] are left. *)
Fixpoint insert_loop (i : nat) (l : list C) (pos : nat) (other : list C) : list C :=
  match i with
  | O => l
  | S i => insert_loop i (insert_position l pos (get_point other i)) pos other
  end.

(** [Trajectory::insertTrajectory], Trajectory.cpp:203-219, with another trajectory. *)
Definition insert_trajectory (l : list C) (pos : nat) (other : list C) : list C :=
  insert_loop (length other) l pos other.

(** The same with the trajectory itself as argument: [getPoint] reads the vector being changed. *)
Fixpoint insert_self_loop (i : nat) (l : list C) (pos : nat) : list C :=
  match i with
  | O => l
  | S i => insert_self_loop i (insert_position l pos (get_point l i)) pos
  end.
Definition insert_self (l : list C) (pos : nat) : list C := insert_self_loop (length l) l pos.

(** [Trajectory::reverse], Trajectory.cpp:316-319, and [reset], 29-32. *)
Definition reverse (l : list C) : list C := rev l.
Definition reset (l : list C) : list C := [].

(** The editing calls. *)
Inductive edit :=
| AddPoint (c : C) | InsertPosition (pos : nat) (c : C) | InsertPositions (pos : nat) (cs : list C)
| InsertTrajectory (pos : nat) (other : list C) | ErasePosition (pos : nat)
| RemovePositions (s e : nat) | Reverse | Reset.

Definition run_edit (l : list C) (e : edit) : list C :=
  match e with
  | AddPoint c => add_point l c
  | InsertPosition pos c => insert_position l pos c
  | InsertPositions pos cs => insert_positions l pos cs
  | InsertTrajectory pos other => insert_trajectory l pos other
  | ErasePosition pos => erase_position l pos
  | RemovePositions s e => fst (remove_positions l s e)
  | Reverse => reverse l
  | Reset => reset l
  end.
End Points.

Open Scope R_scope.

(** Points as vectors: [c1 + (c2 - c1) * factor], Trajectory.cpp:304, and [(c2 - c1).norm()]. *)
Definition blend (c1 c2 : list R) (factor : R) : list R :=
  map (fun p => fst p + (snd p - fst p) * factor) (combine c1 c2).
Definition norm2 (c1 c2 : list R) : R :=
  fold_right Rplus 0 (map (fun p => (snd p - fst p) * (snd p - fst p)) (combine c1 c2)).
Definition norm_diff (c1 c2 : list R) : R := sqrt (norm2 c1 c2).

Section Interpolate.
Context {C : Type} (dist : C -> C -> R) (mix : C -> C -> R -> C).

(** [Trajectory::getLength], Trajectory.cpp:321-338. *)
Fixpoint get_length (c : C) (l : list C) : R :=
  match l with
  | [] => 0
  | d :: l => dist c d + get_length d l
  end.

(** The search loop, Trajectory.cpp:274-283: [rest] are the points after [c2]. *)
Fixpoint search (rest : list C) (wanted act last : R) (index : nat) (c1 c2 : C)
  : nat * C * C * R * R :=
  match rest with
  | [] => (index, c1, c2, act, last)
  | c :: rest =>
      if Rlt_dec act wanted then search rest wanted (act + dist c2 c) (dist c2 c) (S index) c2 c
      else (index, c1, c2, act, last)
  end.

(** [Trajectory::interpolate], Trajectory.cpp:223-314, with [length] the result of [getLength()] and
    [last_index] the index stored for t = 1.  The index is the [int] that is stored; [None] for an
    empty path, where the result is an uninitialised vector. *)
Definition interpolate_path (len : R) (last_index : Z) (l : list C) (t : R) : option (C * Z) :=
  match l with
  | [] => None
  | p :: rest =>
      let t := if Rlt_dec t 0 then 0 else if Rlt_dec 1 t then 1 else t in
      if Req_EM_T t 0 then Some (p, 0%Z)
      else if Req_EM_T t 1 then Some (last rest p, last_index)
      else
        let '(i, c1, c2, act, lastl) := search rest (len * t) 0 0 0 p p in
        let rest_length := len * t - (act - lastl) in
        let f := if Rlt_dec 0 lastl then rest_length / lastl else 0 in
        let f := if Rlt_dec 1 f then 1 else f in
        Some (mix c1 c2 f, (Z.of_nat i - 1)%Z)
  end.
End Interpolate.

Definition traj_length (l : list (list R)) : R :=
  match l with [] => 0 | c :: l => get_length norm_diff c l end.

Definition traj_interpolate (l : list (list R)) (t : R) : option (list R * Z) :=
  interpolate_path norm_diff blend (traj_length l) (Z.of_nat (length l) - 1) l t.
