(** Model of sets of grasps, VirtualRobot/Grasping/GraspSet.cpp and Grasp.cpp.  A grasp is its address, its data are in a heap; names,
    robot types and end effectors are numbers.  The data of a grasp other than these are one value of type nat.  The asserts end the
    program (None) in a build with asserts ([debug]) and do nothing otherwise.  XML output and printing are left out. *)
From Coq Require Import List Bool Arith.
Import ListNotations.

(** The members of a Grasp; [rest]: pose, creation, quality, configuration. *)
Record grasp := Grasp { gname : nat; gtype : nat; geef : nat; preshape : nat; rest : nat }.
Notation heap := (nat -> grasp).
(** The members grasps, robotType and eef of a GraspSet. *)
Record gset := GSet { grasps : list nat; stype : nat; seef : nat }.
Definition with_grasps (s : gset) (l : list nat) : gset := GSet l (stype s) (seef s).

(** hasGrasp(grasp), GraspSet.cpp 33-44. *)
Definition has_grasp (s : gset) (g : nat) : bool := existsb (Nat.eqb g) (grasps s).
(** hasGrasp(name), 46-58. *)
Definition has_name (h : heap) (s : gset) (n : nat) : bool := existsb (fun g => gname (h g) =? n) (grasps s).
(** isCompatibleGrasp, 95-108. *)
Definition compatible (h : heap) (s : gset) (g : nat) : bool := (gtype (h g) =? stype s) && (geef (h g) =? seef s).
(** addGrasp, 23-31.  (Without asserts a null pointer would be stored; that is left out.) *)
Definition add (debug : bool) (h : heap) (s : gset) (g : option nat) : option gset :=
  match g with
  | None => None
  | Some g => if debug && (has_grasp s g || negb (compatible h s g)) then None else Some (with_grasps s (grasps s ++ [g]))
  end.
(** clear and removeAllGrasps, 60-63, 212-215. *)
Definition clear (s : gset) : gset := with_grasps s [].
(** includeGraspSet, 65-76. *)
Definition include (debug : bool) (h : heap) (s : gset) (t : gset) : option gset :=
  fold_left (fun o g => match o with None => None | Some s => if has_grasp s g then Some s else add debug h s (Some g) end) (grasps t) (Some s).
(** getGrasp(n), 115-123, and getGrasp(name), 125-137. *)
Definition get_at (s : gset) (n : nat) : option nat := if length (grasps s) <=? n then None else nth_error (grasps s) n.
Definition get_name (h : heap) (s : gset) (n : nat) : option nat := find (fun g => gname (h g) =? n) (grasps s).
(** removeGrasp(grasp), 190-202: the first entry. *)
Fixpoint erase (g : nat) (l : list nat) : list nat := match l with [] => [] | x :: l => if x =? g then l else x :: erase g l end.
Definition remove (s : gset) (g : nat) : gset * bool := if has_grasp s g then (with_grasps s (erase g (grasps s)), true) else (s, false).
(** removeGrasp(i), 204-210: by way of the grasp. *)
Definition remove_at (s : gset) (i : nat) : gset * bool := match get_at s i with None => (s, false) | Some g => remove s g end.
(** setPreshape, 229-235, and Grasp::setPreshape, Grasp.cpp 176-179. *)
Definition set_one (p : nat) (g : nat) (h : heap) : heap :=
  fun x => if x =? g then Grasp (gname (h x)) (gtype (h x)) (geef (h x)) p (rest (h x)) else h x.
Definition set_preshape (h : heap) (s : gset) (p : nat) : heap := fold_left (fun h g => set_one p g h) (grasps s) h.
(** Grasp::clone, Grasp.cpp 159-164: a new grasp with the same data, at address [a]. *)
Definition clone_grasp (h : heap) (g a : nat) : heap := fun x => if x =? a then h g else h x.
(** clone, GraspSet.cpp 177-188; the clones get the addresses from [fresh] on. *)
Definition clone_step (debug : bool) (o : option (heap * gset * nat)) (g : nat) : option (heap * gset * nat) :=
  match o with
  | None => None
  | Some (h, s', a) => match add debug (clone_grasp h g a) s' (Some a) with None => None | Some s' => Some (clone_grasp h g a, s', S a) end
  end.
Definition clone (debug : bool) (h : heap) (fresh : nat) (s : gset) : option (heap * gset * nat) :=
  fold_left (clone_step debug) (grasps s) (Some (h, clear s, fresh)).
