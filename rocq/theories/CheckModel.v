(** Model of the collision and distance queries on scene objects, robots and sets, VirtualRobot/CollisionDetection/CollisionChecker.cpp
    (release build: the VR_ASSERT lines do nothing).  Objects, robots and nodes are addresses (numbers), as are collision models and
    collision checkers.  What PQP answers for two collision models is an argument (C51-C54 and C60 are about PQP).  Sets are those of
    SceneObjectSet.cpp (ObjSetModel). *)
From Coq Require Import List Bool ZArith QArith.
From Verif Require Import ObjSetModel.
Import ListNotations.

(** [chk] is getCollisionChecker() of an object, [model] getCollisionModel() (None: null; a robot has none of its own, SceneObject.cpp
    168-171, its nodes have), and [nodes o] is getRobotNodes() if the cast of o to Robot succeeds. *)
Record scene := Scene { chk : nat -> nat; model : nat -> option nat; nodes : nat -> option (list nat) }.

(** getRobotModels, 388-402; [this] is the collision checker that is asked. *)
Definition robot_models (s : scene) (this : nat) (ns : list nat) : oset :=
  fold_left (fun r n => match model s n with Some _ => fst (add (chk s) r (Some n)) | None => r end) ns (OSet this []).

Section Collide.
(** The answer of CollisionCheckerPQP::checkCollision(model1, model2). *)
Variable hit : nat -> nat -> bool.
(** checkCollision(vector of models, model), 303-327; an empty vector gives false as the loop would. *)
Definition hit_list (ms : list nat) (m : nat) : bool := existsb (fun x => hit x m) ms.
(** checkCollision(model, set), 405-433. *)
Definition hit_model_set (s : scene) (m : nat) (t : oset) : bool := existsb (fun y => hit m y) (models (model s) t).
(** checkCollision(set, set), 329-370: two nested loops, ended by the first hit. *)
Definition hit_set_set (s : scene) (t u : oset) : bool := existsb (fun x => existsb (fun y => hit x y) (models (model s) u)) (models (model s) t).
(** checkCollision(object, set), 372-386.  None: a null pointer is followed (in the first round of the loop of checkCollision(model, set)). *)
Definition hit_object_set (s : scene) (this : nat) (a : nat) (t : oset) : option bool :=
  match nodes s a with
  | Some ns => Some (hit_set_set s (robot_models s this ns) t)
  | None => match model s a with
            | Some m => Some (hit_model_set s m t)
            | None => match models (model s) t with [] => Some false | _ => None end
            end
  end.
(** checkCollision(object, object), 435-461. *)
Definition hit_objects (s : scene) (this : nat) (a b : nat) : option bool :=
  match nodes s a, nodes s b with
  | Some ns, Some ms => Some (hit_set_set s (robot_models s this ns) (robot_models s this ms))
  | Some ns, None => hit_object_set s this b (robot_models s this ns)
  | None, Some ms => hit_object_set s this a (robot_models s this ms)
  | None, None => match model s a, model s b with Some m, Some n => Some (hit m n) | _, _ => None end
  end.
End Collide.

Section Points.
Variable P : Type.
(** CollisionCheckerPQP::checkCollision(model, point, tolerance), CollisionCheckerPQP.cpp 98-141: [inside m p] is the answer of
    PQP_Collide and [within m p t] that of PQP_Tolerance with tolerance t; the number 50 is in line 135. *)
Definition hit_point (inside : nat -> P -> bool) (within : nat -> P -> Q -> bool) (m : nat) (p : P) (tol : Q) : bool :=
  if Qeq_bool tol 0 then inside m p else within m p 50.
(** checkCollision(set, point, tolerance), CollisionChecker.cpp 472-495. *)
Definition hit_set_point (inside : nat -> P -> bool) (within : nat -> P -> Q -> bool) (s : scene) (t : oset) (p : P) (tol : Q) : bool :=
  existsb (fun m => hit_point inside within m p tol) (models (model s) t).

(** What a distance query hands out: the returned number, and the points and triangle numbers it stores.  (Null pointers for the
    triangle numbers, which are then not stored, are left out, and so are the variants without points, 77-139: they return [gap].) *)
Record near := Near { gap : Q; pt1 : P; pt2 : P; id1 : Z; id2 : Z }.
(** The same with the two sides exchanged. *)
Definition swap (r : near) : near := Near (gap r) (pt2 r) (pt1 r) (id2 r) (id1 r).
(** The answer of CollisionCheckerPQP::calculateDistance(model1, model2, ...), and FLT_MAX. *)
Variable dist : nat -> nat -> near.
Variable flt_max : Q.
(** One round of the loops, 214-233 and 264-283. *)
Definition closer (r : near) (m n : nat) : near := let d := dist m n in if Qle_bool (gap d) (gap r) then d else r.
(** The caller's variables before the loop, with fResult = FLT_MAX, and when there is nothing to compare: -1 is returned. *)
Definition start (r : near) : near := Near flt_max (pt1 r) (pt2 r) (id1 r) (id2 r).
Definition nothing (r : near) : near := Near (-1) (pt1 r) (pt2 r) (id1 r) (id2 r).
(** calculateDistance(set, set, ...), 185-240; [r] has the caller's points and numbers. *)
Definition dist_set_set (s : scene) (t u : oset) (r : near) : near :=
  match models (model s) t, models (model s) u with
  | [], _ | _, [] => nothing r
  | ms, ns => fold_left (fun r m => fold_left (fun r n => closer r m n) ns r) ms (start r)
  end.
(** calculateDistance(model, set, ...), 242-289. *)
Definition dist_model_set (s : scene) (m : nat) (u : oset) (r : near) : near :=
  match models (model s) u with
  | [] => nothing r
  | ns => fold_left (fun r n => closer r m n) ns (start r)
  end.
(** calculateDistance(object, set, ...), 141-155.  None: a null pointer is followed. *)
Definition dist_object_set (s : scene) (this : nat) (a : nat) (t : oset) (r : near) : option near :=
  match nodes s a with
  | Some ns => Some (dist_set_set s (robot_models s this ns) t r)
  | None => match model s a with
            | Some m => Some (dist_model_set s m t r)
            | None => match models (model s) t with [] => Some (nothing r) | _ => None end
            end
  end.
(** calculateDistance(object, object, ...), 157-183: a robot and another object are asked the other way round, 171-174. *)
Definition dist_objects (s : scene) (this : nat) (a b : nat) (r : near) : option near :=
  match nodes s a, nodes s b with
  | Some ns, Some ms => Some (dist_set_set s (robot_models s this ns) (robot_models s this ms) r)
  | Some ns, None => option_map swap (dist_object_set s this b (robot_models s this ns) (swap r))
  | None, Some ms => dist_object_set s this a (robot_models s this ms) r
  | None, None => match model s a, model s b with Some m, Some n => Some (dist m n) | _, _ => None end
  end.
End Points.
Arguments Near {P}. Arguments gap {P}. Arguments pt1 {P}. Arguments pt2 {P}. Arguments id1 {P}. Arguments id2 {P}. Arguments swap {P}.
Arguments hit_point {P}. Arguments hit_set_point {P}. Arguments closer {P}. Arguments start {P}. Arguments nothing {P}.
Arguments dist_set_set {P}. Arguments dist_model_set {P}. Arguments dist_object_set {P}. Arguments dist_objects {P}.
