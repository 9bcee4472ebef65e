(** Vocabulary for C35 and C36. *)
From Coq Require Import Reals List.
From Verif Require Import QuatModel QuatSpec RpyModel JointModel KinModel.
Import ListNotations.
Open Scope R_scope.

(** The transformation a node contributes: its fixed transformation followed by the rotation or translation of its joint. *)
Definition transform (n : node) : pose :=
  let q := value (n_joint n) + n_offset n in
  match n_kind n with
  | Fixed | Sensor => n_local n
  | Revolute a => pmul (n_local n) (Pose (axisangle2mat a q) (Vec 0 0 0))
  | Prismatic d => pmul (n_local n) (Pose mid (vscale q d))
  | Plain => pid
  end.
(** Forward kinematics: the product of the robot pose and of the transformations from the root to the node. *)
Inductive fk (r : robot) : nat -> pose -> Prop :=
| fk_root : forall n, node_at r (root r) = Some n -> fk r (root r) (pmul (rpose r) (transform n))
| fk_child : forall p c n g, fk r p g -> In c (kids r p) -> node_at r c = Some n -> fk r c (pmul g (transform n)).
(** The stored pose of every node of the tree is that of forward kinematics. *)
Definition posed (r : robot) : Prop := forall x g, fk r x g -> exists n, node_at r x = Some n /\ n_pose n = g.

(** [desc r x z]: z is x or somewhere below x. *)
Inductive desc (r : robot) (x : nat) : nat -> Prop :=
| d_self : desc r x x
| d_step : forall p z, desc r x p -> In z (kids r p) -> desc r x z.
(** The nodes form a forest, and the root has no parent. *)
Record tree (r : robot) : Prop := {
  t_links : forall p c, In c (kids r p) <-> exists n, node_at r c = Some n /\ n_parent n = Some p;
  t_once : forall p, NoDup (kids r p);
  t_root : exists n, node_at r (root r) = Some n /\ n_parent n = None;
  t_acyclic : forall x c, In c (kids r x) -> ~ desc r c x }.
(** Nodes that differ at most in the pose; in the pose and the joint. *)
Definition but_pose (n n' : node) : Prop := with_pose pid n = with_pose pid n'.
Definition but_joint (n n' : node) : Prop := with_joint (Joint 0 0 false false 0) (with_pose pid n) = with_joint (Joint 0 0 false false 0) (with_pose pid n').
Definition same_nodes (rel : node -> node -> Prop) (r r' : robot) : Prop :=
  root r' = root r /\ forall x, match node_at r x, node_at r' x with Some n, Some n' => rel n n' | None, None => True | _, _ => False end.
(** The joint values of a robot after a list of requests: the last request for a node counts. *)
Definition joint_after (r : robot) (qs : list (nat * R)) (x : nat) (j : joint) : Prop :=
  exists n, node_at r x = Some n /\
    ((~ In x (map fst qs) /\ j = n_joint n) \/
     exists l1 l2 q j0, qs = l1 ++ (x, q) :: l2 /\ ~ In x (map fst l2) /\ set_value j0 q = Some j /\
       limit_lo j0 = limit_lo (n_joint n) /\ limit_hi j0 = limit_hi (n_joint n) /\ limitless j0 = limitless (n_joint n) /\ enforce j0 = enforce (n_joint n)).

(** What a singular value decomposition returns, for rotation matrices. *)
Definition is_svd (svd : mat3 -> mat3 * vec3 * mat3) : Prop := forall m, rotation m -> let '(u, s, v) := svd m in
  mmul u (mtrans u) = mid /\ mmul (mtrans u) u = mid /\ mmul v (mtrans v) = mid /\ mmul (mtrans v) v = mid /\
  0 <= vx s /\ 0 <= vy s /\ 0 <= vz s /\ m = mmul (mmul u (Mat (vx s) 0 0 0 (vy s) 0 0 0 (vz s))) (mtrans v).
(** Propagated joint values go to nodes of the tree (or to none). *)
Definition prop_inside (r : robot) : Prop := forall x n y f, node_at r x = Some n -> In (y, f) (n_prop n) -> node_at r y = None \/ desc r (root r) y.
(** Propagation does not run in circles: it goes down in some order of the nodes. *)
Definition prop_falls (r : robot) (rank : nat -> nat) : Prop := forall x n y f, node_at r x = Some n -> In (y, f) (n_prop n) -> node_at r y = None \/ (rank y < rank x)%nat.
