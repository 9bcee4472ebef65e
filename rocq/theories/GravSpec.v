(** Vocabulary for the torques against gravity. *)
From Coq Require Import Reals List Bool Arith.
From Verif Require Import QuatModel QuatSpec RpyModel JointModel KinModel KinSpec JacSpec FacSpec.
Import ListNotations.
Open Scope R_scope.

(** The robot may have moved since: nodes, links and kinds are the same. *)
Definition alike (r r' : robot) : Prop := same_nodes (fun n m => n_children n = n_children m /\ n_kind n = n_kind m) r r'.
(** The bodies that the joint [x] carries: those of the set at [x] or below, each once. *)
Definition carried (r : robot) (bodies : list nat) (x : nat) (l : list nat) : Prop :=
  NoDup l /\ forall y, In y l <-> In y bodies /\ desc r x y /\ exists n, node_at r y = Some n /\ proper n.
(** Where forward kinematics puts the point [v] of the node [y]. *)
Definition point_at (r : robot) (y : nat) (v p : vec3) : Prop := exists g, fk r y g /\ p = vadd (mapply (prot g) v) (ppos g).
(** The moment, in Nm, of the weight of [m] kg at [p] about the line through [o] along [axis], in mm. *)
Definition moment (o axis p : vec3) (m : R) : R := vdot (vcross (vscale (1 / 1000) (vsub p o)) (Vec 0 0 (- (981 / 100) * m))) axis.
(** The sum of the moments of all bodies that [j] carries about its axis, with the sign changed. *)
Definition torque_of (r : robot) (mass : nat -> R) (com : nat -> vec3) (bodies : list nat) (j : nat) (t : R) : Prop :=
  exists n a g l at_ , node_at r j = Some n /\ n_kind n = Revolute a /\ fk r j g /\ carried r bodies j l /\
    (forall y, In y l -> point_at r y (com y) (at_ y)) /\
    t = - total (fun y => moment (ppos g) (mapply (prot g) a) (at_ y) (mass y)) l.
(** The bodies and joints of the sets are robot nodes of the tree. *)
Definition in_tree (r : robot) (l : list nat) : Prop := forall y, In y l -> part r y.
(** Children of a node have different names. *)
Definition names_apart (r : robot) (name : nat -> nat) : Prop := forall p, NoDup (map name (kids r p)).
(** The energy, in J, of the bodies in the field of gravity, when [height y] mm is the height of the center of mass of [y]. *)
Definition energy (mass : nat -> R) (height : nat -> R) (l : list nat) : R := total (fun y => 981 / 100 * mass y * (height y / 1000)) l.
