(** Model of the torques against gravity: VirtualRobot/Tools/Gravity.cpp, on the kinematic tree of KinModel.  Over the real numbers
    (rounding is left out). *)
From Coq Require Import Reals List Bool Arith.
From Verif Require Import QuatModel QuatSpec RpyModel JointModel KinModel PlaneModel JacModel ChnModel.
Import ListNotations.
Open Scope R_scope.

(** GravityData, Gravity.h 46-58.  The torque, which is written by every computation, is kept apart, by the node: there is one record for a
    node (the nodes form a tree).  The children are a map from names; names are numbers in the order of the names. *)
Inductive gdata := GData (g_node : nat) (g_children : list (nat * gdata)) (g_mass : R) (g_torque g_com : bool).
Definition g_node (d : gdata) : nat := let '(GData x _ _ _ _) := d in x.
Definition g_mass (d : gdata) : R := let '(GData _ _ m _ _) := d in m.
(** children[name] = data: the entry with that name is replaced. *)
Fixpoint assign (k : nat) (d : gdata) (l : list (nat * gdata)) : list (nat * gdata) :=
  match l with
  | [] => [(k, d)]
  | (j, e) :: l => if Nat.ltb j k then (j, e) :: assign k d l else if Nat.eqb j k then (k, d) :: l else (k, d) :: (j, e) :: l
  end.

(** dataVec, Gravity.cpp 121-126: the entries of the joints that are this node. *)
Definition enter (mine : bool) (x : nat) (joints : list nat) (dv : list (option nat)) : list (option nat) :=
  map (fun jo => if mine && Nat.eqb x (fst jo) then Some x else snd jo) (combine joints dv).
(** create and init, 107-151.  A node that is no robot node is equal to no joint and no body.  None: the calls go deeper than the fuel. *)
Fixpoint create (fuel : nat) (r : robot) (mass : nat -> R) (name : nat -> nat) (joints bodies : list nat) (x : nat) (dv : list (option nat))
  : option (gdata * list (option nat)) :=
  match fuel with
  | O => None
  | S fuel =>
      let mine := match node_at r x with Some n => is_robot_node n | None => false end in
      let tq := mine && existsb (Nat.eqb x) joints in
      let cm := mine && existsb (Nat.eqb x) bodies in
      (fix loop (l : list nat) (ch : list (nat * gdata)) (m : R) (dv : list (option nat)) : option (gdata * list (option nat)) :=
         match l with
         | [] => Some (GData x ch m tq cm, dv)
         | c :: l => match create fuel r mass name joints bodies c dv with
                     | None => None
                     | Some (d, dv) => loop l (assign (name c) d ch) (m + g_mass d) dv
                     end
         end) (kids r x) [] (if cm then mass x else 0) (enter mine x joints dv)
  end.

(** The constructor, 10-42: exceptions for an empty set of joints, for joints that are not revolute, for bodies without mass (the pointers
    are taken to be set). *)
Record gravity := Gravity { gr_root : gdata; gr_vec : list (option nat) }.
Definition is_revolute (r : robot) (x : nat) : bool := match node_at r x with Some n => match n_kind n with Revolute _ => true | _ => false end | None => false end.
Definition make_gravity (fuel : nat) (r : robot) (mass : nat -> R) (name : nat -> nat) (joints bodies : list nat) : outcome gravity :=
  if Nat.eqb (length joints) 0 then Thrown
  else if existsb (fun x => negb (is_revolute r x)) joints then Thrown
  else if existsb (fun x => if Rle_dec (mass x) 0 then true else false) bodies then Thrown
  else match create fuel r mass name joints bodies (root r) (map (fun _ => None) joints) with
       | None => Deep
       | Some (d, dv) => Done (Gravity d dv)
       end.

Definition above0 (x : R) : bool := if Rlt_dec 0 x then true else false.
(** The torque of a joint from the center of mass of all it carries, 178-190.  The node is revolute, as the constructor has asked (for
    others: 0). *)
Definition torque_from (r : robot) (x : nat) (c : vec3) (m : R) : R :=
  match node_at r x with
  | Some n => match n_kind n with
              | Revolute a =>
                  let axis := direction_in None (n_pose n) a in
                  let on_axis := nearest_on_line (mk_line (ppos (n_pose n)) axis) c in
                  let arm := vscale (1 / 1000) (vsub c on_axis) in
                  vdot (vcross arm (Vec 0 0 (- (981 / 100) * m))) axis * -1
              | _ => 0
              end
  | None => 0
  end.
(** computeCoMAndTorque, 153-192: the center of mass, and the torques, by node.  validationSum, which is not read, is left out. *)
Fixpoint compute (r : robot) (mass : nat -> R) (com : nat -> vec3) (d : gdata) (st : nat -> R) : vec3 * (nat -> R) :=
  let '(GData x ch m tq cm) := d in
  let own := if cm && above0 m && above0 (mass x) then vadd (Vec 0 0 0) (vscale (1 / m) (vscale (mass x) (com_global r com x))) else Vec 0 0 0 in
  let '(c, st) :=
    (fix loop (ch : list (nat * gdata)) (c : vec3) (st : nat -> R) : vec3 * (nat -> R) :=
       match ch with
       | [] => (c, st)
       | (_, d) :: ch => let '(cc, st) := compute r mass com d st in
                         loop ch (if above0 m && above0 (g_mass d) then vadd c (vscale (1 / m) (vscale (g_mass d) cc)) else c) st
       end) ch own st in
  (c, if tq then fun y => if Nat.eqb y x then torque_from r x c m else st y else st).

(** computeGravityTorque, 51-60, after any earlier calls: the torques are kept in the records ([st]).  An entry of the vector which was never
    set is a null pointer. *)
Fixpoint read_all (dv : list (option nat)) (st : nat -> R) : outcome (list R) :=
  match dv with
  | [] => Done []
  | None :: _ => Undefined
  | Some x :: dv => match read_all dv st with Done l => Done (st x :: l) | o => o end
  end.
Definition gravity_torque (r : robot) (mass : nat -> R) (com : nat -> vec3) (g : gravity) (st : nat -> R) : outcome (list R) * (nat -> R) :=
  let st := snd (compute r mass com (gr_root g) st) in (read_all (gr_vec g) st, st).
(** The form that returns a map by names, 62-73. *)
Definition gravity_torques (name : nat -> nat) (joints : list nat) (ts : list R) : nat -> option R :=
  fold_left (fun m jt k => if Nat.eqb k (name (fst jt)) then Some (snd jt) else m k) (combine joints ts) (fun _ => None).
