(** Model of GraspPlanning/ApproachMovementGenerator.cpp and ApproachMovementSurfaceNormal.cpp: poses from which a hand approaches an
    object.  Over the real numbers.  The random numbers, the collision checker, the configurations of the hand and the singular value
    decomposition are arguments.  Printing is left out. *)
From Coq Require Import Reals List Bool Arith.
From Verif Require Import QuatModel QuatSpec RpyModel JointModel KinModel.
Import ListNotations.
Open Scope R_scope.

(** The cloned hand: a robot (its global pose is [base]) with a configuration of the fingers.  [gcp_off] is the pose of the grasp centre
    point in the frame of the robot, [shape_tcp] that of the TCP of the grasp preshape if there is one, [open_conf] the configuration
    after openHand, ApproachMovementGenerator.cpp:129-142 (setPreshape or openActors). *)
Record eef (J : Type) := Eef { gcp_off : J -> pose; shape_tcp : option (J -> pose); open_conf : J -> J }.
Record hand (J : Type) := Hand { base : pose; conf : J }.
Arguments Eef {J}. Arguments gcp_off {J}. Arguments shape_tcp {J}. Arguments open_conf {J}.
Arguments Hand {J}. Arguments base {J}. Arguments conf {J}.

Section Hand.
Context {J : Type} (svd : mat3 -> mat3 * vec3 * mat3) (e : eef J).

(** The node that is placed: ApproachMovementSurfaceNormal.cpp:221-240 (the same as ApproachMovementGenerator.cpp:55-66, 82-90). *)
Definition tcp_off : J -> pose := match shape_tcp e with Some f => f | None => gcp_off e end.
(** [getEEFPose]. *)
Definition eef_pose (h : hand J) : pose := pmul (base h) (tcp_off (conf h)).
(** [setEEFPose] with Robot::setGlobalPoseForRobotNode, Robot.cpp:829-871. *)
Definition set_eef_pose (g : pose) (h : hand J) : hand J :=
  let at_now := eef_pose h in
  let to := if is_identity (prot g) then Pose mid (vadd (ppos (base h)) (vsub (ppos g) (ppos at_now)))
            else let tf := pmul (pmul g (inverted at_now)) (base h) in Pose (orthogonalize svd (prot tf)) (ppos tf) in
  Hand to (conf h).
(** [updateEEFPose(deltaPosition)], ApproachMovementGenerator.cpp:68-73: it starts from the pose of the grasp centre point. *)
Definition update_eef_pose (delta : vec3) (h : hand J) : hand J :=
  let g := pmul (base h) (gcp_off e (conf h)) in
  set_eef_pose (Pose (prot g) (vadd (ppos g) delta)) h.
(** [openHand]. *)
Definition open_hand (h : hand J) : hand J := Hand (base h) (open_conf e (conf h)).

(** The object: vertices and faces of its triangle mesh, in the coordinates of the mesh. *)
Record face := Face { f1 : nat; f2 : nat; f3 : nat; f_normal : vec3 }.
Record mesh := Mesh { verts : list vec3; faces : list face }.
(** The generator: the flag and the largest retreat.  Constructor, ApproachMovementSurfaceNormal.cpp:21-34: the flag is initialised in
    ApproachMovementSurfaceNormal.h:90 and not assigned again. *)
Record generator := Generator { use_areas : bool; max_retreat : R }.
Definition create (max_retreat : R) (use_face_areas : bool) : generator := Generator false max_retreat.

(** [MathTools::randomPointInTriangle], MathTools.cpp:959-966, with the two random numbers. *)
Definition random_point (r0 r1 : R) (a b c : vec3) : vec3 :=
  let b0 := r0 in let b1 := (1 - b0) * r1 in let b2 := 1 - b0 - b1 in
  vadd (vadd (vscale b0 a) (vscale b1 b)) (vscale b2 c).
(** [getPositionOnObject], ApproachMovementSurfaceNormal.cpp:39-70.  [uniform] and [by_area] are what the two distributions draw. *)
Inductive outcome := Undefined | Nothing | Position (p d : vec3).
Definition position_on_object (m : mesh) (gen : generator) (uniform by_area : nat) (r0 r1 : R) : outcome :=
  match faces m with
  | [] => Nothing
  | _ =>
      match nth_error (faces m) (if use_areas gen then by_area else uniform) with
      | None => Undefined
      | Some f =>
          match nth_error (verts m) (f1 f), nth_error (verts m) (f2 f), nth_error (verts m) (f3 f) with
          | Some a, Some b, Some c =>
              let n := f_normal f in
              Position (random_point r0 r1 a b c) (if Rlt_dec (1 / 10 ^ 6) (Rabs (vdot n n - 1)) then vnormalize n else n)
          | _, _, _ => Undefined
          end
      end
  end.

(** [setEEFToApproachPose], ApproachMovementSurfaceNormal.cpp:118-200.  [rnd] are the vectors that setRandom draws one after the other.
    The first loop (137-140) ends with the first vector that is not tiny; None when the fuel runs out. *)
Fixpoint long_vector (fuel : nat) (rnd : nat -> vec3) (k : nat) (z : vec3) : option (vec3 * nat) :=
  match fuel with
  | O => None
  | S fuel => if Rlt_dec (vnorm z) (1 / 10 ^ 10) then long_vector fuel rnd (S k) (rnd k) else Some (z, k)
  end.
(** One random direction, 163-190: x and y if it is of use. *)
Definition frame_of (y z : vec3) : option (vec3 * vec3) :=
  if Rlt_dec (vnorm y) (1 / 10 ^ 8) then None
  else
    let x := vcross (vnormalize y) z in
    if Rlt_dec (vnorm x) (1 / 10 ^ 8) then None
    else
      let x := vnormalize x in
      let y := vcross z x in
      if Rlt_dec (vnorm y) (1 / 10 ^ 8) then None else Some (x, vnormalize y).
Fixpoint frame_loop (loops : nat) (rnd : nat -> vec3) (k : nat) (z : vec3) : option (vec3 * vec3) :=
  match loops with
  | O => None
  | S loops => match frame_of (rnd k) z with Some xy => Some xy | None => frame_loop loops rnd (S k) z end
  end.
Definition set_to_approach (fuel : nat) (rnd : nat -> vec3) (p dir : vec3) (h : hand J) : option (hand J * bool) :=
  match long_vector fuel rnd 0 dir with
  | None => None
  | Some (z, k) =>
      let z := vscale (-1) (vnormalize z) in
      match frame_loop 1000 rnd k z with
      | None => Some (h, false)
      | Some (x, y) => Some (set_eef_pose (Pose (Mat (vx x) (vx y) (vx z) (vy x) (vy y) (vy z) (vz x) (vz y) (vz z)) p) h, true)
      end
  end.

(** [moveEEFAway], ApproachMovementSurfaceNormal.cpp:202-219. *)
Fixpoint move_away (collides : hand J -> bool) (loops : nat) (delta : vec3) (h : hand J) : hand J :=
  match loops with
  | O => h
  | S loops => if collides h then move_away collides loops delta (update_eef_pose delta h) else h
  end.

(** [createNewApproachPose], ApproachMovementSurfaceNormal.cpp:72-116: the pose, and the hand and the approach direction afterwards (None:
    the direction is kept).  [original_collides] is the answer for the hand the clone was made of, which is the one checked at 103. *)
Definition create_pose (collides : hand J -> bool) (original_collides : bool) (m : mesh) (gen : generator) (uniform by_area : nat) (r0 r1 : R)
    (fuel : nat) (rnd : nat -> vec3) (distance : R) (h : hand J) : option (pose * hand J * option vec3) :=
  let before := eef_pose h in
  let h := open_hand h in
  match position_on_object m gen uniform by_area r0 r1 with
  | Undefined => None
  | Nothing => Some (before, h, None)
  | Position p d =>
      match set_to_approach fuel rnd p d h with
      | None => None
      | Some (h, _) =>
          let h := move_away collides 1000 (vscale 1 d) h in
          let result := eef_pose h in
          let '(result, h) :=
            if Rlt_dec 0 (max_retreat gen) then
              let h := update_eef_pose (vscale distance d) h in
              (if original_collides then result else eef_pose h, h)
            else (result, h) in
          Some (result, set_eef_pose before h, Some d)
      end
  end.
(** [setEEFToRandomApproachPose], ApproachMovementGenerator.cpp:92-96. *)
Definition set_random (collides : hand J -> bool) (original_collides : bool) (m : mesh) (gen : generator) (uniform by_area : nat) (r0 r1 : R)
    (fuel : nat) (rnd : nat -> vec3) (distance : R) (h : hand J) : option (hand J) :=
  match create_pose collides original_collides m gen uniform by_area r0 r1 fuel rnd distance h with
  | None => None
  | Some (g, h, _) => Some (set_eef_pose g h)
  end.
End Hand.
