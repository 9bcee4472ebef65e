(** Model of the mapping between poses and voxels in VirtualRobot/Workspace/WorkspaceRepresentation.cpp.  A local pose is the
    vector of its six coordinates as [matrix2Vector] gives them (the conversion between this vector and a matrix is left out),
    coordinates are rational numbers (rounding of [float] and overflow of [int] are left out). *)
From Coq Require Import List ZArith QArith Qabs Bool Arith.
From Verif Require Import GridModel.
Import ListNotations.
Open Scope Z_scope.

(** One dimension: [minBounds[i]], [maxBounds[i]], [spaceSize[i]], [numVoxels[i]] and the discretisation step of the dimension,
    WorkspaceRepresentation.h:468-481. *)
Record dim := Dim { d_lo : Q; d_hi : Q; d_size : Q; d_num : Z; d_step : Q }.

(** The loop of [initialize], WorkspaceRepresentation.cpp:1177-1193, for one dimension; the checks of the steps and bounds
    (lines 1134-1139) come first.  [None] is an exception. *)
Definition init_dim (lo hi step : Q) : option dim :=
  if Qle_bool step 0 then None
  else if Qle_bool hi lo then None
  else
    let n := trunc ((hi - lo) / step) + 1 in
    if n <=? 0 then None else Some (Dim lo hi (hi - lo) n step).
Fixpoint init_dims (bounds : list (Q * Q)) (steps : list Q) : option (list dim) :=
  match bounds, steps with
  | [], _ => Some []
  | (lo, hi) :: bounds, s :: steps =>
      match init_dim lo hi s, init_dims bounds steps with
      | Some d, Some ds => Some (d :: ds)
      | _, _ => None
      end
  | _, [] => None
  end.
(** [initialize]: three translational and three rotational dimensions. *)
Definition initialize (bounds : list (Q * Q)) (step_t step_r : Q) : option (list dim) :=
  if (length bounds =? 6)%nat then init_dims bounds [step_t; step_t; step_t; step_r; step_r; step_r] else None.

(** One turn of the loop of [getVoxelFromPose], WorkspaceRepresentation.cpp:805-830. *)
Definition voxel_dim (d : dim) (x : Q) : option Z :=
  let pos := ((x - d_lo d) / d_size d * inject_Z (d_num d))%Q in
  let a := trunc pos in
  if a <? 0 then
    if (a =? -1) && negb (Qle_bool (1 # 2) (Qabs (inject_Z a - pos))) then Some 0 else None
  else if d_num d <=? a then
    if (a =? d_num d) && negb (Qle_bool (1 # 2) (Qabs (inject_Z a - pos))) then Some (d_num d - 1) else None
  else Some a.
(** One turn of the loop of [getVoxelFromPosition], WorkspaceRepresentation.cpp:848-862. *)
Definition position_dim (d : dim) (x : Q) : option Z :=
  let a := trunc ((x - d_lo d) / d_size d * inject_Z (d_num d)) in
  if a <? 0 then None else if d_num d <=? a then None else Some a.

Fixpoint each {A B C} (f : A -> B -> option C) (l : list A) (m : list B) : option (list C) :=
  match l, m with
  | [], [] => Some []
  | a :: l, b :: m =>
      match f a b with
      | None => None
      | Some c => match each f l m with None => None | Some r => Some (c :: r) end
      end
  | _, _ => None
  end.
(** [getVoxelFromPose], WorkspaceRepresentation.cpp:800-831: [None] is the result false. *)
Definition voxel_from_pose (ds : list dim) (x : list Q) : option (list Z) := each voxel_dim ds x.
(** [getVoxelFromPosition], WorkspaceRepresentation.cpp:844-864. *)
Definition voxel_from_position (ds : list dim) (x : list Q) : option (list Z) := each position_dim (firstn 3 ds) x.

(** [getVoxelSize], WorkspaceRepresentation.cpp:680-693: [None] is a read behind the six entries. *)
Definition voxel_size (ds : list dim) (i : Z) : option Q :=
  if (i <? 0) || (6 <? i) then Some 0%Q
  else match nth_error ds (Z.to_nat i) with
       | None => None
       | Some d => Some (if d_num d <=? 0 then 0 else d_size d / inject_Z (d_num d))%Q
       end.
(** [getPoseFromVoxel(float[6])] up to the conversion into a matrix, WorkspaceRepresentation.cpp:1317-1324. *)
Definition pose_coord (ds : list dim) (i : nat) (v : Q) : option Q :=
  match nth_error ds i, voxel_size ds (Z.of_nat i) with
  | Some d, Some w => Some (d_lo d + v * w)%Q
  | _, _ => None
  end.
Fixpoint pose_loop (ds : list dim) (i : nat) (v : list Q) : option (list Q) :=
  match v with
  | [] => Some []
  | q :: v => match pose_coord ds i q, pose_loop ds (S i) v with Some x, Some r => Some (x :: r) | _, _ => None end
  end.
(** [getPoseFromVoxel(unsigned int[6], bool)], WorkspaceRepresentation.cpp:1228-1238. *)
Definition pose_from_voxel (ds : list dim) (v : list Z) : option (list Q) :=
  pose_loop ds 0 (map (fun k => inject_Z k + (1 # 2))%Q v).

(** One turn of the loop of the protected [getPoseFromVoxel(unsigned int[], float[])], WorkspaceRepresentation.cpp:1240-1263. *)
Definition local_dim (d : dim) (k : Z) : option Q :=
  if d_num d <=? k then None else Some (inject_Z k * d_size d / inject_Z (d_num d) + d_lo d + d_step d / 2)%Q.
Definition pose_from_voxel_local (ds : list dim) (v : list Z) : option (list Q) := each local_dim ds v.
