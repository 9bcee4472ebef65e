(** Model of helpers of VirtualRobot/math: Helpers.cpp (angles, interpolation, ranges, averages, limits), Grid3D.cpp, Array3D.h, GridCacheFloat3.cpp and WeightedAverage.cpp.
    Over the real numbers, except that [shift_angle] takes the rounding of an assignment as an argument. *)
From Coq Require Import Reals List Bool Arith ZArith.
From Verif Require Import QuatModel KinModel.
Import ListNotations.
Open Scope R_scope.

(** [Helpers::ShiftAngle0_2PI], Helpers.cpp:49-55: the first and the second loop.  [rnd] rounds the sum to float, [tp] is 2 * M_PI and [tpf] is 2 * M_PI_F.  None: the fuel does not suffice. *)
Fixpoint shift_up (rnd : R -> R) (tp : R) (fuel : nat) (a : R) : option R :=
  if Rlt_dec a 0 then match fuel with O => None | S f => shift_up rnd tp f (rnd (a + tp)) end else Some a.
Fixpoint shift_down (rnd : R -> R) (tp tpf : R) (fuel : nat) (a : R) : option R :=
  if Rlt_dec tpf a then match fuel with O => None | S f => shift_down rnd tp tpf f (rnd (a - tp)) end else Some a.
Definition shift_angle (rnd : R -> R) (tp tpf : R) (fuel : nat) (a : R) : option R :=
  match shift_up rnd tp fuel a with Some b => shift_down rnd tp tpf fuel b | None => None end.
(** Without rounding. *)
Definition shift_0_2pi (fuel : nat) (a : R) : option R := shift_angle (fun x => x) (2 * PI) (2 * PI) fuel a.
(** [Helpers::AngleModPI], Helpers.cpp:57-60. *)
Definition angle_mod (fuel : nat) (a : R) : option R := match shift_0_2pi fuel (a + PI) with Some b => Some (b - PI) | None => None end.
(** The constants M_PI (double) and static_cast<float>(M_PI), Helpers.cpp:33. *)
Definition m_pi : R := 884279719003555 / 281474976710656.
Definition m_pi_f : R := 13176795 / 4194304.

(** [Helpers::Clamp], Helpers.cpp:74-79. *)
Definition clamp (mn mx v : R) : R := if Rlt_dec v mn then mn else if Rlt_dec mx v then mx else v.
(** [Helpers::Lerp], Helpers.cpp:81-84 and 86-91, [Helpers::ILerp], 103-106. *)
Definition lerp (a b f : R) : R := a * (1 - f) + b * f.
Definition lerp_vec (a b : vec3) (f : R) : vec3 := Vec (lerp (vx a) (vx b) f) (lerp (vy a) (vy b) f) (lerp (vz a) (vz b) f).
Definition ilerp (a b f : R) : R := (f - a) / (b - a).
(** [Helpers::Lerp] on an integer range, Helpers.cpp:108-112; the differences of ints are assumed not to overflow. *)
Definition lerp_int (a b : R) (mn mx v : Z) : R := if Z.eqb mn mx then a else lerp a b (IZR (v - mn) / IZR (mx - mn)).
(** [Helpers::Sign], Helpers.cpp:119-122. *)
Definition sign (x : R) : Z := if Rlt_dec 0 x then 1 else if Req_EM_T x 0 then 0 else -1.
(** [Helpers::FloatRange], Helpers.cpp:130-137; None is a NaN (0 / 0 for no steps).  A negative number of steps gives an empty list. *)
Definition float_range (start stop : R) (steps : Z) : list (option R) :=
  map (fun i => if Z.eqb steps 0 then None else Some (lerp start stop (INR i / IZR steps))) (seq 0 (Z.to_nat (steps + 1))).
(** [Helpers::VectorRange], Helpers.cpp:145-159. *)
Definition vector_range (xs ys zs : list R) : list vec3 := flat_map (fun x => flat_map (fun y => map (fun z => Vec x y z) zs) ys) xs.
(** [Helpers::Average], Helpers.cpp:181-191. *)
Definition average (l : list vec3) : vec3 := match l with [] => Vec 0 0 0 | _ => vscale (/ INR (length l)) (fold_left vadd l (Vec 0 0 0)) end.

(** [Helpers::LimitVectorLength], Helpers.cpp:331-347: throws, divides by zero, or gives a vector. *)
Inductive limited := Throws | NotFinite | Limited (v : list R).
Definition limit_scale (vec max_len : list R) : R :=
  fold_left (fun scale i => let j := if Nat.eqb (length max_len) 1 then O else i in
    let x := Rabs (nth i vec 0) in let m := nth j max_len 0 in
    if Rlt_dec m x then (if Rle_dec 0 m then Rmin scale (m / x) else scale) else scale) (seq 0 (length vec)) 1.
Definition limit_vector (vec max_len : list R) : limited :=
  if negb (Nat.eqb (length max_len) 1) && negb (Nat.eqb (length max_len) (length vec)) then Throws
  else let scale := limit_scale vec max_len in if Req_EM_T scale 0 then NotFinite else Limited (map (fun x => x / scale) vec).

(** [Grid3D], Grid3D.cpp:45-65. *)
Record grid := Grid { g_p1 : vec3; g_p2 : vec3; g_x : Z; g_y : Z; g_z : Z }.
Definition grid_get (g : grid) (x y z : Z) : vec3 :=
  Vec (lerp_int (vx (g_p1 g)) (vx (g_p2 g)) 0 (g_x g) x) (lerp_int (vy (g_p1 g)) (vy (g_p2 g)) 0 (g_y g) y) (lerp_int (vz (g_p1 g)) (vz (g_p2 g)) 0 (g_z g) z).
(** The loop [for (int x = 0; x <= n; x++)]. *)
Definition upto (n : Z) : list Z := map Z.of_nat (seq 0 (Z.to_nat (n + 1))).
Definition grid_points (g : grid) : list vec3 := flat_map (fun x => flat_map (fun y => map (fun z => grid_get g x y z) (upto (g_z g))) (upto (g_y g))) (upto (g_x g)).

(** [Array3D]: the index of a cell, Array3D.h:49-54; at() throws outside (None), negative indices too as they become huge. *)
Definition cell (size x y z : Z) : option nat :=
  let i := (x + size * y + size * size * z)%Z in if (Z.leb 0 i && Z.ltb i (size * size * size))%Z then Some (Z.to_nat i) else None.
(** [GridCacheFloat3]: the array of values together with the array of flags, one optional value per cell, and the calls of getData so far, newest first. *)
Record cache := Cache { c_size : Z; c_data : list (option R); c_calls : list (Z * Z * Z) }.
Definition new_cache (size : Z) : cache := Cache size (repeat None (Z.to_nat (size * size * size))) [].
(** [GridCacheFloat3::Get], GridCacheFloat3.cpp:50-63. *)
Definition cache_get (get_data : Z -> Z -> Z -> R) (c : cache) (x y z : Z) : option (R * cache) :=
  match cell (c_size c) x y z with
  | None => None
  | Some i =>
    match nth_error (c_data c) i with
    | None => None
    | Some (Some v) => Some (v, c)
    | Some None => let v := get_data x y z in Some (v, Cache (c_size c) (KinModel.update (c_data c) i (fun _ => Some v)) ((x, y, z) :: c_calls c))
    end
  end.
(** A sequence of calls, with the answers in order. *)
Fixpoint cache_run (get_data : Z -> Z -> Z -> R) (c : cache) (l : list (Z * Z * Z)) : option (list R * cache) :=
  match l with
  | [] => Some ([], c)
  | (x, y, z) :: l => match cache_get get_data c x y z with
    | Some (v, c') => match cache_run get_data c' l with Some (vs, c'') => Some (v :: vs, c'') | None => None end
    | None => None end
  end.

(** [WeightedFloatAverage] (and each component of [WeightedVec3Average]), WeightedAverage.cpp:28-43: the two sums after adding values with weights; None: division by zero. *)
Definition weighted_add (s : R * R) (vw : R * R) : R * R := (fst s + fst vw * snd vw, snd s + snd vw).
Definition weighted_average (l : list (R * R)) : option R :=
  let '(sum, wsum) := fold_left weighted_add l (0, 0) in if Req_EM_T wsum 0 then None else Some (sum / wsum).
