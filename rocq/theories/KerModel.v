(** Model of the kernels and Gaussian implicit surfaces of VirtualRobot/math: Kernels.cpp, GaussianImplicitSurface3D.cpp and GaussianImplicitSurface3DNormals.cpp.
    Over the real numbers. *)
From Coq Require Import Reals List Bool Arith.
From Verif Require Import QuatModel KinModel KerSpec.
Import ListNotations.
Open Scope R_scope.

(** The virtual functions of [KernelWithDerivatives]: the value of two points and R; the derivatives of x, y, z, r and R, where None means that it throws. *)
Record kernel := Kernel {
  k_val : vec3 -> vec3 -> R -> R;
  k_dx : R -> R -> R -> R -> R -> option R;
  k_ddx : R -> R -> R -> R -> R -> option R;
  k_dxdy : R -> R -> R -> R -> R -> option R }.
(** [KernelWithDerivatives::swap], Kernels.cpp:78-87; None: throws. *)
Definition swap_axes (x y z : R) (i : nat) : option (R * R * R) :=
  match i with O => Some (x, y, z) | S O => Some (y, x, z) | S (S O) => Some (z, y, x) | _ => None end.
Definition oneg (o : option R) : option R := match o with Some v => Some (- v) | None => None end.
(** [Kernel_di], [Kernel_dj], [Kernel_didj], Kernels.cpp:37-76. *)
Definition k_di (k : kernel) (p1 p2 : vec3) (R0 : R) (i : nat) : option R :=
  let d := vsub p1 p2 in
  match swap_axes (vx d) (vy d) (vz d) i with Some (x, y, z) => k_dx k x y z (vnorm d) R0 | None => None end.
Definition k_dj (k : kernel) (p1 p2 : vec3) (R0 : R) (j : nat) : option R :=
  let d := vsub p1 p2 in
  match swap_axes (vx d) (vy d) (vz d) j with Some (x, y, z) => oneg (k_dx k x y z (vnorm d) R0) | None => None end.
Definition k_didj (k : kernel) (p1 p2 : vec3) (R0 : R) (i j : nat) : option R :=
  let d := vsub p1 p2 in
  if Nat.eqb i j then match swap_axes (vx d) (vy d) (vz d) i with Some (x, y, z) => oneg (k_ddx k x y z (vnorm d) R0) | None => None end
  else
    let a := [vx d; vy d; vz d] in
    match nth_error a i, nth_error a j with
    | Some x, Some y => match nth_error a (3 - i - j) with Some z => oneg (k_dxdy k x y z (vnorm d) R0) | None => None end
    | _, _ => None
    end.
(** [KernelWithDerivatives::Kernel], Kernels.cpp:29-35. *)
Definition k_full (k : kernel) (p1 p2 : vec3) (R0 : R) (i j : nat) : option R :=
  match i, j with
  | O, O => Some (k_val k p1 p2 R0)
  | O, S b => k_dj k p1 p2 R0 b
  | S a, O => k_di k p1 p2 R0 a
  | S a, S b => k_didj k p1 p2 R0 a b
  end.
(** [GaussianKernel], Kernels.cpp:89-112. *)
Definition gaussian (len : R) : kernel :=
  Kernel (fun p1 p2 _ => let d := vsub p1 p2 in exp (- (vdot d d / (2 * len * len)))) (fun _ _ _ _ _ => None) (fun _ _ _ _ _ => None) (fun _ _ _ _ _ => None).
(** [WilliamsPlusKernel], Kernels.cpp:115-136. *)
Definition williams_plus : kernel :=
  Kernel (fun p1 p2 R0 => let r := vnorm (vsub p1 p2) in 2 * r * r * r + 3 * R0 * r * r + R0 * R0 * R0)
         (fun x _ _ r R0 => Some (6 * x * (r + R0)))
         (fun x _ _ r R0 => Some (if Req_EM_T r 0 then 6 * R0 else 6 * (R0 + r) + 6 * x * x / r))
         (fun x y _ r _ => Some (if Req_EM_T r 0 then 0 else 6 * x * y / r)).
(** [WilliamsMinusKernel], Kernels.cpp:138-159. *)
Definition williams_minus : kernel :=
  Kernel (fun p1 p2 R0 => let r := vnorm (vsub p1 p2) in 2 * r * r * r - 3 * R0 * r * r + R0 * R0 * R0)
         (fun x _ _ r R0 => Some (6 * x * (r - R0)))
         (fun x _ _ r R0 => Some (if Req_EM_T r 0 then 6 * R0 else -6 * (r - R0) + 6 * x * x / r))
         (fun x y _ r _ => Some (if Req_EM_T r 0 then 0 else -6 * x * y / r)).

(** The radius of all [Calculate]s, GaussianImplicitSurface3D.cpp:56-63: the root of the largest squared distance. *)
Definition squared_distance (p1 p2 : vec3) : R := let d := vsub p1 p2 in vdot d d.
Definition radius (points : list vec3) : R :=
  sqrt (fold_left (fun R0 p1 => fold_left (fun R0 p2 => Rmax R0 (squared_distance p1 p2)) points R0) points 0).

(** Matrices of Eigen as functions of the indices; [at_point] is std::vector::at for indices in range. *)
Definition at_point (points : list vec3) (i : nat) : vec3 := nth i points (Vec 0 0 0).
(** [GaussianImplicitSurface3D]: samples with value and noise; [CalculateCovariance], GaussianImplicitSurface3D.cpp:97-114. *)
Record sample := Sample { s_pos : vec3; s_value : R; s_noise : R }.
Definition points_of (l : list sample) : list vec3 := map s_pos l.
Definition covariance (k : kernel) (l : list sample) (R0 : R) (i j : nat) : R :=
  let p := at_point (points_of l) in
  (if i <=? j then k_val k (p i) (p j) R0 else k_val k (p j) (p i) R0) + (if Nat.eqb i j then nth i (map s_noise l) 0 * nth i (map s_noise l) 0 else 0).
(** [MatrixInvert], GaussianImplicitSurface3D.cpp:116-121: [inv] is the inverse computed by Eigen's QR decomposition. *)
Definition alpha (inv : nat -> nat -> R) (n : nat) (b : nat -> R) (i : nat) : R := sum_to n (fun j => inv i j * b j).
(** [Predict] and [GetVariance], GaussianImplicitSurface3D.cpp:74-95. *)
Definition cux (k : kernel) (l : list sample) (R0 : R) (pos : vec3) (i : nat) : R := k_val k pos (at_point (points_of l) i) R0.
Definition predict (k : kernel) (l : list sample) (inv : nat -> nat -> R) (pos : vec3) : R :=
  let n := length l in let R0 := radius (points_of l) in
  sum_to n (fun i => cux k l R0 pos i * alpha inv n (fun j => nth j (map s_value l) 0) i).
Definition variance (k : kernel) (l : list sample) (inv : nat -> nat -> R) (pos : vec3) : R :=
  let n := length l in let R0 := radius (points_of l) in
  k_val k pos pos R0 - sum_to n (fun i => cux k l R0 pos i * sum_to n (fun j => inv i j * cux k l R0 pos j)).

(** [GaussianImplicitSurface3DNormals]: contacts, i.e. positions with normals.  The kernel must have derivatives: [kd] is its value where it does not throw. *)
Record contact := Contact { c_pos : vec3; c_normal : vec3 }.
Definition kd (k : kernel) (p1 p2 : vec3) (R0 : R) (i j : nat) : R := match k_full k p1 p2 R0 i j with Some v => v | None => 0 end.
(** [CalculateCovariance], GaussianImplicitSurface3DNormals.cpp:100-118; the noise loop runs over the number of points, not of rows. *)
Definition n_covariance (k : kernel) (points : list vec3) (R0 noise normal_noise : R) (i j : nat) : R :=
  let p := at_point points in
  (if i <=? j then kd k (p (i / 4)) (p (j / 4)) R0 (i mod 4) (j mod 4) else kd k (p (j / 4)) (p (i / 4)) R0 (j mod 4) (i mod 4))%nat +
  (if Nat.eqb i j && (i <? length points)%nat then (if Nat.eqb (i mod 4) 0 then noise * noise else normal_noise * normal_noise) else 0).
(** [Calculate], GaussianImplicitSurface3DNormals.cpp:30-64: the stored samples have scaled normals, the values have the given normals. *)
Definition n_values (l : list contact) (i : nat) : R :=
  let c := nth (i / 4) l (Contact (Vec 0 0 0) (Vec 0 0 0)) in match (i mod 4)%nat with O => 0 | S a => coord a (c_normal c) end.
Definition n_stored (scale : R) (l : list contact) : list contact := map (fun c => Contact (c_pos c) (vscale scale (c_normal c))) l.
(** [getCux] and [Predict], GaussianImplicitSurface3DNormals.cpp:72-90. *)
Definition n_cux (k : kernel) (stored : list contact) (R0 : R) (pos : vec3) (i : nat) : R := kd k pos (at_point (map c_pos stored) (i / 4)) R0 0 (i mod 4).
Definition n_predict (k : kernel) (l : list contact) (scale : R) (inv : nat -> nat -> R) (pos : vec3) : R :=
  let n := (4 * length l)%nat in let R0 := radius (map c_pos l) in
  sum_to n (fun i => n_cux k (n_stored scale l) R0 pos i * alpha inv n (n_values l) i).
