(** Model of the joint value functions of VirtualRobot/Nodes/RobotNode.cpp over the real numbers ([M_PI] is pi, rounding is left out;
    for what rounding does to the loops see JointFloat.v). *)
From Coq Require Import Reals ZArith.
Open Scope R_scope.

(** The members of a [RobotNode] that play a part. *)
Record joint := Joint { limit_lo : R; limit_hi : R; limitless : bool; enforce : bool; value : R }.
Definition with_value (j : joint) (q : R) : joint := Joint (limit_lo j) (limit_hi j) (limitless j) (enforce j) q.

Definition two_pi : R := 2 * PI.
(** Rounding towards zero, and C's [fmod]. *)
Definition rtrunc (x : R) : Z := if Rle_dec 0 x then Int_part x else (- Int_part (- x))%Z.
Definition fmod (x m : R) : R := x - IZR (rtrunc (x / m)) * m.

(** [while (q > hi) q -= 2 * M_PI]; [None] if [fuel] rounds do not suffice. *)
Fixpoint lower (fuel : nat) (hi q : R) : option R :=
  if Rlt_dec hi q then match fuel with O => None | S f => lower f hi (q - two_pi) end else Some q.
(** [while (q < lo) q += 2 * M_PI]. *)
Fixpoint raise (fuel : nat) (lo q : R) : option R :=
  if Rlt_dec q lo then match fuel with O => None | S f => raise f lo (q + two_pi) end else Some q.
(** A number of rounds for a distance. *)
Definition rounds (d : R) : nat := Z.to_nat (up (d / two_pi)).

(** [setJointValueNotInitialized], RobotNode.cpp:154-177 (infinities and NaN, which it asserts against, are no real numbers). *)
Definition set_value_not_initialized (j : joint) (q : R) : option joint :=
  let lo := limit_lo j in let hi := limit_hi j in
  if limitless j then
    match lower (rounds (q - hi)) hi q with
    | None => None
    | Some q => match raise (rounds (lo - q)) lo q with None => None | Some q => Some (with_value j q) end
    end
  else
    let q := if Rlt_dec q lo then lo else q in
    let q := if Rlt_dec hi q then hi else q in
    Some (with_value j q).

(** [setJointValueNoUpdate], RobotNode.cpp:178-212. *)
Definition set_value (j : joint) (q : R) : option joint :=
  let lo := limit_lo j in let hi := limit_hi j in
  if limitless j then
    let q := if Rlt_dec hi q then fmod q two_pi else q in
    match lower (rounds (q - hi)) hi q with
    | None => None
    | Some q =>
        let q := if Rlt_dec q lo then - fmod (Rabs q) two_pi else q in
        match raise (rounds (lo - q)) lo q with None => None | Some q => Some (with_value j q) end
    end
  else if enforce j then
    let q := if Rlt_dec q lo then lo else q in
    let q := if Rlt_dec hi q then hi else q in
    Some (with_value j q)
  else Some (with_value j q).

(** [(delta > 0) - (delta < 0)]. *)
Definition signum (d : R) : R := (if Rlt_dec 0 d then 1 else 0) - (if Rlt_dec d 0 then 1 else 0).
(** [getDelta], RobotNode.cpp:619-646. *)
Definition get_delta (j : joint) (target : R) : R :=
  if andb (negb (limitless j)) (if Rlt_dec target (limit_lo j) then true else if Rlt_dec (limit_hi j) target then true else false) then 0
  else
    let delta := target - value j in
    if andb (limitless j) (if Rlt_dec PI (Rabs delta) then true else false) then (-1) * signum delta * (two_pi - Rabs delta) else delta.
