(** Model of VirtualRobot/math/Histogram.cpp.  Values are rational numbers (rounding is left out), counters and indices are 64 bit.  Where
    the code runs into undefined behaviour (conversion of NaN or of a number that does not fit, access beyond a vector) the result is None. *)
From Coq Require Import List ZArith QArith Qround Bool Arith.
Import ListNotations.
Open Scope nat_scope.

Definition word : Z := 2 ^ 64.
(** The members, Histogram.h:88-94. *)
Record hist := Hist { h_min : Q; h_max : Q; bins : list nat }.

(** static_cast<std::size_t> of a float: towards zero. *)
Definition to_index (x : Q) : option nat :=
  if Qle_bool x (- 1)%Q then None
  else if negb (Qle_bool 0 x) then Some 0
  else if (Qfloor x <? word)%Z then Some (Z.to_nat (Qfloor x)) else None.
(** [valueToIndex], Histogram.cpp:31-40.  Without bins the upper bound wraps around and does not bind. *)
Definition value_to_index (h : hist) (v : Q) : option nat :=
  if Qeq_bool (h_max h - h_min h) 0 then None
  else
    let normalized := ((v - h_min h) / (h_max h - h_min h))%Q in
    let n := length (bins h) in
    match to_index (normalized * inject_Z (Z.of_nat n))%Q with
    | None => None
    | Some i => Some (Nat.max 0 (match n with O => i | S l => Nat.min l i end))
    end.
(** [indexToValue], Histogram.cpp:42-47; division by zero without bins. *)
Definition index_to_value (h : hist) (i : nat) : option Q :=
  match length (bins h) with
  | O => None
  | n => let normalized := (inject_Z (Z.of_nat i) / inject_Z (Z.of_nat n))%Q in Some (normalized * (h_max h - h_min h) + h_min h)%Q
  end.
Fixpoint bump (l : list nat) (i : nat) : option (list nat) :=
  match l, i with
  | [], _ => None
  | x :: l, O => Some (S x :: l)
  | x :: l, S i => match bump l i with Some l => Some (x :: l) | None => None end
  end.
(** [insert], Histogram.cpp:49-60. *)
Definition insert (h : hist) (v : Q) : option hist :=
  match value_to_index h v with
  | None => None
  | Some i => match bump (bins h) i with Some b => Some (Hist (h_min h) (h_max h) b) | None => None end
  end.
Fixpoint insert_all (h : hist) (vs : list Q) : option hist :=
  match vs with [] => Some h | v :: vs => match insert h v with Some h => insert_all h vs | None => None end end.
(** [setMinMax] of data, Histogram.cpp:68-79. *)
Definition qmin (a b : Q) : Q := if negb (Qle_bool a b) then b else a.
Definition qmax (a b : Q) : Q := if negb (Qle_bool b a) then b else a.
Definition data_range (vs : list Q) : option (Q * Q) :=
  match vs with [] => None | v :: _ => Some (fold_left qmin vs v, fold_left qmax vs v) end.
(** The constructors, Histogram.cpp:12-24. *)
Definition create_limits (vs : list Q) (mn mx : Q) (n : nat) : option hist := insert_all (Hist mn mx (repeat 0 n)) vs.
Definition create (vs : list Q) (n : nat) : option hist :=
  match data_range vs with None => None | Some (mn, mx) => create_limits vs mn mx n end.

(** std::min_element and std::max_element: the first of the smallest (greatest) ones. *)
Fixpoint element_index (better : nat -> nat -> bool) (l : list nat) (i best at_best : nat) : nat :=
  match l with
  | [] => at_best
  | x :: l => if better x best then element_index better l (S i) x i else element_index better l (S i) best at_best
  end.
Definition first_of (better : nat -> nat -> bool) (l : list nat) : nat :=
  match l with [] => 0 | x :: l => element_index better l 1 x 0 end.
(** [getMinBinIndex], [getMaxBinIndex], [getMinBinValue], [getMaxBinValue], Histogram.cpp:101-121. *)
Definition min_bin_index (h : hist) : nat := first_of Nat.ltb (bins h).
Definition max_bin_index (h : hist) : nat := first_of (fun x b => b <? x) (bins h).
Definition min_bin_value (h : hist) : option Q := index_to_value h (max_bin_index h).
Definition max_bin_value (h : hist) : option Q := index_to_value h (max_bin_index h).

(** Subtraction of std::size_t. *)
Definition sub64 (a b : Z) : Z := ((a - b) mod word)%Z.
Fixpoint sort_in (x : nat) (l : list nat) : list nat := match l with [] => [x] | y :: l => if x <=? y then x :: y :: l else y :: sort_in x l end.
Definition sorted (l : list nat) : list nat := fold_right sort_in [] l.
(** [applyMedianFilter], Histogram.cpp:123-149: the new count of one bin; undefined when the range is not inside the vector. *)
Definition median_at (l : list nat) (size index : nat) : option nat :=
  let n := Z.of_nat (length l) in
  let b := Z.max (sub64 (Z.of_nat index) (Z.of_nat size)) 0 in
  let e := Z.min (Z.of_nat index + Z.of_nat size + 1) n in
  let num := sub64 e b in
  if (b <=? e)%Z then nth_error (sorted (firstn (Z.to_nat num) (skipn (Z.to_nat b) l))) (Z.to_nat (num / 2)) else None.
Fixpoint collect {A} (l : list (option A)) : option (list A) :=
  match l with [] => Some [] | Some x :: l => match collect l with Some r => Some (x :: r) | None => None end | None :: _ => None end.
Definition median_filter (h : hist) (size : nat) : option hist :=
  match collect (map (median_at (bins h) size) (seq 0 (length (bins h)))) with
  | Some b => Some (Hist (h_min h) (h_max h) b)
  | None => None
  end.
