(** Workspace data as a map from voxels to numbers. *)
From Coq Require Import List ZArith Bool.
From Verif Require Import WsDataModel.
Import ListNotations.
Open Scope Z_scope.

Definition inside (s v : six) : Prop :=
  let '(s0, s1, s2, s3, s4, s5) := s in
  let '(x0, x1, x2, x3, x4, x5) := v in
  0 <= x0 < s0 /\ 0 <= x1 < s1 /\ 0 <= x2 < s2 /\ 0 <= x3 < s3 /\ 0 <= x4 < s4 /\ 0 <= x5 < s5.
Definition place_inside (s : six) (p : Z * Z * Z) : Prop :=
  let '(s0, s1, s2, _, _, _) := s in
  let '(x, y, z) := p in 0 <= x < s0 /\ 0 <= y < s1 /\ 0 <= z < s2.

(** The numbers of positions and of orientations fit an unsigned int. *)
Definition fits (s : six) : Prop :=
  let '(s0, s1, s2, s3, s4, s5) := s in
  0 < s0 /\ 0 < s1 /\ 0 < s2 /\ 0 < s3 /\ 0 < s4 /\ 0 < s5 /\ s0 * s1 * s2 < 2 ^ 32 /\ s3 * s4 * s5 < 2 ^ 32.

(** Two voxels differ by at most [nb] in every coordinate. *)
Definition near (v u : six) (nb : Z) : Prop :=
  let '(x0, x1, x2, x3, x4, x5) := v in
  let '(y0, y1, y2, y3, y4, y5) := u in
  Z.abs (x0 - y0) <= nb /\ Z.abs (x1 - y1) <= nb /\ Z.abs (x2 - y2) <= nb /\
  Z.abs (x3 - y3) <= nb /\ Z.abs (x4 - y4) <= nb /\ Z.abs (x5 - y5) <= nb.

Definition byte (x : Z) : Prop := 0 <= x <= 255.

(** The calls with arguments in range. *)
Definition allowed (s : six) (c : wcall) : Prop :=
  match c with
  | CSet v x => inside s v /\ byte x
  | CInc v => inside s v
  | CNeighbours v x nb => inside s v /\ byte x /\ 0 <= nb /\
      (let '(s0, s1, s2, s3, s4, s5) := s in s0 + nb < 2 ^ 31 /\ s1 + nb < 2 ^ 31 /\ s2 + nb < 2 ^ 31 /\ s3 + nb < 2 ^ 31 /\ s4 + nb < 2 ^ 31 /\ s5 + nb < 2 ^ 31)
  | CRot p b => place_inside s p /\ forall i, byte (b i)
  | CMin m => byte m
  | _ => True
  end.

(** The effect of a call on the map [m] (minimal valid value [mn]). *)
Definition effect (s : six) (adjust : bool) (mn : Z) (c : wcall) (m m' : six -> Z) : Prop :=
  match c with
  | CSet v x => m' v = x /\ forall u, inside s u -> u <> v -> m' u = m u
  | CInc v =>
      if m v <? 255 then m' v = m v + 1 /\ forall u, inside s u -> u <> v -> m' u = m u
      else if adjust then forall u, inside s u -> m' u = (if m u <=? mn then m u else Z.max mn (m u / 2))
      else forall u, inside s u -> m' u = m u
  | CNeighbours v x nb => m' v = x /\ forall u, inside s u -> u <> v -> (near v u nb -> m' u = Z.max (m u) x) /\ (~ near v u nb -> m' u = m u)
  | CRot (x, y, z) b =>
      (forall d e f, inside s (x, y, z, d, e, f) ->
         m' (x, y, z, d, e, f) = b (let '(_, _, _, _, s4, s5) := s in (d * s4 + e) * s5 + f)) /\
      (forall u, inside s u -> place u <> (x, y, z) -> m' u = m u)
  | CBinarize => forall u, inside s u -> m' u = Z.min (m u) mn
  | CBisect => forall u, inside s u -> m' u = (if m u <=? mn then m u else Z.max mn (m u / 2))
  | CClear => forall u, inside s u -> m' u = 0
  | CMin _ => forall u, inside s u -> m' u = m u
  end.
Definition next_min (mn : Z) (c : wcall) : Z := match c with CMin m => m | _ => mn end.

(** The map after a history. *)
Inductive effects (s : six) (adjust : bool) : Z -> (six -> Z) -> list wcall -> Z -> (six -> Z) -> Prop :=
| effects_nil : forall mn m, effects s adjust mn m [] mn m
| effects_cons : forall mn m c m1 cs mn' m',
    effect s adjust mn c m m1 -> effects s adjust (next_min mn c) m1 cs mn' m' -> effects s adjust mn m (c :: cs) mn' m'.

(** All voxels read as in the map. *)
Definition reads (h : heap) (w : wdata) (m : six -> Z) : Prop := forall v, inside (w_sizes w) v -> get h w v = Some (m v).

(** Some heap, possibly with blocks of other objects. *)
Definition sane (h : heap) : Prop := forall p, h_block h p <> None -> (p < h_next h)%nat.

(** How often a history increments a voxel. *)
Definition six_eqb (u v : six) : bool :=
  let '(x0, x1, x2, x3, x4, x5) := u in
  let '(y0, y1, y2, y3, y4, y5) := v in
  (x0 =? y0) && (x1 =? y1) && (x2 =? y2) && (x3 =? y3) && (x4 =? y4) && (x5 =? y5).
Definition increments (v : six) (cs : list wcall) : nat :=
  length (filter (fun c => match c with CInc u => six_eqb u v | _ => false end) cs).

(** The number of voxels with a value other than 0. *)
Definition nonzero (s : six) (m : six -> Z) : Z := Z.of_nat (length (filter (fun v => negb (m v =? 0)) (voxels s))).

(** The recorded maximum is that of the map: an upper bound, and attained. *)
Definition upper (s : six) (mx : Z) (m : six -> Z) : Prop := forall v, inside s v -> m v <= mx.
Definition attained (s : six) (mx : Z) (m : six -> Z) : Prop := exists v, inside s v /\ m v = mx.

(** Calls that write single voxels or change all of them. *)
Definition not_rot (c : wcall) : Prop := match c with CRot _ _ => False | _ => True end.
(** Calls that never write the value 0 explicitly. *)
Definition no_zero (c : wcall) : Prop :=
  match c with CSet _ x => 0 < x | CNeighbours _ x _ => 0 < x | CRot _ _ => False | CMin k => 1 <= k | _ => True end.
(** Calls that never lower a single voxel; [binarize] is only called when there is a valid entry. *)
Definition grows (s : six) (mn : Z) (m : six -> Z) (c : wcall) : Prop :=
  match c with
  | CSet v x | CNeighbours v x _ => m v <= x
  | CBinarize => exists v, inside s v /\ mn <= m v
  | CRot _ _ => False
  | _ => True
  end.
Inductive growing (s : six) (adjust : bool) : Z -> (six -> Z) -> list wcall -> Prop :=
| growing_nil : forall mn m, growing s adjust mn m []
| growing_cons : forall mn m c cs, grows s mn m c ->
    (forall m1, effect s adjust mn c m m1 -> growing s adjust (next_min mn c) m1 cs) -> growing s adjust mn m (c :: cs).

(** The calls of one of two objects. *)
Definition calls_of (first : bool) (cs : list (bool * wcall)) : list wcall :=
  map snd (filter (fun c => Bool.eqb (fst c) first) cs).
