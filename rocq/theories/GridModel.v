(** Model of VirtualRobot/Workspace/WorkspaceGrid.cpp and .h.  Coordinates are rational numbers (rounding of [float] and
    conversions to [int] out of range are left out), cell numbers and entries are integers without overflow, a grasp is a number
    and a null grasp is [None].  [None] as the result of an operation on the data is an access outside the allocated arrays. *)
From Coq Require Import List ZArith QArith Bool Arith.
Import ListNotations.
Open Scope Z_scope.

(** [(int)q]: towards zero. *)
Definition trunc (q : Q) : Z := Z.quot (Qnum q) (QDen q).

(** The members, WorkspaceGrid.h:139-150. *)
Record grid := Grid {
  g_minx : Q; g_maxx : Q; g_miny : Q; g_maxy : Q; g_disc : Q;
  g_sx : Z; g_sy : Z; g_extx : Q; g_exty : Q;
  g_data : list Z; g_links : list (list nat) }.
Definition with_data (g : grid) (d : list Z) (l : list (list nat)) : grid :=
  Grid (g_minx g) (g_maxx g) (g_miny g) (g_maxy g) (g_disc g) (g_sx g) (g_sy g) (g_extx g) (g_exty g) d l.

(** The constructor, WorkspaceGrid.cpp:16-46; [None] is an exception (a zero step size is a division by zero and left out). *)
Definition new_grid (minx maxx miny maxy disc : Q) : option grid :=
  if Qle_bool maxx minx || Qle_bool maxy miny then None
  else
    let sx := trunc ((maxx - minx) / disc) + 1 in
    let sy := trunc ((maxy - miny) / disc) + 1 in
    if (sx <=? 0) || (sy <=? 0) then None
    else Some (Grid minx maxx miny maxy disc sx sy (maxx - minx) (maxy - miny)
                 (repeat 0 (Z.to_nat (sx * sy))) (repeat [] (Z.to_nat (sx * sy)))).

(** [reset], WorkspaceGrid.cpp:54-59. *)
Definition reset (g : grid) : grid :=
  with_data g (repeat 0 (Z.to_nat (g_sx g * g_sy g))) (repeat [] (Z.to_nat (g_sx g * g_sy g))).

(** The cell numbers of a position, WorkspaceGrid.cpp:68-69. *)
Definition cell_x (g : grid) (x : Q) : Z := trunc ((x - g_minx g) / g_extx g * inject_Z (g_sx g)).
Definition cell_y (g : grid) (y : Q) : Z := trunc ((y - g_miny g) / g_exty g * inject_Z (g_sy g)).
Definition outside (g : grid) (cx cy : Z) : bool := (cx <? 0) || (cy <? 0) || (g_sx g <=? cx) || (g_sy g <=? cy).
(** [getDataPos], WorkspaceGrid.h:135-138; a negative number gives an index past the end. *)
Definition data_pos (g : grid) (cx cy : Z) : nat :=
  let i := cx * g_sy g + cy in if i <? 0 then length (g_data g) else Z.to_nat i.

(** [getCellEntry] with all grasps, WorkspaceGrid.cpp:132-192: [Some None] is the result false (and 0). *)
Definition get_cell (g : grid) (cx cy : Z) : option (option (Z * list nat)) :=
  if outside g cx cy then Some None
  else match nth_error (g_data g) (data_pos g cx cy), nth_error (g_links g) (data_pos g cx cy) with
       | Some v, Some l => Some (Some (v, l))
       | _, _ => None
       end.
(** [getEntry], WorkspaceGrid.cpp:61-130. *)
Definition get_entry (g : grid) (x y : Q) : option (option (Z * list nat)) := get_cell g (cell_x g x) (cell_y g y).

Fixpoint put {A} (l : list A) (i : nat) (x : A) : list A :=
  match l, i with
  | [], _ => []
  | _ :: l, O => x :: l
  | y :: l, S i => y :: put l i x
  end.
(** [push_back] unless null or found, WorkspaceGrid.cpp:224-227. *)
Definition link (gr : option nat) (l : list nat) : list nat :=
  match gr with
  | None => l
  | Some k => if existsb (Nat.eqb k) l then l else l ++ [k]
  end.

(** [setCellEntry], WorkspaceGrid.cpp:206-236. *)
Definition set_cell (g : grid) (cx cy v : Z) (gr : option nat) : option grid :=
  if outside g cx cy then Some g
  else match nth_error (g_data g) (data_pos g cx cy), nth_error (g_links g) (data_pos g cx cy) with
       | Some old, Some l =>
           if old <=? v then Some (with_data g (put (g_data g) (data_pos g cx cy) v) (put (g_links g) (data_pos g cx cy) (link gr l)))
           else if 100 <=? v then Some (with_data g (g_data g) (put (g_links g) (data_pos g cx cy) (link gr l)))
           else Some g
       | _, _ => None
       end.
(** [setEntry], WorkspaceGrid.cpp:194-204. *)
Definition set_entry (g : grid) (x y : Q) (v : Z) (gr : option nat) : option grid := set_cell g (cell_x g x) (cell_y g y) v gr.

Fixpoint set_cells (g : grid) (cs : list (Z * Z)) (v : Z) (gr : option nat) : option grid :=
  match cs with
  | [] => Some g
  | (cx, cy) :: cs => match set_cell g cx cy v gr with None => None | Some g => set_cells g cs v gr end
  end.
(** [setEntryCheckNeighbors], WorkspaceGrid.cpp:238-267. *)
Definition set_neighbors (g : grid) (x y : Q) (v : Z) (gr : option nat) : option grid :=
  let cx := cell_x g x in let cy := cell_y g y in
  if outside g cx cy then Some g
  else match set_cell g cx cy v gr with
       | None => None
       | Some g' =>
           if (0 <? cx) && (cx <? g_sx g - 1) && (0 <? cy) && (cy <? g_sy g - 1) then
             set_cells g' [(cx - 1, cy); (cx - 1, cy - 1); (cx - 1, cy + 1); (cx, cy - 1); (cx, cy + 1); (cx + 1, cy - 1); (cx + 1, cy); (cx + 1, cy + 1)] v gr
           else Some g'
       end.

(** [getMaxEntry], WorkspaceGrid.cpp:289-306. *)
Fixpoint max_loop (g : grid) (cs : list (Z * Z)) (m : Z) : option Z :=
  match cs with
  | [] => Some m
  | (i, j) :: cs =>
      match nth_error (g_data g) (data_pos g i j) with
      | None => None
      | Some v => max_loop g cs (if m <? v then v else m)
      end
  end.
Definition zseq (n : Z) : list Z := map Z.of_nat (seq 0 (Z.to_nat n)).
Definition max_entry (g : grid) : option Z := max_loop g (list_prod (zseq (g_sx g)) (zseq (g_sy g))) 0.

(** [setGridPosition], WorkspaceGrid.cpp:429-435. *)
Definition set_position (g : grid) (x y : Q) : grid :=
  Grid (x - g_extx g / 2) (x + g_extx g / 2) (y - g_exty g / 2) (y + g_exty g / 2) (g_disc g) (g_sx g) (g_sy g) (g_extx g) (g_exty g) (g_data g) (g_links g).

(** [getRandomPos], WorkspaceGrid.cpp:363-394: [rs] are the results of [rand() % gridSize] for x and y, one pair for each turn.
    The result is the position with the entry and the grasps of the chosen cell (one of them is returned). *)
Fixpoint random_pos (g : grid) (min_entry : Z) (rs : list (Z * Z)) : option (option (Q * Q * Z * list nat)) :=
  match rs with
  | [] => Some None
  | (i, j) :: rs =>
      match get_cell g i j with
      | Some (Some (v, l)) =>
          if min_entry <=? v then Some (Some ((g_minx g + (inject_Z i + (1 # 2)) * g_disc g)%Q, (g_miny g + (inject_Z j + (1 # 2)) * g_disc g)%Q, v, l))
          else random_pos g min_entry rs
      | _ => None
      end
  end.

(** Histories. *)
Inductive gop :=
| SetEntry (x y : Q) (v : Z) (gr : option nat)
| SetCell (cx cy v : Z) (gr : option nat)
| SetNeighbors (x y : Q) (v : Z) (gr : option nat)
| SetPosition (x y : Q)
| Reset.
Definition gstep (g : grid) (o : gop) : option grid :=
  match o with
  | SetEntry x y v gr => set_entry g x y v gr
  | SetCell cx cy v gr => set_cell g cx cy v gr
  | SetNeighbors x y v gr => set_neighbors g x y v gr
  | SetPosition x y => Some (set_position g x y)
  | Reset => Some (reset g)
  end.
Fixpoint grun (g : grid) (os : list gop) : option grid :=
  match os with
  | [] => Some g
  | o :: os => match gstep g o with None => None | Some g => grun g os end
  end.
