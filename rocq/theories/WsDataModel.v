(** Model of VirtualRobot/Workspace/WorkspaceDataArray.{h,cpp}: six-dimensional data in blocks that are allocated on
    demand.  The heap of blocks is explicit; [None] is undefined behaviour: an access outside an array or to a
    deleted block, or a second deletion.  [unsigned int] arithmetic is modulo 2^32, [unsigned char] values
    are numbers 0..255.  The error message for sizes above UINT_MAX (which does not stop the constructor) and failing
    allocation are left out. *)
From Coq Require Import List ZArith Bool.
Import ListNotations.
Open Scope Z_scope.

Definition u32 (z : Z) : Z := z mod 2 ^ 32.
(** Conversion of an [unsigned int] to [int] (two's complement). *)
Definition to_int (z : Z) : Z := if u32 z <? 2 ^ 31 then u32 z else u32 z - 2 ^ 32.

(** Sizes and voxels: six coordinates. *)
Definition six : Type := Z * Z * Z * Z * Z * Z.

(** The heap: live blocks with their bytes, and the next free address. *)
Definition block : Type := Z -> Z.
Record heap := Heap { h_block : nat -> option block; h_next : nat }.
Definition write_block (h : heap) (p : nat) (b : option block) : heap :=
  Heap (fun p' => if Nat.eqb p' p then b else h_block h p') (h_next h).
(** [new unsigned char[n]] with content [b]. *)
Definition alloc (h : heap) (b : block) : nat * heap :=
  (h_next h, Heap (fun p' => if Nat.eqb p' (h_next h) then Some b else h_block h p') (S (h_next h))).

(** The members, WorkspaceDataArray.h:141-145 and WorkspaceData.h:135-139. *)
Record wdata := WData {
  w_sizes : six; w_min : Z; w_max : Z; w_filled : Z; w_adjust : bool; w_data : Z -> option nat }.

(** [getSizeTr], [getSizeRot], and the derived sizes of the constructor, WorkspaceDataArray.cpp:14-25, 143-151. *)
Definition tr0 (s : six) : Z := let '(_, s1, s2, _, _, _) := s in u32 (s1 * s2).
Definition tr1 (s : six) : Z := let '(_, _, s2, _, _, _) := s in s2.
Definition rot0 (s : six) : Z := let '(_, _, _, _, s4, s5) := s in u32 (s4 * s5).
Definition rot1 (s : six) : Z := let '(_, _, _, _, _, s5) := s in s5.
Definition size_tr (s : six) : Z := let '(s0, s1, s2, _, _, _) := s in u32 (s0 * s1 * s2).
Definition size_rot (s : six) : Z := let '(_, _, _, s3, s4, s5) := s in u32 (s3 * s4 * s5).

(** [getPos], WorkspaceDataArray.h:127-139. *)
Definition pos_tr (s v : six) : Z := let '(x0, x1, x2, _, _, _) := v in u32 (x0 * tr0 s + x1 * tr1 s + x2).
Definition pos_rot (s v : six) : Z := let '(_, _, _, x3, x4, x5) := v in u32 (x3 * rot0 s + x4 * rot1 s + x5).

Definition zseq (n : Z) : list Z := map Z.of_nat (seq 0 (Z.to_nat n)).
(** The nested loops over all voxels, and over all positions. *)
Definition voxels (s : six) : list six :=
  let '(s0, s1, s2, s3, s4, s5) := s in
  list_prod (list_prod (list_prod (list_prod (list_prod (zseq s0) (zseq s1)) (zseq s2)) (zseq s3)) (zseq s4)) (zseq s5).
Definition places (s : six) : list (Z * Z * Z) :=
  let '(s0, s1, s2, _, _, _) := s in list_prod (list_prod (zseq s0) (zseq s1)) (zseq s2).
Definition place_pos (s : six) (p : Z * Z * Z) : Z := let '(x, y, z) := p in u32 (x * tr0 s + y * tr1 s + z).

(** Reading the pointer [data[pos]]. *)
Definition ptr (w : wdata) (pos : Z) : option (option nat) :=
  if (0 <=? pos) && (pos <? size_tr (w_sizes w)) then Some (w_data w pos) else None.
Definition set_ptr (w : wdata) (pos : Z) (p : option nat) : wdata :=
  WData (w_sizes w) (w_min w) (w_max w) (w_filled w) (w_adjust w) (fun q => if q =? pos then p else w_data w q).
(** Reading and writing [data[posTr][posRot]] of an allocated block. *)
Definition peek (h : heap) (w : wdata) (p : nat) (pos : Z) : option Z :=
  if (0 <=? pos) && (pos <? size_rot (w_sizes w)) then match h_block h p with Some b => Some (b pos) | None => None end else None.
Definition poke (h : heap) (w : wdata) (p : nat) (pos x : Z) : option heap :=
  if (0 <=? pos) && (pos <? size_rot (w_sizes w)) then
    match h_block h p with Some b => Some (write_block h p (Some (fun q => if q =? pos then x else b q))) | None => None end
  else None.

(** The constructor, WorkspaceDataArray.cpp:11-62. *)
Definition new_data (s : six) (adjust : bool) : wdata := WData s 1 0 0 adjust (fun _ => None).

Definition with_stats (w : wdata) (mx filled : Z) : wdata := WData (w_sizes w) (w_min w) mx filled (w_adjust w) (w_data w).

(** [ensureData], WorkspaceDataArray.cpp:202-212. *)
Definition ensure (h : heap) (w : wdata) (p : Z * Z * Z) : option (heap * wdata) :=
  match ptr w (place_pos (w_sizes w) p) with
  | None => None
  | Some (Some _) => Some (h, w)
  | Some None => let '(q, h) := alloc h (fun _ => 0) in Some (h, set_ptr w (place_pos (w_sizes w) p) (Some q))
  end.

Definition place (v : six) : Z * Z * Z := let '(x0, x1, x2, _, _, _) := v in (x0, x1, x2).

(** [setDatum], WorkspaceDataArray.cpp:164-200. *)
Definition set_datum (h : heap) (w : wdata) (v : six) (x : Z) : option (heap * wdata) :=
  match ensure h w (place v) with
  | None => None
  | Some (h, w) =>
      match ptr w (pos_tr (w_sizes w) v) with
      | Some (Some p) =>
          match peek h w p (pos_rot (w_sizes w) v) with
          | None => None
          | Some e =>
              let filled := if e =? 0 then u32 (w_filled w + 1) else w_filled w in
              match poke h w p (pos_rot (w_sizes w) v) x with
              | None => None
              | Some h => Some (h, with_stats w (if w_max w <=? x then x else w_max w) filled)
              end
          end
      | _ => None
      end
  end.

(** [get], WorkspaceDataArray.cpp:283-311. *)
Definition get (h : heap) (w : wdata) (v : six) : option Z :=
  match ptr w (pos_tr (w_sizes w) v) with
  | None => None
  | Some None => Some 0
  | Some (Some p) => peek h w p (pos_rot (w_sizes w) v)
  end.

(** A loop over voxels that changes the entries of allocated blocks by [f]. *)
Definition touch (f : Z -> Z) (w : wdata) (oh : option heap) (v : six) : option heap :=
  match oh with
  | None => None
  | Some h =>
      match ptr w (pos_tr (w_sizes w) v) with
      | None => None
      | Some None => Some h
      | Some (Some p) =>
          match peek h w p (pos_rot (w_sizes w) v) with
          | None => None
          | Some e => poke h w p (pos_rot (w_sizes w) v) (f e)
          end
      end
  end.

(** [binarize], WorkspaceDataArray.cpp:313-344. *)
Definition binarize (h : heap) (w : wdata) : option (heap * wdata) :=
  match fold_left (touch (fun e => if w_min w <? e then w_min w else e) w) (voxels (w_sizes w)) (Some h) with
  | None => None
  | Some h => Some (h, with_stats w (w_min w) (w_filled w))
  end.

(** The halving of one value, WorkspaceDataArray.cpp:360-368, 371-379. *)
Definition halve (mn e : Z) : Z := if mn <? e then (if e / 2 <? mn then mn else e / 2) else e.

(** [bisectData], WorkspaceDataArray.cpp:346-380. *)
Definition bisect (h : heap) (w : wdata) : option (heap * wdata) :=
  match fold_left (touch (halve (w_min w)) w) (voxels (w_sizes w)) (Some h) with
  | None => None
  | Some h => Some (h, with_stats w (halve (w_min w) (w_max w)) (w_filled w))
  end.

(** [increaseDatum], WorkspaceDataArray.cpp:435-487. *)
Definition increase (h : heap) (w : wdata) (v : six) : option (heap * wdata) :=
  match ensure h w (place v) with
  | None => None
  | Some (h, w) =>
      match ptr w (pos_tr (w_sizes w) v) with
      | Some (Some p) =>
          match peek h w p (pos_rot (w_sizes w) v) with
          | None => None
          | Some e =>
              let w := with_stats w (w_max w) (if e =? 0 then u32 (w_filled w + 1) else w_filled w) in
              if e <? 255 then
                match poke h w p (pos_rot (w_sizes w) v) (e + 1) with
                | None => None
                | Some h => Some (h, with_stats w (if w_max w <=? e then e + 1 else w_max w) (w_filled w))
                end
              else if w_adjust w then bisect h w
              else Some (h, w)
          end
      | _ => None
      end
  end.

(** The bounds of one dimension, WorkspaceDataArray.cpp:396-407, and the loop from the lower to the upper one. *)
Definition lower_bound (x nb : Z) : Z := let m := to_int (x - nb) in if m <? 0 then 0 else m.
Definition upper_bound (x nb size : Z) : Z := let m := to_int (x + nb) in if to_int size <=? m then to_int (size - 1) else m.
Definition range (lo hi : Z) : list Z := map (fun k => lo + Z.of_nat k) (seq 0 (Z.to_nat (hi - lo + 1))).
Definition neighbourhood (s v : six) (nb : Z) : list six :=
  let '(s0, s1, s2, s3, s4, s5) := s in
  let '(x0, x1, x2, x3, x4, x5) := v in
  let r x s := range (lower_bound x nb) (upper_bound x nb s) in
  list_prod (list_prod (list_prod (list_prod (list_prod (r x0 s0) (r x1 s1)) (r x2 s2)) (r x3 s3)) (r x4 s4)) (r x5 s5).

Definition raise_to (x : Z) (st : option (heap * wdata)) (v : six) : option (heap * wdata) :=
  match st with
  | None => None
  | Some (h, w) =>
      match get h w v with
      | None => None
      | Some e => if e <? x then set_datum h w v x else Some (h, w)
      end
  end.

(** [setDatumCheckNeighbors], WorkspaceDataArray.cpp:382-422. *)
Definition set_neighbours (h : heap) (w : wdata) (v : six) (x nb : Z) : option (heap * wdata) :=
  match set_datum h w v x with
  | None => None
  | Some (h, w) => if nb =? 0 then Some (h, w) else fold_left (raise_to x) (neighbourhood (w_sizes w) v nb) (Some (h, w))
  end.

(** Deletion of a block: [delete [] data[...]]; deleting a null pointer does nothing. *)
Definition delete (h : heap) (p : option nat) : option heap :=
  match p with
  | None => Some h
  | Some p => match h_block h p with Some _ => Some (write_block h p None) | None => None end
  end.

Definition clear_place (st : option (heap * wdata)) (p : Z * Z * Z) : option (heap * wdata) :=
  match st with
  | None => None
  | Some (h, w) =>
      match ptr w (place_pos (w_sizes w) p) with
      | None => None
      | Some None => Some (h, w)
      | Some q => match delete h q with None => None | Some h => Some (h, set_ptr w (place_pos (w_sizes w) p) None) end
      end
  end.

(** [clear], WorkspaceDataArray.cpp:489-508. *)
Definition clear (h : heap) (w : wdata) : option (heap * wdata) :=
  match fold_left clear_place (places (w_sizes w)) (Some (h, w)) with
  | None => None
  | Some (h, w) => Some (h, with_stats w 0 0)
  end.

(** The destructor, WorkspaceDataArray.cpp:127-141. *)
Definition destroy_place (w : wdata) (oh : option heap) (p : Z * Z * Z) : option heap :=
  match oh with
  | None => None
  | Some h => match ptr w (place_pos (w_sizes w) p) with None => None | Some q => delete h q end
  end.
Definition destroy (h : heap) (w : wdata) : option heap := fold_left (destroy_place w) (places (w_sizes w)) (Some h).

(** One position of the copy constructor, WorkspaceDataArray.cpp:95-105: the index is an [int]. *)
Definition clone_place (o : wdata) (st : option (heap * wdata)) (p : Z * Z * Z) : option (heap * wdata) :=
  match st with
  | None => None
  | Some (h, w) =>
      let pos := to_int (place_pos (w_sizes w) p) in
      match ptr o pos, ptr w pos with
      | Some (Some q), Some _ =>
          match h_block h q with
          | None => None
          | Some b => let '(q', h) := alloc h b in Some (h, set_ptr w pos (Some q'))
          end
      | Some None, Some _ => Some (h, set_ptr w pos None)
      | _, _ => None
      end
  end.

(** [clone] and the copy constructor, WorkspaceDataArray.cpp:64-125, 520-523. *)
Definition clone (h : heap) (o : wdata) : option (heap * wdata) :=
  match fold_left (clone_place o) (places (w_sizes o)) (Some (h, new_data (w_sizes o) (w_adjust o))) with
  | None => None
  | Some (h, w) => Some (h, WData (w_sizes o) (w_min o) (w_max o) (w_filled o) (w_adjust o) (w_data w))
  end.

(** [hasEntry], WorkspaceDataArray.cpp:510-518. *)
Definition has_entry (w : wdata) (p : Z * Z * Z) : option bool :=
  let '(x, y, z) := p in
  let '(s0, s1, s2, _, _, _) := w_sizes w in
  if (s0 <=? x) || (s1 <=? y) || (s2 <=? z) then Some false
  else match ptr w (place_pos (w_sizes w) p) with
       | None => None
       | Some (Some _) => Some true
       | Some None => Some false
       end.

(** [setDataRot], WorkspaceDataArray.cpp:214-218: [b] holds getSizeRot() bytes. *)
Definition set_rot (h : heap) (w : wdata) (p : Z * Z * Z) (b : block) : option (heap * wdata) :=
  match ensure h w p with
  | None => None
  | Some (h, w) =>
      match ptr w (place_pos (w_sizes w) p) with
      | Some (Some q) =>
          match h_block h q with
          | Some old => Some (write_block h q (Some (fun i => if (0 <=? i) && (i <? size_rot (w_sizes w)) then b i else old i)), w)
          | None => None
          end
      | _ => None
      end
  end.

(** [sumAngleReachabilities] and [getMaxSummedAngleReachablity], WorkspaceDataArray.cpp:238-281; [int] overflow (more
    than 2^23 orientations) is not modelled. *)
Definition rotations (s : six) : list (Z * Z * Z) := let '(_, _, _, s3, s4, s5) := s in list_prod (list_prod (zseq s3) (zseq s4)) (zseq s5).
Definition sum_angles (h : heap) (w : wdata) (p : Z * Z * Z) : option Z :=
  match has_entry w p with
  | None => None
  | Some true => Some 0
  | Some false =>
      fold_left (fun (o : option Z) r => match o with
        | None => None
        | Some acc => let '(x, y, z) := p in let '(d, e, f) := r in
            match get h w (x, y, z, d, e, f) with Some g => Some (acc + g) | None => None end
        end) (rotations (w_sizes w)) (Some 0)
  end.
Definition max_summed (h : heap) (w : wdata) : option Z :=
  fold_left (fun (o : option Z) p => match o with
    | None => None
    | Some m => match sum_angles h w p with Some x => Some (if m <=? x then x else m) | None => None end
    end) (places (w_sizes w)) (Some 0).

(** Histories of calls. *)
Inductive wcall :=
| CSet (v : six) (x : Z) | CInc (v : six) | CNeighbours (v : six) (x nb : Z) | CRot (p : Z * Z * Z) (b : block)
| CBinarize | CBisect | CClear | CMin (m : Z).
Definition wstep (h : heap) (w : wdata) (c : wcall) : option (heap * wdata) :=
  match c with
  | CSet v x => set_datum h w v x
  | CInc v => increase h w v
  | CNeighbours v x nb => set_neighbours h w v x nb
  | CRot p b => set_rot h w p b
  | CBinarize => binarize h w
  | CBisect => bisect h w
  | CClear => clear h w
  | CMin m => Some (h, WData (w_sizes w) m (w_max w) (w_filled w) (w_adjust w) (w_data w))
  end.
Fixpoint wrun (h : heap) (w : wdata) (cs : list wcall) : option (heap * wdata) :=
  match cs with
  | [] => Some (h, w)
  | c :: cs => match wstep h w c with None => None | Some (h, w) => wrun h w cs end
  end.

(** Two objects in one heap; a call names the object. *)
Fixpoint wrun2 (h : heap) (w1 w2 : wdata) (cs : list (bool * wcall)) : option (heap * wdata * wdata) :=
  match cs with
  | [] => Some (h, w1, w2)
  | (first, c) :: cs =>
      match wstep h (if first then w1 else w2) c with
      | None => None
      | Some (h, w) => if first then wrun2 h w w2 cs else wrun2 h w1 w cs
      end
  end.
