(** Model of VirtualRobot/XML/FileIO.h on a little-endian machine with a 32 bit [int].  A file is a list of bytes (numbers
    0..255), a [float] is its 32 bit pattern.  Reading more bytes than there are leaves (a part of) the result uninitialised:
    [None]. *)
From Coq Require Import List ZArith Bool Arith.
Import ListNotations.
Open Scope Z_scope.

(** The four bytes of a 32 bit word in memory. *)
Definition le32 (z : Z) : list Z := [z mod 256; z / 256 mod 256; z / 65536 mod 256; z / 16777216 mod 256].
Definition un32 (a b c d : Z) : Z := a + 256 * b + 65536 * c + 16777216 * d.
Definition signed (z : Z) : Z := if 2147483648 <=? z then z - 4294967296 else z.

(** [write<float>] and [read<float>], FileIO.h:36-51. *)
Definition write_u32 (z : Z) : list Z := le32 z.
Definition read_u32 (f : list Z) : option (Z * list Z) :=
  match f with a :: b :: c :: d :: f => Some (un32 a b c d, f) | _ => None end.
(** [write<int32_t>] and [read<int32_t>], FileIO.h:36-51. *)
Definition write_i32 (z : Z) : list Z := le32 (z mod 4294967296).
Definition read_i32 (f : list Z) : option (Z * list Z) :=
  match read_u32 f with Some (z, f) => Some (signed z, f) | None => None end.

(** [readArray<float>] and [writeArray<float>], FileIO.h:43-56. *)
Fixpoint read_array (n : nat) (f : list Z) : option (list Z * list Z) :=
  match n with
  | O => Some ([], f)
  | S n => match read_u32 f with
           | None => None
           | Some (z, f) => match read_array n f with None => None | Some (l, f) => Some (z :: l, f) end
           end
  end.
Definition write_array (l : list Z) : list Z := flat_map write_u32 l.

(** The characters up to the first NUL: assigning a [char*] to a string. *)
Fixpoint c_str (l : list Z) : list Z :=
  match l with [] => [] | c :: l => if c =? 0 then [] else c :: c_str l end.

(** [readString], FileIO.h:58-74: the return value, the string (the old one [res] if it was not assigned) and the rest of the
    file. *)
Definition read_string (res f : list Z) : option (bool * list Z * list Z) :=
  match read_i32 f with
  | None => None
  | Some (len, f) =>
      if len <=? 0 then Some (false, res, f)
      else if Z.of_nat (length f) <? len then None
      else Some (true, c_str (firstn (Z.to_nat len) f), skipn (Z.to_nat len) f)
  end.
(** [writeString], FileIO.h:109-114: the lower four bytes of the length, then all characters. *)
Definition write_string (s : list Z) : list Z := le32 (Z.of_nat (length s)) ++ s.

(** [readMatrix4f] and [writeMatrix4f], FileIO.h:76-107; a matrix is the list of its four rows. *)
Fixpoint rows (n : nat) (l : list Z) : list (list Z) :=
  match n with O => [] | S n => firstn 4 l :: rows n (skipn 4 l) end.
Definition read_matrix (f : list Z) : option (list (list Z) * list Z) :=
  match read_array 16 f with Some (l, f) => Some (rows 4 l, f) | None => None end.
Definition write_matrix (m : list (list Z)) : list Z := write_array (concat m).
