(** Model of WorkspaceRepresentation::compressData and uncompressData, VirtualRobot/Workspace/WorkspaceRepresentation.cpp:86-169.
    Bytes are numbers 0..255; the output buffer is the list of bytes written so far, its size is an argument.
    [Undefined] is an access outside an array.  Failing allocation is left out, and sizes are unbounded (the code
    uses [int]). *)
From Coq Require Import List ZArith Bool Arith.
Import ListNotations.

Inductive outcome := Done (out : list Z) | Thrown | Undefined.

(** The writing of one pair and the check after it, lines 131-134, 145-148, 157-160. *)
Definition emit (size : nat) (out : list Z) (count value : Z) : outcome :=
  if length out + 2 <=? size then
    if size <=? length out + 2 then Thrown else Done (out ++ [count; value])
  else Undefined.

(** The loop over the source with the last value and its count, lines 125-161. *)
Fixpoint compress_loop (size : nat) (cur : Z) (count : Z) (rest : list Z) (out : list Z) : outcome :=
  match rest with
  | [] => if (0 <? count)%Z then emit size out count cur else Done out
  | x :: rest =>
      if (x =? cur)%Z then
        if (count =? 255)%Z then
          match emit size out 255 cur with
          | Done out => compress_loop size cur 1 rest out
          | r => r
          end
        else compress_loop size cur ((count + 1) mod 256) rest out
      else
        match emit size out count cur with
        | Done out => compress_loop size x 1 rest out
        | r => r
        end
  end.

(** [compressData], lines 102-165: the value [source[0]] is read before the loop. *)
Definition compress (source : list Z) : outcome :=
  match source with
  | [] => Undefined
  | x :: rest => compress_loop (length source) x 1 rest []
  end.

(** [uncompressData], lines 86-100: [n] pairs are read, [memset] writes into [room] remaining bytes; [None] is undefined. *)
Fixpoint uncompress_loop (n : nat) (source : list Z) (room : nat) : option (list Z) :=
  match n with
  | O => Some []
  | S n =>
      match source with
      | count :: value :: source =>
          if Z.to_nat count <=? room then
            match uncompress_loop n source (room - Z.to_nat count) with
            | Some r => Some (repeat value (Z.to_nat count) ++ r)
            | None => None
            end
          else None
      | _ => None
      end
  end.
Definition uncompress (source : list Z) (size room : nat) : option (list Z) := uncompress_loop (size / 2) source room.
