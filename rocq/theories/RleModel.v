(** Model of VirtualRobot/Compression/CompressionRLE.cpp.

    Buffers of [unsigned char] are lists of [N]; a read position is represented by the list of bytes
    not read yet ([inpos < insize] is "the list is not empty").  The static mutex (lines 171 and 293)
    only serialises whole calls and is not represented.  The counters are [unsigned int]; they are
    modelled without wrap-around, which is exact as long as the output (at most
    insize + insize/256 + 1 bytes, theorem C02) is shorter than 2^32 bytes. *)
From Coq Require Import List NArith Bool.
Import ListNotations.
Open Scope N_scope.

(** Conversion of an [unsigned int] to [unsigned char] on assignment to [out[idx]]
    (CompressionRLE.cpp:97, 114, 117). *)
Definition to_uchar (x : N) : N := x mod 256.

(** [_RLE_WriteRep], CompressionRLE.cpp:85-122: the bytes appended to [out]. *)
Definition rle_write_rep (marker symbol count : N) : list N :=
  if count <=? 3 then
    if symbol =? marker then [marker; to_uchar (count - 1)]
    else repeat symbol (N.to_nat count)
  else
    let count := count - 1 in
    [marker]
      ++ (if 128 <=? count then [to_uchar (N.lor (N.shiftr count 8) 128)] else [])
      ++ [to_uchar (N.land count 255); symbol].

(** [_RLE_WriteNonRep], CompressionRLE.cpp:131-149. *)
Definition rle_write_nonrep (marker symbol : N) : list N :=
  if symbol =? marker then [marker; 0] else [symbol].

(** The histogram, CompressionRLE.cpp:183-192: [histogram[b]]. *)
Fixpoint rle_hist (input : list N) (b : N) : N :=
  match input with
  | [] => 0
  | x :: r => if x =? b then rle_hist r b + 1 else rle_hist r b
  end.

(** The search for the least common byte, CompressionRLE.cpp:195-203: [i] runs from 1 to 255. *)
Definition rle_marker (input : list N) : N :=
  fold_left (fun marker i => if rle_hist input i <? rle_hist input marker then i else marker)
            (map N.of_nat (seq 1 255)) 0.

(** The inner [while] loop, CompressionRLE.cpp:226-231; returns [byte2], [count] and the unread bytes. *)
Fixpoint rle_run (byte1 byte2 count : N) (rest : list N) : N * N * list N :=
  match rest with
  | [] => (byte2, count, [])
  | x :: r =>
      if (byte1 =? byte2) && (count <? 32768) then rle_run byte1 x (count + 1) r
      else (byte2, count, rest)
  end.

(** State of the main loop: [byte1], [byte2], [count], unread input, output so far. *)
Record rle_state := RleState
  { r_byte1 : N; r_byte2 : N; r_count : N; r_rest : list N; r_out : list N }.

(** One execution of the body of the [do ... while] loop up to line 260. *)
Definition rle_body1 (marker : N) (s : rle_state) : rle_state :=
  let '(RleState byte1 byte2 count rest out) := s in
  if byte1 =? byte2 then
    let '(byte2, count, rest) := rle_run byte1 byte2 count rest in
    if byte1 =? byte2 then
      let out := out ++ rle_write_rep marker byte1 count in
      match rest with
      | x :: r => RleState x byte2 1 r out
      | [] => RleState byte1 byte2 0 [] out
      end
    else RleState byte2 byte2 1 rest (out ++ rle_write_rep marker byte1 (count - 1))
  else RleState byte2 byte2 1 rest (out ++ rle_write_nonrep marker byte1).

(** Lines 262-266: fetch the next [byte2] if there is one. *)
Definition rle_body2 (s : rle_state) : rle_state :=
  let '(RleState byte1 byte2 count rest out) := s in
  match rest with
  | x :: r => RleState byte1 x 2 r out
  | [] => s
  end.

(** The [do ... while] loop, CompressionRLE.cpp:221-268.  [None] means out of fuel. *)
Fixpoint rle_loop (fuel : nat) (marker : N) (s : rle_state) : option rle_state :=
  match fuel with
  | O => None
  | S fuel =>
      let s := rle_body2 (rle_body1 marker s) in
      if negb (match r_rest s with [] => true | _ => false end) || (2 <=? r_count s)
      then rle_loop fuel marker s
      else Some s
  end.

(** [RLE_Compress], CompressionRLE.cpp:167-278: the bytes written to [out] ([outpos] is the length). *)
Definition rle_compress (input : list N) : option (list N) :=
  match input with
  | [] => Some []
  | b1 :: rest =>
      let marker := rle_marker input in
      let final :=
        match rest with
        | b2 :: rest' => rle_loop (length input) marker (RleState b1 b2 2 rest' [marker])
        | [] => Some (RleState b1 b1 1 [] [marker])
        end in
      match final with
      | None => None
      | Some s =>
          Some (if r_count s =? 1 then r_out s ++ rle_write_nonrep marker (r_byte1 s) else r_out s)
      end
  end.

(** Outcome of the decoder: the bytes written to [out], or a read behind the end of [in]
    (undefined behaviour in C++), or out of fuel. *)
Inductive dec_result := DecOk (out : list N) | DecReadOutOfBounds | DecFuel.

(** The decoding loop, CompressionRLE.cpp:311-350; [rest] is the unread part of the input. *)
Fixpoint rle_dec_loop (fuel : nat) (marker : N) (rest out : list N) : dec_result :=
  match fuel with
  | O => DecFuel
  | S fuel =>
      let continue rest out :=
        match rest with [] => DecOk out | _ => rle_dec_loop fuel marker rest out end in
      match rest with
      | [] => DecReadOutOfBounds
      | symbol :: rest =>
          if symbol =? marker then
            match rest with
            | [] => DecReadOutOfBounds
            | count :: rest =>
                if count <=? 2 then
                  continue rest (out ++ repeat marker (N.to_nat (count + 1)))
                else
                  if N.testbit count 7 then
                    match rest with
                    | lo :: symbol :: rest =>
                        let count := N.shiftl (N.land count 127) 8 + lo in
                        continue rest (out ++ repeat symbol (N.to_nat (count + 1)))
                    | _ => DecReadOutOfBounds
                    end
                  else
                    match rest with
                    | symbol :: rest => continue rest (out ++ repeat symbol (N.to_nat (count + 1)))
                    | [] => DecReadOutOfBounds
                    end
            end
          else continue rest (out ++ [symbol])
      end
  end.

(** [RLE_Uncompress], CompressionRLE.cpp:289-351, on a buffer of exactly [insize] bytes. *)
Definition rle_uncompress (code : list N) : dec_result :=
  match code with
  | [] => DecOk []
  | marker :: rest => rle_dec_loop (length code) marker rest []
  end.
