(** C01, C02, C03: properties of the RLE codec (VirtualRobot/Compression/CompressionRLE.cpp). *)
From Coq Require Import List NArith.
From Verif Require Import RleModel RleSpec RleProofs.
Import ListNotations.
Open Scope N_scope.

(** C01. For every buffer the compressor terminates with a code, and decompressing that code gives
    the buffer back. *)
Theorem C01_rle_round_trip : forall input : list N,
  exists code, rle_compress input = Some code /\ rle_uncompress code = DecOk input.
Proof. exact compress_roundtrip. Qed.
Print Assumptions C01_rle_round_trip.

Example C01_witness :
  rle_compress [7; 7; 7; 7; 7; 0; 9] = Some [1; 1; 4; 7; 0; 9] /\
  rle_uncompress [1; 1; 4; 7; 0; 9] = DecOk [7; 7; 7; 7; 7; 0; 9].
Proof. split; vm_compute; reflexivity. Qed.

(** C02. The code always fits into the documented output buffer. *)
Theorem C02_rle_size_bound : forall (input code : list N),
  rle_compress input = Some code -> (length code <= documented_bound (length input))%nat.
Proof. exact compress_size. Qed.
Print Assumptions C02_rle_size_bound.

(** C02. Nothing is written for an empty input. *)
Theorem C02_rle_empty : rle_compress [] = Some [].
Proof. reflexivity. Qed.
Print Assumptions C02_rle_empty.

(** The bound is attained: a buffer of 256 different bytes needs 258 bytes. *)
Example C02_witness :
  option_map (@length N) (rle_compress (map N.of_nat (seq 0 256))) = Some 258%nat /\
  documented_bound 256 = 258%nat.
Proof. split; vm_compute; reflexivity. Qed.

(** C03. Code produced from bytes consists of bytes, and the decoder neither reads behind its end nor
    writes more or fewer bytes than the original buffer holds. *)
Theorem C03_rle_decoder_safe : forall (input code : list N),
  byte_list input -> rle_compress input = Some code ->
  byte_list code /\
  rle_uncompress code <> DecReadOutOfBounds /\
  (forall out, rle_uncompress code = DecOk out -> length out = length input).
Proof. exact decoder_safe. Qed.
Print Assumptions C03_rle_decoder_safe.

(** C03. The decoder loop terminates on every byte string. *)
Theorem C03_rle_decoder_terminates : forall code : list N, rle_uncompress code <> DecFuel.
Proof. exact uncompress_terminates. Qed.
Print Assumptions C03_rle_decoder_terminates.

(** C03. On byte strings that the compressor did not produce, the decoder can read behind the end of
    its input: a code that is cut off after the marker, or after an escaped count. *)
Theorem C03_rle_decoder_arbitrary_refuted :
  ~ (forall code, byte_list code -> rle_uncompress code <> DecReadOutOfBounds).
Proof. exact decoder_arbitrary_refuted. Qed.
Print Assumptions C03_rle_decoder_arbitrary_refuted.

Example C03_witness :
  byte_list [1; 1; 1; 1; 1; 2] /\
  rle_compress [1; 1; 1; 1; 1; 2] = Some [0; 0; 4; 1; 2].
Proof. split; [repeat constructor|vm_compute; reflexivity]. Qed.
