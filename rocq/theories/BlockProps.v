(** C04: the compression of workspace blocks. *)
From Coq Require Import List ZArith Bool Arith Lia.
From Verif Require Import BlockModel BlockSpec BlockProofs.
Import ListNotations.

(** C04: what compressData returns is bytes, fits the block, and uncompressData gives back the block, inside a buffer of
    the original size. *)
Theorem C04_roundtrip : forall block out, Forall is_byte block -> compress block = Done out ->
  Forall is_byte out /\ length out < length block /\ uncompress out (length out) (length block) = Some block.
Proof.
  intros block out HB E. destruct block as [|x l]; [discriminate|]. rewrite compress_spec in E by discriminate. set (b := x :: l) in *.
  destruct (Nat.ltb_spec (2 * pairs b) (length b)) as [L|L]; [|destruct (Nat.even (length b)); discriminate]. injection E as <-.
  split; [now apply enc_bytes|]. rewrite flat_length, enc_pairs. split; [assumption|]. unfold uncompress.
  replace (2 * pairs b / 2) with (length (enc b)) by (rewrite enc_pairs, Nat.mul_comm, Nat.div_mul; lia).
  rewrite uncompress_flat; rewrite expand_enc; [reflexivity|lia].
Qed.

(** C04: exactly when it returns, when it throws, and when it writes outside its buffer: [pairs] counts one pair for every started
    255 bytes of every maximal run. *)
Theorem C04_outcome : forall block, block <> [] ->
  ((exists out, compress block = Done out) <-> 2 * pairs block < length block) /\
  (compress block = Thrown <-> length block <= 2 * pairs block /\ Nat.even (length block) = true) /\
  (compress block = Undefined <-> length block <= 2 * pairs block /\ Nat.odd (length block) = true).
Proof.
  intros block H. rewrite compress_spec by assumption. rewrite <- Nat.negb_even. destruct (Nat.ltb_spec (2 * pairs block) (length block)) as [L|L].
  - split; [split; eauto|]. split; (split; [discriminate|lia]).
  - destruct (Nat.even (length block)).
    + split; [split; [intros [? ?]; discriminate|lia]|]. split; [tauto|]. split; [discriminate|]. intros [_ K]. discriminate.
    + split; [split; [intros [? ?]; discriminate|lia]|]. split; [split; [discriminate|]; intros [_ K]; discriminate|]. tauto.
Qed.

(** C04: for blocks of even size the buffer is never left. *)
Theorem C04_even_safe : forall block, block <> [] -> Nat.even (length block) = true -> compress block <> Undefined.
Proof. intros block H E K. apply (C04_outcome block H) in K as [_ K]. rewrite <- Nat.negb_even, E in K. discriminate. Qed.

(** C04 fails for every odd size: there is a block of that size for which one byte is written behind the buffer. *)
Theorem C04_odd_refuted : forall k, exists block, length block = 2 * k + 1 /\ Forall is_byte block /\ compress block = Undefined.
Proof.
  intros k. exists (alternating (2 * k + 1)). split; [apply alternating_length|]. split.
  - generalize (2 * k + 1). induction n as [|n IH]; constructor; auto. pose proof (Nat.mod_upper_bound n 2 ltac:(lia)). unfold is_byte. lia.
  - apply C04_outcome.
    + replace (2 * k + 1) with (S (2 * k)) by lia. discriminate.
    + rewrite alternating_length, alternating_runs. split; [lia|]. rewrite Nat.odd_add, Nat.odd_mul. reflexivity.
Qed.

Example block1 : compress [7; 7; 7; 7; 0; 0; 0; 0; 0; 5]%Z = Done [4; 7; 5; 0; 1; 5]%Z /\ Forall is_byte [7; 7; 7; 7; 0; 0; 0; 0; 0; 5]%Z.
Proof. split; [reflexivity|]. repeat constructor; discriminate. Qed.
Example block300 : compress (repeat 9%Z 300) = Done [255; 9; 45; 9]%Z.
Proof. reflexivity. Qed.
Example block2 : compress [1; 2]%Z = Thrown /\ compress [3; 3]%Z = Thrown /\ compress [1; 2; 3]%Z = Undefined /\ compress [1; 1; 1]%Z = Done [3; 1]%Z.
Proof. repeat split. Qed.

Print Assumptions C04_roundtrip.
Print Assumptions C04_outcome.
Print Assumptions C04_even_safe.
Print Assumptions C04_odd_refuted.
