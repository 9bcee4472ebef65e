(** The claims about the primitives of the binary file format. *)
From Coq Require Import List ZArith Bool Arith Lia.
From Verif Require Import FileModel FileSpec FileProofs.
Import ListNotations.
Open Scope Z_scope.

(** A plain string is read back and the file stands behind it. *)
Theorem C23_string : forall old s rest, plain s -> read_string old (write_string s ++ rest) = Some (true, s, rest).
Proof. exact read_string_ok. Qed.
(** Every string of less than 2 GB: the file always stands behind it; an empty one fails and leaves the destination as it was;
    otherwise the part before the first NUL is read. *)
Theorem C23_any_string : forall old s rest, Z.of_nat (length s) < 2 ^ 31 ->
  exists ok t, read_string old (write_string s ++ rest) = Some (ok, t, rest) /\
  (ok = true <-> s <> []) /\ (s = [] -> t = old) /\ (s <> [] -> before_nul s t).
Proof.
  intros old s rest H. rewrite read_string_any by exact H. destruct s as [|c s].
  - exists false, old. split; [reflexivity|]. split; [split; [discriminate|congruence]|]. split; [reflexivity|congruence].
  - exists true, (c_str (c :: s)). split; [reflexivity|]. split; [split; [discriminate|reflexivity]|]. split; [discriminate|]. intros _. apply c_str_spec.
Qed.
(** So the round trip fails for the empty string and for one with a NUL in it. *)
Theorem C23_refuted :
  (forall old rest, read_string old (write_string [] ++ rest) = Some (false, old, rest)) /\
  (forall old rest, read_string old (write_string [65; 0; 66] ++ rest) = Some (true, [65], rest)).
Proof. split; intros old rest; apply read_string_any; reflexivity. Qed.

Theorem C23_words : forall l rest, Forall word l -> read_array (length l) (write_array l ++ rest) = Some (l, rest).
Proof. exact read_array_ok. Qed.
Theorem C23_int : forall z rest, int32 z -> read_i32 (write_i32 z ++ rest) = Some (z, rest).
Proof. intros z rest. apply read_i32_ok. Qed.
Theorem C23_matrix : forall m rest, length m = 4%nat -> Forall (fun r => length r = 4%nat /\ Forall word r) m -> read_matrix (write_matrix m ++ rest) = Some (m, rest).
Proof.
  intros m rest L F. unfold read_matrix, write_matrix. destruct m as [|a [|b [|c [|d [|? ?]]]]]; try discriminate. rewrite !Forall_cons_iff in F. destruct F as ([La Fa] & [Lb Fb] & [Lc Fc] & [Ld Fd] & _).
  assert (W : Forall word (concat [a; b; c; d])) by (cbn [concat]; rewrite app_nil_r; rewrite !Forall_app; auto). assert (L16 : length (concat [a; b; c; d]) = 16%nat) by (cbn [concat]; rewrite !app_length, La, Lb, Lc, Ld; reflexivity).
  rewrite <- L16 at 1. rewrite read_array_ok by exact W. do 2 f_equal. cbn [concat]. rewrite app_nil_r.
  assert (S4 : forall (x y : list Z), length x = 4%nat -> firstn 4 (x ++ y) = x /\ skipn 4 (x ++ y) = y). { intros x y Hx. rewrite firstn_app, skipn_app, Hx. cbn [Nat.sub]. rewrite firstn_O, app_nil_r. rewrite <- Hx. now rewrite firstn_all, skipn_all. }
  cbn [rows]. destruct (S4 a (b ++ c ++ d) La) as [-> ->]. destruct (S4 b (c ++ d) Lb) as [-> ->]. destruct (S4 c d Lc) as [-> ->]. destruct (S4 d [] Ld) as [E _]. rewrite app_nil_r in E. now rewrite E.
Qed.

Example C23_example : plain [82; 111; 98; 111; 116] /\ read_string [1] (write_string [82; 111; 98; 111; 116] ++ [7; 8]) = Some (true, [82; 111; 98; 111; 116], [7; 8]) /\ read_i32 (write_i32 (-5) ++ [9]) = Some (-5, [9]).
Proof. split; [|split; reflexivity]. split; [discriminate|]. split; [repeat constructor; lia|reflexivity]. Qed.

Print Assumptions C23_string.
Print Assumptions C23_any_string.
Print Assumptions C23_refuted.
Print Assumptions C23_words.
Print Assumptions C23_int.
Print Assumptions C23_matrix.
