From Coq Require Import List ZArith Bool Arith Lia.
From Verif Require Import FileModel FileSpec.
Import ListNotations.
Open Scope Z_scope.

Lemma un32_le32 : forall z, word z -> un32 (z mod 256) (z / 256 mod 256) (z / 65536 mod 256) (z / 16777216 mod 256) = z.
Proof. intros z Hz. change (word z) with (0 <= z < 4294967296) in Hz. unfold un32. Z.div_mod_to_equations. lia. Qed.
Lemma read_u32_ok : forall z f, word z -> read_u32 (write_u32 z ++ f) = Some (z, f).
Proof. intros z f Hz. unfold write_u32, le32. cbn [app read_u32]. now rewrite un32_le32. Qed.
Lemma read_i32_ok : forall z f, int32 z -> read_i32 (write_i32 z ++ f) = Some (z, f).
Proof.
  intros z f Hz. change (int32 z) with (-2147483648 <= z < 2147483648) in Hz. unfold read_i32, write_i32. fold (write_u32 (z mod 4294967296)).
  rewrite read_u32_ok by (apply Z.mod_pos_bound; lia). do 2 f_equal. unfold signed. destruct (Z.leb_spec 2147483648 (z mod 4294967296)); Z.div_mod_to_equations; lia.
Qed.
Lemma read_array_ok : forall l f, Forall word l -> read_array (length l) (write_array l ++ f) = Some (l, f).
Proof.
  induction l as [|z l IH]; intros f H; [reflexivity|]. apply Forall_cons_iff in H as [H1 H2]. cbn [length read_array]. unfold write_array. cbn [flat_map]. rewrite <- app_assoc, read_u32_ok by assumption. fold (write_array l). now rewrite IH.
Qed.
Lemma c_str_spec : forall s, before_nul s (c_str s).
Proof.
  induction s as [|c s [IH1 IH2]]; [split; [intros []|now left]|]. cbn [c_str]. destruct (Z.eqb_spec c 0) as [->|N].
  - split; [intros []|]. right. now exists s.
  - split; [intros [K|K]; [lia|now apply IH1]|]. destruct IH2 as [E|(t & E)]; [left; congruence|right; exists t]. cbn [app]. congruence.
Qed.
Lemma c_str_plain : forall s, Forall (fun c => 0 < c < 256) s -> c_str s = s.
Proof. induction s as [|c s IH]; intros H; [reflexivity|]. apply Forall_cons_iff in H as [H1 H2]. cbn [c_str]. destruct (Z.eqb_spec c 0); [lia|]. now rewrite IH. Qed.
Lemma read_string_any : forall r s f, Z.of_nat (length s) < 2 ^ 31 -> read_string r (write_string s ++ f) = Some (match s with [] => (false, r, f) | _ => (true, c_str s, f) end).
Proof.
  intros r s f H. unfold read_string, write_string. rewrite <- app_assoc.
  replace (le32 (Z.of_nat (length s))) with (write_i32 (Z.of_nat (length s))). 2:{ unfold write_i32. rewrite Z.mod_small; [reflexivity|]. change (2 ^ 31) with 2147483648 in H. lia. }
  rewrite read_i32_ok by (split; [change (2 ^ 31) with 2147483648; lia|assumption]). destruct s as [|c s]; [reflexivity|].
  destruct (Z.leb_spec (Z.of_nat (length (c :: s))) 0) as [L|L]; [cbn [length] in L; lia|]. destruct (Z.ltb_spec (Z.of_nat (length ((c :: s) ++ f))) (Z.of_nat (length (c :: s)))) as [L2|L2]; [rewrite app_length in L2; lia|].
  rewrite Nat2Z.id, firstn_app, Nat.sub_diag, firstn_all, app_nil_r. rewrite skipn_app, skipn_all, Nat.sub_diag. reflexivity.
Qed.
Lemma read_string_ok : forall r s f, plain s -> read_string r (write_string s ++ f) = Some (true, s, f).
Proof. intros r s f (N & F & L). rewrite read_string_any by assumption. destruct s as [|c s]; [contradiction|]. now rewrite c_str_plain. Qed.
