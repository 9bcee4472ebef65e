From Coq Require Import List ZArith Bool Arith Lia.
From Verif Require Import FileModel FileSpec FileProofs WsFileModel WsFileSpec.
Import ListNotations.
Open Scope Z_scope.

Lemma str_eqb_spec : forall a b, str_eqb a b = true <-> a = b.
Proof. intros a b. unfold str_eqb. destruct (list_eq_dec Z.eq_dec a b); split; congruence. Qed.
Lemma str_eqb_refl : forall a, str_eqb a a = true.
Proof. intros a. now apply str_eqb_spec. Qed.
Lemma str_eqb_false : forall a b, a <> b -> str_eqb a b = false.
Proof. intros a b H. destruct (str_eqb a b) eqn:E; [|reflexivity]. now apply str_eqb_spec in E. Qed.
Lemma has_node_in : forall r s, In s (r_nodes r) -> has_node r s = true.
Proof. intros r s H. unfold has_node. apply existsb_exists. exists s. split; [exact H|apply str_eqb_refl]. Qed.
Lemma find_set_known : forall r s l, known_set r s l -> find_set r s = Some (s, l).
Proof.
  intros r s l (_ & I & U). unfold find_set. destruct (find (fun e => str_eqb (fst e) s) (r_sets r)) as [[s' l']|] eqn:E.
  - apply find_some in E as [E1 E2]. cbn [fst] in E2. apply str_eqb_spec in E2. subst s'. now rewrite (U l' E1).
  - apply (find_none _ _ E) in I. cbn [fst] in I. now rewrite str_eqb_refl in I.
Qed.
Lemma get_set_known : forall r s l, known_set r s l -> get_set r s = Some s.
Proof. intros r s l H. unfold get_set. now rewrite (find_set_known r s l H). Qed.

Lemma read_ints_ok : forall l f, Forall int32 l -> read_ints (length l) (flat_map write_i32 l ++ f) = Some (l, f).
Proof.
  induction l as [|z l IH]; intros f H; [reflexivity|]. apply Forall_cons_iff in H as [H1 H2]. cbn [length read_ints flat_map]. rewrite <- app_assoc, read_i32_ok by assumption. now rewrite IH.
Qed.
Lemma read_limits_ok : forall (l : list (Z * Z)) f, Forall (fun l => word (fst l) /\ word (snd l)) l ->
  exists x, read_array (2 * length l) (flat_map (fun l => write_u32 (fst l) ++ write_u32 (snd l)) l ++ f) = Some (x, f).
Proof.
  induction l as [|z l IH]; intros f H; [now exists []|]. apply Forall_cons_iff in H as [[H1 H2] H3]. destruct (IH f H3) as (x & E). exists (fst z :: snd z :: x).
  replace (2 * length (z :: l))%nat with (S (S (2 * length l))) by (cbn [length]; lia). cbn [read_array flat_map]. rewrite <- !app_assoc. rewrite read_u32_ok by assumption. rewrite read_u32_ok by assumption. now rewrite E.
Qed.
Lemma type_ok_own : forall t, type_ok t (t ++ s_binary) = true.
Proof. intros t. unfold type_ok. apply existsb_exists. exists (t ++ s_binary). split; [|apply str_eqb_refl]. cbn [map]. do 5 right. now left. Qed.
Lemma plain_const : plain s_not_set /\ plain s_not_set2 /\ plain s_start /\ plain s_end.
Proof. assert (P : forall s, s <> [] -> forallb (fun c => (0 <? c) && (c <? 256)) s = true -> Z.of_nat (length s) <? 2 ^ 31 = true -> plain s).
  { intros s N F L. split; [exact N|]. split; [|now apply Z.ltb_lt]. apply Forall_forall. intros c Hc. rewrite forallb_forall in F. specialize (F c Hc). apply andb_true_iff in F as [F1 F2]. apply Z.ltb_lt in F1, F2. lia. }
  split; [|split; [|split]]; (apply P; [discriminate|reflexivity|reflexivity]).
Qed.
Lemma b2z_int : forall b, int32 (b2z b).
Proof. intros []; split; reflexivity || discriminate. Qed.
Lemma b2z_nz : forall b, negb (b2z b =? 0) = b.
Proof. now intros []. Qed.

Lemma custom_ok : forall r v c oc f, opt_ok (storable_manip r v) c -> (c = None <-> oc = None) -> custom_load r v oc (custom_save c ++ f) = Ok (option_map restored_manip c, f).
Proof.
  intros r v c oc f H E. destruct c as [m|].
  2:{ assert (oc = None) as -> by now apply E. reflexivity. }
  destruct oc as [m0|]; [|exfalso; assert (K : Some m = None) by (now apply E); discriminate]. destruct H as (-> & Hn & Hmx & Ha & Hb & Hs). destruct plain_const as (_ & P2 & _).
  unfold custom_load, custom_save. rewrite <- !app_assoc. rewrite read_string_ok by assumption. cbn [get bind negb]. rewrite read_i32_ok by apply b2z_int. cbn [get bind]. rewrite read_u32_ok by assumption. cbn [get bind].
  change (newer (2, 9) 2 3) with true. change (newer (2, 9) 2 9) with true. cbv iota. rewrite read_i32_ok by apply b2z_int. cbn [get bind m_jl]. rewrite !b2z_nz.
  unfold restored_manip. cbn [option_map]. destruct m as [name jl mx sd st dy al be]. cbn [m_name m_jl m_max m_selfdist m_static m_dynamic m_alpha m_beta] in *. destruct sd.
  - destruct (Hs eq_refl) as [(s & l & -> & K1) (s' & l' & -> & K2)]. cbn [name_or]. rewrite read_string_ok by apply K1. cbn [get bind]. rewrite read_string_ok by apply K2. cbn [get bind andb negb]. rewrite (get_set_known _ _ _ K1), (get_set_known _ _ _ K2).
    rewrite read_u32_ok by assumption. cbn [get bind]. rewrite read_u32_ok by assumption. reflexivity.
  - rewrite read_string_ok by exact P2. cbn [get bind]. rewrite read_string_ok by exact P2. cbn [get bind andb negb]. rewrite read_u32_ok by assumption. cbn [get bind]. rewrite read_u32_ok by assumption. reflexivity.
Qed.

Lemma set_name_ok : forall r o old f, opt_ok (fun s => s <> s_not_set /\ exists l, known_set r s l) o ->
  exists t, read_string old (write_string (name_or s_not_set o) ++ f) = Some (true, t, f) /\ (if str_eqb t [] || str_eqb t s_not_set then None else get_set r t) = o.
Proof.
  intros r [s|] old f H; cbn [name_or].
  - destruct H as [N (l & K)]. exists s. split; [apply read_string_ok, K|]. rewrite (str_eqb_false s s_not_set N). rewrite (str_eqb_false s []) by apply K. cbn [orb]. apply (get_set_known _ _ _ K).
  - exists s_not_set. split; [apply read_string_ok, plain_const|reflexivity].
Qed.

Lemma orient_ok : forall v o, encoding v o -> orient_of v = o.
Proof.
  intros v o [m H| | |m H|m]; unfold orient_of; cbn [fst snd]; try reflexivity.
  - change (2 <? 2) with false. change (2 =? 2) with true. cbn [orb andb]. destruct (Z.ltb_spec 7 m); [reflexivity|lia].
  - change (2 <? 2) with false. change (2 =? 2) with true. cbn [orb andb]. destruct (Z.ltb_spec 7 m); [lia|]. destruct (Z.ltb_spec 6 m); [lia|]. destruct (Z.eqb_spec m 6); [lia|reflexivity].
Qed.

Lemma save_load : forall D (c : codec D) r (w : rep D) own oc, storable r w -> codec_ok c (w_version w) (w_num w) -> (w_custom w = None <-> oc = None) ->
  exists f, save c r w = Ok f /\ forall rest, load c r (w_type w) own oc (f ++ rest) = Ok (restored w).
Proof.
  intros D c r w own oc (Ht & Hrt & (minor & Hv & Hm) & Ho & (ns & lim & Hns & Kns & Hlim & Hll) & (tcp & Htcp & Ktcp) & Hbase & Hst & Hdy & I1 & I2 & W1 & W2 & [L6 I6] & I3 & I4 & [L12 W12] & [L12' W12'] & Hc & Hd) C E.
  destruct (w_data w) as [d|] eqn:Ed; [|contradiction]. unfold save. rewrite Ed, Hns, Htcp. cbn [get bind]. rewrite (find_set_known _ _ _ Kns). cbn [get bind snd]. eexists. split; [reflexivity|]. intros rest.
  destruct plain_const as (P1 & _ & P3 & P4). unfold load. rewrite <- !app_assoc.
  rewrite read_string_ok by exact Ht. cbn [get bind]. rewrite type_ok_own. cbn [negb throw_if bind]. rewrite Hv. cbn [fst snd].
  rewrite read_i32_ok by (split; reflexivity || discriminate). cbn [get bind]. assert (Im : int32 minor) by (change (-2147483648 <= minor < 2147483648); lia). rewrite read_i32_ok by exact Im. cbn [get bind].
  assert (Bv : bad_version own (2, minor) = false).
  { unfold bad_version. cbn [fst snd]. apply andb_false_iff. right. change (2 <? 2) with false. change (2 =? 2) with true. change (2 =? 1) with false. cbn [orb andb]. rewrite orb_false_r. apply negb_false_iff, andb_true_iff. split; apply Z.leb_le; lia. }
  rewrite Bv. cbn [throw_if bind]. rewrite read_string_ok by exact Hrt. cbn [get bind]. rewrite str_eqb_refl. cbn [negb throw_if bind].
  rewrite read_string_ok by apply Kns. cbn [get bind]. rewrite (find_set_known _ _ _ Kns). cbn [need bind]. change (negb ((1 <? 2) || ((2 =? 1) && (0 <? minor)))) with false. cbv iota. cbn [snd].
  assert (Il : int32 (Z.of_nat (length lim))) by (split; [change (2 ^ 31) with 2147483648; lia|assumption]). rewrite read_i32_ok by exact Il. cbn [get bind]. rewrite Z.eqb_refl. cbn [negb]. rewrite andb_false_r. cbn [throw_if bind].
  match goal with |- context [read_array (2 * length lim) (_ ++ ?F)] => destruct (read_limits_ok lim F Hlim) as (x & Ex); rewrite Ex end. cbn [get bind].
  rewrite read_string_ok by apply Ktcp. cbn [get bind]. unfold get_node. rewrite (has_node_in r tcp) by apply Ktcp. cbn [need bind].
  assert (B : forall F, exists tmp, (let! (_, tmp, f) := get (read_string tcp (write_string (name_or [] (w_base w)) ++ F)) in
     Ok (if str_eqb tmp [] || negb (has_node r tmp) then None else Some tmp, tmp, f)) = Ok (match w_base w with Some b => Some b | None => Some tcp end, tmp, F)).
  { intros F. destruct (w_base w) as [b|]; cbn [name_or opt_ok] in *.
    - destruct Hbase as [Pb Kb]. exists b. rewrite read_string_ok by assumption. cbn [get bind]. rewrite (str_eqb_false b []) by apply Pb. rewrite has_node_in by assumption. reflexivity.
    - exists tcp. rewrite read_string_any by reflexivity. cbn [get bind]. rewrite (str_eqb_false tcp []) by apply Ktcp. rewrite has_node_in by apply Ktcp. reflexivity. }
  match goal with |- context [read_string tcp (write_string (name_or [] (w_base w)) ++ ?F)] => destruct (B F) as (tmp & EB); rewrite EB end. cbn [bind].
  match goal with |- context [read_string ?O (write_string (name_or s_not_set (w_static w)) ++ ?F)] => destruct (set_name_ok r (w_static w) O F Hst) as (t1 & E1 & E1'); rewrite E1 end. cbn [get bind].
  match goal with |- context [read_string ?O (write_string (name_or s_not_set (w_dynamic w)) ++ ?F)] => destruct (set_name_ok r (w_dynamic w) O F Hdy) as (t2 & E2 & E2'); rewrite E2 end. cbn [get bind]. rewrite E1', E2'.
  rewrite read_i32_ok by assumption. cbn [get bind]. rewrite read_i32_ok by assumption. cbn [get bind]. rewrite read_u32_ok by assumption. cbn [get bind]. rewrite read_u32_ok by assumption. cbn [get bind].
  rewrite <- L6 at 1. rewrite read_ints_ok by assumption. cbn [get bind]. rewrite read_i32_ok by assumption. cbn [get bind]. rewrite read_i32_ok by assumption. cbn [get bind].
  rewrite <- L12 at 1. rewrite read_array_ok by assumption. cbn [get bind]. rewrite <- L12' at 1. rewrite read_array_ok by assumption. cbn [get bind].
  assert (N22 : newer (2, minor) 2 2 = true) by (unfold newer; cbn [fst snd]; change (2 <? 2) with false; change (2 =? 2) with true; cbn [orb andb]; apply Z.leb_le; lia). rewrite N22.
  rewrite Hv in Hc. rewrite custom_ok by assumption. cbn [bind]. rewrite read_string_ok by exact P3. cbn [get bind]. rewrite str_eqb_refl. cbn [negb throw_if bind].
  rewrite Hv in C. rewrite C. cbn [get bind]. rewrite read_string_ok by exact P4. cbn [get bind]. rewrite str_eqb_refl. cbn [negb throw_if bind fst]. apply orient_ok in Ho. rewrite Hv in Ho. unfold restored. rewrite Hv, Ho, Hns, Htcp, Ed. destruct (w_base w); reflexivity.
Qed.
