(** The claims about workspace files. *)
From Coq Require Import List ZArith Bool Arith Lia.
From Verif Require Import FileModel FileSpec FileProofs WsFileModel WsFileSpec WsFileProofs.
Import ListNotations.
Open Scope Z_scope.

(** Saving and loading with the same robot restores everything ([restored] says what happens without a base node). *)
Theorem C24_round_trip : forall D (c : codec D) r (w : rep D) own oc, storable r w -> codec_ok c (w_version w) (w_num w) -> (w_custom w = None <-> oc = None) ->
  exists f, save c r w = Ok f /\ forall rest, load c r (w_type w) own oc (f ++ rest) = Ok (restored w).
Proof. exact save_load. Qed.
(** With a base node, and with self distance node sets only if they are considered, nothing changes. *)
Theorem C24_restored : forall D (w : rep D), w_base w <> None ->
  opt_ok (fun m => m_selfdist m = true \/ m_static m = None /\ m_dynamic m = None) (w_custom w) -> restored w = w.
Proof.
  intros D w B H. unfold restored. destruct w as [ty ve ori se tc ba st dy lo co stt ste nu fi mx bo ac cu da]. cbn in *. destruct ba; [|contradiction]. f_equal. destruct cu as [m|]; [|reflexivity]. cbn [option_map]. f_equal. unfold restored_manip.
  destruct m as [name jl mm sd ms md al be]. cbn in *. destruct sd; [reflexivity|]. destruct H as [H|[-> ->]]; [discriminate|reflexivity].
Qed.

(** Concrete values: a robot R with the nodes T, B and the node sets N, S. *)
Definition exr : robot := Robot [82] [[84]; [66]] [([78], [(1, 2); (3, 4)]); ([83], [])].
Definition raw : codec (list Z) := Codec (fun d => write_string d) (fun _ _ f => match read_string [] f with Some (true, d, f) => Some (d, f) | _ => None end).
Definition exw (v : Z * Z) (base st : option str) (cu : option manip) : rep (list Z) :=
  Rep s_reach v (orient_of v) (Some [78]) (Some [84]) base st None 100 (-7) 5 6 [1; 2; 3; 4; 5; 6] 20 9 (repeat 11 12) (repeat 12 12) cu (Some [1; 2; 3]).
Definition exm : manip := Manip [77] true 8 true (Some [83]) (Some [78]) 14 15.

(** Without a base node the loaded representation has the TCP as its base node. *)
Theorem C24_base_refuted : exists f w, save raw exr (exw (2, 9) None None None) = Ok f /\ load raw exr s_reach (2, 9) None f = Ok w /\ w_base w = Some [84] /\ w_tcp w = Some [84].
Proof. eexists _, _. split; [vm_compute; reflexivity|]. split; [vm_compute; reflexivity|]. split; reflexivity. Qed.
(** A collision set that is not registered with the robot is lost without an error. *)
Theorem C24_static_refuted : exists f w, save raw exr (exw (2, 9) (Some [66]) (Some [67]) None) = Ok f /\ load raw exr s_reach (2, 9) None f = Ok w /\ w_static w = None.
Proof. eexists _, _. split; [vm_compute; reflexivity|]. split; [vm_compute; reflexivity|]. reflexivity. Qed.
(** A file of version 1.0 can be loaded; saving the result makes a file that cannot be loaded, since the old version number is
    written in front of the new layout. *)
Definition old_file : list Z :=
  write_string (s_reach ++ s_binary) ++ write_i32 1 ++ write_i32 0 ++ write_string [82] ++ write_string [78] ++ write_string [84] ++
  write_string s_not_set ++ write_string s_not_set ++ write_i32 100 ++ write_i32 0 ++ write_u32 5 ++ write_u32 6 ++ flat_map write_i32 [1; 2; 3; 4; 5; 6] ++
  write_i32 20 ++ write_i32 9 ++ write_array (repeat 11 12) ++ write_array (repeat 12 12) ++ write_string s_start ++ c_enc raw [1; 2; 3] ++ write_string s_end.
Theorem C24_version_refuted : exists w f, load raw exr s_reach (2, 9) None old_file = Ok w /\ save raw exr w = Ok f /\ load raw exr s_reach (2, 9) None f = Throw.
Proof. eexists _, _. split; [vm_compute; reflexivity|]. split; [vm_compute; reflexivity|]. vm_compute. reflexivity. Qed.
(** The same for a Manipulability of version 2.8, where the parameters of the self distance are written but not read. *)
Theorem C24_manipulability_refuted : exists f, save raw exr (exw (2, 8) (Some [66]) None (Some exm)) = Ok f /\
  forall w, load raw exr s_reach (2, 9) (Some exm) f <> Ok w.
Proof. eexists. split; [vm_compute; reflexivity|]. intros w. vm_compute. discriminate. Qed.

Lemma raw_ok : forall v num d rest, plain d -> c_dec raw v num (c_enc raw d ++ rest) = Some (d, rest).
Proof. intros v num d rest H. unfold raw. cbn [c_dec c_enc]. now rewrite read_string_ok. Qed.
(** A codec for every list of bytes: each byte is followed by a mark. *)
Fixpoint undouble (f : list Z) : option (list Z * list Z) :=
  match f with
  | 0 :: f => Some ([], f)
  | 1 :: b :: f => match undouble f with Some (d, f) => Some (b :: d, f) | None => None end
  | _ => None
  end.
Definition marked : codec (list Z) := Codec (fun d => flat_map (fun b => [1; b]) d ++ [0]) (fun _ _ => undouble).
Lemma marked_ok : forall v num, codec_ok marked v num.
Proof. intros v num d rest. unfold marked. cbn [c_dec c_enc]. induction d as [|b d IH]; [reflexivity|]. cbn [flat_map app undouble]. now rewrite IH. Qed.

Lemma exw_storable : storable exr (exw (2, 9) (Some [66]) (Some [83]) (Some exm)).
Proof.
  assert (P : forall s, s <> [] -> forallb (fun c => (0 <? c) && (c <? 256)) s = true -> (Z.of_nat (length s) <? 2 ^ 31) = true -> plain s).
  { intros s N F L. split; [exact N|]. split; [|now apply Z.ltb_lt]. apply Forall_forall. intros c Hc. rewrite forallb_forall in F. specialize (F c Hc). apply andb_true_iff in F as [F1 F2]. apply Z.ltb_lt in F1, F2. lia. }
  assert (P1 : forall c, 0 < c < 256 -> plain [c]) by (intros c Hc; apply P; [discriminate| |reflexivity]; cbn; destruct (Z.ltb_spec 0 c), (Z.ltb_spec c 256); reflexivity || lia).
  assert (KN : known_set exr [78] [(1, 2); (3, 4)]). { split; [apply P1; lia|]. split; [now left|]. intros l [K|[K|[]]]; congruence. }
  assert (KS : known_set exr [83] []). { split; [apply P1; lia|]. split; [right; now left|]. intros l [K|[K|[]]]; congruence. }
  assert (W : forall z, (0 <=? z) && (z <? 2 ^ 32) = true -> word z) by (intros z H; apply andb_true_iff in H as [H1 H2]; apply Z.leb_le in H1; apply Z.ltb_lt in H2; now split).
  assert (I : forall z, (- 2 ^ 31 <=? z) && (z <? 2 ^ 31) = true -> int32 z) by (intros z H; apply andb_true_iff in H as [H1 H2]; apply Z.leb_le in H1; apply Z.ltb_lt in H2; now split).
  unfold storable, exw. cbn [w_type w_version w_orient w_set w_tcp w_base w_static w_dynamic w_loops w_collisions w_stept w_stepr w_num w_filled w_max w_bounds w_achieved w_custom w_data opt_ok].
  split; [apply P; [discriminate|reflexivity|reflexivity]|]. split; [apply P1; lia|]. split; [exists 9; split; [reflexivity|lia]|]. split; [constructor; lia|].
  split. { exists [78], [(1, 2); (3, 4)]. split; [reflexivity|]. split; [exact KN|]. split; [repeat constructor; apply W; reflexivity|reflexivity]. }
  split. { exists [84]. split; [reflexivity|]. split; [apply P1; lia|now left]. }
  split. { split; [apply P1; lia|right; now left]. }
  split. { split; [discriminate|]. now exists []. }
  split; [exact Logic.I|]. split; [now apply I|]. split; [now apply I|]. split; [now apply W|]. split; [now apply W|]. split; [split; [reflexivity|repeat constructor; now apply I]|].
  split; [now apply I|]. split; [now apply I|]. split; [split; [reflexivity|repeat constructor; now apply W]|]. split; [split; [reflexivity|repeat constructor; now apply W]|].
  split; [|discriminate]. split; [reflexivity|]. split; [apply P1; lia|]. split; [now apply W|]. split; [now apply W|]. split; [now apply W|]. intros _. split; [exists [83], []|exists [78], [(1, 2); (3, 4)]]; split; [reflexivity|exact KS|reflexivity|exact KN].
Qed.
Example C24_example : exists f, save marked exr (exw (2, 9) (Some [66]) (Some [83]) (Some exm)) = Ok f /\ load marked exr s_reach (2, 4) (Some (Manip [77] false 0 false None None 0 0)) (f ++ [5]) = Ok (exw (2, 9) (Some [66]) (Some [83]) (Some exm)).
Proof.
  destruct (C24_round_trip _ marked exr (exw (2, 9) (Some [66]) (Some [83]) (Some exm)) (2, 4) (Some (Manip [77] false 0 false None None 0 0)) exw_storable) as (f & S & L); [apply marked_ok|split; discriminate|].
  exists f. split; [exact S|]. change s_reach with (w_type (exw (2, 9) (Some [66]) (Some [83]) (Some exm))). rewrite L. f_equal.
Qed.

Print Assumptions C24_round_trip.
Print Assumptions C24_restored.
Print Assumptions C24_base_refuted.
Print Assumptions C24_static_refuted.
Print Assumptions C24_version_refuted.
Print Assumptions C24_manipulability_refuted.
