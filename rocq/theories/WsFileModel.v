(** Model of [save] and [load] of VirtualRobot/Workspace/WorkspaceRepresentation.cpp and of the additional fields of
    Manipulability.cpp.  A robot node or robot node set that is registered with the robot is its name; the compression of the
    data block is a parameter. *)
From Coq Require Import List ZArith Bool Arith.
From Verif Require Import FileModel.
Import ListNotations.
Open Scope Z_scope.

Definition str := list Z.
Definition str_eqb (a b : str) : bool := if list_eq_dec Z.eq_dec a b then true else false.

(** What the functions ask of the robot: [getType], the registered nodes, the registered node sets with the joint limits of
    their nodes.  Robot.cpp:95-104, 151-154, 520-530. *)
Record robot := Robot { r_type : str; r_nodes : list str; r_sets : list (str * list (Z * Z)) }.
Definition has_node (r : robot) (s : str) : bool := existsb (str_eqb s) (r_nodes r).
Definition get_node (r : robot) (s : str) : option str := if has_node r s then Some s else None.
Definition find_set (r : robot) (s : str) : option (str * list (Z * Z)) := find (fun e => str_eqb (fst e) s) (r_sets r).
Definition get_set (r : robot) (s : str) : option str := match find_set r s with Some e => Some (fst e) | None => None end.

Inductive orientation := RPY | EulerXYZ | EulerXYZExtrinsic | Hopf.

(** The members of a Manipulability that are stored, Manipulability.h; the parameters alpha and beta that are written come from
    the measure. *)
Record manip := Manip {
  m_name : str; m_jl : bool; m_max : Z; m_selfdist : bool;
  m_static : option str; m_dynamic : option str; m_alpha : Z; m_beta : Z }.

(** The compressed data: how the voxel data is written, and how it is read, depending on the version of the file and on the
    numbers of voxels. *)
Record codec (D : Type) := Codec { c_enc : D -> list Z; c_dec : Z * Z -> list Z -> list Z -> option (D * list Z) }.
Arguments Codec {D} _ _.
Arguments c_enc {D} _ _.
Arguments c_dec {D} _ _ _ _.

(** The members, WorkspaceRepresentation.h:452-491 ([spaceSize] is left out: a difference of bounds). *)
Record rep (D : Type) := Rep {
  w_type : str; w_version : Z * Z; w_orient : orientation;
  w_set : option str; w_tcp : option str; w_base : option str; w_static : option str; w_dynamic : option str;
  w_loops : Z; w_collisions : Z; w_stept : Z; w_stepr : Z; w_num : list Z; w_filled : Z; w_max : Z;
  w_bounds : list Z; w_achieved : list Z; w_custom : option manip; w_data : option D }.
Arguments Rep {D} _ _ _ _ _ _ _ _ _ _ _ _ _ _ _ _ _ _ _.
Arguments w_type {D} _. Arguments w_version {D} _. Arguments w_orient {D} _. Arguments w_set {D} _. Arguments w_tcp {D} _.
Arguments w_base {D} _. Arguments w_static {D} _. Arguments w_dynamic {D} _. Arguments w_loops {D} _. Arguments w_collisions {D} _.
Arguments w_stept {D} _. Arguments w_stepr {D} _. Arguments w_num {D} _. Arguments w_filled {D} _. Arguments w_max {D} _.
Arguments w_bounds {D} _. Arguments w_achieved {D} _. Arguments w_custom {D} _. Arguments w_data {D} _.

Inductive res (A : Type) := Ok (a : A) | Throw | Undef.
Arguments Ok {A} _.
Arguments Throw {A}.
Arguments Undef {A}.
Definition bind {A B} (x : res A) (f : A -> res B) : res B := match x with Ok a => f a | Throw => Throw | Undef => Undef end.
Notation "'let!' p ':=' x 'in' e" := (bind x (fun p => e)) (at level 200, p pattern, x at level 100, e at level 200).
Definition get {A} (x : option A) : res A := match x with Some a => Ok a | None => Undef end.
Definition need {A} (x : option A) : res A := match x with Some a => Ok a | None => Throw end.
Definition throw_if (b : bool) : res unit := if b then Throw else Ok tt.

(** String constants of the two files, as ASCII codes. *)
Definition s_binary : str := [32; 66; 105; 110; 97; 114; 121; 32; 70; 105; 108; 101].
Definition s_not_set : str := [110; 111; 116; 32; 115; 101; 116].
Definition s_not_set2 : str := [60; 110; 111; 116; 32; 115; 101; 116; 62].
Definition s_start : str := [68; 65; 84; 65; 95; 83; 84; 65; 82; 84].
Definition s_end : str := [68; 65; 84; 65; 95; 69; 78; 68].
Definition s_ws : str := [87; 111; 114; 107; 115; 112; 97; 99; 101; 82; 101; 112; 114; 101; 115; 101; 110; 116; 97; 116; 105; 111; 110].
Definition s_reach : str := [82; 101; 97; 99; 104; 97; 98; 105; 108; 105; 116; 121].
Definition s_reach_typo : str := [82; 101; 97; 99; 104; 98; 97; 105; 108; 105; 116; 121].
Definition s_manip : str := [77; 97; 110; 105; 112; 117; 108; 97; 98; 105; 108; 105; 116; 121].
Definition s_reach_space : str := [82; 101; 97; 99; 104; 97; 98; 105; 108; 105; 116; 121; 83; 112; 97; 99; 101].
(** [fileTypeOK], WorkspaceRepresentation.cpp:186-197. *)
Definition type_ok (t s : str) : bool :=
  existsb (str_eqb s) (map (fun p => p ++ s_binary) [s_ws; s_reach; s_reach_typo; s_manip; s_reach_space; t]).

Definition name_or (d : str) (o : option str) : str := match o with Some s => s | None => d end.
Definition b2z (b : bool) : Z := if b then 1 else 0.

(** [Manipulability::customSave], Manipulability.cpp:308-363. *)
Definition custom_save (c : option manip) : list Z :=
  match c with
  | None => []
  | Some m =>
      write_string (m_name m) ++ write_i32 (b2z (m_jl m)) ++ write_u32 (m_max m) ++ write_i32 (b2z (m_selfdist m)) ++
      write_string (if m_selfdist m then name_or s_not_set2 (m_static m) else s_not_set2) ++
      write_string (if m_selfdist m then name_or s_not_set2 (m_dynamic m) else s_not_set2) ++
      write_u32 (m_alpha m) ++ write_u32 (m_beta m)
  end.

(** [save], WorkspaceRepresentation.cpp:503-635. *)
Definition save {D} (c : codec D) (r : robot) (w : rep D) : res (list Z) :=
  match w_data w, w_set w with
  | Some d, Some ns =>
      let! tcp := get (w_tcp w) in
      let! lim := get (find_set r ns) in
      Ok (write_string (w_type w ++ s_binary) ++ write_i32 (fst (w_version w)) ++ write_i32 (snd (w_version w)) ++
          write_string (r_type r) ++ write_string ns ++
          write_i32 (Z.of_nat (length (snd lim))) ++ flat_map (fun l => write_u32 (fst l) ++ write_u32 (snd l)) (snd lim) ++
          write_string tcp ++ write_string (name_or [] (w_base w)) ++
          write_string (name_or s_not_set (w_static w)) ++ write_string (name_or s_not_set (w_dynamic w)) ++
          write_i32 (w_loops w) ++ write_i32 (w_collisions w) ++ write_u32 (w_stept w) ++ write_u32 (w_stepr w) ++
          flat_map write_i32 (w_num w) ++ write_i32 (w_filled w) ++ write_i32 (w_max w) ++
          write_array (w_bounds w) ++ write_array (w_achieved w) ++
          custom_save (w_custom w) ++
          write_string s_start ++ c_enc c d ++ write_string s_end)
  | _, _ => Throw
  end.

Fixpoint read_ints (n : nat) (f : list Z) : option (list Z * list Z) :=
  match n with
  | O => Some ([], f)
  | S n => match read_i32 f with
           | None => None
           | Some (z, f) => match read_ints n f with None => None | Some (l, f) => Some (z :: l, f) end
           end
  end.

Definition newer (v : Z * Z) (a b : Z) : bool := (a <? fst v) || ((fst v =? a) && (b <=? snd v)).

(** [Manipulability::customLoad], Manipulability.cpp:184-305 (the creation of a measure is left out); the result false only
    prints a message. *)
Definition custom_load (r : robot) (v : Z * Z) (c : option manip) (f : list Z) : res (option manip * list Z) :=
  match c with
  | None => Ok (None, f)
  | Some m =>
      let! (ok, name, f) := get (read_string [] f) in
      if negb ok then Ok (Some m, f)
      else
        let! (jl, f) := get (read_i32 f) in
        let! (mx, f) := get (read_u32 f) in
        let m := Manip name (negb (jl =? 0)) mx false None None (m_alpha m) (m_beta m) in
        let fin (m : manip) f :=
          if newer v 2 9 then
            let! (al, f) := get (read_u32 f) in
            let! (be, f) := get (read_u32 f) in
            Ok (Some (Manip (m_name m) (m_jl m) (m_max m) (m_selfdist m) (m_static m) (m_dynamic m) al be), f)
          else Ok (Some m, f) in
        if newer v 2 3 then
          let! (sd, f) := get (read_i32 f) in
          let sd := negb (sd =? 0) in
          let m1 := Manip name (m_jl m) mx sd None None (m_alpha m) (m_beta m) in
          let! (ok1, n1, f) := get (read_string [] f) in
          let! (ok2, n2, f) := get (read_string [] f) in
          if negb (ok1 && ok2) then Ok (Some m1, f)
          else if sd then
            match get_set r n1, get_set r n2 with
            | Some a, Some b => fin (Manip name (m_jl m) mx true (Some a) (Some b) (m_alpha m) (m_beta m)) f
            | _, _ => fin (Manip name (m_jl m) mx false None None (m_alpha m) (m_beta m)) f
            end
          else fin m1 f
        else fin m f
  end.

(** The orientation type of a file version, WorkspaceRepresentation.cpp:217-232. *)
Definition orient_of (v : Z * Z) : orientation :=
  if (2 <? fst v) || ((fst v =? 2) && (7 <? snd v)) then Hopf
  else if (fst v =? 2) && (6 <? snd v) then EulerXYZExtrinsic
  else if (fst v =? 2) && (snd v =? 6) then EulerXYZ
  else RPY.
(** The version check, WorkspaceRepresentation.cpp:206-216. *)
Definition bad_version (own v : Z * Z) : bool :=
  negb ((fst v =? fst own) && (snd v =? snd own)) &&
  ((2 <? fst v) || ((fst v =? 2) && negb ((0 <=? snd v) && (snd v <=? 9))) ||
   ((fst v =? 1) && negb ((snd v =? 0) || (snd v =? 2) || (snd v =? 3)))).

(** [load], WorkspaceRepresentation.cpp:171-501, into an object of the given type, version and custom fields. *)
Definition load {D} (c : codec D) (r : robot) (own_type : str) (own_version : Z * Z) (own_custom : option manip) (f : list Z) : res (rep D) :=
  let! (_, tmp, f) := get (read_string [] f) in
  let! _ := throw_if (negb (type_ok own_type tmp)) in
  let! (v0, f) := get (read_i32 f) in
  let! (v1, f) := get (read_i32 f) in
  let v := (v0, v1) in
  let! _ := throw_if (bad_version own_version v) in
  let! (_, tmp, f) := get (read_string tmp f) in
  let! _ := throw_if (negb (str_eqb tmp (r_type r))) in
  let! (_, tmp, f) := get (read_string tmp f) in
  let! ns := need (find_set r tmp) in
  let old := negb ((1 <? v0) || ((v0 =? 1) && (0 <? v1))) in
  let! f :=
    (if old then Ok f
     else
       let! (nr, f) := get (read_i32 f) in
       let! _ := throw_if ((0 <=? nr) && negb (Z.of_nat (length (snd ns)) =? nr)) in
       let! (_, f) := get (read_array (2 * length (snd ns)) f) in Ok f) in
  let! (_, tmp, f) := get (read_string tmp f) in
  let! tcp := need (get_node r tmp) in
  let! (base, tmp, f) :=
    (if old then Ok (None, tmp, f)
     else
       let! (_, tmp, f) := get (read_string tmp f) in
       Ok (if str_eqb tmp [] || negb (has_node r tmp) then None else Some tmp, tmp, f)) in
  let! (_, tmp, f) := get (read_string tmp f) in
  let st := if str_eqb tmp [] || str_eqb tmp s_not_set then None else get_set r tmp in
  let! (_, tmp, f) := get (read_string tmp f) in
  let dy := if str_eqb tmp [] || str_eqb tmp s_not_set then None else get_set r tmp in
  let! (loops, f) := get (read_i32 f) in
  let! (colls, f) := get (read_i32 f) in
  let! (dt, f) := get (read_u32 f) in
  let! (dr, f) := get (read_u32 f) in
  let! (num, f) := get (read_ints 6 f) in
  let! (filled, f) := get (read_i32 f) in
  let! (mx, f) := get (read_i32 f) in
  let! (bounds, f) := get (read_array 12 f) in
  let! (achieved, f) := get (read_array 12 f) in
  let! (custom, f) := (if newer v 2 2 then custom_load r v own_custom f else Ok (own_custom, f)) in
  let! (_, tmp, f) := get (read_string tmp f) in
  let! _ := throw_if (negb (str_eqb tmp s_start)) in
  let! (d, f) := get (c_dec c v num f) in
  let! (_, tmp, f) := get (read_string tmp f) in
  let! _ := throw_if (negb (str_eqb tmp s_end)) in
  Ok (Rep own_type v (orient_of v) (Some (fst ns)) (Some tcp) base st dy loops colls dt dr num filled mx bounds achieved custom (Some d)).
