(** Model of the runtime environment: data paths, keys and values, vectors given as text.
    VirtualRobot/RuntimeEnvironment.cpp.  The static members of the class are the state.  Texts are lists of characters.  The file
    system is an argument of each call, as it can change between calls; None stands for a call of boost::filesystem that throws.
    getenv, the paths compiled in and the current path are given by [vars]; the parsing of the command line by
    boost::program_options is left out, its result is an argument.  Messages are left out. *)
From Coq Require Import List Bool Arith Ascii Reals.
Import ListNotations.

Definition text := list ascii.
Fixpoint same (a b : text) : bool := match a, b with [], [] => true | x :: a, y :: b => Ascii.eqb x y && same a b | _, _ => false end.
(** What boost::filesystem says about a path: exists and is_regular_file, is_directory (both follow links), is_symlink. *)
Record status := Status { regular : bool; directory : bool; symlink : bool }.
Definition fs := text -> option status.
Record env := Env { paths : list text; inited : bool; keys : list text; values : text -> option text; unrecognized : list text }.
Definition start : env := Env [] false [] (fun _ => None) [].
(** SIMOX_DATA_PATH, VIRTUAL_ROBOT_DATA_PATH, Simox_DIR, the macros Simox_DATA_PATH, VirtualRobot_DATA_PATH and
    VirtualRobot_SRC_DATA_PATH as far as they are defined, and the current path. *)
Record vars := Vars { v_simox : option text; v_vr : option text; v_dir : option text; v_built : list text; v_cwd : text }.

(** boost::filesystem::operator/ (a path appended to a path): a separator is put between them if there is none. *)
Definition sep : ascii := "/"%char.
Definition join (p f : text) : text :=
  match f with
  | [] => p
  | c :: _ => if Ascii.eqb c sep then p ++ f
              else match rev p with [] => f | l :: _ => if Ascii.eqb l sep then p ++ f else p ++ sep :: f end
  end.

(** addDataPath, RuntimeEnvironment.cpp 265-287. *)
Definition add_path (s : fs) (p : text) (e : env) : env * bool :=
  match s p with
  | Some t => if directory t || symlink t then (Env (paths e ++ [p]) (inited e) (keys e) (values e) (unrecognized e), true) else (e, false)
  | None => (e, false)
  end.
(** addDataPath of a path, if pathFound is false. *)
Definition unless (s : fs) (p : text) (x : env * bool) : env * bool := let '(e, found) := x in if found then x else add_path s p e.
(** pathFound = pathFound | addDataPath(p): the path is added in any case. *)
Definition also (s : fs) (p : text) (x : env * bool) : env * bool := let '(e, found) := x in let '(e, b) := add_path s p e in (e, found || b).
(** init, 20-101. *)
Definition txt_data : text := ["/"; "d"; "a"; "t"; "a"]%char.
Definition txt_vr : text := ["V"; "i"; "r"; "t"; "u"; "a"; "l"; "R"; "o"; "b"; "o"; "t"]%char.
Definition txt_up : text := ["."; "."; "/"]%char.
Definition txt_local : text := ["/"; "u"; "s"; "r"; "/"; "l"; "o"; "c"; "a"; "l"]%char.
Definition txt_usr : text := ["/"; "u"; "s"; "r"]%char.
Definition init (s : fs) (v : vars) (e : env) : env :=
  if inited e then e else
  let e := Env (paths e) true (keys e) (values e) (unrecognized e) in
  let x := match v_simox v with Some p => add_path s p e | None => (e, false) end in
  let x := match v_vr v with Some p => add_path s p (fst x) | None => x end in
  let x := if snd x then x else
           match v_dir v with
           | Some d => unless s (d ++ txt_up ++ txt_vr ++ txt_data) (unless s (d ++ sep :: txt_vr ++ txt_data) (add_path s (d ++ txt_data) (fst x)))
           | None => x
           end in
  let x := fold_left (fun x p => also s p x) (v_built v) x in
  let x := unless s (txt_local ++ txt_data) x in
  let x := unless s (txt_usr ++ txt_data) x in
  let up := fun n => join (v_cwd v) (concat (repeat txt_up n) ++ txt_vr ++ txt_data) in
  fst (if snd x then x else also s (up 4) (also s (up 3) (also s (up 2) (also s (up 1) x)))).

Definition is_file (s : fs) (f : text) : bool := match s f with Some t => regular t | None => false end.
(** getDataFileAbsolute, 103-153: whether a file was found, and the file name afterwards. *)
Definition lookup (s : fs) (v : vars) (name : text) (e : env) : env * (bool * text) :=
  let e := init s v e in
  (e, if is_file s name then (true, name)
      else match find (fun p => is_file s (join p name)) (paths e) with Some p => (true, join p name) | None => (false, name) end).
(** getDataPaths, 254-262. *)
Definition data_paths (s : fs) (v : vars) (e : env) : env * list text := let e := init s v e in (e, paths e).

(** addKeyValuePair, getValue, hasValue, considerKey, checkParameter, 225-242, 326-337, 438-446. *)
Definition put (k w : text) (m : text -> option text) : text -> option text := fun k' => if same k' k then Some w else m k'.
Definition add_value (k w : text) (e : env) : env := Env (paths e) (inited e) (keys e) (put k w (values e)) (unrecognized e).
Definition has_value (k : text) (e : env) : bool := match values e k with Some _ => true | None => false end.
Definition get_value (k : text) (e : env) : text := match values e k with Some w => w | None => [] end.
Definition consider (k : text) (e : env) : env := Env (paths e) (inited e) (keys e ++ [k]) (values e) (unrecognized e).
Definition check_parameter (k standard : text) (e : env) : text := if has_value k e then get_value k e else standard.
(** checkValidFileParameter, 408-436. *)
Definition check_file (s : fs) (v : vars) (k standard : text) (e : env) : env * text :=
  let '(e, r) := if has_value k e then let '(e, (b, f)) := lookup s v (get_value k e) e in (e, if b then Some f else None) else (e, None) in
  match r with
  | Some f => (e, f)
  | None => match standard with
            | [] => (e, [])
            | _ => let '(e, (b, f)) := lookup s v standard e in (e, if b then f else standard)
            end
  end.
(** processCommandLine, 156-223, after parsing: the data paths given, the values given for each key, the unrecognised options. *)
Record line := Line { l_paths : list text; l_values : text -> option (list text); l_rest : list text }.
Definition take_key (l : line) (e : env) (k : text) : env :=
  match l_values l k with Some (w :: _) => add_value k w e | _ => e end.
Definition command_line (s : fs) (v : vars) (l : line) (e : env) : env :=
  let e := init s v e in
  let e := fold_left (fun e p => fst (add_path s p e)) (l_paths l) e in
  let e := fold_left (take_key l) (keys e) e in
  Env (paths e) (inited e) (keys e) (values e) (unrecognized e ++ l_rest l).

(** A call of the class. *)
Inductive call := AddPath (p : text) | Lookup (name : text) | GetPaths | AddValue (k w : text) | Consider (k : text) | CheckFile (k standard : text) | CommandLine (l : line).
Definition step (v : vars) (e : env) (c : fs * call) : env :=
  let '(s, c) := c in
  match c with
  | AddPath p => fst (add_path s p e)
  | Lookup name => fst (lookup s v name e)
  | GetPaths => fst (data_paths s v e)
  | AddValue k w => add_value k w e
  | Consider k => consider k e
  | CheckFile k standard => fst (check_file s v k standard e)
  | CommandLine l => command_line s v l e
  end.
Definition run (v : vars) (e : env) (h : list (fs * call)) : env := fold_left (step v) h e.

(** boost::split at any comma, tokens not compressed. *)
Definition comma : ascii := ","%char.
Fixpoint split (s : text) : list text :=
  match s with
  | [] => [[]]
  | c :: s => if Ascii.eqb c comma then [] :: split s else match split s with t :: l => (c :: t) :: l | [] => [[c]] end
  end.
(** toVector3f, 355-405.  [atof] gives None for an infinite value or NaN after conversion to float.  None: the result is false and
    the vector is not written. *)
Definition to_vector (atof : text -> option R) (s : text) : option (R * R * R) :=
  if length s <? 3 then None else
  match s with
  | c :: s2 =>
      if negb (Ascii.eqb c "("%char) then None else
      match rev s2 with
      | d :: r2 => if negb (Ascii.eqb d ")"%char) then None else
          match split (rev r2) with
          | [a; b; c] => match atof a, atof b, atof c with Some a, Some b, Some c => Some (a, b, c) | _, _, _ => None end
          | _ => None
          end
      | [] => None
      end
  | [] => None
  end.
