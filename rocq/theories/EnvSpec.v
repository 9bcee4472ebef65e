(** Vocabulary for the runtime environment. *)
From Coq Require Import List Bool Arith Ascii Reals.
From Verif Require Import EnvModel.
Import ListNotations.

(** There is a regular file of that name. *)
Definition file (s : fs) (f : text) : Prop := exists t, s f = Some t /\ regular t = true.
(** A path that is accepted: a directory, or a symbolic link. *)
Definition accepted (s : fs) (p : text) : Prop := exists t, s p = Some t /\ (directory t = true \/ symlink t = true).
(** The file that a name stands for: the file itself, or else the one below the first path that has such a file. *)
Definition first_file (s : fs) (name : text) (l : list text) (f : text) : Prop :=
  (file s name /\ f = name) \/
  (~ file s name /\ exists a p b, l = a ++ p :: b /\ f = join p name /\ file s f /\ forall p', In p' a -> ~ file s (join p' name)).
(** Of some paths, those that are accepted, in order. *)
Inductive picked (s : fs) : list text -> list text -> Prop :=
| p_nil : picked s [] []
| p_yes : forall p l l', accepted s p -> picked s l l' -> picked s (p :: l) (p :: l')
| p_no : forall p l l', ~ accepted s p -> picked s l l' -> picked s (p :: l) l'.
(** The paths which a call names. *)
Definition named (c : call) : list text := match c with AddPath p => [p] | CommandLine l => l_paths l | _ => [] end.
(** The paths which the calls of a history name and which are accepted at the time of the call. *)
Inductive grown : list (fs * call) -> list text -> Prop :=
| g_nil : grown [] []
| g_call : forall s c h l l', picked s (named c) l -> grown h l' -> grown ((s, c) :: h) (l ++ l').
(** The paths that are tried without being asked for: below Simox_DIR, below /usr, and near the current path. *)
Definition fallback (v : vars) (p : text) : Prop :=
  (exists d, v_dir v = Some d /\ (p = d ++ txt_data \/ p = d ++ sep :: txt_vr ++ txt_data \/ p = d ++ txt_up ++ txt_vr ++ txt_data)) \/
  p = txt_local ++ txt_data \/ p = txt_usr ++ txt_data \/
  exists n, (1 <= n <= 4)%nat /\ p = join (v_cwd v) (concat (repeat txt_up n) ++ txt_vr ++ txt_data).

(** The keys asked for in a history. *)
Definition considered (h : list (fs * call)) (k : text) : Prop := exists s, In (s, Consider k) h.
(** After the history [h] the call sets the value of [k] to [w]. *)
Definition sets (h : list (fs * call)) (c : call) (k w : text) : Prop :=
  c = AddValue k w \/ exists l ws, c = CommandLine l /\ considered h k /\ l_values l k = Some (w :: ws).
(** The value of [k] after a history is the one that was set last. *)
Definition last_set (h : list (fs * call)) (k w : text) : Prop :=
  exists h1 s c h2, h = h1 ++ (s, c) :: h2 /\ sets h1 c k w /\
    forall h3 s' c' h4 w', h2 = h3 ++ (s', c') :: h4 -> ~ sets (h1 ++ (s, c) :: h3) c' k w'.
(** No comma. *)
Definition plain (t : text) : Prop := ~ In ","%char t.
