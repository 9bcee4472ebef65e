(** Which representations can be stored, and what comes back. *)
From Coq Require Import List ZArith.
From Verif Require Import FileModel FileSpec WsFileModel.
Import ListNotations.
Open Scope Z_scope.

(** A name of a node or of a node set (with these limits) that the robot knows. *)
Definition known_node (r : robot) (s : str) : Prop := plain s /\ In s (r_nodes r).
Definition known_set (r : robot) (s : str) (lim : list (Z * Z)) : Prop :=
  plain s /\ In (s, lim) (r_sets r) /\ forall lim', In (s, lim') (r_sets r) -> lim' = lim.

Definition opt_ok {A} (P : A -> Prop) (o : option A) : Prop := match o with Some a => P a | None => True end.

Definition storable_manip (r : robot) (v : Z * Z) (m : manip) : Prop :=
  v = (2, 9) /\ plain (m_name m) /\ word (m_max m) /\ word (m_alpha m) /\ word (m_beta m) /\
  (m_selfdist m = true -> (exists s l, m_static m = Some s /\ known_set r s l) /\ (exists s l, m_dynamic m = Some s /\ known_set r s l)).

(** How rotations are encoded in the files of a version. *)
Inductive encoding : Z * Z -> orientation -> Prop :=
| enc_hopf : forall minor, 8 <= minor -> encoding (2, minor) Hopf
| enc_extrinsic : encoding (2, 7) EulerXYZExtrinsic
| enc_xyz : encoding (2, 6) EulerXYZ
| enc_rpy : forall minor, minor <= 5 -> encoding (2, minor) RPY
| enc_old : forall minor, encoding (1, minor) RPY.

Definition storable {D} (r : robot) (w : rep D) : Prop :=
  plain (w_type w ++ s_binary) /\ plain (r_type r) /\
  (exists minor, w_version w = (2, minor) /\ 5 <= minor <= 9) /\ encoding (w_version w) (w_orient w) /\
  (exists ns lim, w_set w = Some ns /\ known_set r ns lim /\ Forall (fun l => word (fst l) /\ word (snd l)) lim /\ Z.of_nat (length lim) < 2 ^ 31) /\
  (exists t, w_tcp w = Some t /\ known_node r t) /\ opt_ok (known_node r) (w_base w) /\
  opt_ok (fun s => s <> s_not_set /\ exists l, known_set r s l) (w_static w) /\
  opt_ok (fun s => s <> s_not_set /\ exists l, known_set r s l) (w_dynamic w) /\
  int32 (w_loops w) /\ int32 (w_collisions w) /\ word (w_stept w) /\ word (w_stepr w) /\
  (length (w_num w) = 6%nat /\ Forall int32 (w_num w)) /\ int32 (w_filled w) /\ int32 (w_max w) /\
  (length (w_bounds w) = 12%nat /\ Forall word (w_bounds w)) /\ (length (w_achieved w) = 12%nat /\ Forall word (w_achieved w)) /\
  opt_ok (storable_manip r (w_version w)) (w_custom w) /\ w_data w <> None.

(** The data block can be read back, whatever follows it. *)
Definition codec_ok {D} (c : codec D) (v : Z * Z) (num : list Z) : Prop := forall d rest, c_dec c v num (c_enc c d ++ rest) = Some (d, rest).

(** What comes back: without a base node the TCP takes its place, and the node sets for the self distance are forgotten if it is
    not considered. *)
Definition restored_manip (m : manip) : manip :=
  if m_selfdist m then m else Manip (m_name m) (m_jl m) (m_max m) false None None (m_alpha m) (m_beta m).
Definition restored {D} (w : rep D) : rep D :=
  Rep (w_type w) (w_version w) (w_orient w) (w_set w) (w_tcp w) (match w_base w with Some b => Some b | None => w_tcp w end)
    (w_static w) (w_dynamic w) (w_loops w) (w_collisions w) (w_stept w) (w_stepr w) (w_num w) (w_filled w) (w_max w)
    (w_bounds w) (w_achieved w) (option_map restored_manip (w_custom w)) (w_data w).
