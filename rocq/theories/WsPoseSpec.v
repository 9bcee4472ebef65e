(** The voxels of a grid in six dimensions. *)
From Coq Require Import List ZArith QArith.
From Verif Require Import WsPoseModel.
Import ListNotations.
Open Scope Z_scope.

(** One axis: an interval divided into [n] parts of the same width. *)
Record axis := Axis { a_lo : Q; a_hi : Q; a_n : Z }.
Definition width (a : axis) : Q := ((a_hi a - a_lo a) / inject_Z (a_n a))%Q.
(** The axis of a dimension of the model. *)
Definition axis_of (d : dim) : axis := Axis (d_lo d) (d_hi d) (d_num d).
(** The [k]th part, closed and half open. *)
Definition part (a : axis) (k : Z) (x : Q) : Prop := (a_lo a + inject_Z k * width a <= x <= a_lo a + inject_Z (k + 1) * width a)%Q.
Definition part' (a : axis) (k : Z) (x : Q) : Prop := (a_lo a + inject_Z k * width a <= x < a_lo a + inject_Z (k + 1) * width a)%Q.
(** The part strictly inside. *)
Definition inner_part (a : axis) (k : Z) (x : Q) : Prop := (a_lo a + inject_Z k * width a < x < a_lo a + inject_Z (k + 1) * width a)%Q.
(** What is accepted for part [k]: the first part reaches one and a half widths further down, the last one half a width
    further up. *)
Definition accepted (a : axis) (k : Z) (x : Q) : Prop :=
  0 <= k < a_n a /\
  (if k =? 0 then a_lo a - (3 # 2) * width a < x else a_lo a + inject_Z k * width a <= x)%Q /\
  (if k =? a_n a - 1 then x < a_hi a + (1 # 2) * width a else x < a_lo a + inject_Z (k + 1) * width a)%Q.
Definition accepts (a : axis) (x : Q) : Prop := (a_lo a - (3 # 2) * width a < x < a_hi a + (1 # 2) * width a)%Q.

Inductive all3 {A B C} (P : A -> B -> C -> Prop) : list A -> list B -> list C -> Prop :=
| all3_nil : all3 P [] [] []
| all3_cons : forall a b c la lb lc, P a b c -> all3 P la lb lc -> all3 P (a :: la) (b :: lb) (c :: lc).
