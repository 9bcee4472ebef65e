(** Vocabulary for the color maps. *)
From Coq Require Import Reals List Bool ZArith Permutation.
From Verif Require Import ColModel.
Import ListNotations.
Open Scope R_scope.

(** What std::sort does: a rearrangement, in the order of the positions. *)
Fixpoint ordered (l : list key) : Prop := match l with a :: ((b :: _) as l') => k_pos a <= k_pos b /\ ordered l' | _ => True end.
Definition sorts (sorter : list key -> list key) : Prop := forall l, Permutation (sorter l) l /\ ordered (sorter l).
(** A key that is accepted. *)
Definition valid (k : key) : Prop := 0 <= k_pos k <= 1.
(** The keys that count of a list of requests. *)
Definition counts (ks : list key) (k : key) : Prop := In k ks /\ valid k.
(** Requests at different positions. *)
Definition apart (ks : list key) : Prop := NoDup (map k_pos ks).
(** The color of a key: bytes from 0 to 255, alpha is the opposite of transparency. *)
Definition key_color (k : key) : color := Color (IZR (k_r k) / 255) (IZR (k_g k) / 255) (IZR (k_b k) / 255) (1 - IZR (k_a k) / 255).
(** The color at [s] (from 0 to 1) of the way from one color to another. *)
Definition blend (s : R) (a b : color) : color :=
  let f x y := x + s * (y - x) in Color (f (c_r a) (c_r b)) (f (c_g a) (c_g b)) (f (c_b a) (c_b b)) (f (c_t a) (c_t b)).
(** Two keys with no other between them. *)
Definition neighbours (ks : list key) (a b : key) : Prop :=
  counts ks a /\ counts ks b /\ k_pos a < k_pos b /\ forall k, counts ks k -> k_pos k <= k_pos a \/ k_pos b <= k_pos k.
(** Components from 0 to 1. *)
Definition proper_color (c : color) : Prop := 0 <= c_r c <= 1 /\ 0 <= c_g c <= 1 /\ 0 <= c_b c <= 1 /\ 0 <= c_t c <= 1.
Definition bytes (k : key) : Prop := (0 <= k_r k <= 255 /\ 0 <= k_g k <= 255 /\ 0 <= k_b k <= 255 /\ 0 <= k_a k <= 255)%Z.
(** Two colors whose components differ by at most [e]. *)
Definition near (e : R) (a b : color) : Prop :=
  Rabs (c_r a - c_r b) <= e /\ Rabs (c_g a - c_g b) <= e /\ Rabs (c_b a - c_b b) <= e /\ Rabs (c_t a - c_t b) <= e.
(** The predefined maps: bytes at equal distances, from position 0 to position 1. *)
Definition table (t : kind) : list (Z * Z * Z * Z) :=
  match t with
  | Intensity => [(0, 0, 0, 255); (255, 255, 255, 255)]
  | HotAlpha => [(0, 0, 189, 0); (0, 0, 255, 15); (0, 66, 255, 31); (0, 132, 255, 47); (0, 189, 255, 63); (0, 255, 255, 79); (66, 255, 189, 95); (132, 255, 132, 111);
                 (189, 255, 66, 127); (255, 255, 0, 143); (255, 189, 0, 159); (255, 132, 0, 175); (255, 66, 0, 191); (255, 0, 0, 207); (189, 0, 0, 223); (132, 0, 0, 239); (128, 0, 0, 255)]
  | Hot => [(0, 0, 189, 255); (0, 0, 255, 255); (0, 66, 255, 255); (0, 132, 255, 255); (0, 189, 255, 255); (0, 255, 255, 255); (66, 255, 189, 255); (132, 255, 132, 255);
            (189, 255, 66, 255); (255, 255, 0, 255); (255, 189, 0, 255); (255, 132, 0, 255); (255, 66, 0, 255); (255, 0, 0, 255); (189, 0, 0, 255); (132, 0, 0, 255); (128, 0, 0, 255)]
  | Red => [(0, 0, 0, 255); (255, 0, 0, 255)]
  | RedAlpha => [(0, 0, 0, 0); (255, 0, 0, 255)]
  | Green => [(0, 0, 0, 255); (0, 255, 0, 255)]
  | GreenAlpha => [(0, 0, 0, 0); (0, 255, 0, 255)]
  | Blue => [(0, 0, 0, 255); (0, 0, 255, 255)]
  | BlueAlpha => [(0, 0, 0, 0); (0, 0, 255, 255)]
  end%Z.
