(** Model of the color maps: VirtualRobot/Visualization/ColorMap.cpp.  Positions and colors over the real numbers (rounding is left out,
    except where the positions of the keys of a custom map are added up: there the arithmetic is an argument). *)
From Coq Require Import Reals List Bool ZArith SpecFloat.
Import ListNotations.
Open Scope R_scope.

(** ColorKey, ColorMap.h 67-72 (the index, which is not read, is left out). *)
Record key := Key { k_r : Z; k_g : Z; k_b : Z; k_a : Z; k_pos : R }.
(** VisualizationFactory::Color. *)
Record color := Color { c_r : R; c_g : R; c_b : R; c_t : R }.
(** The map: colorKeys and intervals. *)
Record cmap := CMap { keys : list key; intervals : list R }.
Definition empty : cmap := CMap [] [].
(** sort, ColorMap.cpp 158-173.  [sorter]: std::sort by position. *)
Definition sort_keys (sorter : list key -> list key) (m : cmap) : cmap :=
  if Nat.ltb 1 (length (keys m)) then let ks := sorter (keys m) in CMap ks (map k_pos ks) else m.
(** addColorKey, 138-156. *)
Definition add_key (sorter : list key -> list key) (m : cmap) (k : key) : bool * cmap :=
  if Rlt_dec (k_pos k) 0 then (false, m) else if Rlt_dec 1 (k_pos k) then (false, m)
  else (true, sort_keys sorter (CMap (keys m ++ [k]) (intervals m))).
Definition add_keys (sorter : list key -> list key) (m : cmap) (ks : list key) : cmap := fold_left (fun m k => snd (add_key sorter m k)) ks m.

(** The color between two keys, 197-215. *)
Definition mix (fa fb : R) (a b : Z) : R := ((IZR a * fb) + (IZR b * fa)) / 255.
Definition between (a b : R) (ka kb : key) (p : R) : color :=
  let fa := Rabs (a - p) in
  let fb := Rabs (b - p) in
  let ft := fa + fb in
  let '(fa, fb) := if Req_EM_T ft 0 then (fa, fb) else (fa / ft, fb / ft) in
  Color (mix fa fb (k_r ka) (k_r kb)) (mix fa fb (k_g ka) (k_g kb)) (mix fa fb (k_b ka) (k_b kb)) (1 - mix fa fb (k_a ka) (k_a kb)).
(** getColor, 187-220; None: false, with the color None.  The intervals were made from the keys: i and j are indices of keys. *)
Fixpoint scan (iv : list R) (ks : list key) (p : R) : option color :=
  match iv, ks with
  | a :: ((b :: _) as iv'), ka :: ((kb :: _) as ks') =>
      if Rle_dec a p then if Rle_dec p b then Some (between a b ka kb p) else scan iv' ks' p else scan iv' ks' p
  | _, _ => None
  end.
Definition get_color (m : cmap) (p : R) : option color :=
  if Rle_dec 0 p then if Rle_dec p 1 then scan (intervals m) (keys m) p else None else None.

(** The predefined maps, create, 26-134.  The keys are cleared, the intervals are not. *)
Inductive kind := Intensity | HotAlpha | Hot | Red | RedAlpha | Green | GreenAlpha | Blue | BlueAlpha.
(** Position starts at [pos], and DeltaPosition is added after every key. *)
Fixpoint stepped (delta pos : R) (alpha : R -> Z) (cs : list (Z * Z * Z)) : list key :=
  match cs with [] => [] | (r, g, b) :: cs => Key r g b (alpha pos) pos :: stepped delta (pos + delta) alpha cs end.
Definition hot_colors : list (Z * Z * Z) :=
  [(0, 0, 189); (0, 0, 255); (0, 66, 255); (0, 132, 255); (0, 189, 255); (0, 255, 255); (66, 255, 189); (132, 255, 132); (189, 255, 66);
   (255, 255, 0); (255, 189, 0); (255, 132, 0); (255, 66, 0); (255, 0, 0); (189, 0, 0); (132, 0, 0); (128, 0, 0)]%Z.
Definition kind_keys (t : kind) : list key :=
  match t with
  | Intensity => [Key 0 0 0 255 0; Key 255 255 255 255 1]
  | HotAlpha => stepped (1 / 16) 0 (fun pos => Int_part (255 * pos)) hot_colors
  | Hot => stepped (1 / 16) (- (1 / 16) + 1 / 16) (fun _ => 255%Z) hot_colors
  | Red => [Key 0 0 0 255 0; Key 255 0 0 255 1]
  | RedAlpha => [Key 0 0 0 0 0; Key 255 0 0 255 1]
  | Green => [Key 0 0 0 255 0; Key 0 255 0 255 1]
  | GreenAlpha => [Key 0 0 0 0 0; Key 0 255 0 255 1]
  | Blue => [Key 0 0 0 255 0; Key 0 0 255 255 1]
  | BlueAlpha => [Key 0 0 0 0 0; Key 0 0 255 255 1]
  end.
Definition create (sorter : list key -> list key) (m : cmap) (t : kind) : cmap :=
  sort_keys sorter (add_keys sorter (CMap [] (intervals m)) (kind_keys t)).

(** customColorMap, 222-246, for colors with components from 0 to 1 (the conversion of other values to unsigned char is not modelled).  The
    positions are added up in the arithmetic given by [zero], [add] and [step] (1.0f / (float)(colors.size() - 1)); [val]: the number meant.
    No color: an assertion. *)
Definition byte (x : R) : Z := Int_part (x * 255 + 1 / 2).
Definition key_of (c : color) (pos : R) : key := Key (byte (c_r c)) (byte (c_g c)) (byte (c_b c)) (255 - byte (c_t c)) pos.
Fixpoint custom_rest {A : Type} (add : A -> A -> A) (val : A -> R) (step act : A) (cs : list color) : list key :=
  match cs with [] => [] | c :: cs => let act := add act step in key_of c (val act) :: custom_rest add val step act cs end.
Definition custom_keys {A : Type} (zero : A) (add : A -> A -> A) (step : nat -> A) (val : A -> R) (cs : list color) : list key :=
  match cs with
  | [] => []
  | [c] => [key_of c 0; key_of c 1]
  | c :: cs => key_of c 0 :: custom_rest add val (step (length cs)) zero cs
  end.
Definition custom {A : Type} (sorter : list key -> list key) (zero : A) (add : A -> A -> A) (step : nat -> A) (val : A -> R) (cs : list color) : cmap :=
  add_keys sorter empty (custom_keys zero add step val cs).
(** Single precision: 24 bits, exponents below 128. *)
Definition f_add : spec_float -> spec_float -> spec_float := SFadd 24 128.
Definition f_step (n : nat) : spec_float := SFdiv 24 128 (binary_normalize 24 128 1 0 false) (binary_normalize 24 128 (Z.of_nat n) 0 false).
Definition f_val (x : spec_float) : R :=
  match x with S754_finite s m e => (if s then -1 else 1) * IZR (Zpos m) * powerRZ 2 e | _ => 0 end.
