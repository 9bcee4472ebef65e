(** Model of the kd-tree: VirtualRobot/DataStructures/nanoflann.hpp (KDTreeSingleIndexAdaptor, KNNResultSet, RadiusResultSet) and
    KdTreePointCloud.h.  Coordinates and distances are integers: finitely many numbers are whole multiples of a common unit; the
    rounding of sums and products is left out, and so are NaN and infinite coordinates.  The range [left, right) of the array vind of a
    node is the list of its entries; the recursion divides this range, so the lists of two nodes never overlap.  The numbers that
    depend on rounding are given: wide (span > (1-EPS)*max_span, 1116) and mid ((low+high)/2, 1127) are arbitrary functions. *)
From Coq Require Import List ZArith Bool Arith.
Import ListNotations.
Open Scope Z_scope.

(** What the tree is built from: pt i c is component c of point i (kdtree_get_pt, KdTreePointCloud.h 52-57), the number of points, the
    dimension, m_leaf_max_size and the rounding. *)
Record data := Data { pt : nat -> nat -> Z; d_count : nat; d_dim : nat; d_leaf : nat; d_wide : Z -> Z -> bool; d_mid : Z -> Z -> Z }.
(** Arrays. *)
Fixpoint upd {A} (l : list A) (i : nat) (x : A) : list A := match l, i with [], _ => [] | _ :: l, O => x :: l | y :: l, S i => y :: upd l i x end.
(** std::swap(ind[left], ind[right]). *)
Definition swap (a : list nat) (i j : nat) : list nat := upd (upd a i (nth j a O)) j (nth i a O).
(** BoundingBox: one interval for each component. *)
Definition box : Type := list (Z * Z).
Definition interval (b : box) (c : nat) : Z * Z := nth c b (0, 0).

(** computeMinMax, 1091-1100. *)
Definition min_max (D : data) (c : nat) (ind : list nat) : Z * Z :=
  match ind with
  | [] => (0, 0)
  | i :: ind => fold_left (fun m k => let v := pt D k c in (if v <? fst m then v else fst m, if snd m <? v then v else snd m)) ind (pt D i c, pt D i c)
  end.
(** The loops of planeSplit, 1158-1165 and 1171-1178: below is the test of the first inner loop, above the one of the second; left, the
    array; None: out of fuel. *)
Fixpoint up (fuel : nat) (below : nat -> bool) (a : list nat) (left right : nat) : nat :=
  match fuel with O => left | S fuel => if (left <=? right)%nat && below (nth left a O) then up fuel below a (S left) right else left end.
Fixpoint down (fuel : nat) (above : nat -> bool) (a : list nat) (left right : nat) : nat :=
  match fuel with O => right | S fuel => if negb (right =? 0)%nat && (left <=? right)%nat && above (nth right a O) then down fuel above a left (right - 1) else right end.
Fixpoint part (fuel : nat) (below above : nat -> bool) (a : list nat) (left right : nat) : option (list nat * nat) :=
  match fuel with
  | O => None
  | S fuel =>
      let left := up (S (length a)) below a left right in
      let right := down (S (length a)) above a left right in
      if (right <? left)%nat || (right =? 0)%nat then Some (a, left)
      else part fuel below above (swap a left right) (S left) (right - 1)
  end.
(** planeSplit, 1153-1180: the array, lim1 and lim2. *)
Definition plane_split (D : data) (ind : list nat) (c : nat) (cutval : Z) : option (list nat * nat * nat) :=
  match part (S (length ind)) (fun i => pt D i c <? cutval) (fun i => cutval <=? pt D i c) ind 0 (length ind - 1) with
  | None => None
  | Some (ind, lim1) =>
      match part (S (length ind)) (fun i => pt D i c <=? cutval) (fun i => cutval <? pt D i c) ind lim1 (length ind - 1) with
      | None => None
      | Some (ind, lim2) => Some (ind, lim1, lim2)
      end
  end.
(** middleSplit_, 1102-1143: the array, index, cutfeat and cutval. *)
Definition span (b : box) (c : nat) : Z := snd (interval b c) - fst (interval b c).
Definition max_span (D : data) (b : box) : Z := fold_left (fun m c => if m <? span b c then span b c else m) (seq 1 (d_dim D - 1)) (span b 0).
Definition cut_feature (D : data) (ind : list nat) (b : box) : nat :=
  fst (fold_left (fun (s : nat * Z) c => if d_wide D (span b c) (max_span D b) then
                           let m := min_max D c ind in if snd s <? snd m - fst m then (c, snd m - fst m) else s
                         else s) (seq 0 (d_dim D)) (O, -1)).
Definition middle_split (D : data) (ind : list nat) (b : box) : option (list nat * nat * nat * Z) :=
  let c := cut_feature D ind b in
  let v := d_mid D (fst (interval b c)) (snd (interval b c)) in
  let m := min_max D c ind in
  let cutval := if v <? fst m then fst m else if snd m <? v then snd m else v in
  match plane_split D ind c cutval with
  | None => None
  | Some (ind, lim1, lim2) =>
      let half := (length ind / 2)%nat in
      Some (ind, if (half <? lim1)%nat then lim1 else if (lim2 <? half)%nat then lim2 else half, c, cutval)
  end.
(** Node, 768-785. *)
Inductive tree := Leaf (ind : list nat) | Node (feature : nat) (low high : Z) (child1 child2 : tree).
(** divideTree, 1040-1086: the tree and the box as it is afterwards; None: out of fuel. *)
Definition join (a b : Z * Z) : Z * Z := (Z.min (fst a) (fst b), Z.max (snd a) (snd b)).
Fixpoint divide (fuel : nat) (D : data) (ind : list nat) (b : box) : option (tree * box) :=
  match fuel with
  | O => None
  | S fuel =>
      if (length ind <=? d_leaf D)%nat then Some (Leaf ind, map (fun c => min_max D c ind) (seq 0 (d_dim D)))
      else
        match middle_split D ind b with
        | None => None
        | Some (ind, idx, c, cutval) =>
            match divide fuel D (firstn idx ind) (upd b c (fst (interval b c), cutval)) with
            | None => None
            | Some (t1, b1) =>
                match divide fuel D (skipn idx ind) (upd b c (cutval, snd (interval b c))) with
                | None => None
                | Some (t2, b2) => Some (Node c (snd (interval b1 c)) (fst (interval b2 c)) t1 t2, map (fun c => join (interval b1 c) (interval b2 c)) (seq 0 (d_dim D)))
                end
            end
        end
  end.
(** buildIndex, 857-865, with computeBoundingBox, 1008-1029: nothing is built for no points. *)
Definition build (fuel : nat) (D : data) : option (option (tree * box)) :=
  match d_count D with
  | O => Some None
  | S _ => let ind := seq 0 (d_count D) in
      match divide fuel D ind (map (fun c => min_max D c ind) (seq 0 (d_dim D))) with None => None | Some r => Some (Some r) end
  end.

(** ** Searching *)
(** accum_dist of L1_Adaptor, 293-296, and of the other two, 342-345 and 368-371; the distance is the sum over all components. *)
Definition l1 (a b : Z) : Z := Z.abs (a - b).
Definition l2 (a b : Z) : Z := (a - b) * (a - b).
Definition dist (D : data) (acc : Z -> Z -> Z) (q : nat -> Z) (i : nat) : Z := fold_left (fun s c => s + acc (q c) (pt D i c)) (seq 0 (d_dim D)) 0.
(** computeInitialDistances, 1182-1199: the distances for each component and their sum. *)
Definition initial (D : data) (acc : Z -> Z -> Z) (q : nat -> Z) (b : box) : list Z * Z :=
  fold_left (fun s c =>
    let s := if q c <? fst (interval b c) then (upd (fst s) c (acc (q c) (fst (interval b c))), snd s + acc (q c) (fst (interval b c))) else s in
    if snd (interval b c) <? q c then (upd (fst s) c (acc (q c) (snd (interval b c))), snd s + acc (q c) (snd (interval b c))) else s)
    (seq 0 (d_dim D)) (repeat 0 (d_dim D), 0).
(** A set of results: worstDist (None for the greatest number there is) and addPoint. *)
Record results (R : Type) := Results { worst : R -> option Z; add : R -> Z -> nat -> R }.
Arguments worst {R}. Arguments add {R}.
Definition below_worst (d : Z) (w : option Z) : bool := match w with None => true | Some w => d <? w end.
(** searchLevel, 1206-1253: the results and the array dists afterwards; epsError is en / ed. *)
Fixpoint search {R} (D : data) (acc : Z -> Z -> Z) (rs : results R) (en ed : Z) (q : nat -> Z) (t : tree) (mindist : Z) (dists : list Z) (r : R) : R * list Z :=
  match t with
  | Leaf ind =>
      let w := worst rs r in
      (fold_left (fun r i => if below_worst (dist D acc q i) w then add rs r (dist D acc q i) i else r) ind r, dists)
  | Node c low high t1 t2 =>
      let first := (q c - low) + (q c - high) <? 0 in
      let cut := if first then acc (q c) high else acc (q c) low in
      let '(r, dists) := (if first then search D acc rs en ed q t1 else search D acc rs en ed q t2) mindist dists r in
      let dst := nth c dists 0 in
      let mindist := mindist + cut - dst in
      let dists := upd dists c cut in
      let '(r, dists) := if match worst rs r with None => true | Some w => mindist * en <=? w * ed end
        then (if first then search D acc rs en ed q t2 else search D acc rs en ed q t1) mindist dists r else (r, dists) in
      (r, upd dists c dst)
  end.
(** findNeighbors, 900-914; searching before building throws and is left out. *)
Definition find {R} (D : data) (acc : Z -> Z -> Z) (rs : results R) (en ed : Z) (q : nat -> Z) (index : option (tree * box)) (r : R) : R :=
  match index with
  | None => r
  | Some (t, b) => let '(dists, d) := initial D acc q b in fst (search D acc rs en ed q t d dists r)
  end.
(** RadiusResultSet, 142-190, and radiusSearch, 944-951: indices with distances; sort is std::sort. *)
Definition radius_set (radius : Z) : results (list (nat * Z)) := Results _ (fun _ => Some radius) (fun r d i => if d <? radius then r ++ [(i, d)] else r).
Definition radius_search (sort : list (nat * Z) -> list (nat * Z)) (D : data) (acc : Z -> Z -> Z) (en ed : Z) (sorted : bool) (index : option (tree * box)) (q : nat -> Z) (radius : Z) : list (nat * Z) :=
  let found := find D acc (radius_set radius) en ed q index [] in
  if sorted then sort found else found.
(** KNNResultSet, 76-135: the arrays dists and indices together, with None for the greatest number, and count. *)
Definition knn : Type := (list (option Z * nat) * nat)%type.
Definition farther (x : option Z) (d : Z) : bool := match x with None => true | Some y => d <? y end.
Fixpoint shift (i : nat) (a : list (option Z * nat)) (d : Z) : list (option Z * nat) * nat :=
  match i with
  | O => (a, O)
  | S i' => if farther (fst (nth i' a (None, O))) d then shift i' (if (i <? length a)%nat then upd a i (nth i' a (None, O)) else a) d else (a, i)
  end.
Definition knn_add (r : knn) (d : Z) (index : nat) : knn :=
  let '(a, count) := r in
  let '(a', i) := shift count a d in
  (if (i <? length a)%nat then upd a' i (Some d, index) else a', if (count <? length a)%nat then S count else count).
Definition knn_set : results knn := Results _ (fun r => fst (nth (length (fst r) - 1) (fst r) (None, O))) knn_add.
(** init, 88-95: the arrays have arbitrary contents but for the last distance. *)
Definition knn_init (junk : list (option Z * nat)) : knn := (upd junk (length junk - 1) (None, snd (nth (length junk - 1) junk (None, O))), O).
(** knnSearch, 924-930, with the arrays given: the arrays and the number of results. *)
Definition knn_search (D : data) (acc : Z -> Z -> Z) (index : option (tree * box)) (q : nat -> Z) (junk : list (option Z * nat)) : knn :=
  find D acc knn_set 1 1 q index (knn_init junk).
(** mergeVertices (TriMeshModel.cpp 354-387): the tree over the vertices of a mesh and the search around vertex i with radius t, not
    sorted; the numbers of the vertices found. *)
Definition component (p : Z * Z * Z) (c : nat) : Z := let '(x, y, z) := p in match c with O => x | 1%nat => y | _ => z end.
Definition cloud (wide : Z -> Z -> bool) (mid : Z -> Z -> Z) (vs : list (Z * Z * Z)) : data := Data (fun i c => component (nth i vs (0, 0, 0)) c) (length vs) 3 10 wide mid.
Definition cloud_near (wide : Z -> Z -> bool) (mid : Z -> Z -> Z) (t : Z) (vs : list (Z * Z * Z)) (i : nat) : list nat :=
  match build (length vs) (cloud wide mid vs) with
  | None => []
  | Some index => map fst (radius_search (fun l => l) (cloud wide mid vs) l2 1 1 false index (component (nth i vs (0, 0, 0))) t)
  end.
