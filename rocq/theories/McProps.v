(** C82 to C85: marching cubes. *)
From Coq Require Import List ZArith QArith Bool Arith Lia Permutation Relations.
From Verif Require Import McModel McSpec McProofs McMesh McSingle.
Import ListNotations.
Open Scope Z_scope.

(** A ball of one point in the middle of a grid of two cells a side. *)
Definition dot (p : point) : Z := if peq p (1, 1, 1) then 8 else -8.
(** ** C82 *)
(** For every field, level and size: the triangles are defined, no directed side occurs twice, and every side has its reverse unless both of its ends are on the same side of the hull of the grid. *)
Theorem C82_process_closed : forall size f iso, exists ts, process midpoint size f iso = Some ts /\ NoDup (sides ts) /\ forall a b, In (a, b) (sides ts) -> In (b, a) (sides ts) \/ rim size a b.
Proof.
  intros size f iso. exists (flat_map (tris f iso) (cells size)). split; [unfold process; rewrite gather_spec; reflexivity|]. split; [apply flat_nodup, cells_nodup|]. intros a b I. destruct (closed size f iso (cells size) a b) as [X|[X _]]; auto; [intros c C; apply in_cells, C|]. intros c c' _ _ _ C _. apply in_cells, C.
Qed.
(** If the field is on one side of the level on the whole hull, the surface is closed. *)
Theorem C82_process_watertight : forall size f iso ts, hull_one_side size f iso -> process midpoint size f iso = Some ts -> NoDup (sides ts) /\ forall a b, In (a, b) (sides ts) -> In (b, a) (sides ts).
Proof.
  intros size f iso ts H E. unfold process in E. rewrite gather_spec in E. injection E as <-. change (NoDup (sides (flat_map (tris f iso) (cells size))) /\ forall a b, In (a, b) (sides (flat_map (tris f iso) (cells size))) -> In (b, a) (sides (flat_map (tris f iso) (cells size)))). split; [apply flat_nodup, cells_nodup|]. intros a b I.
  destruct (closed size f iso (cells size) a b) as [X|[_ X]]; auto; [intros c C; apply in_cells, C| |contradiction]. intros c c' _ _ _ C _. apply in_cells, C.
Qed.
(** The same for the positions that are returned: every side occurs as often as its reverse. *)
Theorem C82_positions_balanced : forall th size f iso ts, 0 <= th -> no_thin_edge th size f iso -> hull_one_side size f iso -> process (interp th iso f) size f iso = Some ts -> forall p q, occurs same_place p q (sides ts) = occurs same_place q p (sides ts).
Proof. intros th size f iso ts T N H E. apply (positions_balanced th size iso f (cells size)); try assumption; [apply cells_nodup|intros c C; apply in_cells, C|]. intros c c' _ _ _ C _. apply in_cells, C. Qed.
Print Assumptions C82_process_closed.
Print Assumptions C82_process_watertight.
Print Assumptions C82_positions_balanced.
Lemma dot_hull : hull_one_side 2 dot 0.
Proof.
  right. intros [[x y] z] [_ (d & D)]. unfold dot. destruct (peq (x, y, z) (1, 1, 1)) eqn:E; [|lia]. apply peq_eq in E. injection E as -> -> ->. destruct d as [|[|d]]; cbn [coordinate] in D; lia.
Qed.
Lemma dot_thin : no_thin_edge 3 2 dot 0.
Proof. intros p q _ _ _ _. left. unfold dot. destruct (peq p (1, 1, 1)); lia. Qed.
Example C82_dot : hull_one_side 2 dot 0 /\ no_thin_edge 3 2 dot 0 /\ (exists ts, process midpoint 2 dot 0 = Some ts /\ length ts = 8%nat /\ In ((1, 2, 2), (2, 1, 2)) (sides ts)) /\ exists ts, process (interp 3 0 dot) 2 dot 0 = Some ts /\ length ts = 8%nat.
Proof. split; [exact dot_hull|]. split; [exact dot_thin|]. split; [|eexists; split; [vm_compute; reflexivity|reflexivity]]. eexists. split; [vm_compute; reflexivity|]. split; [reflexivity|]. vm_compute. tauto. Qed.
(** A block of 27 points; the edge from (3, 2, 2) to (4, 2, 2) is thin. *)
Definition faint (p : point) : Z := if peq p (3, 2, 2) then 1 else if peq p (4, 2, 2) then -1 else let '(x, y, z) := p in if (1 <=? x) && (x <=? 3) && (1 <=? y) && (y <=? 3) && (1 <=? z) && (z <=? 3) then 8 else -8.
Lemma faint_hull : hull_one_side 4 faint 0.
Proof.
  right. intros [[x y] z] [_ (d & D)]. unfold faint. destruct (peq (x, y, z) (3, 2, 2)) eqn:E; [apply peq_eq in E; injection E as -> -> ->; destruct d as [|[|d]]; cbn [coordinate] in D; lia|]. destruct (peq (x, y, z) (4, 2, 2)); [lia|].
  destruct ((1 <=? x) && (x <=? 3) && (1 <=? y) && (y <=? 3) && (1 <=? z) && (z <=? 3)) eqn:B; [|lia]. rewrite !andb_true_iff, !Z.leb_le in B. destruct d as [|[|d]]; cbn [coordinate] in D; lia.
Qed.
(** Without the condition on thin edges the positions do not fit: next to an edge with both ends within the threshold of the level, neighbouring cells take different ends, and the closed surface gets a crack. *)
Theorem C82_thin_edge_refuted : ~ (forall th size f iso ts, 0 <= th -> hull_one_side size f iso -> process (interp th iso f) size f iso = Some ts -> forall p q, occurs same_place p q (sides ts) = occurs same_place q p (sides ts)).
Proof.
  intros H. destruct (process (interp 3 0 faint) 4 faint 0) as [ts|] eqn:E; [|unfold process in E; rewrite gather_spec in E; discriminate]. assert (X := H 3 4 faint 0 ts ltac:(lia) faint_hull E (3%Q, 2%Q, 2%Q) ((7 # 2)%Q, 2%Q, 3%Q)).
  assert (Y : match process (interp 3 0 faint) 4 faint 0 with Some ts => occurs same_place (3%Q, 2%Q, 2%Q) ((7 # 2)%Q, 2%Q, 3%Q) (sides ts) = 1%nat /\ occurs same_place ((7 # 2)%Q, 2%Q, 3%Q) (3%Q, 2%Q, 2%Q) (sides ts) = 0%nat | None => False end) by (vm_compute; split; reflexivity). rewrite E in Y. destruct Y as [A B]. rewrite A, B in X. discriminate.
Qed.
Print Assumptions C82_thin_edge_refuted.

(** ** C83 *)
(** One cell: always defined, at most five triangles, none exactly if all corners are on the same side. *)
Theorem C83_cell : forall V (vert : point -> point -> V) f iso c, exists ts, polygonise vert f iso c = Some ts /\ (length ts <= 5)%nat /\ (ts <> [] <-> meets f iso c).
Proof.
  intros V vert f iso c. exists (map (tmap (vat vert c)) (loc (bits_of f iso c))). split; [apply polygonise_spec|]. split.
  - rewrite map_length. destruct (f_local _ (facts_hold _ (bits_length f iso c))) as (l & _ & -> & L). exact L.
  - rewrite meets_loc. destruct (loc (bits_of f iso c)); cbn [map]; split; congruence.
Qed.
(** Every vertex lies on an edge of the grid whose ends are on different sides of the level, where the interpolated field has the level, or in an end that is within the threshold of it. *)
Theorem C83_vertices_on_level : forall th size f iso ts v, 0 <= th -> process (interp th iso f) size f iso = Some ts -> In v (vertices ts) ->
  exists p q mu, in_grid size p /\ in_grid size q /\ joined p q /\ crosses f iso p q /\ hits th f iso p q mu /\ eq3 v (at_mu mu p q).
Proof.
  intros th size f iso ts v T E I. destruct (vertex_from (interp th iso f) size f iso (cells size) ts v (fun c C => proj1 (in_cells size c) C) E I) as (p & q & P & Q' & J & X & ->). destruct (interp_hits th iso f p q T X) as (mu & H & EQ). exists p, q, mu. auto 10.
Qed.
(** Every edge of the grid whose ends are on different sides of the level carries a vertex. *)
Theorem C83_crossed_edges_have_vertices : forall th size f iso ts p q, 0 <= th -> process (interp th iso f) size f iso = Some ts -> in_grid size p -> in_grid size q -> joined p q -> crosses f iso p q ->
  exists v mu, In v (vertices ts) /\ hits th f iso p q mu /\ eq3 v (at_mu mu p q).
Proof.
  intros th size f iso ts p q T E P Q' J X. destruct (vertex_to (interp th iso f) size f iso ts p q E P Q' J X) as [I|I].
  - destruct (interp_hits th iso f p q T X) as (mu & H & EQ). exists (interp th iso f p q), mu. auto.
  - assert (X' : crosses f iso q p) by (unfold crosses in *; tauto). destruct (interp_hits th iso f q p T X') as (mu & [[M0 M1] H] & EQ). exists (interp th iso f q p), (1 - mu)%Q. split; [exact I|]. split; [split; [split|]|].
    + setoid_replace 0%Q with (1 - 1)%Q by reflexivity. apply Qplus_le_compat; [apply Qle_refl|]. apply Qopp_le_compat, M1.
    + setoid_replace 1%Q with (1 - 0)%Q at 2 by reflexivity. apply Qplus_le_compat; [apply Qle_refl|]. apply Qopp_le_compat, M0.
    + destruct H as [H|[[H L]|[H L]]]; [left|right; right; split; [rewrite H; reflexivity|exact L]|right; left; split; [rewrite H; reflexivity|exact L]]. rewrite <- H. unfold Z.sub. rewrite !inject_Z_plus, !inject_Z_opp. ring.
    + eapply eq3_trans; [exact EQ|]. destruct p as [[? ?] ?], q as [[? ?] ?]. cbn [at_mu eq3]. unfold Z.sub. rewrite !inject_Z_plus, !inject_Z_opp. repeat split; ring.
Qed.
Print Assumptions C83_cell.
Print Assumptions C83_vertices_on_level.
Print Assumptions C83_crossed_edges_have_vertices.
Example C83_dot : exists ts, process (interp 3 0 dot) 2 dot 0 = Some ts /\ In ((1 # 2)%Q, 1%Q, 1%Q) (vertices ts) /\ crosses dot 0 (0, 1, 1) (1, 1, 1) /\ joined (0, 1, 1) (1, 1, 1) /\ meets dot 0 (0, 0, 0).
Proof.
  eexists. split; [vm_compute; reflexivity|]. split; [vm_compute; tauto|]. split; [left; vm_compute; split; [discriminate|reflexivity]|]. split; [exists 0%nat; split; [lia|left; reflexivity]|]. apply meets_index. exists 0%nat, 6%nat. split; [lia|]. split; [lia|]. left. vm_compute. split; [discriminate|reflexivity].
Qed.

(** ** C84 *)
(** From any cell the search ends and gives the surface of a set of cells that does not end inside the grid; so no directed side occurs twice, and each has its reverse unless it lies on the hull. *)
Theorem C84_single_closed : forall size f iso start fuel, cell size start -> (Z.to_nat (size * size * size) <= fuel)%nat ->
  exists ts, single_surface fuel midpoint size f iso start = Some (Some ts) /\ NoDup (sides ts) /\ (forall a b, In (a, b) (sides ts) -> In (b, a) (sides ts) \/ rim size a b) /\ (hull_one_side size f iso -> forall a b, In (a, b) (sides ts) -> In (b, a) (sides ts)).
Proof.
  intros size f iso start fuel C FU. destruct (single_complete midpoint size f iso start fuel C FU) as (cs & ts & E & G & ND & CC & CO). exists ts. split; [exact E|]. rewrite gather_spec in G. injection G as <-. split; [apply (flat_nodup f iso cs), ND|]. split.
  - intros a b I. destruct (closed size f iso cs a b (fun c X => proj1 (CC c X)) CO I) as [X|[X _]]; [left; exact X|right; exact X].
  - intros H a b I. destruct (closed size f iso cs a b (fun c X => proj1 (CC c X)) CO I) as [X|[_ X]]; [exact X|contradiction].
Qed.
(** The positions fit, too. *)
Theorem C84_single_balanced : forall th size f iso start fuel ts, 0 <= th -> no_thin_edge th size f iso -> hull_one_side size f iso -> cell size start -> (Z.to_nat (size * size * size) <= fuel)%nat -> single_surface fuel (interp th iso f) size f iso start = Some (Some ts) ->
  forall p q, occurs same_place p q (sides ts) = occurs same_place q p (sides ts).
Proof.
  intros th size f iso start fuel ts T N H C FU E. destruct (single_complete (interp th iso f) size f iso start fuel C FU) as (cs & ts' & E' & G & ND & CC & CO). rewrite E in E'. injection E' as <-. apply (positions_balanced th size iso f cs); try assumption. intros c X. apply CC, X.
Qed.
(** From a cell that the surface meets, the result is exactly the surface that goes through this cell: the cells met by it that are linked to the start through shared faces, each once. *)
Theorem C84_single_component : forall V (vert : point -> point -> V) size f iso start fuel, cell size start -> meets f iso start -> (Z.to_nat (size * size * size) <= fuel)%nat ->
  exists cs ts, single_surface fuel vert size f iso start = Some (Some ts) /\ gather vert f iso cs = Some ts /\ NoDup cs /\ (forall c, In c cs <-> same_surface size f iso start c).
Proof. intros. apply single_component; assumption. Qed.
(** From any cell, the result is empty only if there is no surface in the grid. *)
Theorem C84_single_finds : forall V (vert : point -> point -> V) size f iso start fuel ts, cell size start -> (Z.to_nat (size * size * size) <= fuel)%nat -> single_surface fuel vert size f iso start = Some (Some ts) -> (ts = [] <-> forall c, cell size c -> ~ meets f iso c).
Proof. intros V vert size f iso start fuel ts. apply single_finds. Qed.
(** Calculate: if the start is closer to the center than half the width of the grid in each coordinate, the result is defined, and each vertex lies between two neighbouring samples on different sides of the level, where the interpolated field has it. *)
Theorem C84_calculate : forall fuel th steps len center start model iso, 0 <= th -> 0 < len -> 0 < steps -> (forall d, Z.abs (coordinate d start - coordinate d center) < steps * len) -> (Z.to_nat (steps * 2 * (steps * 2) * (steps * 2)) <= fuel)%nat ->
  exists ts, calculate fuel th steps len center start model iso = Some (Some ts) /\
    forall v, In v (vertices ts) -> exists p q mu, in_grid (steps * 2) p /\ in_grid (steps * 2) q /\ joined p q /\ crosses model iso (sample steps len center p) (sample steps len center q) /\
      hits th model iso (sample steps len center p) (sample steps len center q) mu /\ eq3 v (at_mu mu (sample steps len center p) (sample steps len center q)).
Proof. intros fuel th steps len center start model iso T L SP H FU. apply calculate_vertices; try assumption. intros d. specialize (H d). nia. Qed.
(** The start is only a cell of the grid in this range: on the far hull of the grid, which is sampled, the index is beyond the cells, and nothing checks it. *)
Theorem C84_start_on_hull_refuted : ~ (forall steps len center start, 0 < len -> 0 < steps -> (forall d, - steps * len <= coordinate d start - coordinate d center <= steps * len) -> cell (steps * 2) (start_index steps len center start)).
Proof. intros H. assert (X := H 2 1 (0, 0, 0) (2, 0, 0) ltac:(lia) ltac:(lia) ltac:(intros [|[|d]]; cbn [coordinate]; lia)). specialize (X 0%nat). vm_compute in X. destruct X. discriminate. Qed.
Theorem C84_start_cell : forall steps len center start, 0 < len -> 0 < steps -> (cell (steps * 2) (start_index steps len center start) <-> forall d, - (steps + 1) * len < coordinate d start - coordinate d center < steps * len).
Proof. intros. apply start_cell; assumption. Qed.
Print Assumptions C84_single_closed.
Print Assumptions C84_single_balanced.
Print Assumptions C84_single_component.
Print Assumptions C84_single_finds.
Print Assumptions C84_calculate.
Print Assumptions C84_start_on_hull_refuted.
Print Assumptions C84_start_cell.
(** Two points above the level, far from each other. *)
Definition two (p : point) : Z := if peq p (1, 2, 2) then 8 else if peq p (5, 2, 2) then 8 else -8.
Lemma two_meets x y z : meets two 0 (x, y, z) -> x = 0 \/ x = 1 \/ x = 4 \/ x = 5.
Proof.
  rewrite meets_index. intros (i & k & I & K & X). apply crosses_above in X. assert (A : exists n, (n < 8)%nat /\ above two 0 (corner (x, y, z) n) = true) by (destruct (above two 0 (corner (x, y, z) i)) eqn:A; [exists i; auto|destruct (above two 0 (corner (x, y, z) k)) eqn:B; [exists k; auto|exfalso; apply X; congruence]]).
  destruct A as (n & N & A). assert (R := corner_range n 0 N). assert (C : coordinate 0 (corner (x, y, z) n) = x + coordinate 0 (nth n corners (0, 0, 0))) by (unfold corner; rewrite coordinate_plus; reflexivity). unfold above, two in A. destruct (peq (corner (x, y, z) n) (1, 2, 2)) eqn:E; [apply peq_eq in E; rewrite E in C; cbn [coordinate] in C; lia|]. destruct (peq (corner (x, y, z) n) (5, 2, 2)) eqn:E2; [apply peq_eq in E2; rewrite E2 in C; cbn [coordinate] in C; lia|discriminate].
Qed.
Lemma two_apart c : same_surface 6 two 0 (1, 2, 2) c -> coordinate 0 c <= 1.
Proof.
  intros SC. apply clos_rt_rtn1 in SC. induction SC as [|c c' [B [CB MB]] SC IH]; [cbn; lia|]. destruct c as [[x y] z], c' as [[x' y'] z']. apply two_meets in MB. cbn [coordinate] in *. assert (x' <= x + 1) by (apply beside_around in B; unfold around in B; cbn [map In plus3] in B; decompose [or] B; clear B; try contradiction; match goal with E : _ = _ |- _ => injection E as ? ? ? end; lia). lia.
Qed.
(** From a cell that no surface meets the result need not be a single surface. *)
Theorem C84_start_off_surface_refuted : ~ (forall size f iso start fuel ts, cell size start -> (Z.to_nat (size * size * size) <= fuel)%nat -> single_surface fuel midpoint size f iso start = Some (Some ts) ->
  forall c c' l l', polygonise midpoint f iso c = Some l -> polygonise midpoint f iso c' = Some l' -> l <> [] -> l' <> [] -> incl l ts -> incl l' ts -> same_surface size f iso c c').
Proof.
  intros H. assert (C : cell 6 (2, 2, 2)) by (intros [|[|d]]; cbn [coordinate]; lia). destruct (single_complete midpoint 6 two 0 (2, 2, 2) 216%nat C (le_n _)) as (cs & ts & E & _).
  assert (Y : match single_surface 216 midpoint 6 two 0 (2, 2, 2), polygonise midpoint two 0 (1, 2, 2), polygonise midpoint two 0 (4, 2, 2) with Some (Some ts), Some l, Some l' => (match l with [] => false | _ => true end) && (match l' with [] => false | _ => true end) && forallb (fun t => existsb (fun u => peq (fst (fst t)) (fst (fst u)) && peq (snd (fst t)) (snd (fst u)) && peq (snd t) (snd u)) ts) (l ++ l') | _, _, _ => false end = true) by (vm_compute; reflexivity).
  rewrite E in Y. destruct (polygonise midpoint two 0 (1, 2, 2)) as [l|] eqn:E1; [|discriminate]. destruct (polygonise midpoint two 0 (4, 2, 2)) as [l'|] eqn:E2; [|discriminate]. rewrite !andb_true_iff in Y. destruct Y as [[N1 N2] Y]. rewrite forallb_forall in Y.
  assert (INC : forall t, In t (l ++ l') -> In t ts). { intros t T. apply Y in T. apply existsb_exists in T. destruct T as (u & U & P). rewrite !andb_true_iff, !peq_eq in P. destruct P as [[P1 P2] P3]. replace t with u; [exact U|]. destruct t as [[? ?] ?], u as [[? ?] ?]. cbn [fst snd] in *. congruence. }
  assert (SC := H 6 two 0 (2, 2, 2) 216%nat ts C (le_n _) E (1, 2, 2) (4, 2, 2) l l' E1 E2 ltac:(destruct l; congruence) ltac:(destruct l'; congruence) ltac:(intros t T; apply INC, in_or_app; left; exact T) ltac:(intros t T; apply INC, in_or_app; right; exact T)). apply two_apart in SC. cbn [coordinate] in SC. lia.
Qed.
Print Assumptions C84_start_off_surface_refuted.
Example C84_two : cell 6 (1, 2, 2) /\ meets two 0 (1, 2, 2) /\ (exists ts, single_surface 216 midpoint 6 two 0 (1, 2, 2) = Some (Some ts) /\ length ts = 8%nat) /\ (exists ts, process midpoint 6 two 0 = Some ts /\ length ts = 16%nat) /\ exists ts, calculate 64 3 2 10 (5, 5, 5) (7, 1, 5) (fun p => let '(x, y, z) := p in 100 - (x - 5) * (x - 5) - (y - 5) * (y - 5) - (z - 5) * (z - 5)) 5 = Some (Some ts) /\ length ts = 8%nat.
Proof.
  split; [intros [|[|d]]; cbn [coordinate]; lia|]. split; [apply meets_index; exists 0%nat, 1%nat; split; [lia|]; split; [lia|]; right; vm_compute; split; [discriminate|reflexivity]|]. split; [eexists; split; [vm_compute; reflexivity|reflexivity]|]. split; [eexists; split; [vm_compute; reflexivity|reflexivity]|]. eexists; split; [vm_compute; reflexivity|reflexivity].
Qed.

(** ** C85 *)
(** For any history of points of the grid: each fetch returns the value of the field, and the field is asked exactly once for each point that occurs. *)
Theorem C85_cache_transparent : forall n f ps, (forall p, In p ps -> forall d, 0 <= coordinate d p < n) ->
  exists s seen, fetch n f ps (new_cache n) = Some (map f ps, s) /\ NoDup seen /\ (forall p, In p seen <-> In p ps) /\ snd s = length seen.
Proof.
  intros n f ps PS. destruct (fetch_spec n f ps [] (new_cache n) (new_holds n f) (NoDup_nil _) PS) as (s & seen & E & ND & IN & CN). exists s, seen. split; [exact E|]. split; [exact ND|]. split; [intros p; rewrite IN; cbn [In]; tauto|]. unfold new_cache in CN. cbn [snd length] in CN. lia.
Qed.
(** All values that a cell of the grid needs are in this range. *)
Theorem C85_cells_in_range : forall size c k, cell size c -> (k < 8)%nat -> forall d, 0 <= coordinate d (corner c k) < size + 1.
Proof. intros size c k C K d. assert (X := corner_in_grid size c k C K d). lia. Qed.
(** Outside the range, a fetch is refused for some points, but for others it fills the place of another point, which then has the wrong value. *)
Theorem C85_outside_refuted : ~ (forall n f p q l s, (forall d, 0 <= coordinate d q < n) -> fetch n f [p; q] (new_cache n) = Some (l, s) -> l = [f p; f q]).
Proof.
  intros H. assert (X := H 3 (fun p => coordinate 0 p) (3, 0, 0) (0, 1, 0) [3; 3]). destruct (fetch 3 (fun p => coordinate 0 p) [(3, 0, 0); (0, 1, 0)] (new_cache 3)) as [[l s]|] eqn:E; [|vm_compute in E; discriminate]. assert (L : l = [3; 3]) by (vm_compute in E; congruence). subst l. specialize (X s ltac:(intros [|[|d]]; cbn [coordinate]; lia) E). discriminate.
Qed.
Print Assumptions C85_cache_transparent.
Print Assumptions C85_cells_in_range.
Print Assumptions C85_outside_refuted.
Example C85_three : exists s, fetch 3 (fun p => coordinate 0 p) [(1, 0, 0); (2, 1, 0); (1, 0, 0)] (new_cache 3) = Some ([1; 2; 1], s) /\ snd s = 2%nat.
Proof. eexists. split; [vm_compute; reflexivity|reflexivity]. Qed.
