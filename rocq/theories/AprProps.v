(** C91 and C92: poses from which a hand approaches an object. *)
From Coq Require Import Reals List Bool Arith Lra Lia.
From Verif Require Import QuatModel QuatSpec QuatProofs RpyModel JointModel KinModel KinSpec KinProofs KinProps BBoxSpec PlaneProofs AprModel AprSpec AprProofs.
Import ListNotations.
Open Scope R_scope.

(** C91.  The point is on the face that was drawn, and the direction is the normal of this face, of length one (up to a millionth in the square). *)
Theorem C91_surface : forall m md areas uniform by_area r0 r1, mesh_ok m -> (uniform < length (faces m))%nat -> 0 <= r0 <= 1 -> 0 <= r1 <= 1 ->
  exists f p d, nth_error (faces m) uniform = Some f /\ position_on_object m (create md areas) uniform by_area r0 r1 = Position p d /\ on_face m f p /\
    (f_normal f <> Vec 0 0 0 -> (exists k, 0 < k /\ f_normal f = vscale k d) /\ Rabs (vdot d d - 1) <= 1 / 10 ^ 6).
Proof.
  intros m md areas u ba r0 r1 MO LU R0 R1. destruct (nth_error (faces m) u) as [f|] eqn:EF; [|apply nth_error_None in EF; lia]. exists f.
  destruct (MO f (nth_error_In _ _ EF)) as (L1 & L2 & L3). unfold position_on_object, create. cbn [use_areas]. rewrite EF.
  destruct (nth_error (verts m) (f1 f)) as [a|] eqn:E1; [|apply nth_error_None in E1; lia]. destruct (nth_error (verts m) (f2 f)) as [b|] eqn:E2; [|apply nth_error_None in E2; lia].
  destruct (nth_error (verts m) (f3 f)) as [c|] eqn:E3; [|apply nth_error_None in E3; lia].
  destruct (faces m) as [|f0 fs] eqn:FS; [destruct u; discriminate EF|]. do 2 eexists. split; [reflexivity|]. split; [reflexivity|]. split.
  - exists a, b, c. split; [exact E1|]. split; [exact E2|]. split; [exact E3|]. exists r0, ((1 - r0) * r1), (1 - r0 - (1 - r0) * r1). split; [lra|].
    assert (0 <= (1 - r0) * r1) by (apply Rmult_le_pos; lra). assert (0 <= (1 - r0) * (1 - r1)) by (apply Rmult_le_pos; lra).
    split; [lra|]. split; [lra|]. split; [lra|]. reflexivity.
  - intros NZ. destruct (vnormalize_unit (f_normal f) NZ) as (U & k & K & E). destruct (Rlt_dec (1 / 10 ^ 6) (Rabs (vdot (f_normal f) (f_normal f) - 1))) as [L|L].
    + split; [exists k; auto|]. rewrite U, Rminus_eq_0, Rabs_R0. lra.
    + split; [|lra]. exists 1. split; [lra|]. destruct (f_normal f); unfold vscale; cbn. f_equal; ring.
Qed.
(** A right handed orthonormal frame looking against the approach direction is placed on the point; it fails only when none of a thousand random directions is of use. *)
Theorem C91_frame : forall (J : Type) svd (e : eef J) fuel rnd p d h h' ok, is_svd svd -> rigid e -> rotation (prot (base h)) -> 1 / 10 ^ 10 <= vnorm d ->
  set_to_approach svd e fuel rnd p d h = Some (h', ok) ->
  conf h' = conf h /\
  if ok then exists m, faces_against m d /\ (is_identity m = false -> eef_pose e h' = Pose m p)
  else h' = h /\ forall i, (i < 1000)%nat -> ~ useful (vscale (- / vnorm d) d) (rnd i).
Proof.
  intros J svd e fuel rnd p d h h' ok SV RE B LD H. pose proof (set_to_approach_ok svd e fuel rnd p d h h' ok LD H) as K. destruct ok.
  - destruct K as (m & F & ->). split; [reflexivity|]. exists m. split; [exact F|]. intros N. apply (set_eef_ok svd SV e RE (Pose m p) h B); [apply F|exact N].
  - destruct K as (-> & K). split; [reflexivity|]. split; [reflexivity|]. intros i L U. apply (K i L). rewrite vnormalize_div by lra.
    replace (vscale (-1) (vscale (/ vnorm d) d)) with (vscale (- / vnorm d) d) by (destruct d; unfold vscale; cbn; f_equal; ring). exact U.
Qed.
(** The first loop of it ends at once for directions that are not tiny. *)
Theorem C91_frame_ends : forall (J : Type) svd (e : eef J) fuel rnd p d h, 1 / 10 ^ 10 <= vnorm d -> set_to_approach svd e (S fuel) rnd p d h <> None.
Proof.
  intros J svd e fuel rnd p d h L. unfold set_to_approach. cbn [long_vector]. destruct (Rlt_dec (vnorm d) (1 / 10 ^ 10)) as [K|_]; [lra|].
  destruct (frame_loop 1000 rnd 0 _) as [[x y]|]; discriminate.
Qed.
(** Asking for faces in proportion to their area changes nothing. *)
Theorem C91_areas_refuted : forall m md uniform by_area by_area' r0 r1,
  position_on_object m (create md true) uniform by_area r0 r1 = position_on_object m (create md false) uniform by_area' r0 r1.
Proof. reflexivity. Qed.
(** The point is on the object only where the object's coordinates are the global ones: the pose of the object is not taken into account. *)
Theorem C91_global_refuted : exists m (g : pose) p d, mesh_ok m /\ position_on_object m (create 0 false) 0 0 0 0 = Position p d /\
  forall f q, In f (faces m) -> on_face m f q -> image g q <> p.
Proof.
  exists (Mesh [Vec 0 0 0; Vec 1 0 0; Vec 0 1 0] [Face 0 1 2 (Vec 0 0 1)]), (Pose mid (Vec 0 0 5)). do 2 eexists. split.
  { intros f [<-|[]]. cbn. lia. }
  split; [reflexivity|]. intros f q [<-|[]] (a & b & c & A & B & C & s & t & u & _ & _ & _ & _ & ->). cbn [nth_error verts f1 f2 f3] in A, B, C. injection A as <-. injection B as <-. injection C as <-.
  intros H. apply (f_equal vz) in H. unfold image, random_point, vadd, vscale, mid in H. cbn in H. lra.
Qed.

(** C92.  Moving away: by whole steps, while there is a collision, until there is none or the given number of steps is made. *)
Theorem C92_move_away : forall (J : Type) svd (e : eef J) collides n delta h, is_svd svd -> rigid e -> shape_tcp e = None -> rotation (prot (base h)) -> is_identity (prot (eef_pose e h)) = false ->
  exists k, (k <= n)%nat /\ move_away svd e collides n delta h = shifted (vscale (INR k) delta) h /\
    (forall i, (i < k)%nat -> collides (shifted (vscale (INR i) delta) h) = true) /\ (k = n \/ collides (shifted (vscale (INR k) delta) h) = false).
Proof. intros J svd e collides n delta h SV RE N B I. apply move_away_ok; assumption. Qed.
(** A new approach pose: the hand is opened and put back; the result is a frame on the surface point, moved out along the direction by whole steps, and by
    the random distance if this is wanted and the original hand does not collide.  Without the random distance the open hand does not collide there, unless
    a thousand steps were not enough. *)
Theorem C92_create : forall (J : Type) svd (e : eef J) collides orig m gen uniform by_area r0 r1 fuel rnd dist h p d P h' dir,
  is_svd svd -> rigid e -> shape_tcp e = None -> rotation (prot (base h)) -> 1 / 10 ^ 10 <= vnorm d ->
  position_on_object m gen uniform by_area r0 r1 = Position p d ->
  create_pose svd e collides orig m gen uniform by_area r0 r1 fuel rnd dist h = Some (P, h', dir) ->
  dir = Some d /\ conf h' = open_conf e (conf h) /\ rotation (prot (base h')) /\
  (is_identity (prot (eef_pose e h)) = false -> eef_pose e h' = eef_pose e h) /\
  ((exists i, (i < 1000)%nat /\ useful (vscale (- / vnorm d) d) (rnd i)) ->
   exists r k, faces_against r d /\ (k <= 1000)%nat /\ (is_identity r = false ->
     P = Pose r (vadd p (vscale (INR k + if Rlt_dec 0 (max_retreat gen) then if orig then 0 else dist else 0) d)) /\
     forall g, conf g = conf h' -> rotation (prot (base g)) -> eef_pose e g = Pose r (vadd p (vscale (INR k) d)) -> collides g = false \/ k = 1000%nat)).
Proof.
  intros J svd e collides orig m gen uniform by_area r0 r1 fuel rnd dist h p d P h' dir SV RE N B LD EP H. unfold create_pose in H. rewrite EP in H.
  destruct (set_to_approach svd e fuel rnd p d (open_hand e h)) as [[h1 ok]|] eqn:ES; [|discriminate H].
  assert (B0 : rotation (prot (base (open_hand e h)))) by exact B.
  assert (B1 : rotation (prot (base h1)) /\ conf h1 = conf (open_hand e h)).
  { pose proof (set_to_approach_ok svd e fuel rnd p d _ h1 ok LD ES) as K. destruct ok; [destruct K as (r & F & ->); apply (set_base svd SV e RE (Pose r p)); [exact B|apply F]|destruct K as (-> & _); split; [exact B|reflexivity]]. }
  destruct B1 as [B1 C1]. cbn [open_hand conf] in C1. destruct (move_away_base svd SV e RE collides (vscale 1 d) 1000 h1 B1) as [B2 C2].
  set (h2 := move_away svd e collides 1000 (vscale 1 d) h1) in *.
  assert (RB : rotation (prot (eef_pose e h))) by (apply pmul_rotation; [exact B|apply (tcp_rotation e RE)]).
  set (h3 := if Rlt_dec 0 (max_retreat gen) then update_eef_pose svd e (vscale dist d) h2 else h2).
  assert (B3 : rotation (prot (base h3)) /\ conf h3 = conf h2).
  { subst h3. destruct (Rlt_dec 0 (max_retreat gen)); [|auto]. unfold update_eef_pose. apply (set_base svd SV e RE); [exact B2|]. cbn [prot]. apply (pmul_rotation (base h2)); [exact B2|apply (proj1 RE)]. }
  destruct B3 as [B3 C3].
  assert (HH : h' = set_eef_pose svd e (eef_pose e h) h3 /\ dir = Some d /\ P = if Rlt_dec 0 (max_retreat gen) then if orig then eef_pose e h2 else eef_pose e h3 else eef_pose e h2).
  { subst h3. destruct (Rlt_dec 0 (max_retreat gen)); injection H as <- <- <-; auto. }
  destruct HH as (-> & -> & EPP). split; [reflexivity|]. destruct (set_base svd SV e RE (eef_pose e h) h3 B3 RB) as [B4 C4]. split; [congruence|]. split; [exact B4|]. split.
  { intros NI. apply (set_eef_ok svd SV e RE); assumption. }
  intros USE. destruct ok.
  2:{ exfalso. destruct (C91_frame J svd e fuel rnd p d _ h1 false SV RE B0 LD ES) as (_ & _ & K). destruct USE as (i & L & U). apply (K i L U). }
  destruct (C91_frame J svd e fuel rnd p d _ h1 true SV RE B0 LD ES) as (_ & r & F & EH). exists r.
  destruct (is_identity r) eqn:I; [exists 0%nat; split; [exact F|]; split; [lia|discriminate]|]. specialize (EH eq_refl).
  destruct (move_away_ok svd SV e RE collides (vscale 1 d) N 1000 h1 B1) as (k & L & EM & _ & FREE); [rewrite EH; exact I|]. fold h2 in EM.
  replace (vscale (INR k) (vscale 1 d)) with (vscale (INR k) d) in * by (destruct d; unfold vscale; cbn; f_equal; ring).
  exists k. split; [exact F|]. split; [exact L|]. intros _.
  assert (E2 : eef_pose e h2 = Pose r (vadd p (vscale (INR k) d))) by (rewrite EM, eef_shifted, EH; reflexivity). split.
  - rewrite EPP. subst h3. destruct (Rlt_dec 0 (max_retreat gen)); [|rewrite E2, Rplus_0_r; reflexivity]. destruct orig; [rewrite E2, Rplus_0_r; reflexivity|].
    rewrite (update_ok svd SV e RE _ h2 N B2) by (rewrite E2; exact I). rewrite eef_shifted, E2. cbn [prot ppos]. f_equal. unfold vadd, vscale; cbn [vx vy vz]. f_equal; ring.
  - intros g CG BG EG. destruct FREE as [->|FREE]; [right; reflexivity|left]. rewrite (eef_inj e RE g h2); [rewrite EM; exact FREE| | |exact BG|exact B2]; [congruence|congruence].
Qed.
(** Setting the hand to a random approach pose brings it to the pose that was created. *)
Theorem C92_set_random : forall (J : Type) svd (e : eef J) collides orig m gen uniform by_area r0 r1 fuel rnd dist h p d P h1 dir,
  is_svd svd -> rigid e -> shape_tcp e = None -> rotation (prot (base h)) -> 1 / 10 ^ 10 <= vnorm d ->
  position_on_object m gen uniform by_area r0 r1 = Position p d ->
  create_pose svd e collides orig m gen uniform by_area r0 r1 fuel rnd dist h = Some (P, h1, dir) -> rotation (prot P) -> is_identity (prot P) = false ->
  exists h', set_random svd e collides orig m gen uniform by_area r0 r1 fuel rnd dist h = Some h' /\ eef_pose e h' = P /\ conf h' = open_conf e (conf h).
Proof.
  intros J svd e collides orig m gen uniform by_area r0 r1 fuel rnd dist h p d P h1 dir SV RE N B LD EP H RP I.
  destruct (C92_create J svd e collides orig m gen uniform by_area r0 r1 fuel rnd dist h p d P h1 dir SV RE N B LD EP H) as (_ & C & B1 & _). unfold set_random. rewrite H. eexists. split; [reflexivity|].
  split; [apply (set_eef_ok svd SV e RE); assumption|exact C].
Qed.

(** Cases and counterexamples: a hand without fingers whose grasp centre point is its base, above a triangle in the plane z = 0. *)
Definition plain : eef Datatypes.unit := Eef (fun _ => pid) None (fun c => c).
Definition table : mesh := Mesh [Vec 0 0 0; Vec 1 0 0; Vec 0 1 0] [Face 0 1 2 (Vec 0 0 1)].
Definition up : nat -> vec3 := fun _ => Vec 0 1 0.
Definition start : hand Datatypes.unit := Hand (Pose quarter (Vec 0 0 9)) tt.
Definition flipped : mat3 := Mat (-1) 0 0 0 1 0 0 0 (-1).
Definition height (h : hand Datatypes.unit) : R := vz (ppos (base h)).
Lemma plain_rigid : rigid plain.
Proof. split; [intros c; apply mid_rotation|discriminate]. Qed.
Lemma quarter_rotation : rotation quarter.
Proof. unfold rotation, quarter, mmul, mtrans, mid, mdet; cbn. split; [f_equal; ring|]. split; [f_equal; ring|ring]. Qed.
Lemma start_pose : eef_pose plain start = Pose quarter (Vec 0 0 9).
Proof. unfold eef_pose, tcp_off. cbn [plain shape_tcp gcp_off start base conf]. apply pmul_pid_r. Qed.
Lemma not_identity m : m00 m <= 0 -> is_identity m = false.
Proof.
  intros L. unfold is_identity. assert (E : near_one (m00 m) = false); [|rewrite E; reflexivity]. unfold near_one, prec. destruct (Rle_dec _ _) as [K|_]; [|reflexivity]. exfalso.
  rewrite Rabs_left1 in K by lra. pose proof (Rmin_r (Rabs (m00 m)) 1). lra.
Qed.
Lemma table_position : position_on_object table (create 0 false) 0 0 0 0 = Position (Vec 0 1 0) (Vec 0 0 1).
Proof.
  unfold position_on_object, create, table. cbn [faces use_areas nth_error verts f1 f2 f3 f_normal]. destruct (Rlt_dec _ _) as [L|_].
  - exfalso. unfold vdot in L. cbn in L. replace (0 * 0 + 0 * 0 + 1 * 1 - 1) with 0 in L by ring. rewrite Rabs_R0 in L. lra.
  - f_equal. unfold random_point, vadd, vscale; cbn. f_equal; ring.
Qed.
Lemma unit_z : vnorm (Vec 0 0 1) = 1. Proof. apply vnorm_unit. unfold vdot; cbn. ring. Qed.
Lemma useful_up : useful (vscale (- / vnorm (Vec 0 0 1)) (Vec 0 0 1)) (up 0).
Proof.
  rewrite unit_z. unfold useful, up. assert (U : vnorm (Vec 0 1 0) = 1) by (apply vnorm_unit; unfold vdot; cbn; ring). rewrite U. split; [lra|].
  rewrite vnorm_unit; [lra|]. unfold vdot, vcross, vscale; cbn [vx vy vz]. field.
Qed.
(** The case meets the hypotheses of C91_surface, C91_frame and C92_create. *)
Example C92_case : mesh_ok table /\ rigid plain /\ rotation (prot (base start)) /\ is_identity (prot (eef_pose plain start)) = false /\
  position_on_object table (create 0 false) 0 0 0 0 = Position (Vec 0 1 0) (Vec 0 0 1) /\ 1 / 10 ^ 10 <= vnorm (Vec 0 0 1) /\
  useful (vscale (- / vnorm (Vec 0 0 1)) (Vec 0 0 1)) (up 0).
Proof.
  split; [intros f [<-|[]]; cbn; lia|]. split; [apply plain_rigid|]. split; [apply quarter_rotation|]. split; [rewrite start_pose; apply not_identity; cbn; lra|].
  split; [apply table_position|]. split; [rewrite unit_z; lra|apply useful_up].
Qed.
Lemma frame_first n rnd k z r : frame_of (rnd k) z = Some r -> frame_loop (S n) rnd k z = Some r.
Proof. intros E. cbn [frame_loop]. rewrite E. reflexivity. Qed.
Lemma away_free {J} svd (e : eef J) col n v h : col h = false -> move_away svd e col (S n) v h = h.
Proof. intros E. cbn [move_away]. rewrite E. reflexivity. Qed.
Lemma up_frame : frame_loop 1000 up 0 (vscale (-1) (vnormalize (Vec 0 0 1))) = Some (Vec (-1) 0 0, Vec 0 1 0).
Proof.
  rewrite (vnormalize_of_unit (Vec 0 0 1)) by (unfold vdot; cbn; ring). apply frame_first. unfold frame_of, up.
  assert (U : vdot (Vec 0 1 0) (Vec 0 1 0) = 1) by (unfold vdot; cbn; ring). rewrite (vnorm_unit _ U). destruct (Rlt_dec 1 (1 / 10 ^ 8)) as [L|_]; [lra|]. rewrite (vnormalize_of_unit _ U).
  assert (X : vcross (Vec 0 1 0) (vscale (-1) (Vec 0 0 1)) = Vec (-1) 0 0) by (unfold vcross, vscale; cbn; f_equal; ring). rewrite X.
  assert (UX : vdot (Vec (-1) 0 0) (Vec (-1) 0 0) = 1) by (unfold vdot; cbn; ring). rewrite (vnorm_unit _ UX). destruct (Rlt_dec 1 (1 / 10 ^ 8)) as [L|_]; [lra|]. rewrite (vnormalize_of_unit _ UX).
  assert (Y : vcross (vscale (-1) (Vec 0 0 1)) (Vec (-1) 0 0) = Vec 0 1 0) by (unfold vcross, vscale; cbn; f_equal; ring). rewrite Y, (vnorm_unit _ U). destruct (Rlt_dec 1 (1 / 10 ^ 8)) as [L|_]; [lra|]. rewrite (vnormalize_of_unit _ U). reflexivity.
Qed.
Lemma flipped_rotation : rotation flipped.
Proof. unfold rotation, flipped, mmul, mtrans, mid, mdet; cbn. split; [f_equal; ring|]. split; [f_equal; ring|ring]. Qed.
Lemma plain_set svd p h : is_svd svd -> rotation (prot (base h)) -> set_eef_pose svd plain (Pose flipped p) h = Hand (Pose flipped p) (conf h).
Proof.
  intros SV B. destruct (set_eef_ok svd SV plain plain_rigid (Pose flipped p) h B flipped_rotation) as [E _]; [apply not_identity; cbn; lra|]. rewrite E. f_equal.
  change (tcp_off plain (conf h)) with pid. replace (inverted pid) with pid; [apply pmul_pid_r|]. unfold inverted, pid, mtrans, mid, mapply, vscale; cbn. f_equal. f_equal; ring.
Qed.
Lemma case_approach svd : is_svd svd -> set_to_approach svd plain 1 up (Vec 0 1 0) (Vec 0 0 1) (open_hand plain start) = Some (Hand (Pose flipped (Vec 0 1 0)) tt, true).
Proof.
  intros SV. unfold set_to_approach. cbn [long_vector]. destruct (Rlt_dec (vnorm (Vec 0 0 1)) (1 / 10 ^ 10)) as [L|_]; [rewrite unit_z in L; lra|]. rewrite up_frame.
  rewrite (vnormalize_of_unit (Vec 0 0 1)) by (unfold vdot; cbn; ring). replace (Mat _ _ _ _ _ _ _ _ _) with flipped by (unfold flipped, vscale; cbn; f_equal; ring).
  rewrite plain_set; [reflexivity|exact SV|exact quarter_rotation].
Qed.
(** The random distance brings the hand into a collision although it was free before: the check after the move looks at the original hand. *)
Theorem C92_retreat_refuted : exists collides, forall svd, is_svd svd -> exists P h' dir,
  create_pose svd plain collides false table (create 4 false) 0 0 0 0 1 up 3 start = Some (P, h', dir) /\
  collides (Hand P tt) = true /\ collides (Hand (Pose (prot P) (Vec 0 1 0)) tt) = false.
Proof.
  exists (fun h => if Rlt_dec 2 (height h) then true else false). intros svd SV. unfold create_pose. change (position_on_object table (create 4 false) 0 0 0 0) with (position_on_object table (create 0 false) 0 0 0 0). rewrite table_position, (case_approach svd SV).
  cbn [create max_retreat]. destruct (Rlt_dec 0 4) as [_|L]; [|lra]. do 3 eexists. split; [reflexivity|]. set (col := fun h : hand Datatypes.unit => if Rlt_dec 2 (height h) then true else false).
  assert (M : move_away svd plain col 1000 (vscale 1 (Vec 0 0 1)) (Hand (Pose flipped (Vec 0 1 0)) tt) = Hand (Pose flipped (Vec 0 1 0)) tt).
  { apply away_free. unfold col, height; cbn [base ppos vz]. destruct (Rlt_dec 2 0); [lra|reflexivity]. }
  rewrite M. assert (EP : eef_pose plain (Hand (Pose flipped (Vec 0 1 0)) tt) = Pose flipped (Vec 0 1 0)) by apply pmul_pid_r.
  rewrite (update_ok svd SV plain plain_rigid _ (Hand (Pose flipped (Vec 0 1 0)) tt) eq_refl flipped_rotation) by (rewrite EP; apply not_identity; cbn; lra). rewrite eef_shifted, EP. unfold height, vadd, vscale. cbn [base ppos prot vx vy vz].
  split; [destruct (Rlt_dec 2 (0 + 3 * 1)) as [_|L]; [reflexivity|lra]|destruct (Rlt_dec 2 0) as [L|_]; [lra|reflexivity]].
Qed.
(** A thousand steps of one millimetre may not be enough: the pose collides and nothing says so. *)
Theorem C92_stuck_refuted : exists collides, forall svd, is_svd svd -> exists P h' dir,
  create_pose svd plain collides false table (create 0 false) 0 0 0 0 1 up 0 start = Some (P, h', dir) /\ collides (Hand P tt) = true /\
  exists v, collides (Hand (Pose (prot P) (vadd (ppos P) v)) tt) = false.
Proof.
  exists (fun h => if Rlt_dec (height h) 2000 then true else false). intros svd SV. unfold create_pose. rewrite table_position, (case_approach svd SV).
  cbn [create max_retreat]. destruct (Rlt_dec 0 0) as [L|_]; [lra|]. do 3 eexists. split; [reflexivity|]. set (col := fun h : hand Datatypes.unit => if Rlt_dec (height h) 2000 then true else false).
  assert (EP : forall h, eef_pose plain h = base h) by (intros h; apply pmul_pid_r). rewrite EP.
  destruct (move_away_ok svd SV plain plain_rigid col (vscale 1 (Vec 0 0 1)) eq_refl 1000 (Hand (Pose flipped (Vec 0 1 0)) tt) flipped_rotation) as (k & L & -> & _); [rewrite EP; apply not_identity; cbn; lra|].
  assert (KR : INR k <= 1000) by (replace 1000 with (INR 1000) by (rewrite INR_IZR_INZ; reflexivity); apply le_INR; exact L).
  unfold height, shifted, vadd, vscale. cbn [base ppos prot vx vy vz]. split; [destruct (Rlt_dec _ 2000) as [_|K]; [reflexivity|exfalso; apply K; lra]|].
  exists (Vec 0 0 2000). cbn [vz]. pose proof (pos_INR k). destruct (Rlt_dec _ 2000) as [K|_]; [exfalso; lra|reflexivity].
Qed.
(** With a TCP in the preshape, moving the hand by zero moves it: the TCP is put where the grasp centre point was. *)
Definition two_points : eef Datatypes.unit := Eef (fun _ => pid) (Some (fun _ => Pose mid (Vec 0 0 7))) (fun c => c).
Theorem C92_tcp_refuted : forall svd, is_svd svd -> rigid two_points /\ base (update_eef_pose svd two_points (Vec 0 0 0) start) <> base start /\
  eef_pose two_points (update_eef_pose svd two_points (Vec 0 0 0) start) = pmul (base start) (gcp_off two_points tt).
Proof.
  intros svd SV. assert (RE : rigid two_points) by (split; [intros c; apply mid_rotation|intros f c E; injection E as <-; apply mid_rotation]). split; [exact RE|].
  assert (G : pmul (base start) (gcp_off two_points (conf start)) = Pose quarter (Vec 0 0 9)) by apply pmul_pid_r.
  assert (Q0 : is_identity quarter = false) by (apply not_identity; cbn; lra).
  unfold update_eef_pose. rewrite G. cbn [prot ppos]. replace (vadd (Vec 0 0 9) (Vec 0 0 0)) with (Vec 0 0 9) by (unfold vadd; cbn; f_equal; ring).
  destruct (set_eef_ok svd SV two_points RE (Pose quarter (Vec 0 0 9)) start quarter_rotation quarter_rotation Q0) as [E1 E2]. split.
  - rewrite E1. cbn [base start]. intros H. apply (f_equal ppos) in H. apply (f_equal vz) in H. unfold pmul, inverted, tcp_off, two_points, vadd, mapply, vscale, mtrans, quarter, mid in H. cbn in H. lra.
  - rewrite E2. symmetry. exact G.
Qed.

Print Assumptions C91_surface.
Print Assumptions C91_frame.
Print Assumptions C92_create.
Print Assumptions C92_retreat_refuted.
