From Coq Require Import Reals List Bool Arith Lra Lia.
From Verif Require Import QuatModel QuatSpec QuatProofs RpyModel JointModel KinModel KinSpec KinProofs PlaneProofs AprModel AprSpec.
Import ListNotations.
Open Scope R_scope.

Lemma inverted_right : forall p, rotation (prot p) -> pmul p (inverted p) = pid.
Proof.
  intros [r [x y z]] (O & _). cbn [prot] in O. unfold pmul, inverted, pid; cbn [prot ppos]. rewrite O. f_equal.
  assert (M : forall v, mapply r (mapply (mtrans r) v) = v).
  { intros v. transitivity (mapply (mmul r (mtrans r)) v); [destruct r, v; unfold mapply, mmul, mtrans; cbn; f_equal; ring|]. rewrite O. destruct v; unfold mapply, mid; cbn; f_equal; ring. }
  transitivity (vadd (vscale (-1) (mapply r (mapply (mtrans r) (Vec x y z)))) (Vec x y z)).
  - f_equal. destruct r; unfold mapply, vscale, mtrans; cbn; f_equal; ring.
  - rewrite M. unfold vadd, vscale; cbn. f_equal; ring.
Qed.
Lemma pmul_rotation a b : rotation (prot a) -> rotation (prot b) -> rotation (prot (pmul a b)).
Proof. intros A B. apply mmul_rotation; assumption. Qed.
Lemma mid_rotation : rotation mid.
Proof. unfold rotation, mid, mmul, mtrans, mdet; cbn. split; [f_equal; ring|]. split; [f_equal; ring|ring]. Qed.

Section Hand.
Context {J : Type} (svd : mat3 -> mat3 * vec3 * mat3) (SV : is_svd svd) (e : eef J) (RE : rigid e).

Lemma tcp_rotation c : rotation (prot (tcp_off e c)).
Proof using RE. destruct RE as [G S]. unfold tcp_off. destruct (shape_tcp e) as [f|] eqn:E; [apply (S f c); reflexivity|apply G]. Qed.

Lemma set_base g h : rotation (prot (base h)) -> rotation (prot g) -> rotation (prot (base (set_eef_pose svd e g h))) /\ conf (set_eef_pose svd e g h) = conf h.
Proof using SV RE.
  intros B G. split; [|reflexivity]. unfold set_eef_pose. cbn [base]. destruct (is_identity (prot g)); [apply mid_rotation|]. cbn [prot].
  assert (RT : rotation (prot (pmul (pmul g (inverted (eef_pose e h))) (base h)))).
  { apply pmul_rotation; [|exact B]. apply pmul_rotation; [exact G|]. cbn [inverted prot]. apply mtrans_rotation. apply pmul_rotation; [exact B|apply tcp_rotation]. }
  rewrite (orthogonalize_rotation svd _ SV RT). exact RT.
Qed.
Lemma set_eef_ok g h : rotation (prot (base h)) -> rotation (prot g) -> is_identity (prot g) = false ->
  set_eef_pose svd e g h = Hand (pmul g (inverted (tcp_off e (conf h)))) (conf h) /\ eef_pose e (set_eef_pose svd e g h) = g.
Proof using SV RE.
  intros B G N. assert (T := tcp_rotation (conf h)).
  assert (E : set_eef_pose svd e g h = Hand (pmul g (inverted (tcp_off e (conf h)))) (conf h)).
  { unfold set_eef_pose. rewrite N. cbv zeta.
    assert (RT : rotation (prot (pmul (pmul g (inverted (eef_pose e h))) (base h)))).
    { apply pmul_rotation; [|exact B]. apply pmul_rotation; [exact G|]. cbn [inverted prot]. apply mtrans_rotation. apply pmul_rotation; [exact B|exact T]. }
    rewrite (orthogonalize_rotation svd _ SV RT). f_equal.
    transitivity (pmul (pmul g (inverted (eef_pose e h))) (base h)); [destruct (pmul _ (base h)); reflexivity|].
    rewrite pmul_assoc. f_equal. set (P := eef_pose e h). assert (RP : rotation (prot P)) by (apply pmul_rotation; assumption).
    transitivity (pmul (inverted P) (pmul P (inverted (tcp_off e (conf h))))).
    - f_equal. subst P. unfold eef_pose. rewrite pmul_assoc, (inverted_right _ T), pmul_pid_r. reflexivity.
    - rewrite <- pmul_assoc, (inverted_left _ RP), pmul_pid_l. reflexivity. }
  split; [exact E|]. rewrite E. unfold eef_pose. cbn [base conf]. rewrite pmul_assoc, (inverted_left _ T), pmul_pid_r. reflexivity.
Qed.
Lemma eef_base h : rotation (prot (base h)) -> base h = pmul (eef_pose e h) (inverted (tcp_off e (conf h))).
Proof using RE. intros B. unfold eef_pose. rewrite pmul_assoc, (inverted_right _ (tcp_rotation (conf h))), pmul_pid_r. reflexivity. Qed.
Lemma eef_inj h h' : conf h = conf h' -> eef_pose e h = eef_pose e h' -> rotation (prot (base h)) -> rotation (prot (base h')) -> h = h'.
Proof using RE.
  intros C P B B'. pose proof (eef_base h B) as E1. pose proof (eef_base h' B') as E2. destruct h as [b c], h' as [b' c']. cbn [base conf] in *. subst c'. f_equal. rewrite E1, E2, P. reflexivity.
Qed.
Lemma shift_left v a b : pmul (Pose (prot a) (vadd (ppos a) v)) b = Pose (prot (pmul a b)) (vadd (ppos (pmul a b)) v).
Proof. unfold pmul; cbn [prot ppos]. f_equal. unfold vadd; cbn. f_equal; ring. Qed.
Lemma eef_shifted v h : eef_pose e (shifted v h) = Pose (prot (eef_pose e h)) (vadd (ppos (eef_pose e h)) v).
Proof. unfold eef_pose, shifted. cbn [base conf]. apply shift_left. Qed.
Lemma shifted_shifted v w (h : hand J) : shifted v (shifted w h) = shifted (vadd w v) h.
Proof. unfold shifted. cbn [base conf prot ppos]. f_equal. f_equal. unfold vadd; cbn. f_equal; ring. Qed.
Lemma shifted_zero (h : hand J) : shifted (Vec 0 0 0) h = h.
Proof. destruct h as [[r [x y z]] c]. unfold shifted, vadd. cbn. f_equal. f_equal. f_equal; ring. Qed.

(** Without a TCP of the preshape the hand moves by the given vector. *)
Lemma update_ok v h : shape_tcp e = None -> rotation (prot (base h)) -> is_identity (prot (eef_pose e h)) = false -> update_eef_pose svd e v h = shifted v h.
Proof using SV RE.
  intros N B I. assert (T : forall c, tcp_off e c = gcp_off e c) by (intros c; unfold tcp_off; rewrite N; reflexivity).
  unfold update_eef_pose. rewrite <- T. change (pmul (base h) (tcp_off e (conf h))) with (eef_pose e h). cbv zeta.
  assert (RP : rotation (prot (eef_pose e h))) by (apply pmul_rotation; [exact B|apply tcp_rotation]).
  destruct (set_eef_ok (Pose (prot (eef_pose e h)) (vadd (ppos (eef_pose e h)) v)) h B RP I) as [E1 E2].
  apply eef_inj; [reflexivity|rewrite E2, eef_shifted; reflexivity| |exact B]. apply (proj1 (set_base (Pose (prot (eef_pose e h)) (vadd (ppos (eef_pose e h)) v)) h B RP)).
Qed.
Lemma move_away_ok collides v : shape_tcp e = None -> forall n h, rotation (prot (base h)) -> is_identity (prot (eef_pose e h)) = false ->
  exists k, (k <= n)%nat /\ move_away svd e collides n v h = shifted (vscale (INR k) v) h /\
    (forall i, (i < k)%nat -> collides (shifted (vscale (INR i) v) h) = true) /\ (k = n \/ collides (shifted (vscale (INR k) v) h) = false).
Proof using SV RE.
  intros N. assert (Z : forall h : hand J, shifted (vscale (INR 0) v) h = h).
  { intros h. replace (vscale (INR 0) v) with (Vec 0 0 0) by (unfold vscale; cbn; f_equal; ring). apply shifted_zero. }
  assert (SS : forall i (h : hand J), shifted (vscale (INR i) v) (shifted v h) = shifted (vscale (INR (S i)) v) h).
  { intros i h. rewrite shifted_shifted. f_equal. rewrite S_INR. unfold vadd, vscale; cbn [vx vy vz]. f_equal; ring. }
  induction n as [|n IH]; intros h B I.
  - exists 0%nat. split; [lia|]. cbn [move_away]. rewrite Z. split; [reflexivity|]. split; [intros i L; lia|left; reflexivity].
  - cbn [move_away]. destruct (collides h) eqn:C.
    + rewrite (update_ok v h N B I). destruct (IH (shifted v h) B) as (k & L & E & F & D); [rewrite eef_shifted; exact I|].
      exists (S k). rewrite SS in E, D. split; [lia|]. split; [exact E|]. split.
      * intros [|i] Li; [rewrite Z; exact C|]. rewrite <- SS. apply F. lia.
      * destruct D as [D|D]; [left; lia|right; exact D].
    + exists 0%nat. rewrite Z. split; [lia|]. split; [reflexivity|]. split; [intros i L; lia|right; exact C].
Qed.
Lemma move_away_base collides v : forall n h, rotation (prot (base h)) -> rotation (prot (base (move_away svd e collides n v h))) /\ conf (move_away svd e collides n v h) = conf h.
Proof using SV RE.
  induction n as [|n IH]; intros h B; cbn [move_away]; [auto|]. destruct (collides h); [|auto].
  assert (K : rotation (prot (base (update_eef_pose svd e v h))) /\ conf (update_eef_pose svd e v h) = conf h).
  { apply set_base; [exact B|]. cbn [prot]. apply pmul_rotation; [exact B|apply (proj1 RE)]. }
  destruct (IH _ (proj1 K)) as [A A']. split; [exact A|]. rewrite A'. apply K.
Qed.

(** The frame. *)
Lemma cross_unit z x : vdot z z = 1 -> vdot x x = 1 -> vdot z x = 0 -> vdot (vcross z x) (vcross z x) = 1.
Proof.
  intros Z X ZX. transitivity (vdot z z * vdot x x - vdot z x * vdot z x); [|rewrite Z, X, ZX; ring]. destruct z, x; unfold vdot, vcross; cbn. ring.
Qed.
Lemma frame_diag a b c p q r : p * p + q * q + r * r = 1 -> a * a + b * b + c * c = 1 -> p * a + q * b + r * c = 0 -> a * a + (q * c - r * b) * (q * c - r * b) + p * p = 1.
Proof.
  intros Z X O. replace ((q * c - r * b) * (q * c - r * b)) with ((q * q + r * r) * (b * b + c * c) - (q * b + r * c) * (q * b + r * c)) by ring.
  replace (q * q + r * r) with (1 - p * p) by lra. replace (b * b + c * c) with (1 - a * a) by lra. replace (q * b + r * c) with (- (p * a)) by lra. ring.
Qed.
Lemma frame_off a b c p q r : p * p + q * q + r * r = 1 -> a * a + b * b + c * c = 1 -> p * a + q * b + r * c = 0 -> a * b + (q * c - r * b) * (r * a - p * c) + p * q = 0.
Proof.
  intros Z X O. replace ((q * c - r * b) * (r * a - p * c)) with ((r * c) * (q * a + p * b) - p * q * (c * c) - a * b * (r * r)) by ring.
  replace (r * c) with (- (p * a + q * b)) by lra. replace (c * c) with (1 - a * a - b * b) by lra. replace (r * r) with (1 - p * p - q * q) by lra. ring.
Qed.
Lemma frame_rotation x z : vdot z z = 1 -> vdot x x = 1 -> vdot z x = 0 -> let y := vcross z x in
  rotation (Mat (vx x) (vx y) (vx z) (vy x) (vy y) (vy z) (vz x) (vz y) (vz z)).
Proof.
  intros Z X ZX. cbv zeta. assert (Y := cross_unit z x Z X ZX).
  destruct x as [a b c], z as [p q r]. unfold vdot, vcross in *; cbn [vx vy vz] in *.
  pose proof (frame_diag a b c p q r Z X ZX) as D1. pose proof (frame_diag b c a q r p ltac:(lra) ltac:(lra) ltac:(lra)) as D2. pose proof (frame_diag c a b r p q ltac:(lra) ltac:(lra) ltac:(lra)) as D3.
  pose proof (frame_off a b c p q r Z X ZX) as O1. pose proof (frame_off b c a q r p ltac:(lra) ltac:(lra) ltac:(lra)) as O2. pose proof (frame_off c a b r p q ltac:(lra) ltac:(lra) ltac:(lra)) as O3.
  unfold rotation, mmul, mtrans, mid, mdet; cbn [m00 m01 m02 m10 m11 m12 m20 m21 m22]. split; [|split].
  - f_equal; lra.
  - f_equal; try lra; ring.
  - transitivity ((q * c - r * b) * (q * c - r * b) + (r * a - p * c) * (r * a - p * c) + (p * b - q * a) * (p * b - q * a)); [ring|exact Y].
Qed.
Lemma vnormalize_div y : 0 < vnorm y -> vnormalize y = vscale (/ vnorm y) y.
Proof.
  intros P. unfold vnormalize. destruct (Rlt_dec 0 (vdot y y)) as [L|L]; [reflexivity|]. exfalso. apply L. rewrite <- vnorm_sq. apply Rmult_lt_0_compat; exact P.
Qed.
Lemma vnorm_pos_nz y : 0 < vnorm y -> y <> Vec 0 0 0.
Proof. intros P E. apply vnorm_zero in E. lra. Qed.
Lemma frame_of_ok z y x y' : vdot z z = 1 -> frame_of y z = Some (x, y') -> vdot x x = 1 /\ vdot z x = 0 /\ y' = vcross z x.
Proof.
  intros Z. unfold frame_of. destruct (Rlt_dec (vnorm y) _) as [|Ly]; [discriminate|]. set (u := vcross (vnormalize y) z).
  destruct (Rlt_dec (vnorm u) (1 / 10 ^ 8)) as [|Lu]; [discriminate|]. destruct (Rlt_dec (vnorm (vcross z (vnormalize u))) (1 / 10 ^ 8)) as [|L3]; [discriminate|].
  intros H. injection H as <- <-. destruct (vnormalize_unit u) as (U & k & K & E); [apply vnorm_pos_nz; lra|]. split; [exact U|].
  assert (ZU : vdot z (vnormalize u) = 0).
  { assert (ZZ : vdot z u = 0) by (subst u; destruct (vnormalize y), z; unfold vdot, vcross; cbn; ring). rewrite E in ZZ.
    assert (KK : k * vdot z (vnormalize u) = 0) by (rewrite <- ZZ; destruct z, (vnormalize u); unfold vdot, vscale; cbn; ring). apply Rmult_integral in KK as [KK|KK]; [lra|exact KK]. }
  split; [exact ZU|]. apply vnormalize_of_unit. apply cross_unit; assumption.
Qed.
Lemma frame_of_useful z y : vdot z z = 1 -> useful z y -> frame_of y z <> None.
Proof.
  intros Z (A & B). unfold frame_of. destruct (Rlt_dec (vnorm y) (1 / 10 ^ 8)) as [L|_]; [lra|]. rewrite vnormalize_div by lra.
  set (u := vcross _ z) in *. destruct (Rlt_dec (vnorm u) (1 / 10 ^ 8)) as [L|_]; [lra|].
  assert (NZ : u <> Vec 0 0 0) by (apply vnorm_pos_nz; lra). destruct (vnormalize_unit u NZ) as (U & k & K & E).
  assert (ZU : vdot z (vnormalize u) = 0).
  { assert (ZZ : vdot z u = 0) by (subst u; destruct y, z; unfold vdot, vcross, vscale; cbn; ring). rewrite E in ZZ.
    assert (KK : k * vdot z (vnormalize u) = 0) by (rewrite <- ZZ; destruct z, (vnormalize u); unfold vdot, vscale; cbn; ring). apply Rmult_integral in KK as [KK|KK]; [lra|exact KK]. }
  rewrite (vnorm_unit (vcross z (vnormalize u))) by (apply cross_unit; assumption). destruct (Rlt_dec 1 (1 / 10 ^ 8)) as [L|_]; [lra|discriminate].
Qed.
Lemma frame_loop_ok z rnd : vdot z z = 1 -> forall n k x y, frame_loop n rnd k z = Some (x, y) -> vdot x x = 1 /\ vdot z x = 0 /\ y = vcross z x.
Proof.
  intros Z. induction n as [|n IH]; intros k x y H; [discriminate H|]. cbn [frame_loop] in H. destruct (frame_of (rnd k) z) as [[x1 y1]|] eqn:E; [|apply (IH _ _ _ H)].
  injection H as <- <-. apply (frame_of_ok z (rnd k)); assumption.
Qed.
Lemma frame_loop_finds z rnd : vdot z z = 1 -> forall n k, (exists i, (k <= i < k + n)%nat /\ useful z (rnd i)) -> frame_loop n rnd k z <> None.
Proof.
  intros Z. induction n as [|n IH]; intros k (i & L & U); [lia|]. cbn [frame_loop]. destruct (frame_of (rnd k) z) eqn:E; [discriminate|].
  apply IH. exists i. split; [|exact U]. destruct (Nat.eq_dec i k) as [->|N]; [exfalso; apply (frame_of_useful z (rnd k)); assumption|lia].
Qed.
Lemma long_ok rnd : forall fuel k z z' k', long_vector fuel rnd k z = Some (z', k') -> 1 / 10 ^ 10 <= vnorm z' /\ (1 / 10 ^ 10 <= vnorm z -> z' = z /\ k' = k).
Proof.
  induction fuel as [|fuel IH]; intros k z z' k' H; [discriminate H|]. cbn [long_vector] in H. destruct (Rlt_dec (vnorm z) (1 / 10 ^ 10)) as [L|L].
  - destruct (IH _ _ _ _ H) as [A _]. split; [exact A|]. intros K. lra.
  - injection H as <- <-. split; [lra|]. intros _. auto.
Qed.
Lemma unit_neg v : vdot v v = 1 -> vdot (vscale (-1) v) (vscale (-1) v) = 1.
Proof. intros U. rewrite <- U. destruct v; unfold vdot, vscale; cbn. ring. Qed.

(** setEEFToApproachPose. *)
Lemma set_to_approach_ok fuel rnd p d h h' ok : 1 / 10 ^ 10 <= vnorm d -> set_to_approach svd e fuel rnd p d h = Some (h', ok) ->
  if ok then exists m, faces_against m d /\ h' = set_eef_pose svd e (Pose m p) h
  else h' = h /\ forall i, (i < 1000)%nat -> ~ useful (vscale (-1) (vnormalize d)) (rnd i).
Proof.
  intros LD. unfold set_to_approach. destruct (long_vector fuel rnd 0 d) as [[z k]|] eqn:E; [|discriminate]. destruct (proj2 (long_ok _ _ _ _ _ _ E) LD) as [-> ->].
  destruct (vnormalize_unit d) as (U & q & Q & ED); [apply vnorm_pos_nz; lra|]. pose proof (unit_neg _ U) as UN. set (z := vscale (-1) (vnormalize d)) in *.
  destruct (frame_loop 1000 rnd 0 z) as [[x y]|] eqn:F; intros H; injection H as <- <-.
  - destruct (frame_loop_ok z rnd UN _ _ _ _ F) as (X & ZX & ->). exists (Mat (vx x) (vx (vcross z x)) (vx z) (vy x) (vy (vcross z x)) (vy z) (vz x) (vz (vcross z x)) (vz z)).
    split; [|reflexivity]. split; [apply (frame_rotation x z UN X ZX)|]. exists q. split; [exact Q|]. cbn [m02 m12 m22]. rewrite ED at 1. subst z. destruct (vnormalize d); unfold vscale; cbn. f_equal; ring.
  - split; [reflexivity|]. intros i L US. revert F. apply frame_loop_finds; [exact UN|]. exists i. split; [lia|exact US].
Qed.
End Hand.
