(** C26 and C27: the two-dimensional hull and the inside test. *)
From Coq Require Import List ZArith Bool Arith Lia Psatz Permutation.
From Verif Require Import HullModel HullSpec HullProofs HullPoly HullBuild.
Import ListNotations.
Open Scope Z_scope.

Lemma ord3_convex vs : ord3 leftp vs <-> convex_ccw vs.
Proof.
  split.
  - intros O i j k a b c L A B C. rewrite turn_left. exact (ord3_nth _ _ _ _ _ _ _ _ O L A B C).
  - intros H. induction vs as [|v vs IH]; [exact I|]. split.
    + apply nth_ord2. intros i j a b L A B. unfold leftp. rewrite <- turn_left. apply (H O (S i) (S j)); [lia|reflexivity|exact A|exact B].
    + apply IH. intros i j k a b c L A B C. apply (H (S i) (S j) (S k)); [lia|assumption..].
Qed.
Lemma convex_nodup vs : convex_ccw vs -> (3 <= length vs)%nat -> NoDup vs.
Proof.
  intros C L. apply NoDup_nth_error. intros i j Hi E.
  assert (G : forall i j, (i < j < length vs)%nat -> nth_error vs i = nth_error vs j -> False).
  { clear i j Hi E. intros i j Hij E.
    destruct (nth_error vs i) as [a|] eqn:Ei; [|apply nth_error_None in Ei; lia]. symmetry in E.
    assert (K : exists k c, (k < length vs /\ k <> i /\ k <> j)%nat /\ nth_error vs k = Some c).
    { assert (Hk : exists k, (k < length vs /\ k <> i /\ k <> j)%nat).
      { destruct (Nat.eq_dec i 0) as [->|]; [|exists O; lia]. destruct (Nat.eq_dec j 1) as [->|]; [exists 2%nat; lia|exists 1%nat; lia]. }
      destruct Hk as [k Hk]. destruct (nth_error vs k) as [c|] eqn:Ek; [exists k, c; auto|apply nth_error_None in Ek; lia]. }
    destruct K as (k & c & Hk & Ek). 
    destruct (lt_dec k i); [|destruct (lt_dec k j)].
    - assert (T := C k i j c a a ltac:(lia) Ek Ei E). unfold turn in T; lia.
    - assert (T := C i k j a c a ltac:(lia) Ei Ek E). unfold turn in T; lia.
    - assert (T := C i j k a a c ltac:(lia) Ei E Ek). unfold turn in T; lia. }
  destruct (Nat.lt_trichotomy i j) as [H|[H|H]]; [|exact H|].
  - exfalso. destruct (Nat.lt_ge_cases j (length vs)); [apply (G i j); [lia|exact E]|].
    apply nth_error_None in H0. rewrite H0 in E. apply nth_error_None in E. lia.
  - exfalso. apply (G j i); [lia|symmetry; exact E].
Qed.

Lemma distinct_sorted eps points : 0 < eps -> distinct_points eps points (sort_points eps points).
Proof.
  intros E. split; [|split].
  - intros q Hq. apply sort_points_in, dedup_incl in Hq. exact Hq.
  - intros i j p q N Hi Hj.
    assert (A := dedup_apart eps (length points) points).
    assert (NS : NoDup (sort_points eps points)) by (eapply Permutation_NoDup; [symmetry; apply sort_perm|apply dedup_nodup, E]).
    assert (PQ : p <> q).
    { intros ->. apply N. rewrite NoDup_nth_error in NS. apply NS; [apply nth_error_Some; intros K; assert (K' := eq_trans (eq_sym K) Hi); discriminate|exact (eq_trans Hi (eq_sym Hj))]. }
    apply nth_error_In in Hi, Hj. apply sort_points_in in Hi, Hj.
    destruct (In_nth_error _ _ Hi) as [i' Hi'], (In_nth_error _ _ Hj) as [j' Hj'].
    destruct (Nat.lt_trichotomy i' j') as [H|[H|H]].
    + exact (ord2_nth _ _ _ _ _ _ A H Hi' Hj').
    + congruence.
    + assert (K := ord2_nth _ _ _ _ _ _ A H Hj' Hi'). unfold dist2 in *. lia.
  - intros p Hp. destruct (dedup_cover eps E (length points) points (le_n _) p Hp) as (q & Hq & D). exists q. split; [apply sort_points_in, Hq|exact D].
Qed.

(** The vertices are kept points in strictly convex counter-clockwise order, and all kept points are in the polygon.  There are only two
    vertices if the kept points are on one line.  If that line is vertical, its lower end is returned twice. *)
Theorem C26_hull : forall eps points, 0 < eps ->
  exists kept, distinct_points eps points kept /\
  match hull_vertices eps points with
  | None => (length kept < 3)%nat
  | Some vs =>
      (3 <= length kept)%nat /\ incl vs kept /\ (forall q, In q kept -> in_polygon vs q) /\
      (~ vertical kept -> convex_ccw vs /\ NoDup vs /\ (2 <= length vs)%nat /\ (length vs = 2%nat <-> collinear kept)) /\
      (vertical kept -> exists lo hi, vs = [lo; hi; lo] /\ lo <> hi /\ forall q, In q kept -> snd lo <= snd q <= snd hi)
  end.
Proof.
  intros eps points E. exists (sort_points eps points). split; [apply distinct_sorted, E|].
  destruct (hull_vertices eps points) as [vs|] eqn:H.
  2: { destruct (Nat.lt_ge_cases (length (sort_points eps points)) 3) as [L|L]; [exact L|].
       apply hull_defined in L. congruence. }
  destruct (hull_cases eps points vs E H) as [L C]. set (P := sort_points eps points) in *. split; [exact L|].
  destruct C as [(mm & mx & I1 & I2 & V & -> & N & R)|(mm & mx & Mm & MM & m & a1 & z1 & HC & -> & I1 & I2 & I3 & I4 & I5 & I6)].
  - split; [intros q [<-|[<-|[<-|[]]]]; assumption|]. split; [|split; [contradiction|]].
    + intros q Hq. apply (between_mix _ (mm, mx)); [left; reflexivity|right; left; reflexivity|].
      unfold between, side, is_left; cbn [fst snd]. rewrite (V q mm Hq I1), (V mx mm I2 I1). specialize (R q Hq). split; [lia|]. split; nia.
    + intros _. exists mm, mx. auto.
  - destruct (result_ok _ _ _ _ _ _ _ HC) as (li & ui & RE & IL & IU & O & ED).
    assert (CO : forall q, In q P -> in_polygon (result mm mx Mm MM m a1 z1) q) by (intros q Hq; apply (result_contains _ _ _ _ _ _ _ HC), I6, Hq).
    assert (VI : incl (result mm mx Mm MM m a1 z1) P).
    { rewrite RE. intros q Hq. rewrite !in_app_iff in Hq. destruct Hq as [[<-|Hq]|[Hq|[Hq|Hq]]]; [exact I1| | | |].
      - apply in_app_iff in Hq. destruct Hq as [Hq|[<-|[]]]; [apply I5, IL, Hq|exact I3].
      - destruct z1; [destruct Hq|]. destruct Hq as [<-|[]]; exact I4.
      - apply I5, IU, Hq.
      - destruct a1; [destruct Hq|]. destruct Hq as [<-|[]]; exact I2. }
    assert (XL : fst mm < fst Mm) by (destruct HC as (_ & _ & X & _); exact X).
    assert (NM : mm <> Mm) by (intros EM; rewrite EM in XL; lia).
    assert (C := proj1 (ord3_convex _) O).
    assert (LEN : (2 <= length (result mm mx Mm MM m a1 z1))%nat) by (rewrite RE, app_length; cbn [length]; rewrite app_length; cbn [length]; lia).
    split; [exact VI|]. split; [exact CO|]. split.
    + intros _. split; [exact C|]. destruct (Nat.le_gt_cases 3 (length (result mm mx Mm MM m a1 z1))) as [H3|H3].
      * split; [apply convex_nodup; assumption|]. split; [exact LEN|]. split; [lia|]. intros CL. exfalso.
        destruct (result mm mx Mm MM m a1 z1) as [|a [|b [|c r]]]; cbn [length] in H3; try lia.
        assert (T := C 0%nat 1%nat 2%nat a b c ltac:(lia) eq_refl eq_refl eq_refl).
        rewrite (CL a b c) in T; [lia|apply VI; left; reflexivity|apply VI; right; left; reflexivity|apply VI; right; right; left; reflexivity].
      * assert (V : result mm mx Mm MM m a1 z1 = [mm; Mm]).
        { rewrite RE in H3 |- *. cbn [app length] in H3. rewrite !app_length in H3. cbn [length] in H3. rewrite ?app_length in H3. cbn [length] in H3.
          destruct li; cbn [length] in H3; [|lia]. destruct z1; cbn [length] in H3; [|lia]. destruct ui; cbn [length app] in *; [|lia].
          destruct a1; cbn [length] in H3; [reflexivity|lia]. }
        rewrite V in *. split; [constructor; [intros [K|[]]; congruence|constructor; [intros []|constructor]]|]. split; [exact LEN|]. split; [intros _|reflexivity].
        assert (ON : forall q, In q P -> (fst Mm - fst mm) * (snd q - snd mm) = (snd Mm - snd mm) * (fst q - fst mm)).
        { intros q Hq. assert (K := ED q (I6 q Hq)). cbn [edges combine app] in K.
          assert (E1 := K (mm, Mm) (or_introl eq_refl)). assert (E2 := K (Mm, mm) (or_intror (or_introl eq_refl))).
          unfold side, is_left in *; cbn [fst snd] in *; lia. }
        intros a b c Ha Hb Hc. assert (Da := ON a Ha). assert (Db := ON b Hb). assert (Dc := ON c Hc).
        assert (K1 : (fst Mm - fst mm) * (snd c - snd b) = (snd Mm - snd mm) * (fst c - fst b)) by lia.
        assert (K2 : (fst Mm - fst mm) * (snd b - snd a) = (snd Mm - snd mm) * (fst b - fst a)) by lia.
        assert (K3 : (fst Mm - fst mm) * turn a b c = 0).
        { unfold turn. replace ((fst Mm - fst mm) * ((fst b - fst a) * (snd c - snd b) - (snd b - snd a) * (fst c - fst b)))
            with ((fst b - fst a) * ((fst Mm - fst mm) * (snd c - snd b)) - ((fst Mm - fst mm) * (snd b - snd a)) * (fst c - fst b)) by ring.
          rewrite K1, K2. ring. }
        apply Z.mul_eq_0 in K3. lia.
    + intros V. exfalso. rewrite (V mm Mm I1 I3) in XL. lia.
Qed.

(** If no two different input points are closer than the bound, then every input point is in the polygon. *)
Theorem C26_all_inputs : forall eps points vs, 0 < eps -> (forall p q, In p points -> In q points -> p = q \/ eps <= dist2 p q) ->
  hull_vertices eps points = Some vs -> incl vs points /\ forall p, In p points -> in_polygon vs p.
Proof.
  intros eps points vs E A H. destruct (C26_hull eps points E) as (kept & (K1 & K2 & K3) & M). rewrite H in M.
  destruct M as (_ & M1 & M2 & _). split; [intros v Hv; apply K1, M1, Hv|].
  intros p Hp. destruct (K3 p Hp) as (q & Hq & [->|D]); [apply M2, Hq|].
  destruct (A q p (K1 q Hq) Hp) as [<-|D']; [apply M2, Hq|lia].
Qed.

(** The inside test on a hull is exact, and it never reads outside the vertices. *)
Theorem C27_inside : forall eps points vs p, 0 < eps -> hull_vertices eps points = Some vs ->
  (is_inside p vs = Some true /\ in_polygon vs p) \/ (is_inside p vs = Some false /\ ~ in_polygon vs p).
Proof.
  intros eps points vs p E H.
  assert (G : is_inside p vs = Some true <-> in_polygon vs p).
  { destruct (hull_cases eps points vs E H) as [L C].
    destruct C as [(mm & mx & I1 & I2 & V & -> & N & R)|(mm & mx & Mm & MM & m & a1 & z1 & HC & -> & I1 & I2 & I3 & I4 & I5 & I6)].
    - apply (inside_flat mm mx); right; reflexivity.
    - destruct (result_ok _ _ _ _ _ _ _ HC) as (li & ui & RE & IL & IU & O & ED).
      destruct (Nat.le_gt_cases 3 (length (result mm mx Mm MM m a1 z1))) as [H3|H3]; [apply inside_convex; assumption|].
      assert (V : result mm mx Mm MM m a1 z1 = [mm; Mm]).
      { rewrite RE in H3 |- *. cbn [app length] in H3. rewrite !app_length in H3. cbn [length] in H3. rewrite ?app_length in H3. cbn [length] in H3.
        destruct li; cbn [length] in H3; [|lia]. destruct z1; cbn [length] in H3; [|lia]. destruct ui; cbn [length app] in *; [|lia].
        destruct a1; cbn [length] in H3; [reflexivity|lia]. }
      apply (inside_flat mm Mm); left; exact V. }
  rewrite is_inside_edges in *. destruct (eloop p (edges vs)).
  - left. split; [reflexivity|apply G; reflexivity].
  - right. split; [reflexivity|]. intros K. apply G in K. discriminate.
Qed.

Lemma forall2_l {A B} (R : A -> B -> Prop) l l' : Forall2 R l l' -> forall x, In x l -> exists y, In y l' /\ R x y.
Proof. induction 1 as [|a b l l' H F IH]; intros x Hx; [destruct Hx|]. destruct Hx as [<-|Hx]; [exists b; split; [left; reflexivity|exact H]|]. destruct (IH x Hx) as (y & Y1 & Y2). exists y; split; [right; exact Y1|exact Y2]. Qed.
Lemma forall2_r {A B} (R : A -> B -> Prop) l l' : Forall2 R l l' -> forall y, In y l' -> exists x, In x l /\ R x y.
Proof. induction 1 as [|a b l l' H F IH]; intros x Hx; [destruct Hx|]. destruct Hx as [<-|Hx]; [exists a; split; [left; reflexivity|exact H]|]. destruct (IH x Hx) as (y & Y1 & Y2). exists y; split; [right; exact Y1|exact Y2]. Qed.

(** A convex polygon given in this order is the set of points on the left of or on all of its edges. *)
Theorem C27_half_planes : forall vs p, convex_ccw vs -> (3 <= length vs)%nat ->
  (in_polygon vs p <-> forall i a b, nth_error vs i = Some a -> nth_error vs (if Nat.eq_dec (S i) (length vs) then 0 else S i)%nat = Some b -> 0 <= turn a b p).
Proof.
  intros vs p C L. apply ord3_convex in C. assert (F := segs_edges vs).
  assert (X : forall i a b, nth_error vs i = Some a -> nth_error vs (if Nat.eq_dec (S i) (length vs) then 0 else S i)%nat = Some b -> In (a, b) (edges vs)).
  { intros i a b A B. assert (Hi : (i < length vs)%nat) by (apply nth_error_Some; congruence).
    assert (HS : In (i, if (i =? length vs - 1)%nat then 0 else S i)%nat (hull_segments (length vs))).
    { unfold hull_segments. apply in_map_iff. exists i. split; [reflexivity|apply in_seq; lia]. }
    destruct (forall2_l _ _ _ F _ HS) as ([a' b'] & IN & H1 & H2). cbn [fst snd] in *.
    assert (a' = a) by congruence. subst a'.
    destruct (Nat.eq_dec (S i) (length vs)) as [E|E].
    - replace (i =? length vs - 1)%nat with true in H2 by (symmetry; apply Nat.eqb_eq; lia). assert (b' = b) by congruence. subst b'; exact IN.
    - replace (i =? length vs - 1)%nat with false in H2 by (symmetry; apply Nat.eqb_neq; lia). assert (b' = b) by congruence. subst b'; exact IN. }
  split.
  - intros H i a b A B. rewrite turn_left. destruct (polygon_edges vs p H (a, b)) as [K|[K _]].
    + apply convex_edges; [exact C|]. eapply X; eassumption.
    + unfold side in K; cbn [fst snd] in K; lia.
    + unfold side in K; cbn [fst snd] in K; lia.
  - intros H. apply half_planes; [exact C|exact L|]. intros e He.
    assert (Y := forall2_r _ _ _ F e He).
    destruct Y as (s & S1 & S2 & S3). unfold hull_segments in S1. apply in_map_iff in S1. destruct S1 as (i & <- & Hi). apply in_seq in Hi. cbn [fst snd] in *.
    unfold side. rewrite <- turn_left. apply (H i); [exact S2|].
    destruct (Nat.eq_dec (S i) (length vs)) as [E|E].
    + replace (i =? length vs - 1)%nat with true in S3 by (symmetry; apply Nat.eqb_eq; lia). exact S3.
    + replace (i =? length vs - 1)%nat with false in S3 by (symmetry; apply Nat.eqb_neq; lia). exact S3.
Qed.

(** A square with points on its sides, inside, ties in x and a double entry: the four corners remain. *)
Example C26_example : hull_vertices 1 [(0, 0); (4, 4); (2, 2); (4, 0); (0, 4); (2, 0); (0, 2); (2, 4); (4, 2); (0, 0)] = Some [(0, 0); (4, 0); (4, 4); (0, 4)].
Proof. vm_compute; reflexivity. Qed.
Example C26_example_general : hull_vertices 2 [(3, 7); (0, 5); (9, 6); (5, 0); (5, 1); (7, 2); (2, 2); (6, 9); (1, 2)] = Some [(0, 5); (2, 2); (5, 0); (7, 2); (9, 6); (6, 9)].
Proof. vm_compute; reflexivity. Qed.
Example C26_example_line : hull_vertices 1 [(2, 2); (0, 0); (6, 6)] = Some [(0, 0); (6, 6)] /\ hull_vertices 1 [(1, 2); (1, 0); (1, 6)] = Some [(1, 0); (1, 6); (1, 0)] /\ hull_vertices 1 [(1, 2); (1, 2); (1, 6)] = None.
Proof. vm_compute; auto. Qed.
Example C27_example : map (fun p => is_inside p [(0, 0); (4, 0); (4, 4); (0, 4)]) [(1, 3); (4, 2); (5, 0); (4, 4); (-1, 4); (0, 5)] = [Some true; Some true; Some false; Some true; Some false; Some false].
Proof. vm_compute; reflexivity. Qed.

Print Assumptions C26_hull.
Print Assumptions C26_all_inputs.
Print Assumptions C27_inside.
Print Assumptions C27_half_planes.
