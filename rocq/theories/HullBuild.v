(** The hull of a point set: sorting, the two chains and the closed polygon. *)
From Coq Require Import List ZArith Bool Arith Lia Psatz Sorting.Sorted Permutation.
From Verif Require Import HullModel HullSpec HullProofs HullPoly.
Import ListNotations.
Open Scope Z_scope.

(** * Sorting *)
Lemma far_spec eps p q : far eps p q = true <-> eps <= dist2 p q.
Proof. unfold far, dist2. rewrite negb_true_iff, Z.ltb_ge. tauto. Qed.
Lemma filter_len {A} (f : A -> bool) l : (length (filter f l) <= length l)%nat.
Proof. induction l as [|x l IH]; cbn; [lia|]. destruct (f x); cbn; lia. Qed.
Lemma dedup_incl eps : forall n l, incl (dedup n eps l) l.
Proof.
  induction n as [|n IH]; intros l; [intros x []|]. destruct l as [|p l]; cbn [dedup]; [intros x []|].
  intros x [<-|H]; [left; reflexivity|]. right. apply IH, filter_In in H. tauto.
Qed.
Lemma dedup_cover eps : 0 < eps -> forall n l, (length l <= n)%nat -> forall p, In p l -> exists q, In q (dedup n eps l) /\ (p = q \/ dist2 q p < eps).
Proof.
  intros E. induction n as [|n IH]; intros l L p Hp; [destruct l; [destruct Hp|cbn in L; lia]|].
  destruct l as [|x l]; [destruct Hp|]. cbn [dedup]. destruct Hp as [<-|Hp]; [exists x; split; [left; reflexivity|left; reflexivity]|].
  destruct (far eps x p) eqn:F.
  - destruct (IH (filter (far eps x) l)) with (p := p) as (q & Q1 & Q2).
    + assert (H := filter_len (far eps x) l). cbn [length] in L; lia.
    + apply filter_In; split; assumption.
    + exists q; split; [right; exact Q1|exact Q2].
  - exists x; split; [left; reflexivity|]. right. destruct (Z_lt_ge_dec (dist2 x p) eps) as [H|H]; [exact H|].
    rewrite (proj2 (far_spec eps x p)) in F; [discriminate|lia].
Qed.
Lemma dedup_apart eps : forall n l, ord2 (fun p q => eps <= dist2 p q) (dedup n eps l).
Proof.
  induction n as [|n IH]; intros l; [exact I|]. destruct l as [|p l]; cbn [dedup ord2]; [exact I|]. split; [|apply IH].
  apply Forall_forall; intros q Hq. apply dedup_incl, filter_In in Hq. apply far_spec; tauto.
Qed.
Lemma insert_perm p : forall l, Permutation (insert p l) (p :: l).
Proof.
  induction l as [|q l IH]; cbn [insert]; [reflexivity|]. destruct (ltb q p); [|reflexivity].
  rewrite IH. apply perm_swap.
Qed.
Lemma sort_perm l : Permutation (sort l) l.
Proof. induction l as [|p l IH]; cbn; [constructor|]. unfold sort in IH. rewrite insert_perm, IH. reflexivity. Qed.
Lemma insert_sorted p : forall l, ~ In p l -> ord2 lt l -> ord2 lt (insert p l).
Proof.
  induction l as [|q l IH]; intros N S; cbn [insert]; [cbn [ord2]; auto|]. destruct S as [S1 S2]. destruct (ltb q p) eqn:E.
  - apply ltb_lt in E. cbn [ord2]. split; [|apply IH; [intros H; apply N; right; exact H|exact S2]].
    rewrite Forall_forall in *. intros x Hx. apply (Permutation_in _ (insert_perm p l)) in Hx. destruct Hx as [<-|Hx]; [exact E|apply S1; exact Hx].
  - assert (PQ : lt p q).
    { destruct (lt_total p q) as [H|[->|H]]; [exact H|exfalso; apply N; left; reflexivity|]. apply ltb_lt in H; congruence. }
    cbn [ord2]. split; [|split; assumption]. constructor; [exact PQ|]. rewrite Forall_forall in *. intros x Hx. specialize (S1 x Hx). ltt.
Qed.
Lemma sort_sorted : forall l, NoDup l -> ord2 lt (sort l).
Proof.
  induction l as [|p l IH]; intros N; [exact I|]. inversion N; subst. cbn [sort fold_right]. apply insert_sorted.
  - intros H. apply (Permutation_in _ (sort_perm l)) in H. contradiction.
  - apply IH; assumption.
Qed.
Lemma dedup_nodup eps n l : 0 < eps -> NoDup (dedup n eps l).
Proof.
  intros E. assert (H := dedup_apart eps n l). induction (dedup n eps l) as [|x d IH]; [constructor|].
  destruct H as [H1 H2]. constructor; [|apply IH; exact H2]. intros Hx. rewrite Forall_forall in H1. specialize (H1 x Hx). unfold dist2 in H1. lia.
Qed.
Lemma sort_points_sorted eps l : 0 < eps -> ord2 lt (sort_points eps l).
Proof. intros E. apply sort_sorted, dedup_nodup, E. Qed.
Lemma sort_points_in eps l q : In q (sort_points eps l) <-> In q (dedup (length l) eps l).
Proof. split; apply Permutation_in; [|symmetry]; apply sort_perm. Qed.

Lemma run_spec x : forall l a b, run x l = (a, b) -> l = a ++ b /\ (forall p, In p a -> fst p = x) /\ (match b with [] => True | p :: _ => fst p <> x end).
Proof.
  induction l as [|p l IH]; intros a b E; cbn [run] in E.
  - injection E as <- <-. repeat split. intros p [].
  - destruct (fst p =? x) eqn:F.
    + destruct (run x l) as [a' b'] eqn:R. injection E as <- <-. destruct (IH _ _ eq_refl) as (H1 & H2 & H3).
      split; [rewrite H1; reflexivity|]. split; [|exact H3]. intros q [<-|Hq]; [apply Z.eqb_eq, F|apply H2; exact Hq].
    + injection E as <- <-. repeat split; [intros q []|apply Z.eqb_neq, F].
Qed.

Lemma ord2_ss {A} (R : A -> A -> Prop) : forall l, ord2 R l -> StronglySorted R l.
Proof. induction l as [|x l IH]; intros H; [constructor|]. destruct H. constructor; auto. Qed.

(** * The upper chain is the lower one turned by half a turn *)
Definition neg (p : pt) : pt := (- fst p, - snd p).
Lemma neg_neg p : neg (neg p) = p.
Proof. destruct p; unfold neg; cbn [fst snd]. f_equal; lia. Qed.
Lemma left_neg a b c : is_left (neg a) (neg b) (neg c) = is_left a b c.
Proof. unfold is_left, neg; cbn [fst snd]; ring. Qed.
Lemma pop_neg p : forall st, pop (map neg st) (neg p) = map neg (pop st p).
Proof.
  induction st as [|b st IH]; [reflexivity|]. destruct st as [|a st]; [reflexivity|].
  change (pop (map neg (b :: a :: st)) (neg p)) with (if 0 <? is_left (neg a) (neg b) (neg p) then map neg (b :: a :: st) else pop (map neg (a :: st)) (neg p)).
  change (pop (b :: a :: st) p) with (if 0 <? is_left a b p then b :: a :: st else pop (a :: st) p).
  rewrite left_neg. destruct (0 <? is_left a b p); [reflexivity|exact IH].
Qed.
Lemma scan_neg f l : forall ps st, scan (neg f) (neg l) (map neg ps) (map neg st) = map neg (scan f l ps st).
Proof.
  induction ps as [|p ps IH]; intros st; [reflexivity|]. cbn [map scan]. rewrite left_neg.
  replace (match map neg ps with [] => true | _ => false end) with (match ps with [] => true | _ => false end) by (destruct ps; reflexivity).
  destruct (_ && _); [apply IH|]. rewrite pop_neg. apply (IH (p :: pop st p)).
Qed.
Lemma map_neg_neg l : map neg (map neg l) = l.
Proof. rewrite map_map. rewrite <- (map_id l) at 2. apply map_ext, neg_neg. Qed.
Lemma ord2_map {A B} (g : A -> B) (P : B -> B -> Prop) : forall l, ord2 P (map g l) <-> ord2 (fun a b => P (g a) (g b)) l.
Proof. induction l as [|x l IH]; cbn [map ord2]; [tauto|]. rewrite IH, Forall_map. tauto. Qed.
Lemma ord3_map {A B} (g : A -> B) (P : B -> B -> B -> Prop) : forall l, ord3 P (map g l) <-> ord3 (fun a b c => P (g a) (g b) (g c)) l.
Proof. induction l as [|x l IH]; cbn [map ord3]; [tauto|]. rewrite IH, ord2_map. tauto. Qed.
Lemma adj_map {A B} (g : A -> B) (P : B -> B -> Prop) : forall l, adj P (map g l) <-> adj (fun a b => P (g a) (g b)) l.
Proof. induction l as [|x l IH]; [cbn [map adj]; tauto|]. destruct l as [|y l]; [cbn [map adj]; tauto|]. change (P (g x) (g y) /\ adj P (map g (y :: l)) <-> P (g x) (g y) /\ adj (fun a b => P (g a) (g b)) (y :: l)). rewrite IH. tauto. Qed.

Lemma chain_up (f l : pt) (m : list pt) :
  fst l < fst f -> (forall q, In q m -> fst l < fst q < fst f) -> ord2 lt m ->
  exists inner : list pt, rev (scan f l (rev m ++ [l]) [f]) = f :: inner ++ [l] /\ incl inner m /\
    (forall v, In v inner -> is_left f l v < 0) /\
    ord2 (fun a b => fst b < fst a) (f :: inner ++ [l]) /\ ord3 leftp (f :: inner ++ [l]) /\
    (forall q, In q m \/ (in_range l f q /\ 0 <= is_left f l q) -> adj (fun a b => 0 <= is_left a b q) (f :: inner ++ [l])).
Proof.
  intros FL M S.
  destruct (chain_ok (neg f) (neg l) (map neg (rev m))) as (inner & C1 & C2 & C3 & C4 & C5 & C6).
  - unfold neg; cbn [fst]; lia.
  - intros q Hq. apply in_map_iff in Hq. destruct Hq as (q' & <- & Hq). apply in_rev in Hq. specialize (M q' Hq). unfold neg; cbn [fst]; lia.
  - apply ord2_ss, ord2_map. eapply ord2_imp; [|exact (ord2_rev _ _ S)]. unfold lt, neg; cbn [fst snd]; intros; lia.
  - assert (E : map neg (rev (scan f l (rev m ++ [l]) [f])) = neg f :: inner ++ [neg l]).
    { rewrite map_rev, <- scan_neg, map_app. exact C1. }
    assert (E' : rev (scan f l (rev m ++ [l]) [f]) = f :: map neg inner ++ [l]).
    { rewrite <- (map_neg_neg (rev _)), E. cbn [map]. rewrite map_app. cbn [map]. rewrite !neg_neg. reflexivity. }
    assert (E2 : neg f :: inner ++ [neg l] = map neg (f :: map neg inner ++ [l])).
    { cbn [map]. rewrite map_app, map_neg_neg. reflexivity. }
    rewrite E2 in C4, C5, C6.
    exists (map neg inner). split; [exact E'|]. split; [|split; [|split; [|split]]].
    + intros v Hv. apply in_map_iff in Hv. destruct Hv as (v' & <- & Hv). apply C2, in_map_iff in Hv. destruct Hv as (v & <- & Hv).
      rewrite neg_neg. apply in_rev, Hv.
    + intros v Hv. apply in_map_iff in Hv. destruct Hv as (v' & <- & Hv). rewrite <- left_neg, neg_neg. apply C3, Hv.
    + rewrite ord2_map in C4. eapply ord2_imp; [|exact C4]. unfold neg; cbn [fst]; intros; lia.
    + rewrite ord3_map in C5. eapply ord3_imp; [|exact C5]. unfold leftp; intros a b c; rewrite left_neg; auto.
    + intros q Hq. specialize (C6 (neg q)). rewrite adj_map in C6. eapply adj_imp; [|apply C6].
      * cbn beta; intros a b; rewrite left_neg; auto.
      * destruct Hq as [Hq|[[R1 R2] H]]; [left; apply in_map, in_rev; rewrite rev_involutive; exact Hq|right].
        rewrite left_neg. split; [|exact H]. unfold in_range, neg; cbn [fst]; lia.
Qed.

(** * The closed polygon *)
Definition column (mm mx Mm MM q : pt) : Prop := (fst q = fst mm /\ snd mm <= snd q <= snd mx) \/ (fst q = fst Mm /\ snd Mm <= snd q <= snd MM).
Definition result (mm mx Mm MM : pt) (m : list pt) (a1 z1 : bool) : list pt :=
  let lower := scan mm Mm (m ++ [Mm]) [mm] in
  let upper := scan MM mx (rev m ++ [mx]) [MM] in
  let st := if z1 then lower else MM :: lower in
  let h := upper ++ tl st in
  let h := if a1 then h else mm :: h in
  rev (tl h).
Definition closed_hyp (mm mx Mm MM : pt) (m : list pt) (a1 z1 : bool) : Prop :=
  fst mm = fst mx /\ fst Mm = fst MM /\ fst mm < fst Mm /\ (if a1 then mm = mx else snd mm < snd mx) /\ (if z1 then Mm = MM else snd Mm < snd MM) /\
  (forall q, In q m -> fst mm < fst q < fst Mm) /\ ord2 lt m.

Lemma result_ok mm mx Mm MM m a1 z1 : closed_hyp mm mx Mm MM m a1 z1 -> exists li ui,
  result mm mx Mm MM m a1 z1 = (mm :: li ++ [Mm]) ++ (if z1 then [] else [MM]) ++ ui ++ (if a1 then [] else [mx]) /\
  incl li m /\ incl ui m /\ ord3 leftp (result mm mx Mm MM m a1 z1) /\
  (forall q, In q m \/ column mm mx Mm MM q -> forall e, In e (edges (result mm mx Mm MM m a1 z1)) -> 0 <= side e q).
Proof.
  intros (Xa & Xz & Xl & Ya & Yz & Mx & Ms).
  assert (YA : snd mm <= snd mx) by (destruct a1; [rewrite Ya|]; lia).
  assert (YZ : snd Mm <= snd MM) by (destruct z1; [rewrite Yz|]; lia).
  set (result := result mm mx Mm MM m a1 z1).
  set (lower := scan mm Mm (m ++ [Mm]) [mm]). set (upper := scan MM mx (rev m ++ [mx]) [MM]).
  destruct (chain_ok mm Mm m) as (li & L1 & L2 & L3 & L4 & L5 & L6).
  { exact Xl. } { exact Mx. } { apply ord2_ss, Ms. }
  destruct (chain_up MM mx m) as (ui & U1 & U2 & U3 & U4 & U5 & U6).
  { lia. } { intros q Hq; specialize (Mx q Hq); lia. } { exact Ms. }
  exists li, ui.
  assert (R : result = (mm :: li ++ [Mm]) ++ (if z1 then [] else [MM]) ++ ui ++ (if a1 then [] else [mx])).
  { assert (LL : lower = Mm :: rev li ++ [mm]).
    { rewrite <- (rev_involutive lower). unfold lower. rewrite L1. cbn [rev]. rewrite rev_app_distr. reflexivity. }
    assert (UU : upper = mx :: rev ui ++ [MM]).
    { rewrite <- (rev_involutive upper). unfold upper. rewrite U1. cbn [rev]. rewrite rev_app_distr. reflexivity. }
    unfold result, HullBuild.result. fold lower upper. rewrite LL, UU.
    destruct a1, z1; cbn [tl app]; rewrite ?Yz; repeat (rewrite ?rev_app_distr, ?rev_involutive, ?app_nil_r, <- ?app_assoc; cbn [rev app]); reflexivity. }
  split; [exact R|]. split; [exact L2|]. split; [exact U2|].
  (* the points of the chains against the two long lines *)
  assert (PL : forall v, In v (mm :: li ++ [Mm]) -> in_range mm Mm v).
  { intros v [<-|Hv]; [unfold in_range; lia|]. apply in_app_iff in Hv; destruct Hv as [Hv|[<-|[]]]; [|unfold in_range; lia].
    specialize (Mx v (L2 v Hv)); unfold in_range; lia. }
  assert (PU : forall v, In v (MM :: ui ++ [mx]) -> in_range mm Mm v).
  { intros v [<-|Hv]; [unfold in_range; lia|]. apply in_app_iff in Hv; destruct Hv as [Hv|[<-|[]]]; [|unfold in_range; lia].
    specialize (Mx v (U2 v Hv)); unfold in_range; lia. }
  set (U' := (if z1 then [] else [MM]) ++ ui ++ (if a1 then [] else [mx])) in *.
  assert (SU : forall v, In v U' -> In v (MM :: ui ++ [mx])).
  { intros v Hv. unfold U' in Hv. rewrite !in_app_iff in Hv. destruct Hv as [Hv|[Hv|Hv]].
    - destruct z1; [destruct Hv|]. destruct Hv as [<-|[]]; left; reflexivity.
    - right; apply in_app_iff; left; exact Hv.
    - destruct a1; [destruct Hv|]. destruct Hv as [<-|[]]. right; apply in_app_iff; right; left; reflexivity. }
  assert (HU : forall v, In v U' -> 0 < is_left mm Mm v).
  { intros v Hv. unfold U' in Hv. rewrite !in_app_iff in Hv. destruct Hv as [Hv|[Hv|Hv]].
    - destruct z1; [destruct Hv|]. destruct Hv as [<-|[]]. unfold is_left. rewrite <- Xz. assert (0 < (fst Mm - fst mm) * (snd MM - snd Mm)) by nia. nia.
    - assert (K := U3 v Hv). assert (MV := Mx v (U2 v Hv)). apply interp_s with mx MM; try lia.
      + unfold is_left. rewrite <- Xa. nia.
      + unfold is_left. rewrite <- Xz. nia.
      + unfold is_left in *; lia.
    - destruct a1; [destruct Hv|]. destruct Hv as [<-|[]]. unfold is_left. rewrite <- Xa. nia. }
  assert (HL : forall v, In v li -> 0 < is_left MM mx v).
  { intros v Hv. assert (K := L3 v Hv). assert (MV := Mx v (L2 v Hv)).
    rewrite <- left_neg. apply interp_s with (neg Mm) (neg mm); try (unfold neg; cbn [fst]; lia).
    + rewrite left_neg. unfold is_left. rewrite <- Xz, <- Xa. nia.
    + rewrite left_neg. unfold is_left. rewrite <- Xz, <- Xa. nia.
    + rewrite left_neg. unfold is_left in *; lia. }
  (* two points of one chain have both ends of the chain on their left *)
  assert (EL : ord2 (fun a b => fst a < fst b /\ 0 <= is_left a b mm /\ 0 <= is_left a b Mm) (mm :: li ++ [Mm])).
  { apply ord2_and; [exact L4|]. apply ord2_and.
    - destruct L5 as [L7 _]. cbn [ord2]. split; [apply Forall_forall; intros; unfold is_left; lia|].
      eapply ord2_imp; [|exact L7]. unfold leftp; intros a b H. rewrite <- cyc; lia.
    - change (mm :: li ++ [Mm]) with ((mm :: li) ++ [Mm]) in *. rewrite ord3_app in L5. destruct L5 as (_ & _ & L7 & _).
      specialize (L7 Mm (or_introl eq_refl)). rewrite ord2_app. split; [|split; [cbn [ord2]; auto|]].
      + eapply ord2_imp; [|exact L7]. unfold leftp; intros; lia.
      + intros a b _ [<-|[]]. unfold is_left; lia. }
  assert (EU : ord2 (fun a b => fst b < fst a /\ 0 <= is_left a b MM /\ 0 <= is_left a b mx) (MM :: ui ++ [mx])).
  { apply ord2_and; [exact U4|]. apply ord2_and.
    - destruct U5 as [L7 _]. cbn [ord2]. split; [apply Forall_forall; intros; unfold is_left; lia|].
      eapply ord2_imp; [|exact L7]. unfold leftp; intros a b H. rewrite <- cyc; lia.
    - change (MM :: ui ++ [mx]) with ((MM :: ui) ++ [mx]) in *. rewrite ord3_app in U5. destruct U5 as (_ & _ & L7 & _).
      specialize (L7 mx (or_introl eq_refl)). rewrite ord2_app. split; [|split; [cbn [ord2]; auto|]].
      + eapply ord2_imp; [|exact L7]. unfold leftp; intros; lia.
      + intros a b _ [<-|[]]. unfold is_left; lia. }
  assert (SO2 : forall P, ord2 P (MM :: ui ++ [mx]) -> ord2 P U').
  { intros P H. change (MM :: ui ++ [mx]) with ([MM] ++ ui ++ [mx]) in H. unfold U'. rewrite !ord2_app in H |- *.
    destruct H as (K1 & (K2 & K3 & K4) & K5). repeat split; auto.
    - destruct z1; [exact I|exact K1].
    - destruct a1; [exact I|exact K3].
    - intros a b Ha Hb. destruct a1; [destruct Hb|]. apply K4; assumption.
    - intros a b Ha Hb. destruct z1; [destruct Ha|]. apply K5; [exact Ha|]. apply in_app_iff in Hb; apply in_app_iff. destruct Hb as [Hb|Hb]; [left; exact Hb|]. destruct a1; [destruct Hb|right; exact Hb]. }
  assert (SO3 : ord3 leftp U').
  { change (MM :: ui ++ [mx]) with ([MM] ++ ui ++ [mx]) in U5. rewrite !ord3_app in U5. destruct U5 as (_ & (K2 & _ & K4 & _) & K5 & K6).
    assert (Q1 : ord3 leftp (ui ++ (if a1 then [] else [mx]))).
    { destruct a1; [rewrite app_nil_r; exact K2|]. rewrite ord3_app. split; [exact K2|]. split; [cbn [ord3 ord2]; auto|]. split; [exact K4|]. intros a Ha; cbn [ord2]; auto. }
    unfold U'. destruct z1; [exact Q1|]. change ([MM] ++ ui ++ (if a1 then [] else [mx])) with (MM :: (ui ++ (if a1 then [] else [mx]))). cbn [ord3]. split; [|exact Q1].
    specialize (K6 MM (or_introl eq_refl)). rewrite ord2_app in K6 |- *. destruct a1; [|exact K6]. destruct K6 as (K7 & _ & _). split; [exact K7|split; [exact I|intros a b _ []]]. }
  split.
  - rewrite R, ord3_app. split; [exact L5|]. split; [exact SO3|]. split.
    + intros c Hc. eapply ord2_imp; [|exact EL]. cbn beta. intros a b (H1 & H2 & H3). unfold leftp.
      destruct (PU c (SU c Hc)). apply interp_s with mm Mm; auto; split; assumption.
    + intros c Hc.
      assert (GEN : 0 < is_left MM mx c -> ord2 (leftp c) U').
      { intros H. apply SO2. eapply ord2_imp; [|exact EU]. cbn beta. intros a b (H1 & H2 & H3). unfold leftp. rewrite cyc.
        destruct (PL c Hc) as [P1 P2].
        rewrite <- left_neg. apply interp_s with (neg MM) (neg mx); rewrite ?left_neg; try assumption; unfold neg; cbn [fst]; lia. }
      destruct Hc as [<-|Hc].
      * destruct a1 eqn:EA.
        -- unfold U'. rewrite app_nil_r.
           change (MM :: ui ++ [mx]) with ((MM :: ui) ++ [mx]) in U5. rewrite ord3_app in U5. destruct U5 as (_ & _ & K5 & _).
           specialize (K5 mx (or_introl eq_refl)). rewrite <- Ya in K5.
           assert (K6 : ord2 (leftp mm) (MM :: ui)) by (eapply ord2_imp; [|exact K5]; unfold leftp; intros a b H; rewrite cyc; exact H).
           destruct z1; [exact (proj2 K6)|exact K6].
        -- apply GEN. unfold is_left. rewrite <- Xz, <- Xa. nia.
      * apply in_app_iff in Hc. destruct Hc as [Hc|[<-|[]]]; [apply GEN, HL, Hc|].
        destruct z1 eqn:EZ.
        -- unfold U'. cbn [app]. destruct U5 as [K5 _]. rewrite <- Yz in K5.
           rewrite ord2_app in K5 |- *. destruct a1; [|exact K5]. destruct K5 as (K7 & _ & _). split; [exact K7|split; [exact I|intros a b _ []]].
        -- apply GEN. unfold is_left. rewrite <- Xz, <- Xa. nia.
  - intros q Hq.
    assert (QR : in_range mm Mm q).
    { unfold in_range. destruct Hq as [Hq|[[H _]|[H _]]]; [specialize (Mx q Hq)| |]; lia. }
    assert (AL : adj (fun a b => 0 <= is_left a b q) (mm :: li ++ [Mm])).
    { apply L6. destruct Hq as [Hq|[[H1 H2]|[H1 H2]]]; [left; exact Hq|right|right]; (split; [exact QR|]).
      - unfold is_left. rewrite H1. nia.
      - unfold is_left. rewrite H1. nia. }
    assert (AU : adj (fun a b => 0 <= is_left a b q) (MM :: ui ++ [mx])).
    { apply U6. destruct Hq as [Hq|[[H1 H2]|[H1 H2]]]; [left; exact Hq|right|right]; (split; [unfold in_range in *; lia|]).
      - unfold is_left. rewrite H1, <- Xz, <- Xa. nia.
      - unfold is_left. rewrite H1, <- Xz, <- Xa. nia. }
    assert (Z : 0 <= is_left Mm MM q) by (unfold is_left; rewrite <- Xz; destruct QR; nia).
    assert (A : 0 <= is_left mx mm q) by (unfold is_left; rewrite <- Xa; destruct QR; nia).
    assert (C : adj (fun a b => 0 <= is_left a b q) ((mm :: li ++ [Mm]) ++ U' ++ [mm])).
    { change (mm :: li ++ [Mm]) with ((mm :: li) ++ [Mm]) in AL |- *. rewrite <- app_assoc. cbn [app]. apply (adj_app _ (mm :: li) Mm). split; [exact AL|].
      assert (T : adj (fun a b => 0 <= is_left a b q) (MM :: ui ++ (if a1 then [] else [mx]) ++ [mm])).
      { destruct a1; [rewrite Ya; exact AU|]. cbn [app]. apply (adj_app _ (MM :: ui) mx [mm]). split; [exact AU|]. cbn [adj]; auto. }
      unfold U'. destruct z1.
      - cbn [app]. rewrite <- app_assoc. rewrite <- Yz in T. exact T.
      - cbn [app]. rewrite <- app_assoc. split; [exact Z|exact T]. }
    intros e He. rewrite R in He.
    change ((mm :: li ++ [Mm]) ++ U') with (mm :: ((li ++ [Mm]) ++ U')) in He. unfold edges in He.
    apply (proj1 (adj_combine (fun a b => 0 <= is_left a b q) ((li ++ [Mm]) ++ U') mm mm)); [|exact He].
    rewrite <- app_assoc. exact C.
Qed.

Lemma result_contains mm mx Mm MM m a1 z1 : closed_hyp mm mx Mm MM m a1 z1 -> forall q, In q m \/ column mm mx Mm MM q -> in_polygon (result mm mx Mm MM m a1 z1) q.
Proof.
  intros HC. destruct (result_ok _ _ _ _ _ _ _ HC) as (li & ui & R & L & U & O & E). intros q Hq. specialize (E q Hq).
  destruct HC as (Xa & Xz & Xl & Ya & Yz & Mx & Ms). set (result := result mm mx Mm MM m a1 z1) in *.
  destruct (le_lt_dec 3 (length result)) as [H3|H3]; [apply half_planes; assumption|].
  assert (V : result = [mm; Mm]).
  { rewrite R in H3 |- *. cbn [app length] in H3. rewrite !app_length in H3. cbn [length] in H3. rewrite ?app_length in H3. cbn [length] in H3.
    destruct li; cbn [length] in H3; [|lia]. destruct z1; cbn [length] in H3; [|lia]. destruct ui; cbn [length app] in *; [|lia].
    destruct a1; cbn [length] in H3; [reflexivity|lia]. }
  rewrite V in E |- *. cbn [edges combine app] in E.
  assert (E1 := E (mm, Mm) (or_introl eq_refl)). assert (E2 := E (Mm, mm) (or_intror (or_introl eq_refl))).
  apply (between_mix [mm; Mm] (mm, Mm)); [left; reflexivity|right; left; reflexivity|].
  unfold between, side in *; cbn [fst snd] in *.
  assert (S : is_left mm Mm q = 0) by (unfold is_left in *; lia).
  assert (QR : fst mm <= fst q <= fst Mm).
  { destruct Hq as [Hq|[[H _]|[H _]]]; [specialize (Mx q Hq)| |]; lia. }
  split; [exact S|]. split; [nia|]. unfold is_left in S.
  assert (K : (fst Mm - fst mm) * (snd q - snd mm) = (fst q - fst mm) * (snd Mm - snd mm)) by lia.
  assert (K2 : (fst Mm - fst mm) * (snd q - snd Mm) = (fst q - fst Mm) * (snd Mm - snd mm)) by lia.
  assert (K3 : (fst Mm - fst mm) * (fst Mm - fst mm) * ((snd q - snd mm) * (snd q - snd Mm)) = ((fst q - fst mm) * (fst q - fst Mm)) * ((snd Mm - snd mm) * (snd Mm - snd mm))).
  { replace ((fst Mm - fst mm) * (fst Mm - fst mm) * ((snd q - snd mm) * (snd q - snd Mm))) with (((fst Mm - fst mm) * (snd q - snd mm)) * ((fst Mm - fst mm) * (snd q - snd Mm))) by ring. rewrite K, K2; ring. }
  assert (K4 : (fst q - fst mm) * (fst q - fst Mm) <= 0) by nia.
  assert (K5 := Z.square_nonneg (snd Mm - snd mm)).
  assert (K6 : 0 < (fst Mm - fst mm) * (fst Mm - fst mm)) by (apply Z.mul_pos_pos; lia).
  apply Z.nlt_ge; intros K7. assert (K8 := Z.mul_pos_pos _ _ K6 K7). assert (K9 := Z.mul_nonpos_nonneg _ _ K4 K5). lia.
Qed.

(** * The whole function *)
Lemma ord2_lt_rev_hd : forall (l : list pt) p q, ord2 lt (l ++ [p]) -> In q l -> lt q p.
Proof. intros l p q H Hq. rewrite ord2_app in H. apply (proj2 (proj2 H)); [exact Hq|left; reflexivity]. Qed.

Lemma hull_cases eps pts vs : 0 < eps -> hull_vertices eps pts = Some vs ->
  let P := sort_points eps pts in
  (3 <= length P)%nat /\
  ((exists mm mx, In mm P /\ In mx P /\ vertical P /\ vs = [mm; mx; mm] /\ mm <> mx /\ (forall q, In q P -> snd mm <= snd q <= snd mx)) \/
   (exists mm mx Mm MM m a1 z1, closed_hyp mm mx Mm MM m a1 z1 /\ vs = result mm mx Mm MM m a1 z1 /\
      In mm P /\ In mx P /\ In Mm P /\ In MM P /\ incl m P /\ (forall q, In q P -> In q m \/ column mm mx Mm MM q))).
Proof.
  intros E H P. unfold hull_vertices in H. fold P in H.
  assert (S : ord2 lt P) by (apply sort_points_sorted, E).
  destruct (length P <? 3)%nat eqn:EL; [discriminate|]. apply Nat.ltb_ge in EL. split; [exact EL|].
  destruct P as [|mm P0] eqn:EP; [discriminate|]. rewrite <- EP in *.
  destruct (run (fst mm) P) as [a r] eqn:RA. destruct (run_spec _ _ _ _ RA) as (A1 & A2 & A3).
  assert (AN : exists a', a = mm :: a').
  { destruct a as [|x a]; [|exists a; rewrite EP in A1; injection A1 as -> _; reflexivity].
    cbn [app] in A1. rewrite <- A1, EP in A3. congruence. }
  destruct AN as [a' ->].
  set (mx := last (mm :: a') mm) in *.
  assert (MXl : mx = last a' mm) by apply last_cons.
  assert (MXin : In mx (mm :: a')) by (rewrite MXl; apply last_in).
  assert (SA : ord2 lt (mm :: a')) by (rewrite A1, ord2_app in S; tauto).
  assert (CA : forall q, In q (mm :: a') -> fst q = fst mm /\ snd mm <= snd q <= snd mx).
  { intros q Hq. assert (FQ := A2 q Hq). assert (FX := A2 mx MXin). split; [exact FQ|]. split.
    - destruct Hq as [<-|Hq]; [lia|]. destruct SA as [SA _]. rewrite Forall_forall in SA. specialize (SA q Hq). ltt.
    - destruct (exists_last (l := mm :: a') ltac:(congruence)) as (b & y & EB). assert (mx = y) by (unfold mx; rewrite EB; apply last_last). subst y.
      rewrite EB in Hq, SA. apply in_app_iff in Hq. destruct Hq as [Hq|[<-|[]]]; [|lia]. assert (L := ord2_lt_rev_hd _ _ _ SA Hq). ltt. }
  assert (YA : if (length (mm :: a') =? 1)%nat then mm = mx else snd mm < snd mx).
  { destruct a' as [|x a']; [reflexivity|]. cbn [length Nat.eqb]. assert (HX : In mx (x :: a')) by (rewrite MXl, last_cons; apply last_in).
    destruct SA as [SA _]. rewrite Forall_forall in SA. specialize (SA mx HX). assert (FX := A2 mx MXin). ltt. }
  assert (HR : forall q, In q r -> fst mm < fst q).
  { intros q Hq. assert (SR := S). rewrite A1, ord2_app in SR. destruct SR as (_ & SR & SX).
    destruct r as [|p r]; [destruct Hq|]. assert (L1 := SX mm p (or_introl eq_refl) (or_introl eq_refl)).
    destruct Hq as [<-|Hq]; [ltt|]. destruct SR as [SR _]. rewrite Forall_forall in SR. specialize (SR q Hq). ltt. }
  destruct (rev r) as [|MM r'] eqn:ER.
  - left. assert (r = []) by (apply (f_equal (@rev pt)) in ER; rewrite rev_involutive in ER; exact ER). subst r. rewrite app_nil_r in A1.
    assert (NE : snd mm < snd mx).
    { destruct a' as [|x a']; [rewrite A1 in EL; cbn in EL; lia|exact YA]. }
    replace (snd mx =? snd mm) with false in H by (symmetry; apply Z.eqb_neq; lia). injection H as <-.
    exists mm, mx. rewrite A1. split; [left; reflexivity|]. split; [exact MXin|]. split.
    { intros p q Hp Hq. rewrite (A2 p Hp), (A2 q Hq). reflexivity. }
    split; [reflexivity|]. split; [intros EQ; rewrite <- EQ in NE; lia|]. intros q Hq; apply (CA q Hq).
  - right. rewrite <- ER in H. destruct (run (fst MM) (rev r)) as [z m'] eqn:RZ. destruct (run_spec _ _ _ _ RZ) as (Z1 & Z2 & Z3).
    assert (ZN : exists z', z = MM :: z').
    { destruct z as [|x z]; [|exists z; rewrite ER in Z1; injection Z1 as -> _; reflexivity]. cbn [app] in Z1. rewrite <- Z1, ER in Z3. congruence. }
    destruct ZN as [z' ->]. set (Mm := last (MM :: z') MM) in *.
    assert (MLl : Mm = last z' MM) by apply last_cons.
    assert (Min : In Mm (MM :: z')) by (rewrite MLl; apply last_in).
    assert (RR : r = rev m' ++ rev (MM :: z')) by (rewrite <- rev_app_distr, <- Z1, rev_involutive; reflexivity).
    assert (SR : ord2 lt r) by (rewrite A1, ord2_app in S; tauto).
    assert (SZ : ord2 (fun a b => lt b a) (MM :: z')).
    { rewrite RR, ord2_app in SR. destruct SR as (_ & SR & _). apply ord2_rev in SR. rewrite rev_involutive in SR. exact SR. }
    assert (CZ : forall q, In q (MM :: z') -> fst q = fst MM /\ snd Mm <= snd q <= snd MM).
    { intros q Hq. assert (FQ := Z2 q Hq). assert (FX := Z2 Mm Min). split; [exact FQ|]. split.
      - destruct (exists_last (l := MM :: z') ltac:(congruence)) as (b & y & EB). assert (Mm = y) by (unfold Mm; rewrite EB; apply last_last). subst y.
        rewrite EB in Hq, SZ. apply in_app_iff in Hq. destruct Hq as [Hq|[<-|[]]]; [|lia].
        rewrite ord2_app in SZ. assert (L := proj2 (proj2 SZ) q Mm Hq (or_introl eq_refl)). ltt.
      - destruct Hq as [<-|Hq]; [lia|]. destruct SZ as [SZ _]. rewrite Forall_forall in SZ. specialize (SZ q Hq). ltt. }
    assert (YZ : if (length (MM :: z') =? 1)%nat then Mm = MM else snd Mm < snd MM).
    { destruct z' as [|x z']; [reflexivity|]. cbn [length Nat.eqb]. assert (HX : In Mm (x :: z')) by (rewrite MLl, last_cons; apply last_in).
      destruct SZ as [SZ _]. rewrite Forall_forall in SZ. specialize (SZ Mm HX). assert (FX := Z2 Mm Min). ltt. }
    assert (XZ : fst Mm = fst MM) by (apply Z2; exact Min).
    assert (HMr : In MM r) by (apply in_rev; rewrite ER; left; reflexivity).
    assert (Hr : forall q, In q r <-> In q (rev m') \/ In q (MM :: z')).
    { intros q. rewrite RR, in_app_iff. rewrite <- (in_rev (MM :: z')). tauto. }
    assert (HM : forall q, In q (rev m') -> fst mm < fst q < fst Mm).
    { intros q Hq. split; [apply HR, Hr; left; exact Hq|].
      rewrite RR, ord2_app in SR. destruct SR as (SM & _ & SX).
      apply ord2_rev in SM. rewrite rev_involutive in SM. destruct m' as [|t m']; [destruct Hq|].
      assert (L1 : lt t MM) by (apply SX; [apply in_rev; rewrite rev_involutive; left; reflexivity|apply in_rev; rewrite rev_involutive; left; reflexivity]).
      apply in_rev in Hq. destruct Hq as [<-|Hq]; [ltt|]. destruct SM as [SM _]. rewrite Forall_forall in SM. specialize (SM q Hq). ltt. }
    exists mm, mx, Mm, MM, (rev m'), (length (mm :: a') =? 1)%nat, (length (MM :: z') =? 1)%nat.
    split.
    { split; [symmetry; apply A2; exact MXin|]. split; [exact XZ|]. split; [rewrite XZ; apply HR; exact HMr|]. split; [exact YA|]. split; [exact YZ|].
      split; [exact HM|]. rewrite RR, ord2_app in SR. apply SR. }
    split; [injection H as <-; reflexivity|].
    assert (IP : forall q, In q P <-> In q (mm :: a') \/ In q r) by (intros q; rewrite A1, in_app_iff; tauto).
    split; [apply IP; left; left; reflexivity|]. split; [apply IP; left; exact MXin|]. split; [apply IP; right; apply Hr; right; exact Min|].
    split; [apply IP; right; exact HMr|]. split; [intros q Hq; apply IP; right; apply Hr; left; exact Hq|].
    intros q Hq. apply IP in Hq. destruct Hq as [Hq|Hq]; [right; left; apply CA, Hq|]. apply Hr in Hq. destruct Hq as [Hq|Hq]; [left; exact Hq|].
    right; right. destruct (CZ q Hq). rewrite XZ. split; assumption.
Qed.

Lemma hull_defined eps pts : hull_vertices eps pts <> None <-> (3 <= length (sort_points eps pts))%nat.
Proof.
  unfold hull_vertices. destruct (length (sort_points eps pts) <? 3)%nat eqn:E.
  - apply Nat.ltb_lt in E. split; [congruence|lia].
  - apply Nat.ltb_ge in E. split; [intros; exact E|]. intros _. destruct (sort_points eps pts) as [|p l]; [cbn in E; lia|].
    destruct (run (fst p) (p :: l)) as [a r]. destruct (rev r) as [|q t]; [discriminate|]. destruct (run (fst q) (q :: t)); discriminate.
Qed.
