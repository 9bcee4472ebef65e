(** Proofs about the constraint solver. *)
From Coq Require Import ZArith QArith List Bool Permutation Lia.
From Verif Require Import CikModel CikSpec.
Import ListNotations.
Open Scope Z_scope.

(** * The list of constraints *)
Lemma said_snoc ops o c :
  said (ops ++ [o]) c =
  match o with
  | Add c' p h => if Nat.eqb c' c then Some (p, h) else said ops c
  | Remove c' => if Nat.eqb c' c then None else said ops c
  end.
Proof. unfold said. now rewrite fold_left_app. Qed.

Lemma run_snoc srt ops o m : run_ops srt (ops ++ [o]) m = apply_op srt (run_ops srt ops m) o.
Proof. unfold run_ops. now rewrite fold_left_app. Qed.

Lemma no_doubles_snoc ops o : no_doubles (ops ++ [o]) ->
  no_doubles ops /\ forall c p h, o = Add c p h -> said ops c = None.
Proof.
  intros H. split.
  - intros before c p h after E. apply (H before c p h (after ++ [o])).
    rewrite E, <- app_assoc. reflexivity.
  - intros c p h ->. apply (H ops c p h []). reflexivity.
Qed.

Lemma erase_first_in c x l : NoDup l -> (In x (erase_first c l) <-> In x l /\ x <> c).
Proof.
  induction 1 as [|y l NI ND IH]; cbn; [tauto|].
  destruct (Nat.eqb_spec y c) as [->|NE].
  - split; [intros I; split; [now right | intros ->; contradiction]|].
    intros [[->|I] N]; [congruence | exact I].
  - cbn. rewrite IH. split; [intros [->|[I N]]; auto | intros [[->|I] N]; auto].
Qed.

Lemma erase_first_nodup c l : NoDup l -> NoDup (erase_first c l).
Proof.
  induction 1 as [|y l NI ND IH]; cbn; [constructor|].
  destruct (Nat.eqb_spec y c) as [->|NE]; [exact ND|].
  constructor; [|exact IH]. rewrite erase_first_in by exact ND. tauto.
Qed.

Lemma erase_first_app c l : exists p s, l = p ++ s /\ (erase_first c l = l \/ exists s', s = c :: s' /\ erase_first c l = p ++ s').
Proof.
  induction l as [|y l (p & s & E & IH)]; cbn; [exists [], []; auto|].
  destruct (Nat.eqb_spec y c) as [->|NE].
  - exists [], (c :: l). split; [reflexivity|]. right. exists l. auto.
  - destruct IH as [IH|(s' & -> & IH)].
    + exists (y :: p), s. rewrite E at 1. split; [reflexivity|]. left. now rewrite IH.
    + exists (y :: p), (c :: s'). split; [now rewrite E|]. right. exists s'. now rewrite IH.
Qed.

(** Sorted by a function, in all pairs *)
Definition ordered (f : nat -> Z) (l : list nat) : Prop :=
  forall l1 a l2 b l3, l = l1 ++ a :: l2 ++ b :: l3 -> f b <= f a.

Lemma ordered_tail f a l : ordered f (a :: l) -> ordered f l /\ forall b, In b l -> f b <= f a.
Proof.
  intros H. split.
  - intros l1 x l2 y l3 E. apply (H (a :: l1) x l2 y l3). now rewrite E.
  - intros b I. apply in_split in I. destruct I as (l2 & l3 & ->). now apply (H [] a l2 b l3).
Qed.

Lemma ordered_cons f a l : ordered f l -> (forall b, In b l -> f b <= f a) -> ordered f (a :: l).
Proof.
  intros H B l1 x l2 y l3 E. destruct l1 as [|z l1]; cbn in E; injection E as -> E.
  - apply B. rewrite E. apply in_or_app. right. now left.
  - now apply (H l1 x l2 y l3).
Qed.

Lemma erase_first_sub c x l : In x (erase_first c l) -> In x l.
Proof.
  induction l as [|y l IH]; cbn; [auto|]. destruct (Nat.eqb y c); cbn; [auto|]. intros [->|I]; auto.
Qed.

Lemma ordered_erase f c l : ordered f l -> ordered f (erase_first c l).
Proof.
  induction l as [|a l IH]; intros H; cbn; [exact H|].
  destruct (ordered_tail _ _ _ H) as [T B].
  destruct (Nat.eqb a c); [exact T|].
  apply ordered_cons; [now apply IH|]. intros b I. apply B. eapply erase_first_sub; eassumption.
Qed.

Lemma ordered_ext f g l : (forall x, In x l -> f x = g x) -> ordered f l -> ordered g l.
Proof.
  intros E H l1 a l2 b l3 EL. subst l.
  rewrite <- (E a), <- (E b); [now apply (H l1 a l2 b l3)| |];
    apply in_or_app; right; [right; apply in_or_app; right; now left | now left].
Qed.

Lemma registry srt ops m : sorts srt -> no_doubles ops ->
  let k := run_ops srt ops m in
  NoDup (cons k) /\ (forall c, In c (cons k) <-> said ops c <> None) /\
  (forall c, match said ops c with
             | Some (p, h) => prio k c = p /\ hard k c = h
             | None => hard k c = false end) /\
  ordered (prio k) (cons k) /\ max_iter k = m /\ cur k = 0 /\ running k = false.
Proof.
  intros SO. induction ops as [|o ops IH] using rev_ind; intros ND.
  { cbn. split; [constructor|]. split; [intros c; split; [intros []|intros H; now elim H]|].
    split; [reflexivity|]. split; [|auto]. intros l1 a l2 b l3 E. destruct l1; discriminate. }
  destruct (no_doubles_snoc _ _ ND) as [ND1 FR].
  specialize (IH ND1). cbn zeta in *. rewrite run_snoc.
  destruct IH as (N & I & S1 & O & Hm & Hc & Hr). set (k := run_ops srt ops m) in *. clearbody k.
  destruct o as [c p h|c]; cbn [apply_op].
  - specialize (FR c p h eq_refl).
    assert (NC : ~ In c (cons k)) by (rewrite I; tauto).
    destruct (SO (upd (prio k) c p) (cons k ++ [c])) as [PE OR].
    unfold add_constraint. cbn [cons prio hard max_iter cur running].
    split; [|split; [|split; [|split; [|auto]]]].
    + eapply Permutation_NoDup; [exact PE|]. apply (Permutation_NoDup (Permutation_cons_append _ _)).
      now constructor.
    + intros x. rewrite said_snoc. split.
      * intros IX. apply (Permutation_in _ (Permutation_sym PE)) in IX. apply in_app_or in IX.
        destruct (Nat.eqb_spec c x) as [->|NE]; [discriminate|].
        apply I. destruct IX as [IX|[->|[]]]; [exact IX|congruence].
      * intros IX. apply (Permutation_in _ PE). apply in_or_app.
        destruct (Nat.eqb_spec c x) as [->|NE]; [right; now left|]. left. now apply I.
    + intros x. rewrite said_snoc. unfold upd. rewrite (Nat.eqb_sym c x).
      destruct (Nat.eqb x c); [auto|]. apply S1.
    + exact OR.
  - unfold remove_constraint. destruct (existsb (Nat.eqb c) (cons k)) eqn:EX.
    + cbn [cons prio hard max_iter cur running]. split; [|split; [|split; [|split; [|auto]]]].
      * now apply erase_first_nodup.
      * intros x. rewrite erase_first_in by exact N. rewrite said_snoc.
        destruct (Nat.eqb_spec c x) as [->|NE]; [tauto|]. rewrite I. split; [tauto|]. intros H. split; [exact H|congruence].
      * intros x. rewrite said_snoc. unfold upd. rewrite (Nat.eqb_sym c x).
        destruct (Nat.eqb x c); [reflexivity|]. apply S1.
      * apply (ordered_ext (prio k)); [|now apply ordered_erase].
        intros x IX. unfold upd. apply erase_first_in in IX; [|exact N].
        destruct (Nat.eqb_spec x c) as [->|NE]; [tauto|reflexivity].
    + assert (NC : said ops c = None).
      { destruct (said ops c) eqn:E; [|reflexivity]. assert (IC : In c (cons k)) by (apply I; congruence).
        assert (T : existsb (Nat.eqb c) (cons k) = true) by (apply existsb_exists; exists c; split; [exact IC | apply Nat.eqb_refl]).
        congruence. }
      split; [exact N|]. split; [|split; [|auto]].
      * intros x. rewrite said_snoc. destruct (Nat.eqb_spec c x) as [->|NE]; [|apply I].
        rewrite I, NC. tauto.
      * intros x. rewrite said_snoc. destruct (Nat.eqb_spec c x) as [->|NE]; [|apply S1].
        specialize (S1 x). now rewrite NC in S1.
Qed.

(** * Solving *)
Section World.
Variable W : Type.
Variable solve_step : W -> W * bool.
Variable tolerances : nat -> W -> bool.

Notation loop := (solve_loop W solve_step tolerances).
Notation world := (world W solve_step).
Notation succeeds := (succeeds W solve_step).
Notation met := (met W tolerances).

Lemma met_dec k w : forallb (fun c => negb (hard k c) || tolerances c w) (cons k) = true <-> met k w.
Proof.
  rewrite forallb_forall. unfold met, get_constraints. split; intros H c I.
  - intros HH. specialize (H c I). rewrite HH in H. exact H.
  - specialize (H c I). destruct (hard k c); cbn; [now apply H|reflexivity].
Qed.

Lemma met_dec_false k w : forallb (fun c => negb (hard k c) || tolerances c w) (cons k) = false <-> ~ met k w.
Proof. rewrite <- met_dec. destruct (forallb _ _); split; congruence. Qed.

Lemma world_shift n w : world (S n) w = world n (fst (solve_step w)).
Proof. induction n as [|n IH]; [reflexivity|]. cbn [CikSpec.world] in *. now rewrite IH. Qed.

Lemma succeeds_shift n w : succeeds (S n) w <-> succeeds n (fst (solve_step w)).
Proof. unfold CikSpec.succeeds. now rewrite world_shift. Qed.

(** How the loop ends. *)
Definition ending (k : ik) (w : W) (b : bool) (k' : ik) (w' : W) : Prop :=
  exists n, (n <= left_over k)%nat /\ w' = world n w /\ k' = set_running false (set_cur (cur k' ) k) /\
  (forall i, (0 < i < n)%nat -> ~ met k (world i w)) /\
  (forall i, (S i < n)%nat -> succeeds i w) /\
  ((b = true /\ (0 < n)%nat /\ succeeds (n - 1) w /\ met k (world n w) /\ cur k' = cur k + Z.of_nat (n - 1)) \/
   (b = false /\ (0 < n)%nat /\ ~ succeeds (n - 1) w /\ cur k' = cur k + Z.of_nat (n - 1)) \/
   (b = false /\ n = left_over k /\ ((0 < n)%nat -> succeeds (n - 1) w /\ ~ met k (world n w)) /\ cur k' = cur k + Z.of_nat n)).

Lemma loop_ending f k w : (left_over k < f)%nat ->
  exists b k' w', loop f false k w = Some (b, k', w') /\ ending k w b k' w'.
Proof.
  revert k w. induction f as [|f IH]; intros k w LT; [lia|].
  cbn [solve_loop]. destruct (Z.ltb_spec (cur k) (max_iter k)) as [L|L].
  - assert (LO : left_over k = S (left_over (set_cur (cur k + 1) k))) by (unfold left_over; cbn; lia).
    destruct (solve_step w) as [w1 ok] eqn:ES. destruct ok; cbn [negb].
    + assert (SU : succeeds 0 w) by (unfold CikSpec.succeeds; cbn; now rewrite ES).
      assert (W1 : world 1 w = w1) by (cbn; now rewrite ES).
      destruct (forallb _ _) eqn:EM.
      * apply met_dec in EM. exists true, (set_running false k), w1. split; [reflexivity|].
        exists 1%nat. split; [lia|]. split; [now rewrite W1|]. split; [destruct k; reflexivity|].
        split; [lia|]. split; [lia|]. left. split; [reflexivity|]. split; [lia|]. split; [exact SU|].
        split; [now rewrite W1|]. cbn. lia.
      * apply met_dec_false in EM.
        destruct (IH (set_cur (cur k + 1) k) w1 ltac:(lia)) as (b & k' & w' & E & n & LE & EW & EK & NM & SS & C).
        exists b, k', w'. split; [exact E|]. exists (S n).
        assert (FW : fst (solve_step w) = w1) by now rewrite ES.
        assert (SH : forall i, world (S i) w = world i w1) by (intros i; now rewrite world_shift, FW).
        assert (SS' : forall i, succeeds (S i) w <-> succeeds i w1) by (intros i; now rewrite succeeds_shift, FW).
        split; [lia|]. split; [now rewrite SH|]. split; [exact EK|].
        split.
        { intros i Hi. destruct i as [|i]; [lia|]. destruct i as [|i]; [now rewrite W1|].
          rewrite SH. apply (NM (S i)). lia. }
        split.
        { intros i Hi. destruct i as [|i]; [exact SU|]. apply SS'. apply SS. lia. }
        assert (CU : cur (set_cur (cur k + 1) k) = cur k + 1) by reflexivity.
        replace (S n - 1)%nat with n by lia.
        destruct C as [(-> & P & S1 & M & CC)|[(-> & P & S1 & CC)|(-> & EN & P & CC)]].
        { left. split; [reflexivity|]. split; [lia|]. split; [destruct n as [|n]; [lia|]; apply SS'; now replace (S n - 1)%nat with n in S1 by lia|].
          split; [rewrite SH; exact M|]. rewrite CC, CU. lia. }
        { right; left. split; [reflexivity|]. split; [lia|].
          split; [destruct n as [|n]; [lia|]; rewrite SS'; now replace (S n - 1)%nat with n in S1 by lia|].
          rewrite CC, CU. lia. }
        { right; right. split; [reflexivity|]. split; [lia|]. split; [|rewrite CC, CU; lia].
          intros _. destruct n as [|n]; [split; [exact SU | now rewrite W1]|].
          destruct (P ltac:(lia)) as [P1 P2]. split; [apply SS'; now replace (S n - 1)%nat with n in P1 by lia|].
          rewrite SH. exact P2. }
    + exists false, (set_running false k), w1. split; [reflexivity|].
      exists 1%nat. split; [lia|]. split; [cbn; now rewrite ES|]. split; [destruct k; reflexivity|].
      split; [lia|]. split; [lia|]. right; left. split; [reflexivity|]. split; [lia|].
      split; [unfold CikSpec.succeeds; cbn; rewrite ES; discriminate | cbn; lia].
  - exists false, (set_running false k), w. split; [reflexivity|].
    exists 0%nat. split; [lia|]. split; [reflexivity|]. split; [destruct k; reflexivity|].
    split; [lia|]. split; [lia|]. right; right. split; [reflexivity|].
    split; [unfold left_over; lia|]. split; [lia|]. cbn. lia.
Qed.

Lemma ending_stopped k w b k' w' : ending k w b k' w' -> stopped k k' (cur k').
Proof. intros (n & _ & _ & E & _). unfold stopped. rewrite E. cbn. repeat split. Qed.

(** The fuel does not matter. *)
Lemma loop_more f g s k w r : (f <= g)%nat -> loop f s k w = Some r -> loop g s k w = Some r.
Proof.
  revert g k w. induction f as [|f IH]; intros g k w L E; [discriminate|].
  destruct g as [|g]; [lia|]. cbn [solve_loop] in *.
  destruct (cur k <? max_iter k); [|exact E]. destruct (solve_step w) as [w1 ok].
  destruct (negb ok); [exact E|]. destruct (forallb _ _); [exact E|]. destruct s; [exact E|].
  apply IH; [lia|exact E].
Qed.

Notation solve := (solve W solve_step tolerances).
Notation stepping := (stepping W solve_step tolerances).

Lemma solve_total k w : exists b k' w', solve false k w = Some (b, k', w') /\ ending k w b k' w'.
Proof. apply loop_ending. unfold left_over. lia. Qed.

Lemma solve_unfold s k w : solve s k w =
  if cur k <? max_iter k then
    let (w1, ok) := solve_step w in
    if negb ok then Some (false, set_running false k, w1)
    else if forallb (fun c => negb (hard k c) || tolerances c w1) (cons k)
    then Some (true, set_running false k, w1)
    else
      let k1 := set_cur (cur k + 1) k in
      if s then Some (false, k1, w1) else solve s k1 w1
  else Some (false, set_running false k, w).
Proof.
  unfold CikModel.solve at 1. cbn [solve_loop].
  destruct (Z.ltb_spec (cur k) (max_iter k)) as [L|L]; [|reflexivity].
  destruct (solve_step w) as [w1 ok]. destruct (negb ok); [reflexivity|].
  destruct (forallb _ _); [reflexivity|]. cbn zeta. destruct s; [reflexivity|].
  unfold CikModel.solve. cbn [set_cur max_iter cur].
  replace (Z.to_nat (max_iter k - cur k)) with (S (Z.to_nat (max_iter k - (cur k + 1)))) by lia. reflexivity.
Qed.

Lemma stepping_solve k w b k' w' : running k = true -> stepping k w b k' w' -> solve false k w = Some (b, k', w').
Proof.
  intros R H. induction H as [k w b k' w' E ST|k w k1 w1 b k' w' E R1 H IH].
  - rewrite solve_unfold in *. destruct (cur k <? max_iter k); [|exact E].
    destruct (solve_step w) as [w1 ok]. destruct (negb ok); [exact E|].
    destruct (forallb _ _); [exact E|]. cbn zeta in *. injection E as <- <- <-.
    destruct ST as [ST|ST]; [discriminate|]. cbn in ST. congruence.
  - rewrite solve_unfold in E. rewrite solve_unfold. destruct (cur k <? max_iter k); [|injection E as <- <-; discriminate R1].
    destruct (solve_step w) as [w2 ok]. destruct (negb ok); [injection E as <- <-; discriminate R1|].
    destruct (forallb _ _); [discriminate|]. cbn zeta in *. injection E as <- <-. apply IH. exact R.
Qed.

Lemma solve_stepping n : forall k w b k' w', left_over k = n -> running k = true ->
  solve false k w = Some (b, k', w') -> stepping k w b k' w'.
Proof.
  induction n as [|n IH]; intros k w b k' w' LO R E.
  - apply stepping_stop.
    + rewrite solve_unfold in *. destruct (Z.ltb_spec (cur k) (max_iter k)) as [L|L]; [unfold left_over in LO; lia|exact E].
    + rewrite solve_unfold in E. destruct (Z.ltb_spec (cur k) (max_iter k)) as [L|L]; [unfold left_over in LO; lia|].
      injection E as <- <- <-. right. reflexivity.
  - rewrite solve_unfold in E. destruct (Z.ltb_spec (cur k) (max_iter k)) as [L|L]; [|unfold left_over in LO; lia].
    destruct (solve_step w) as [w1 ok] eqn:ES. destruct (negb ok) eqn:EO.
    { apply stepping_stop; [rewrite solve_unfold|injection E as <- <- <-; now right].
      apply Z.ltb_lt in L. now rewrite L, ES, EO. }
    destruct (forallb (fun c => negb (hard k c) || tolerances c w1) (cons k)) eqn:EF.
    { apply stepping_stop; [rewrite solve_unfold|injection E as <- <- <-; now left].
      apply Z.ltb_lt in L. now rewrite L, ES, EO, EF. }
    cbn zeta in E. apply (stepping_more _ _ _ k w (set_cur (cur k + 1) k) w1).
    + rewrite solve_unfold. apply Z.ltb_lt in L. now rewrite L, ES, EO, EF.
    + exact R.
    + apply IH; [unfold left_over in *; cbn; lia | exact R | exact E].
Qed.

End World.

(** * Initializing *)
Section Init.
Variables (W P : Type).
Variable c_init : nat -> W -> W.
Variable wants : nat -> W -> option P.
Variable set_pose : P -> W -> W.
Hypothesis steady : forall c c' w, wants c (c_init c' w) = wants c w.

Lemma wants_initialized c l w : wants c (initialized c_init l w) = wants c w.
Proof. revert w. induction l as [|x l IH]; intros w; [reflexivity|].
  change (initialized c_init (x :: l) w) with (initialized c_init l (c_init x w)). rewrite IH. apply steady. Qed.

Definition asks (w : W) (c : nat) : bool := match wants c w with Some _ => true | None => false end.

Lemma init_loop_spec l w p mv :
  init_loop W P c_init wants l w p mv =
  (initialized c_init l w,
   fold_left (fun a c => match wants c w with Some q => Some q | None => a end) l p,
   mv + Z.of_nat (length (filter (asks w) l))).
Proof.
  revert w p mv. induction l as [|c l IH]; intros w p mv; cbn [init_loop filter fold_left initialized]; [cbn; f_equal; lia|].
  rewrite steady. unfold asks at 1.
  assert (EF : forall l, filter (asks (c_init c w)) l = filter (asks w) l).
  { intros l'. apply filter_ext. intros x. unfold asks. now rewrite steady. }
  assert (EP : forall l a, fold_left (fun a x => match wants x (c_init c w) with Some q => Some q | None => a end) l a =
                           fold_left (fun a x => match wants x w with Some q => Some q | None => a end) l a).
  { induction l0 as [|x l0 IHl]; intros a; cbn; [reflexivity|]. now rewrite steady, IHl. }
  destruct (wants c w) as [q|] eqn:E; rewrite IH, EF, EP; cbn [length]; f_equal; lia.
Qed.
End Init.

(** * The step by priorities *)
Lemma squared_distance_spec a b : (squared_distance a b == distance_sq a b)%Q.
Proof.
  revert b. induction a as [|x a IH]; intros [|y b]; try reflexivity.
  unfold distance_sq in *. cbn [squared_distance combine map fold_right fst snd]. rewrite IH.
  apply Qplus_comp; [|reflexivity]. reflexivity.
Qed.

Section Hier.
Variable R : Type.
Variable delta : R -> list Q.
Variable error_of : nat -> R -> Q.
Variable move : list Q -> R -> R.
Variables (stall_eps raise_eps : Q).

Lemma raise_loop_true l hd r : forall le le', NoDup l -> raise_loop R error_of raise_eps l hd r le = (le', true) ->
  forall c, (In c l /\ hd c = true -> le' c = error_of c r /\ ((0 < le c)%Q -> (error_of c r <= le c + raise_eps)%Q)) /\
            (~ (In c l /\ hd c = true) -> le' c = le c).
Proof.
  induction l as [|x l IH]; intros le le' ND E c; cbn [raise_loop] in E.
  - injection E as <-. cbn. split; [tauto|reflexivity].
  - inversion ND as [|? ? NI ND']; subst.
    destruct (hd x) eqn:EH.
    + cbn zeta in E. destruct (negb _) eqn:EN; [discriminate|]. specialize (IH _ _ ND' E c). destruct IH as [I1 I2].
      apply negb_false_iff in EN. apply Qle_bool_iff in EN.
      split.
      * intros [[->|I] HH].
        { rewrite I2 by tauto. unfold upd at 1. rewrite Nat.eqb_refl. split; [reflexivity|]. intros PO.
          destruct (Qle_bool (le c) 0) eqn:EB; [apply Qle_bool_iff in EB; exfalso; now apply (Qlt_not_le _ _ PO)|].
          apply Qle_minus_iff. setoid_replace (le c + raise_eps + - error_of c r)%Q with ((le c - error_of c r) + - - raise_eps)%Q by ring.
          now apply -> Qle_minus_iff. }
        { destruct (I1 (conj I HH)) as [A B]. split; [exact A|]. intros PO.
          unfold upd in B. destruct (Nat.eqb_spec c x) as [->|NE]; [contradiction|now apply B]. }
      * intros NN. rewrite I2; [|intros [I HH]; apply NN; split; [now right|exact HH]].
        unfold upd. destruct (Nat.eqb_spec c x) as [->|NE]; [|reflexivity]. elim NN. split; [now left|exact EH].
    + specialize (IH _ _ ND' E c). destruct IH as [I1 I2]. split.
      * intros [[->|I] HH]; [congruence|]. now apply I1.
      * intros NN. apply I2. intros [I HH]. apply NN. split; [now right|exact HH].
Qed.

Lemma raise_loop_fresh l hd r : forall le, (0 <= raise_eps)%Q -> NoDup l ->
  (forall c, In c l -> (le c <= 0)%Q) -> snd (raise_loop R error_of raise_eps l hd r le) = true.
Proof.
  induction l as [|x l IH]; intros le PO ND H; cbn [raise_loop]; [reflexivity|].
  inversion ND as [|? ? NI ND']; subst.
  destruct (hd x); [|apply IH; [exact PO|exact ND'|intros c I; apply H; now right]].
  cbn zeta. assert (Hx : Qle_bool (le x) 0 = true) by (apply Qle_bool_iff, H; now left). rewrite Hx.
  assert (Hn : Qle_bool (- raise_eps) 0 = true).
  { apply Qle_bool_iff. setoid_replace 0%Q with (- 0)%Q by reflexivity. now apply Qopp_le_compat. }
  rewrite Hn. cbn [negb]. apply IH; [exact PO|exact ND'|].
  intros c I. unfold upd. destruct (Nat.eqb_spec c x) as [->|NE]; [contradiction|]. apply H. now right.
Qed.

Lemma h_initialized l w :
  robot R (initialized (h_init R) l w) = robot R w /\
  last_delta R (initialized (h_init R) l w) = last_delta R w /\
  (forall c, In c l -> last_error R (initialized (h_init R) l w) c = (-1)%Q) /\
  (forall c, ~ In c l -> last_error R (initialized (h_init R) l w) c = last_error R w c).
Proof.
  revert w. induction l as [|x l IH]; intros w; [cbn; repeat split; intros c []|].
  change (initialized (h_init R) (x :: l) w) with (initialized (h_init R) l (h_init R x w)).
  destruct (IH (h_init R x w)) as (A & B & C & D). split; [exact A|]. split; [exact B|]. split.
  - intros c I. destruct (in_dec Nat.eq_dec c l) as [IL|NL]; [now apply C|].
    rewrite D by exact NL. destruct I as [->|I]; [|contradiction]. cbn. unfold upd. now rewrite Nat.eqb_refl.
  - intros c NI. rewrite D by (intros I; apply NI; now right). cbn. unfold upd.
    destruct (Nat.eqb_spec c x) as [->|NE]; [|reflexivity]. elim NI. now left.
Qed.

Notation h_step := (h_step R delta error_of move stall_eps raise_eps).

Lemma h_step_false k w w' : h_step k w = (w', false) -> robot R w' = robot R w.
Proof.
  unfold CikModel.h_step. destruct (raise_loop _ _ _ _ _ _ _) as [le ok].
  destruct (last_delta R w) as [|d l]; [|destruct (close _ _ _); [now intros [= <-]|]];
    destruct ok; intros E; try discriminate; now injection E as <-.
Qed.

Lemma h_step_true k w w' : NoDup (cons k) -> h_step k w = (w', true) ->
  robot R w' = move (delta (robot R w)) (robot R w) /\ last_delta R w' = delta (robot R w) /\
  (last_delta R w <> [] -> close stall_eps (delta (robot R w)) (last_delta R w) = false) /\
  forall c, (In c (cons k) /\ hard k c = true -> last_error R w' c = error_of c (robot R w) /\
                ((0 < last_error R w c)%Q -> (error_of c (robot R w) <= last_error R w c + raise_eps)%Q)) /\
            (~ (In c (cons k) /\ hard k c = true) -> last_error R w' c = last_error R w c).
Proof.
  intros ND. unfold CikModel.h_step. destruct (raise_loop _ _ _ _ _ _ _) as [le ok] eqn:ER.
  intros E.
  assert (H : ok = true /\ w' = Hw R (move (delta (robot R w)) (robot R w)) (delta (robot R w)) le /\
     (last_delta R w <> [] -> close stall_eps (delta (robot R w)) (last_delta R w) = false)).
  { destruct (last_delta R w) as [|d l].
    - destruct ok; [|discriminate]. injection E as <-. repeat split. congruence.
    - destruct (close _ _ _); [discriminate|]. destruct ok; [|discriminate]. injection E as <-. repeat split. }
  destruct H as (-> & -> & ST). cbn. split; [reflexivity|]. split; [reflexivity|]. split; [exact ST|].
  now apply raise_loop_true.
Qed.

Lemma h_run k w n : NoDup (cons k) ->
  (forall i, (i < n)%nat -> CikSpec.succeeds _ (h_step k) i w) ->
  forall i, (i < n)%nat ->
  let wi := CikSpec.world _ (h_step k) i w in let wn := CikSpec.world _ (h_step k) (S i) w in
  robot R wn = move (delta (robot R wi)) (robot R wi) /\
  forall c, In c (cons k) -> hard k c = true -> last_error R wn c = error_of c (robot R wi).
Proof.
  intros ND SU i L. cbn zeta. cbn [CikSpec.world]. specialize (SU i L). unfold CikSpec.succeeds in SU.
  destruct (h_step k (CikSpec.world _ (h_step k) i w)) as [w1 ok] eqn:E. cbn in SU. subst ok.
  destruct (h_step_true _ _ _ ND E) as (A & B & _ & C). cbn. split; [exact A|].
  intros c I H. apply (C c). auto.
Qed.

Lemma h_run_errors k w n : NoDup (cons k) ->
  (forall i, (i < n)%nat -> CikSpec.succeeds _ (h_step k) i w) ->
  forall i c, (S i < n)%nat -> In c (cons k) -> hard k c = true ->
  (0 < error_of c (robot R (CikSpec.world _ (h_step k) i w)))%Q ->
  (error_of c (robot R (CikSpec.world _ (h_step k) (S i) w)) <=
   error_of c (robot R (CikSpec.world _ (h_step k) i w)) + raise_eps)%Q.
Proof.
  intros ND SU i c L I H PO.
  destruct (h_run k w n ND SU i ltac:(lia)) as [_ A]. cbn zeta in A. specialize (A c I H).
  specialize (SU (S i) L). unfold CikSpec.succeeds in SU.
  set (w1 := CikSpec.world _ (h_step k) (S i) w) in *. clearbody w1.
  destruct (h_step k w1) as [w2 ok] eqn:E. cbn in SU. subst ok.
  destruct (h_step_true _ _ _ ND E) as (_ & _ & _ & C).
  destruct (C c) as [C1 _]. destruct (C1 (conj I H)) as [_ C2]. rewrite A in C2. now apply C2.
Qed.
End Hier.
