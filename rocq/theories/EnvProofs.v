(** Proofs about the runtime environment. *)
From Coq Require Import List Bool Arith Ascii Reals Lia.
From Verif Require Import EnvModel EnvSpec.
Import ListNotations.

Lemma same_eq a b : same a b = true <-> a = b.
Proof.
  revert b. induction a as [|x a IH]; intros [|y b]; cbn; try (split; congruence). rewrite andb_true_iff, IH, Ascii.eqb_eq. split; [intros (-> & ->); reflexivity|intros E; injection E as -> ->; auto].
Qed.
Lemma is_file_ok s f : is_file s f = true <-> file s f.
Proof. unfold is_file, file. destruct (s f) as [t|]; split; [intros H; now exists t|intros (t' & E & H); congruence|discriminate|intros (t' & E & _); discriminate]. Qed.
Lemma find_first {A : Type} (f : A -> bool) l x : find f l = Some x -> exists a b, l = a ++ x :: b /\ f x = true /\ forall y, In y a -> f y = false.
Proof.
  induction l as [|y l IH]; cbn; [discriminate|]. destruct (f y) eqn:E.
  - intros H. injection H as ->. exists [], l. split; [reflexivity|]. split; [exact E|intros z []].
  - intros H. destruct (IH H) as (a & b & -> & FX & N). exists (y :: a), b. split; [reflexivity|]. split; [exact FX|]. intros z [<-|I]; [exact E|apply N, I].
Qed.
Lemma find_app {A : Type} (f : A -> bool) l l' x : find f l = Some x -> find f (l ++ l') = Some x.
Proof. induction l as [|y l IH]; cbn; [discriminate|]. destruct (f y); [tauto|exact IH]. Qed.

(** *** Adding paths *)
(** [e'] is [e] with the paths [l] appended, and perhaps initialised. *)
Definition more (s : fs) (e e' : env) (l : list text) : Prop := paths e' = paths e ++ l /\ keys e' = keys e /\ values e' = values e /\ unrecognized e' = unrecognized e /\ (inited e = true -> inited e' = true) /\ Forall (accepted s) l.
Lemma more_refl s e : more s e e [].
Proof. unfold more. rewrite app_nil_r. repeat split; auto. Qed.
Lemma more_trans s e e1 e2 l l' : more s e e1 l -> more s e1 e2 l' -> more s e e2 (l ++ l').
Proof. intros (A & B & C & D & E & F) (A' & B' & C' & D' & E' & F'). unfold more. rewrite A', A, B', C', D', app_assoc. repeat split; auto. apply Forall_app. now split. Qed.
Lemma accepted_dec s p : {accepted s p} + {~ accepted s p}.
Proof.
  unfold accepted. destruct (s p) as [t|]; [|right; intros (t & E & _); discriminate].
  destruct (directory t) eqn:D; [left; exists t; auto|]. destruct (symlink t) eqn:L; [left; exists t; auto|]. right. intros (t' & E & H). injection E as <-. rewrite D, L in H. destruct H; discriminate.
Qed.
Definition pick (s : fs) (p : text) : list text := if accepted_dec s p then [p] else [].
Lemma add_path_ok s p e : add_path s p e = (if accepted_dec s p then (Env (paths e ++ [p]) (inited e) (keys e) (values e) (unrecognized e), true) else (e, false)).
Proof.
  unfold add_path. destruct (accepted_dec s p) as [A|N].
  - destruct A as (t & -> & H). destruct H as [-> | ->]; [reflexivity|rewrite orb_true_r; reflexivity].
  - unfold accepted in N. destruct (s p) as [t|]; [|reflexivity]. destruct (directory t) eqn:D; [exfalso; apply N; exists t; auto|]. destruct (symlink t) eqn:L; [exfalso; apply N; exists t; auto|reflexivity].
Qed.
Lemma add_path_more s p e : more s e (fst (add_path s p e)) (pick s p) /\ inited (fst (add_path s p e)) = inited e.
Proof.
  rewrite add_path_ok. unfold pick. destruct (accepted_dec s p) as [A|N]; cbn [fst]; [|split; [apply more_refl|reflexivity]].
  split; [|reflexivity]. unfold more. cbn. repeat split; auto.
Qed.
Lemma unless_more s p x : exists l, more s (fst x) (fst (unless s p x)) l /\ inited (fst (unless s p x)) = inited (fst x).
Proof. destruct x as [e []]; cbn [unless fst]; [exists []; split; [apply more_refl|reflexivity]|]. exists (pick s p). apply add_path_more. Qed.
Lemma also_more s p x : more s (fst x) (fst (also s p x)) (pick s p) /\ inited (fst (also s p x)) = inited (fst x).
Proof. destruct x as [e b]. unfold also. pose proof (add_path_more s p e) as H. destruct (add_path s p e) as [e' b']. exact H. Qed.
Lemma picked_pick s p : picked s [p] (pick s p).
Proof. unfold pick. destruct (accepted_dec s p); [apply p_yes; [assumption|constructor]|apply p_no; [assumption|constructor]]. Qed.
Lemma picked_app s a b a' b' : picked s a a' -> picked s b b' -> picked s (a ++ b) (a' ++ b').
Proof. intros P Q. induction P as [|p l l' A P IH|p l l' A P IH]; cbn; [exact Q|now constructor|now constructor]. Qed.
Lemma picked_cons s p l l' : picked s l l' -> picked s (p :: l) (pick s p ++ l').
Proof. intros P. apply (picked_app s [p] l); [apply picked_pick|exact P]. Qed.
Lemma fold_also s l : forall x, exists l', picked s l l' /\ more s (fst x) (fst (fold_left (fun x p => also s p x) l x)) l' /\ inited (fst (fold_left (fun x p => also s p x) l x)) = inited (fst x) /\
  (snd x = true -> snd (fold_left (fun x p => also s p x) l x) = true).
Proof.
  induction l as [|p l IH]; intros x; cbn [fold_left]; [exists []; split; [constructor|]; split; [apply more_refl|split; auto]|].
  destruct (IH (also s p x)) as (l' & P & M & I & T). destruct (also_more s p x) as (M1 & I1). exists (pick s p ++ l'). split; [apply picked_cons, P|]. split; [eapply more_trans; eassumption|].
  split; [congruence|]. intros E. apply T. destruct x as [e b]. cbn in E. subst b. unfold also. destruct (add_path s p e). reflexivity.
Qed.
Lemma init_more s v e : exists l, more s e (init s v e) l /\ inited (init s v e) = true.
Proof.
  unfold init. destruct (inited e) eqn:IE; [exists []; split; [apply more_refl|exact IE]|]. cbv zeta.
  set (e0 := Env (paths e) true (keys e) (values e) (unrecognized e)).
  assert (K0 : exists l, more s e e0 l /\ inited e0 = true) by (exists []; split; [unfold more, e0; cbn; rewrite app_nil_r; repeat split; auto; congruence|reflexivity]).
  set (good := fun e' => exists l, more s e e' l /\ inited e' = true). change (good e0) in K0.
  assert (ADD : forall p e', good e' -> good (fst (add_path s p e'))).
  { intros p e' (l & M & I). destruct (add_path_more s p e') as (M' & I'). eexists. split; [eapply more_trans; eassumption|congruence]. }
  assert (UNL : forall p x, good (fst x) -> good (fst (unless s p x))).
  { intros p x (l & M & I). destruct (unless_more s p x) as (l' & M' & I'). eexists. split; [eapply more_trans; eassumption|congruence]. }
  assert (ALS : forall p x, good (fst x) -> good (fst (also s p x))).
  { intros p x (l & M & I). destruct (also_more s p x) as (M' & I'). eexists. split; [eapply more_trans; eassumption|congruence]. }
  assert (FLD : forall l x, good (fst x) -> good (fst (fold_left (fun x p => also s p x) l x))).
  { intros l. induction l as [|p l IH]; intros x G; [exact G|]. apply IH, ALS, G. }
  change (good (fst (let x := match v_simox v with Some p => add_path s p e0 | None => (e0, false) end in
  let x := match v_vr v with Some p => add_path s p (fst x) | None => x end in
  let x := if snd x then x else match v_dir v with
           | Some d => unless s (d ++ txt_up ++ txt_vr ++ txt_data) (unless s (d ++ sep :: txt_vr ++ txt_data) (add_path s (d ++ txt_data) (fst x)))
           | None => x end in
  let x := fold_left (fun x p => also s p x) (v_built v) x in
  let x := unless s (txt_local ++ txt_data) x in
  let x := unless s (txt_usr ++ txt_data) x in
  let up := fun n => join (v_cwd v) (concat (repeat txt_up n) ++ txt_vr ++ txt_data) in
  if snd x then x else also s (up 4%nat) (also s (up 3%nat) (also s (up 2%nat) (also s (up 1%nat) x)))))).
  cbv zeta. set (x1 := match v_simox v with Some p => add_path s p e0 | None => (e0, false) end).
  assert (G1 : good (fst x1)) by (unfold x1; destruct (v_simox v); [apply ADD, K0|exact K0]). clearbody x1.
  set (x2 := match v_vr v with Some p => add_path s p (fst x1) | None => x1 end).
  assert (G2 : good (fst x2)) by (unfold x2; destruct (v_vr v); [apply ADD, G1|exact G1]). clearbody x2.
  match goal with |- context [if snd x2 then x2 else ?r] => set (x3 := if snd x2 then x2 else r) end.
  assert (G3 : good (fst x3)) by (unfold x3; destruct (snd x2); [exact G2|]; destruct (v_dir v); [apply UNL, UNL, ADD, G2|exact G2]). clearbody x3.
  set (x4 := fold_left (fun x p => also s p x) (v_built v) x3). assert (G4 : good (fst x4)) by apply FLD, G3. clearbody x4.
  set (x5 := unless s (txt_usr ++ txt_data) (unless s (txt_local ++ txt_data) x4)). assert (G5 : good (fst x5)) by apply UNL, UNL, G4. clearbody x5.
  destruct (snd x5); [exact G5|]. apply ALS, ALS, ALS, ALS, G5.
Qed.
Lemma init_done s v e : inited e = true -> init s v e = e.
Proof. intros E. unfold init. now rewrite E. Qed.

(** *** Histories *)
Lemma take_keys l ks : forall e, paths (fold_left (take_key l) ks e) = paths e /\ inited (fold_left (take_key l) ks e) = inited e /\ keys (fold_left (take_key l) ks e) = keys e /\
  forall k, values (fold_left (take_key l) ks e) k = (if in_dec (list_eq_dec ascii_dec) k ks then match l_values l k with Some (w :: _) => Some w | _ => values e k end else values e k).
Proof.
  induction ks as [|k0 ks IH]; intros e; cbn [fold_left]; [repeat split; intros k; destruct (in_dec _ k []) as [[]|]; reflexivity|].
  destruct (IH (take_key l e k0)) as (A & B & C & D). rewrite A, B, C. unfold take_key at 1 3 5.
  split; [destruct (l_values l k0) as [[|w ws]|]; reflexivity|]. split; [unfold take_key; destruct (l_values l k0) as [[|w ws]|]; reflexivity|]. split; [unfold take_key; destruct (l_values l k0) as [[|w ws]|]; reflexivity|].
  intros k. rewrite D. assert (V : values (take_key l e k0) k = (if list_eq_dec ascii_dec k k0 then match l_values l k with Some (w :: _) => Some w | _ => values e k end else values e k)).
  { unfold take_key. destruct (list_eq_dec ascii_dec k k0) as [->|N].
    - destruct (l_values l k0) as [[|w ws]|]; try reflexivity. cbn. unfold put. rewrite (proj2 (same_eq k0 k0) eq_refl). reflexivity.
    - destruct (l_values l k0) as [[|w ws]|]; try reflexivity. cbn. unfold put. destruct (same k k0) eqn:E; [apply same_eq in E; contradiction|reflexivity]. }
  rewrite V. destruct (in_dec (list_eq_dec ascii_dec) k ks) as [I|N], (in_dec (list_eq_dec ascii_dec) k (k0 :: ks)) as [I'|N'], (list_eq_dec ascii_dec k k0) as [->|E]; try reflexivity.
  - destruct (l_values l k0) as [[|w ws]|]; reflexivity.
  - exfalso. apply N'. now left.
  - exfalso. apply N'. now right.
  - exfalso. destruct I' as [<-|I']; contradiction.
  - exfalso. apply N'. now left.
Qed.
Lemma fold_add s l : forall e, exists l', picked s l l' /\ more s e (fold_left (fun e p => fst (add_path s p e)) l e) l' /\ inited (fold_left (fun e p => fst (add_path s p e)) l e) = inited e.
Proof.
  induction l as [|p l IH]; intros e; cbn [fold_left]; [exists []; split; [constructor|]; split; [apply more_refl|reflexivity]|].
  destruct (IH (fst (add_path s p e))) as (l' & P & M & I). destruct (add_path_more s p e) as (M1 & I1). exists (pick s p ++ l'). split; [apply picked_cons, P|]. split; [eapply more_trans; eassumption|congruence].
Qed.
Lemma lookup_state s v name e : exists r, lookup s v name e = (init s v e, r).
Proof. eexists. reflexivity. Qed.
Lemma check_file_state s v k st e : fst (check_file s v k st e) = e \/ fst (check_file s v k st e) = init s v e.
Proof.
  destruct (init_more s v e) as (l & M & I). unfold check_file. destruct (has_value k e).
  - destruct (lookup_state s v (get_value k e) e) as ((b & f) & ->). destruct b; [now right|]. destruct st as [|c st]; [now right|].
    destruct (lookup_state s v (c :: st) (init s v e)) as ((b & f') & ->). rewrite (init_done s v _ I). now right.
  - destruct st as [|c st]; [now left|]. destruct (lookup_state s v (c :: st) e) as ((b & f') & ->). now right.
Qed.
(** One call, once initialised. *)
Lemma step_inited v e s c : inited e = true -> inited (step v e (s, c)) = true /\ exists l, picked s (named c) l /\ paths (step v e (s, c)) = paths e ++ l.
Proof.
  intros I. destruct c as [p|name| |k w|k|k standard|l]; cbn [step named].
  - destruct (add_path_more s p e) as (M & I'). split; [congruence|]. exists (pick s p). split; [apply picked_pick|apply M].
  - cbn [lookup fst]. rewrite (init_done s v e I). split; [exact I|]. exists []. split; [constructor|symmetry; apply app_nil_r].
  - cbn [data_paths fst]. rewrite (init_done s v e I). split; [exact I|]. exists []. split; [constructor|symmetry; apply app_nil_r].
  - split; [exact I|]. exists []. split; [constructor|symmetry; apply app_nil_r].
  - split; [exact I|]. exists []. split; [constructor|symmetry; apply app_nil_r].
  - assert (E : fst (check_file s v k standard e) = e) by (destruct (check_file_state s v k standard e) as [-> | ->]; [reflexivity|apply init_done, I]).
    rewrite E. split; [exact I|]. exists []. split; [constructor|symmetry; apply app_nil_r].
  - unfold command_line. rewrite (init_done s v e I). cbv zeta. destruct (fold_add s (l_paths l) e) as (l' & P & M & I'). set (e1 := fold_left (fun e p => fst (add_path s p e)) (l_paths l) e) in *.
    destruct (take_keys l (keys e1) e1) as (A & B & _). cbn [inited paths]. rewrite A, B. split; [congruence|]. exists l'. split; [exact P|apply M].
Qed.
Lemma run_inited v h : forall e, inited e = true -> inited (run v e h) = true /\ exists l, grown h l /\ paths (run v e h) = paths e ++ l.
Proof.
  induction h as [|[s c] h IH]; intros e I; cbn [run fold_left]; [split; [exact I|exists []; split; [constructor|symmetry; apply app_nil_r]]|].
  destruct (step_inited v e s c I) as (I1 & l & P & E). destruct (IH _ I1) as (I2 & l' & G & E'). split; [exact I2|]. exists (l ++ l'). split; [now constructor|].
  unfold run in E'. rewrite E', E, app_assoc. reflexivity.
Qed.
(** One call, in any state. *)
Lemma step_grows v e s c : exists l, paths (step v e (s, c)) = paths e ++ l /\ Forall (accepted s) l.
Proof.
  assert (INI : exists l, paths (init s v e) = paths e ++ l /\ Forall (accepted s) l) by (destruct (init_more s v e) as (l & M & _); exists l; split; apply M).
  assert (SAME : exists l, paths e = paths e ++ l /\ Forall (accepted s) l) by (exists []; split; [symmetry; apply app_nil_r|constructor]).
  destruct c as [p|name| |k w|k|k standard|l]; cbn [step].
  - destruct (add_path_more s p e) as (M & _). eexists. split; apply M.
  - exact INI.
  - exact INI.
  - exact SAME.
  - exact SAME.
  - destruct (check_file_state s v k standard e) as [-> | ->]; [exact SAME|exact INI].
  - unfold command_line. cbv zeta. destruct (init_more s v e) as (l0 & M0 & _). destruct (fold_add s (l_paths l) (init s v e)) as (l' & P & M & I'). set (e1 := fold_left (fun e p => fst (add_path s p e)) (l_paths l) (init s v e)) in *.
    destruct (take_keys l (keys e1) e1) as (A & _). cbn [paths]. rewrite A. pose proof (more_trans _ _ _ _ _ _ M0 M) as MM. eexists. split; apply MM.
Qed.

(** *** Keys *)
Lemma step_keys v e s c k : In k (keys (step v e (s, c))) <-> In k (keys e) \/ c = Consider k.
Proof.
  assert (INI : keys (init s v e) = keys e) by (destruct (init_more s v e) as (l & M & _); apply M).
  destruct c as [p|name| |k0 w|k0|k0 standard|l]; cbn [step].
  - destruct (add_path_more s p e) as ((_ & -> & _) & _). intuition discriminate.
  - cbn [lookup fst]. rewrite INI. intuition discriminate.
  - cbn [data_paths fst]. rewrite INI. intuition discriminate.
  - cbn. intuition discriminate.
  - cbn. rewrite in_app_iff. cbn. intuition congruence.
  - destruct (check_file_state s v k0 standard e) as [-> | ->]; [intuition discriminate|rewrite INI; intuition discriminate].
  - unfold command_line. cbv zeta. destruct (fold_add s (l_paths l) (init s v e)) as (l' & P & M & I'). set (e1 := fold_left (fun e p => fst (add_path s p e)) (l_paths l) (init s v e)) in *.
    destruct (take_keys l (keys e1) e1) as (_ & _ & A & _). cbn [keys]. rewrite A. destruct M as (_ & -> & _). rewrite INI. intuition discriminate.
Qed.
Lemma run_keys v h k : In k (keys (run v start h)) <-> considered h k.
Proof.
  unfold considered. induction h as [|[s c] h IH] using rev_ind; [cbn; split; [intros []|intros (s & [])]|].
  unfold run. rewrite fold_left_app. cbn [fold_left]. rewrite step_keys. change (fold_left (step v) h start) with (run v start h). rewrite IH. split.
  - intros [(s' & I)|E]; [exists s'; apply in_or_app; now left|]. exists s. apply in_or_app. right. left. now rewrite E.
  - intros (s' & I). apply in_app_or in I. destruct I as [I|[I|[]]]; [left; now exists s'|]. right. now injection I.
Qed.
Lemma step_values v e s c k : values (step v e (s, c)) k =
  match c with
  | AddValue k' w => if same k k' then Some w else values e k
  | CommandLine l => if in_dec (list_eq_dec ascii_dec) k (keys e) then match l_values l k with Some (w :: _) => Some w | _ => values e k end else values e k
  | _ => values e k
  end.
Proof.
  assert (INI : values (init s v e) = values e) by (destruct (init_more s v e) as (l & M & _); apply M).
  assert (INK : keys (init s v e) = keys e) by (destruct (init_more s v e) as (l & M & _); apply M).
  destruct c as [p|name| |k0 w|k0|k0 standard|l]; cbn [step].
  - destruct (add_path_more s p e) as ((_ & _ & -> & _) & _). reflexivity.
  - cbn [lookup fst]. now rewrite INI.
  - cbn [data_paths fst]. now rewrite INI.
  - reflexivity.
  - reflexivity.
  - destruct (check_file_state s v k0 standard e) as [-> | ->]; [reflexivity|now rewrite INI].
  - unfold command_line. cbv zeta. destruct (fold_add s (l_paths l) (init s v e)) as (l' & P & M & I'). set (e1 := fold_left (fun e p => fst (add_path s p e)) (l_paths l) (init s v e)) in *.
    destruct (take_keys l (keys e1) e1) as (_ & _ & _ & A). cbn [values]. rewrite A. destruct M as (_ & -> & -> & _). rewrite INI, INK. reflexivity.
Qed.
Lemma sets_values v h s c k w : sets h c k w -> values (run v start (h ++ [(s, c)])) k = Some w.
Proof.
  intros H. unfold run. rewrite fold_left_app. cbn [fold_left]. rewrite step_values. change (fold_left (step v) h start) with (run v start h). destruct H as [->|(l & ws & -> & C & E)].
  - now rewrite (proj2 (same_eq k k) eq_refl).
  - apply (run_keys v) in C. destruct (in_dec (list_eq_dec ascii_dec) k (keys (run v start h))); [now rewrite E|contradiction].
Qed.
Lemma keeps_values v h s c k : (forall w, ~ sets h c k w) -> values (run v start (h ++ [(s, c)])) k = values (run v start h) k.
Proof.
  intros H. unfold run. rewrite fold_left_app. cbn [fold_left]. rewrite step_values. change (fold_left (step v) h start) with (run v start h). destruct c as [p|name| |k0 w|k0|k0 standard|l]; try reflexivity.
  - destruct (same k k0) eqn:E; [|reflexivity]. apply same_eq in E. subst. exfalso. apply (H w). now left.
  - destruct (in_dec (list_eq_dec ascii_dec) k (keys (run v start h))) as [I|]; [|reflexivity]. destruct (l_values l k) as [[|w ws]|] eqn:E; try reflexivity. exfalso. apply (H w). right. exists l, ws. split; [reflexivity|]. split; [now apply (run_keys v)|exact E].
Qed.
Lemma sets_dec h c k : (exists w, sets h c k w) \/ forall w, ~ sets h c k w.
Proof.
  destruct c as [p|name| |k0 w|k0|k0 standard|l]; try (right; intros w' [E|(l & ws & E & _)]; discriminate).
  - destruct (list_eq_dec ascii_dec k k0) as [->|N]; [left; exists w; now left|]. right. intros w' [E|(l & ws & E & _)]; congruence.
  - destruct (in_dec (list_eq_dec ascii_dec) k (keys (run (Vars None None None [] []) start h))) as [I|N]; apply (fun x => conj (proj1 (run_keys (Vars None None None [] []) h k)) x) in I || idtac.
    + destruct I as (_ & I). apply run_keys in I. destruct (l_values l k) as [[|w ws]|] eqn:E.
      * right. intros w' [E'|(l' & ws & E' & _ & V)]; [discriminate|]. injection E' as <-. congruence.
      * left. exists w. right. exists l, ws. auto.
      * right. intros w' [E'|(l' & ws & E' & _ & V)]; [discriminate|]. injection E' as <-. congruence.
    + right. intros w' [E'|(l' & ws & E' & C & V)]; [discriminate|]. apply N. now apply run_keys.
Qed.
Lemma run_values v h k w : values (run v start h) k = Some w <-> last_set h k w.
Proof.
  revert w. induction h as [|[s c] h IH] using rev_ind; intros w.
  - split; [discriminate|]. intros (h1 & s & c & h2 & E & _). destruct h1; discriminate.
  - destruct (sets_dec h c k) as [(w0 & H)|H].
    + rewrite (sets_values v h s c k w0 H). split.
      * intros E. injection E as <-. exists h, s, c, []. split; [reflexivity|]. split; [exact H|]. intros [|x h3] s' c' h4 w' E; discriminate.
      * intros (h1 & s1 & c1 & h2 & E & S1 & N). destruct h2 as [|x h2 _] using rev_ind.
        -- apply app_inj_tail in E. destruct E as (<- & E). injection E as <- <-.
           rewrite <- (sets_values v h s c k w0 H). apply (sets_values v h s c k w S1).
        -- exfalso. rewrite app_comm_cons, app_assoc in E. apply app_inj_tail in E. destruct E as (-> & <-). exact (N h2 s c [] w0 eq_refl H).
    + rewrite (keeps_values v h s c k H), IH. split.
      * intros (h1 & s1 & c1 & h2 & -> & S1 & N). exists h1, s1, c1, (h2 ++ [(s, c)]). split; [now rewrite <- app_assoc|]. split; [exact S1|].
        intros h3 s' c' h4 w' E. destruct h4 as [|x h4 _] using rev_ind.
        -- apply app_inj_tail in E. destruct E as (<- & E). injection E as <- <-. apply H.
        -- rewrite app_comm_cons, app_assoc in E. apply app_inj_tail in E. destruct E as (E & <-). exact (N h3 s' c' h4 w' E).
      * intros (h1 & s1 & c1 & h2 & E & S1 & N). destruct h2 as [|x h2 _] using rev_ind.
        -- apply app_inj_tail in E. destruct E as (<- & E). injection E as <- <-. exfalso. exact (H w S1).
        -- rewrite app_comm_cons, app_assoc in E. apply app_inj_tail in E. destruct E as (-> & <-). exists h1, s1, c1, h2. split; [reflexivity|]. split; [exact S1|].
           intros h3 s' c' h4 w' E. apply (N h3 s' c' (h4 ++ [(s, c)]) w'). rewrite E, <- app_assoc. reflexivity.
Qed.

(** *** Text *)
Lemma split_plain t : plain t -> split t = [t].
Proof.
  induction t as [|c t IH]; intros P; [reflexivity|]. cbn [split]. destruct (Ascii.eqb c comma) eqn:E.
  - apply Ascii.eqb_eq in E. exfalso. apply P. now left.
  - rewrite IH; [reflexivity|]. intros I. apply P. now right.
Qed.
Lemma split_comma a t : plain a -> split (a ++ comma :: t) = a :: split t.
Proof.
  induction a as [|c a IH]; intros P; [reflexivity|]. cbn [split app]. destruct (Ascii.eqb c comma) eqn:E.
  - apply Ascii.eqb_eq in E. exfalso. apply P. now left.
  - rewrite IH; [reflexivity|]. intros I. apply P. now right.
Qed.
Lemma split_nonempty t : split t <> [].
Proof. destruct t as [|c t]; cbn; [discriminate|]. destruct (Ascii.eqb c comma); [discriminate|]. destruct (split t); discriminate. Qed.
Lemma split_inv t : forall x l, split t = x :: l -> plain x /\ (l = [] /\ t = x \/ exists t', t = x ++ comma :: t' /\ split t' = l).
Proof.
  induction t as [|c t IH]; intros x l E.
  - injection E as <- <-. split; [intros []|]. left. auto.
  - cbn [split] in E. destruct (Ascii.eqb c comma) eqn:C.
    + apply Ascii.eqb_eq in C. subst c. injection E as <- <-. split; [intros []|]. right. exists t. auto.
    + destruct (split t) as [|y k] eqn:K; [exfalso; exact (split_nonempty t K)|]. injection E as <- <-. destruct (IH y k eq_refl) as (P & Q). split.
      * intros [I|I]; [subst c; unfold comma in C; rewrite Ascii.eqb_refl in C; discriminate|contradiction].
      * destruct Q as [(-> & ->)|(t' & -> & Q)]; [left; auto|]. right. exists t'. auto.
Qed.
Lemma split3 t a b c : split t = [a; b; c] <-> t = a ++ comma :: b ++ comma :: c /\ plain a /\ plain b /\ plain c.
Proof.
  split.
  - intros E. destruct (split_inv _ _ _ E) as (A & [(N & _)|(t1 & -> & E1)]); [discriminate|]. destruct (split_inv _ _ _ E1) as (B & [(N & _)|(t2 & -> & E2)]); [discriminate|].
    destruct (split_inv _ _ _ E2) as (C & [(_ & ->)|(t3 & -> & E3)]); [auto|]. exfalso. exact (split_nonempty _ E3).
  - intros (-> & A & B & C). rewrite split_comma, split_comma, split_plain; auto.
Qed.
