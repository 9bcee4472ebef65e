(** Theorems about the runtime environment. *)
From Coq Require Import List Bool Arith Ascii Reals Lia.
From Verif Require Import EnvModel EnvSpec EnvProofs.
Import ListNotations.

(** *** C113: data files *)
(** A lookup finds the name itself, or else the file below the first data path that has it, and only fails, with the name as it was, if there is none. *)
Theorem C113_file_found : forall s v name e e' b f, lookup s v name e = (e', (b, f)) ->
  (b = true -> first_file s name (paths e') f) /\
  (b = false -> f = name /\ ~ file s name /\ forall p, In p (paths e') -> ~ file s (join p name)) /\
  (inited e = true -> e' = e) /\ inited e' = true.
Proof.
  intros s v name e e' b f E. unfold lookup in E. set (e1 := init s v e) in E. destruct (init_more s v e) as (l & M & I).
  assert (T : (inited e = true -> e1 = e) /\ inited e1 = true) by (split; [intros X; unfold e1; apply init_done, X|exact I]).
  destruct (is_file s name) eqn:N.
  - injection E as <- <- <-. split; [intros _; left; split; [now apply is_file_ok|reflexivity]|]. split; [discriminate|exact T].
  - assert (NF : ~ file s name) by (intros F; apply is_file_ok in F; congruence). destruct (find (fun p => is_file s (join p name)) (paths e1)) as [p|] eqn:F; injection E as <- <- <-.
    + destruct (find_first _ _ _ F) as (a & c & EQ & FP & B). split; [|split; [discriminate|exact T]]. intros _. right. split; [exact NF|]. exists a, p, c. split; [exact EQ|]. split; [reflexivity|]. split; [now apply is_file_ok|].
      intros p' I' FF. apply is_file_ok in FF. specialize (B p' I'). cbn in B. congruence.
    + split; [discriminate|]. split; [|exact T]. intros _. split; [reflexivity|]. split; [exact NF|]. intros p IP FF. apply is_file_ok in FF. pose proof (find_none _ _ F p IP) as X. cbn in X. congruence.
Qed.
(** Whatever calls follow, as long as the files are what they are: the name stands for the same file. *)
Theorem C113_found_files_stay : forall s v name e e1 f h, lookup s v name e = (e1, (true, f)) -> snd (lookup s v name (run v e1 h)) = (true, f).
Proof.
  intros s v name e e1 f h E. unfold lookup in E. destruct (init_more s v e) as (l & _ & I).
  assert (E1 : e1 = init s v e) by congruence. subst e1. destruct (run_inited v h _ I) as (I' & l' & _ & P). unfold lookup. cbn [snd]. rewrite (init_done s v _ I'), P.
  destruct (is_file s name); [congruence|]. destruct (find _ (paths (init s v e))) as [p|] eqn:F; [|discriminate]. rewrite (find_app _ _ l' _ F). congruence.
Qed.
(** The data paths only grow at the end, and each was accepted at the time of some call. *)
Theorem C113_paths_only_grow : forall v e h, exists l, paths (run v e h) = paths e ++ l /\ forall p, In p l -> exists s c, In (s, c) h /\ accepted s p.
Proof.
  intros v e h. revert e. induction h as [|[s c] h IH]; intros e; [exists []; split; [symmetry; apply app_nil_r|intros p []]|].
  destruct (step_grows v e s c) as (l & E & A). destruct (IH (step v e (s, c))) as (l' & E' & A'). exists (l ++ l'). split.
  - change (run v e ((s, c) :: h)) with (run v (step v e (s, c)) h). rewrite E', E, app_assoc. reflexivity.
  - intros p I. apply in_app_or in I. destruct I as [I|I].
    + exists s, c. split; [now left|]. rewrite Forall_forall in A. apply A, I.
    + destruct (A' p I) as (s' & c' & IN & AC). exists s', c'. split; [now right|exact AC].
Qed.
(** After the first use, exactly the paths that are named and accepted are added, in order. *)
Theorem C113_named_paths_are_added : forall v e h, inited e = true -> exists l, grown h l /\ paths (run v e h) = paths e ++ l.
Proof. intros v e h I. destruct (run_inited v h e I) as (_ & H). exact H. Qed.
(** If SIMOX_DATA_PATH is accepted, and VIRTUAL_ROBOT_DATA_PATH is not set or accepted as well: those two and the paths known from the build are used, nothing else. *)
Theorem C113_paths_of_the_environment : forall s v e p, inited e = false -> v_simox v = Some p -> accepted s p -> (forall q, v_vr v = Some q -> accepted s q) ->
  exists l, picked s (v_built v) l /\ paths (init s v e) = paths e ++ [p] ++ match v_vr v with Some q => [q] | None => [] end ++ l.
Proof.
  intros s v e p I S AP AQ. unfold init. rewrite I, S. cbv zeta. rewrite add_path_ok. destruct (accepted_dec s p) as [_|N]; [|contradiction].
  set (x := match v_vr v with Some q => _ | None => _ end). assert (X : snd x = true /\ paths (fst x) = paths e ++ [p] ++ match v_vr v with Some q => [q] | None => [] end).
  { unfold x. destruct (v_vr v) as [q|]; [|cbn; split; [reflexivity|now rewrite ?app_nil_r]]. rewrite add_path_ok. destruct (accepted_dec s q) as [_|N]; [|exfalso; apply N, AQ; reflexivity].
    cbn. split; [reflexivity|]. rewrite <- app_assoc. reflexivity. }
  destruct X as (T & P). rewrite T. destruct (fold_also s (v_built v) x) as (l & PK & (M & _) & _ & TT). set (y := fold_left _ _ x) in *. specialize (TT T).
  assert (U : forall p', unless s p' y = y) by (intros p'; destruct y as [e' b']; cbn in TT; subst b'; reflexivity). rewrite !U, TT. exists l. split; [exact PK|]. rewrite M, P, <- !app_assoc. reflexivity.
Qed.
(** The fallbacks are only for the case that nothing else was found: with VIRTUAL_ROBOT_DATA_PATH set to a path that does not exist, they are used although SIMOX_DATA_PATH was accepted. *)
Theorem C113_fallbacks_only_if_nothing_else_refuted : ~ (forall s v e p, inited e = false -> v_simox v = Some p -> accepted s p -> v_built v = [] ->
  forall q, In q (paths (init s v e)) -> ~ In q (paths e) -> fallback v q -> q = p \/ v_vr v = Some q).
Proof.
  intros H. pose (a := ["a"%char]). pose (s := fun t : text => if same t a || same t (txt_usr ++ txt_data) then Some (Status false true false) else None).
  specialize (H s (Vars (Some a) (Some ["b"%char]) None [] []) start a eq_refl eq_refl).
  assert (A : accepted s a) by (exists (Status false true false); split; [reflexivity|now left]). specialize (H A eq_refl (txt_usr ++ txt_data)).
  destruct H as [H|H].
  - right. left. reflexivity.
  - intros [].
  - right. right. left. reflexivity.
  - discriminate.
  - discriminate.
Qed.
(** Every data path is a directory: a symbolic link to a file is accepted. *)
Theorem C113_data_paths_are_directories_refuted : ~ (forall s p e t, snd (add_path s p e) = true -> s p = Some t -> directory t = true).
Proof. intros H. specialize (H (fun _ => Some (Status true false true)) [] start (Status true false true) eq_refl eq_refl). discriminate. Qed.
Theorem C113_accepted_directories : forall s p e, snd (add_path s p e) = true <-> accepted s p.
Proof. intros s p e. rewrite add_path_ok. destruct (accepted_dec s p) as [A|N]; cbn; split; congruence || tauto. Qed.
Print Assumptions C113_file_found. Print Assumptions C113_found_files_stay. Print Assumptions C113_paths_only_grow. Print Assumptions C113_named_paths_are_added.
Print Assumptions C113_paths_of_the_environment. Print Assumptions C113_fallbacks_only_if_nothing_else_refuted. Print Assumptions C113_data_paths_are_directories_refuted. Print Assumptions C113_accepted_directories.
(** Two directories, each with a file f: the first one counts. *)
Definition two_dirs : fs := fun t => if same t ["a"%char] || same t ["b"%char] then Some (Status false true false) else if same t ["a"; "/"; "f"]%char || same t ["b"; "/"; "f"]%char then Some (Status true false false) else None.
Example C113_two : let e := run (Vars (Some ["a"%char]) None None [] []) start [(two_dirs, AddPath ["c"%char]); (two_dirs, GetPaths); (two_dirs, AddPath ["b"%char])] in
  paths e = [["a"%char]; ["b"%char]] /\ snd (lookup two_dirs (Vars (Some ["a"%char]) None None [] []) ["f"%char] e) = (true, ["a"; "/"; "f"]%char).
Proof. split; reflexivity. Qed.

(** *** C114: keys and values *)
Theorem C114_last_value_counts : forall v h k w, values (run v start h) k = Some w <-> last_set h k w.
Proof. exact run_values. Qed.
Theorem C114_what_is_answered : forall v h k,
  (has_value k (run v start h) = true <-> exists w, last_set h k w) /\
  (forall w standard, last_set h k w -> get_value k (run v start h) = w /\ check_parameter k standard (run v start h) = w) /\
  (forall standard, (forall w, ~ last_set h k w) -> get_value k (run v start h) = [] /\ check_parameter k standard (run v start h) = standard).
Proof.
  intros v h k. pose proof (fun w => run_values v h k w) as R. unfold check_parameter, has_value, get_value. destruct (values (run v start h) k) as [w0|].
  - split; [split; [intros _; exists w0; now apply R|reflexivity]|]. split.
    + intros w st L. apply R in L. injection L as ->. auto.
    + intros st N. exfalso. apply (N w0). now apply R.
  - split; [split; [discriminate|intros (w & L); apply R in L; discriminate]|]. split; [intros w st L; apply R in L; discriminate|auto].
Qed.
(** The value asked for is a file that is found, or else the standard one if that is found, or else the standard name as it is. *)
Theorem C114_file_of_a_key : forall s v k standard e e' f, inited e = true -> check_file s v k standard e = (e', f) -> e' = e /\
  ((exists w, values e k = Some w /\ first_file s w (paths e) f) \/
   ((forall w f', values e k = Some w -> ~ first_file s w (paths e) f') /\
    ((standard <> [] /\ first_file s standard (paths e) f) \/ ((standard = [] \/ forall f', ~ first_file s standard (paths e) f') /\ f = standard)))).
Proof.
  intros s v k standard e e' f I E.
  assert (NO : forall name g, snd (lookup s v name e) = (false, g) -> forall f', ~ first_file s name (paths e) f').
  { intros name g L f' FF. destruct (lookup s v name e) as [e1 [b f1]] eqn:LK. cbn in L. injection L as -> ->. destruct (C113_file_found _ _ _ _ _ _ _ LK) as (_ & B & C & _). rewrite (C I) in B. destruct (B eq_refl) as (_ & N & A).
    destruct FF as [(F & _)|(_ & a & p & c & EQ & -> & F & _)]; [contradiction|]. apply (A p); [rewrite EQ; apply in_or_app; right; now left|exact F]. }
  assert (YES : forall name g, snd (lookup s v name e) = (true, g) -> first_file s name (paths e) g).
  { intros name g L. destruct (lookup s v name e) as [e1 [b f1]] eqn:LK. cbn in L. injection L as -> ->. destruct (C113_file_found _ _ _ _ _ _ _ LK) as (A & _ & C & _). rewrite (C I) in A. apply A. reflexivity. }
  assert (ST : forall name, fst (lookup s v name e) = e) by (intros name; cbn; apply init_done, I).
  split; [destruct (check_file_state s v k standard e) as [X|X]; rewrite E in X; cbn in X; rewrite X; [reflexivity|apply init_done, I]|].
  assert (STD : (match standard with [] => (e, []) | _ => let '(e, (b, f)) := lookup s v standard e in (e, if b then f else standard) end) = (e', f) ->
     (standard <> [] /\ first_file s standard (paths e) f) \/ ((standard = [] \/ forall f', ~ first_file s standard (paths e) f') /\ f = standard)).
  { destruct standard as [|c st]; [intros X; injection X as _ <-; right; auto|]. specialize (NO (c :: st)). specialize (YES (c :: st)). destruct (lookup s v (c :: st) e) as [e1 [b f1]]. cbn [snd] in NO, YES. intros X. injection X as _ <-.
    destruct b; [left; split; [discriminate|now apply YES]|right; split; [right; now apply (NO f1)|reflexivity]]. }
  unfold check_file, has_value, get_value in E. destruct (values e k) as [w|] eqn:V.
  - pose proof (NO w) as NW. pose proof (YES w) as YW. pose proof (ST w) as SW. destruct (lookup s v w e) as [e1 [b f1]]. cbn [snd fst] in NW, YW, SW. subst e1. destruct b.
    + injection E as _ <-. left. exists w. split; [reflexivity|now apply YW].
    + right. split; [intros w' f' X; injection X as <-; now apply (NW f1)|apply STD, E].
  - right. split; [discriminate|apply STD, E].
Qed.
(** Only the keys that were asked for before are taken from the command line. *)
Theorem C114_keys_asked_for : forall v h s l k, ~ considered h k -> values (run v start (h ++ [(s, CommandLine l)])) k = values (run v start h) k.
Proof. intros v h s l k N. apply keeps_values. intros w [E|(l' & ws & _ & C & _)]; [discriminate|contradiction]. Qed.
Print Assumptions C114_last_value_counts. Print Assumptions C114_what_is_answered. Print Assumptions C114_file_of_a_key. Print Assumptions C114_keys_asked_for.
Example C114_line : let k := ["k"%char] in let l := Line [] (fun t => if same t k || same t ["m"%char] then Some [["1"%char]; ["2"%char]] else None) [] in
  let e := run (Vars None None None [] []) start [(two_dirs, AddValue k ["0"%char]); (two_dirs, Consider k); (two_dirs, CommandLine l)] in
  get_value k e = ["1"%char] /\ has_value ["m"%char] e = false /\ last_set [(two_dirs, AddValue k ["0"%char]); (two_dirs, Consider k); (two_dirs, CommandLine l)] k ["1"%char].
Proof. cbv zeta. split; [reflexivity|]. split; [reflexivity|]. apply (run_values (Vars None None None [] [])). reflexivity. Qed.

(** *** C115: vectors as text *)
(** A text is read as a vector exactly if it is ( a , b , c ) with three finite numbers, and the components are those numbers. *)
Theorem C115_vectors_read : forall atof t x y z, to_vector atof t = Some (x, y, z) <->
  exists a b c, t = "("%char :: a ++ ","%char :: b ++ ","%char :: c ++ [")"%char] /\ plain a /\ plain b /\ plain c /\ atof a = Some x /\ atof b = Some y /\ atof c = Some z.
Proof.
  intros atof t x y z. unfold to_vector. split.
  - destruct (length t <? 3); [discriminate|]. destruct t as [|c0 s2]; [discriminate|]. destruct (Ascii.eqb c0 "("%char) eqn:E0; [|discriminate]. apply Ascii.eqb_eq in E0. subst c0. cbn [negb].
    destruct (rev s2) as [|d r2] eqn:RV; [discriminate|]. destruct (Ascii.eqb d ")"%char) eqn:E1; [|discriminate]. apply Ascii.eqb_eq in E1. subst d. cbn [negb].
    destruct (split (rev r2)) as [|a [|b [|c [|]]]] eqn:SP; try discriminate. apply split3 in SP. destruct SP as (EQ & PA & PB & PC).
    destruct (atof a) as [xa|] eqn:A; [|discriminate]. destruct (atof b) as [xb|] eqn:B; [|discriminate]. destruct (atof c) as [xc|] eqn:C; [|discriminate]. intros X. injection X as <- <- <-.
    exists a, b, c. split; [|auto 10]. f_equal. apply (f_equal (@rev ascii)) in RV. rewrite rev_involutive in RV. cbn in RV. rewrite RV, EQ. unfold comma. rewrite <- app_assoc. cbn. rewrite <- app_assoc. reflexivity.
  - intros (a & b & c & -> & PA & PB & PC & A & B & C).
    assert (L : (length ("("%char :: a ++ ","%char :: b ++ ","%char :: c ++ [")"%char]) <? 3) = false) by (apply Nat.ltb_ge; cbn; rewrite app_length; cbn; rewrite app_length; cbn; lia). rewrite L. cbn [negb Ascii.eqb].
    change (negb (Ascii.eqb "("%char "("%char)) with false. cbv iota.
    assert (RV : rev (a ++ ","%char :: b ++ ","%char :: c ++ [")"%char]) = ")"%char :: rev (a ++ comma :: b ++ comma :: c)).
    { assert (EQ : a ++ ","%char :: b ++ ","%char :: c ++ [")"%char] = (a ++ comma :: b ++ comma :: c) ++ [")"%char]) by (unfold comma; rewrite <- app_assoc; cbn; rewrite <- app_assoc; reflexivity). rewrite EQ, rev_app_distr. reflexivity. }
    rewrite RV. change (negb (Ascii.eqb ")"%char ")"%char)) with false. cbv iota. rewrite rev_involutive.
    assert (SP : split (a ++ comma :: b ++ comma :: c) = [a; b; c]) by (apply split3; auto). rewrite SP, A, B, C. reflexivity.
Qed.
Print Assumptions C115_vectors_read.
Example C115_read : exists x y z, to_vector (fun t => if same t ["7"%char] then Some 7%R else Some 0%R) ["("; "7"; ","; "x"; ","; ")"]%char = Some (x, y, z) /\ x = 7%R /\ to_vector (fun _ => Some 0%R) ["("; "7"; ","; "1"; ")"]%char = None.
Proof. exists 7%R, 0%R, 0%R. split; [reflexivity|]. split; reflexivity. Qed.
