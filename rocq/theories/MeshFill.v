(** Proofs for C79: missing normals and colours. *)
From Coq Require Import List ZArith Bool Arith Lia.
From Verif Require Import MeshModel MeshSpec MeshProofs MeshMerge.
Import ListNotations.
Open Scope nat_scope.

(** ** Normals *)
Lemma filled_app {N} ns ns' (f g : face N) : filled ns f g -> filled (ns ++ ns') f g.
Proof.
  intros (A & B & H). split; [exact A|]. split; [exact B|]. intros c C. specialize (H c C). destruct (corner (f_nid f) c); [exact H|]. destruct (missing (i1 (f_nid f))); [|exact H]. destruct H as (i & I & E). exists i. split; [exact I|].
  rewrite nth_error_app1; [exact E|]. apply nth_error_Some. congruence.
Qed.
Lemma nth_end {A} (l : list A) x l' : nth_error ((l ++ [x]) ++ l') (length l) = Some x.
Proof. rewrite <- app_assoc, nth_error_app2 by lia. rewrite Nat.sub_diag. reflexivity. Qed.
Lemma fill_normals_spec {N} (o : nops N) vs : forall fs ns count, Forall (fun f => in_range (length vs) (f_vertex f)) fs ->
  exists gs added, fill_normals o vs fs ns count = (gs, ns ++ added, count + length added, true) /\ Forall2 (filled (ns ++ added)) fs gs.
Proof.
  induction fs as [|f fs IH]; intros ns count F; cbn [fill_normals]; [exists [], []; rewrite app_nil_r, Nat.add_0_r; split; [reflexivity|constructor]|]. inversion F as [|? ? R F']; subst.
  destruct f as [fv fc [x1 x2 x3] nn]. cbn [f_nid f_vertex f_color f_normal i1 i2 i3] in *.
  assert (NRM : exists n', (if n_tiny o nn then match at_ vs (i1 fv), at_ vs (i2 fv), at_ vs (i3 fv) with Some a, Some b, Some c => Some (n_create o (Some a) (Some b) (Some c)) | _, _, _ => None end else Some nn) = Some n').
  { destruct (n_tiny o nn); [|exists nn; reflexivity]. apply in_range_intro in R. destruct R as (a & b & c & -> & A & B & C). cbn [i1 i2 i3]. apply at_some in A, B, C. destruct (at_ vs (Some a)), (at_ vs (Some b)), (at_ vs (Some c)); try congruence. eexists. reflexivity. }
  destruct NRM as (n' & NE).
  assert (DONE : forall id1 id2 id3 more, (forall ns', filled ((ns ++ more) ++ ns') (Face fv fc (Ids x1 x2 x3) nn) (Face fv fc (Ids id1 id2 id3) n')) ->
    exists gs added, (let '(fs0, ns0, count0, ok) := fill_normals o vs fs (ns ++ more) (count + length more) in (Face fv fc (Ids id1 id2 id3) n' :: fs0, ns0, count0, ok)) = (gs, ns ++ added, count + length added, true) /\
      Forall2 (filled (ns ++ added)) (Face fv fc (Ids x1 x2 x3) nn :: fs) gs).
  { intros id1 id2 id3 more H. destruct (IH (ns ++ more) (count + length more) F') as (gs & added & -> & G). exists (Face fv fc (Ids id1 id2 id3) n' :: gs), (more ++ added). rewrite app_length, <- app_assoc, Nat.add_assoc in *. split; [reflexivity|]. constructor; [|exact G]. specialize (H added). rewrite <- app_assoc in H. exact H. }
  assert (SAME : forall ns', filled ns' (Face fv fc (Ids x1 x2 x3) nn) (Face fv fc (Ids x1 x2 x3) nn) \/ missing x1 = true).
  { intros ns'. destruct x1 as [x1|]; [left|right; reflexivity]. split; [reflexivity|]. split; [reflexivity|]. intros c _. cbn [f_nid]. destruct (corner (Ids (Some x1) x2 x3) c); reflexivity. }
  destruct x1 as [x1|]; cbn [missing negb andb].
  - assert (KEEP : forall nn' ns', filled ns' (Face fv fc (Ids (Some x1) x2 x3) nn) (Face fv fc (Ids (Some x1) x2 x3) nn')).
    { intros nn' ns'. split; [reflexivity|]. split; [reflexivity|]. intros c _. cbn [f_nid i1 missing]. destruct (corner (Ids (Some x1) x2 x3) c); reflexivity. }
    destruct (missing x2) eqn:M2, (missing x3) eqn:M3; cbn [negb andb]; try (rewrite NE; assert (Q := DONE (Some x1) x2 x3 [] ltac:(intros; apply KEEP)); rewrite app_nil_r, Nat.add_0_r in Q; destruct x2, x3; try discriminate; exact Q).
    destruct (IH ns count F') as (gs & added & -> & G). eexists. exists added. split; [reflexivity|]. constructor; [apply KEEP|exact G].
  - rewrite NE.
    assert (NTH : forall pre (x : N) post, nth_error ((ns ++ pre ++ x :: post)) (length ns + length pre) = Some x).
    { intros pre x post. rewrite nth_error_app2 by lia. rewrite nth_error_app2 by lia. replace (length ns + length pre - length ns - length pre) with 0 by lia. reflexivity. }
    destruct x2 as [x2|], x3 as [x3|]; cbn [missing negb andb]; rewrite <- ?app_assoc; cbn [app]; rewrite ?app_length; cbn [length].
    + assert (Q := DONE (Some (length ns)) (Some x2) (Some x3) [n']). cbn [length] in Q. replace (count + 1) with (S count) in Q by lia. apply Q. intros ns'. split; [reflexivity|]. split; [reflexivity|]. intros [|[|[|c]]] C; cbn [corner f_nid i1 i2 i3 missing]; try reflexivity; try lia.
      exists (length ns). split; [reflexivity|]. apply nth_end.
    + assert (Q := DONE (Some (length ns)) (Some x2) (Some (length ns + 1)) [n'; n']). cbn [length] in Q. replace (count + 2) with (S (S count)) in Q by lia. apply Q. intros ns'. split; [reflexivity|]. split; [reflexivity|]. rewrite <- app_assoc. cbn [app].
      intros [|[|[|c]]] C; cbn [corner f_nid i1 i2 i3 missing f_normal]; try reflexivity; try lia.
      * exists (length ns). split; [reflexivity|]. assert (T := NTH [] n' (n' :: ns')). cbn [app length] in T. rewrite Nat.add_0_r in T. exact T.
      * exists (length ns + 1). split; [reflexivity|]. apply (NTH [n'] n' ns').
    + assert (Q := DONE (Some (length ns)) (Some (length ns + 1)) (Some x3) [n'; n']). cbn [length] in Q. replace (count + 2) with (S (S count)) in Q by lia. apply Q. intros ns'. split; [reflexivity|]. split; [reflexivity|]. rewrite <- app_assoc. cbn [app].
      intros [|[|[|c]]] C; cbn [corner f_nid i1 i2 i3 missing f_normal]; try reflexivity; try lia.
      * exists (length ns). split; [reflexivity|]. assert (T := NTH [] n' (n' :: ns')). cbn [app length] in T. rewrite Nat.add_0_r in T. exact T.
      * exists (length ns + 1). split; [reflexivity|]. apply (NTH [n'] n' ns').
    + assert (Q := DONE (Some (length ns)) (Some (length ns + 1)) (Some (length ns + 2)) [n'; n'; n']). cbn [length] in Q. replace (count + 3) with (S (S (S count))) in Q by lia. apply Q. intros ns'. split; [reflexivity|]. split; [reflexivity|]. rewrite <- app_assoc. cbn [app].
      intros [|[|[|c]]] C; cbn [corner f_nid i1 i2 i3 missing f_normal]; try reflexivity; try lia.
      * exists (length ns). split; [reflexivity|]. assert (T := NTH [] n' (n' :: n' :: ns')). cbn [app length] in T. rewrite Nat.add_0_r in T. exact T.
      * exists (length ns + 1). split; [reflexivity|]. apply (NTH [n'] n' (n' :: ns')).
      * exists (length ns + 2). split; [reflexivity|]. apply (NTH [n'; n'] n' ns').
Qed.
Lemma fill_renewed {N} (o : nops N) vs : forall fs ns count, let '(gs, _, _, _) := fill_normals o vs fs ns count in Forall2 (renewed o vs) fs gs.
Proof.
  assert (SELF : forall f : face N, renewed o vs f f) by (intros f; unfold renewed; destruct (n_tiny o (f_normal f)); auto).
  induction fs as [|f fs IH]; intros ns count; cbn [fill_normals]; [constructor|].
  destruct (negb (missing (i1 (f_nid f))) && negb (missing (i2 (f_nid f))) && negb (missing (i3 (f_nid f)))).
  - assert (Q := IH ns count). destruct (fill_normals o vs fs ns count) as [[[gs ns'] k] ok]. constructor; [apply SELF|exact Q].
  - match goal with |- context [match ?x with Some _ => _ | None => _ end] => destruct x as [normal|] eqn:E end.
    2:{ constructor; [apply SELF|]. clear - SELF. induction fs; constructor; auto. }
    destruct (if missing (i1 (f_nid f)) then _ else _) as [[[id1 nid1] ns1] k1]. destruct (if missing (i2 (f_nid f)) then _ else _) as [[[id2 nid2] ns2] k2]. destruct (if missing (i3 (f_nid f)) then _ else _) as [[[id3 nid3] ns3] k3].
    assert (Q := IH ns3 k3). destruct (fill_normals o vs fs ns3 k3) as [[[gs ns'] k] ok]. constructor; [|exact Q]. unfold renewed, points. cbn [f_normal]. destruct (n_tiny o (f_normal f)).
    + right. destruct (at_ vs (i1 (f_vertex f))), (at_ vs (i2 (f_vertex f))), (at_ vs (i3 (f_vertex f))); congruence.
    + congruence.
Qed.
(** ** Colours *)
Definition col_in {N} (f : face N) (v : option nat) : option nat :=
  if eq_id (i1 (f_vertex f)) v && negb (missing (i1 (f_color f))) then i1 (f_color f)
  else if eq_id (i2 (f_vertex f)) v && negb (missing (i2 (f_color f))) then i2 (f_color f)
  else if eq_id (i3 (f_vertex f)) v && negb (missing (i3 (f_color f))) then i3 (f_color f) else None.
Lemma color_at_cons {N} (f : face N) fs v : color_at (f :: fs) v = match col_in f v with Some x => Some x | None => color_at fs v end.
Proof.
  cbn [color_at]. unfold col_in. destruct (f_color f) as [[x|] [y|] [z|]]; cbn [i1 i2 i3 missing negb]; rewrite ?andb_false_r, ?andb_true_r;
    destruct (eq_id (i1 (f_vertex f)) v), (eq_id (i2 (f_vertex f)) v), (eq_id (i3 (f_vertex f)) v); reflexivity.
Qed.
Lemma eq_id_spec a b : reflect (a = b) (eq_id a b).
Proof. destruct a as [a|], b as [b|]; cbn [eq_id]; [destruct (Nat.eqb_spec a b); constructor; congruence|constructor; congruence..]. Qed.
Lemma col_in_spec {N} (f : face N) v x : col_in f v = Some x -> exists c, c < 3 /\ corner (f_vertex f) c = v /\ corner (f_color f) c = Some x.
Proof.
  unfold col_in. destruct (eq_id_spec (i1 (f_vertex f)) v), (missing (i1 (f_color f))); cbn [andb negb]; try (intros E; exists 0; cbn [corner]; split; [lia|auto]; fail);
  destruct (eq_id_spec (i2 (f_vertex f)) v), (missing (i2 (f_color f))); cbn [andb negb]; try (intros E; exists 1; cbn [corner]; split; [lia|auto]; fail);
  destruct (eq_id_spec (i3 (f_vertex f)) v), (missing (i3 (f_color f))); cbn [andb negb]; try (intros E; exists 2; cbn [corner]; split; [lia|auto]; fail); discriminate.
Qed.
Lemma color_at_spec {N} : forall (fs : list (face N)) v x, color_at fs v = Some x -> exists f c, In f fs /\ c < 3 /\ corner (f_vertex f) c = v /\ corner (f_color f) c = Some x.
Proof.
  induction fs as [|f fs IH]; intros v x; [discriminate|]. rewrite color_at_cons. destruct (col_in f v) as [y|] eqn:E.
  - intros H. injection H as ->. destruct (col_in_spec f v x E) as (c & C). exists f, c. split; [left; reflexivity|exact C].
  - intros H. destruct (IH v x H) as (g & c & G & C). exists g, c. split; [right; exact G|exact C].
Qed.
Lemma put_corner {N} (f : face N) k id c : k < 3 -> c < 3 -> corner (f_color (put_color f k id)) c = if c =? k then id else corner (f_color f) c.
Proof. intros K C. unfold put_color. destruct k as [|[|[|k]]], c as [|[|[|c]]]; try lia; reflexivity. Qed.
Lemma col_in_put {N} (f : face N) k id w : k < 3 -> corner (f_color f) k = None ->
  (forall x, col_in f (corner (f_vertex f) k) = Some x -> x = id) ->
  col_in (put_color f k (Some id)) w = match col_in f w with Some x => Some x | None => if eq_id (corner (f_vertex f) k) w then Some id else None end.
Proof.
  intros K M H. destruct (eq_id_spec (corner (f_vertex f) k) w) as [E|NE].
  - subst w. destruct (col_in f (corner (f_vertex f) k)) as [x|] eqn:E.
    + assert (x = id) by (apply H; reflexivity). subst x. clear H. revert E. unfold col_in, put_color. destruct f as [[v1 v2 v3] [c1 c2 c3] fn nn]. cbn [f_vertex f_color i1 i2 i3 corner] in *. destruct k as [|[|[|k]]]; [| | |lia]; cbn [f_vertex f_color i1 i2 i3 corner] in *; rewrite M; cbn [missing negb andb i1 i2 i3 f_vertex f_color];
      rewrite ?andb_false_r, ?andb_true_r; destruct (eq_id_spec v1 v1), (eq_id_spec v2 v2), (eq_id_spec v3 v3); try congruence; intros E; repeat match goal with |- context [if ?b then _ else _] => destruct b end; congruence.
    + clear H. revert E. unfold col_in, put_color. destruct f as [[v1 v2 v3] [c1 c2 c3] fn nn]. cbn [f_vertex f_color i1 i2 i3 corner] in *. destruct k as [|[|[|k]]]; [| | |lia]; cbn [f_vertex f_color i1 i2 i3 corner] in *; rewrite M; cbn [missing negb andb i1 i2 i3 f_vertex f_color];
      rewrite ?andb_false_r, ?andb_true_r; destruct (eq_id_spec v1 v1), (eq_id_spec v2 v2), (eq_id_spec v3 v3); try congruence; intros E; destruct c1, c2, c3; cbn [missing negb andb] in *; rewrite ?andb_false_r, ?andb_true_r in *; repeat match goal with |- context [if ?b then _ else _] => destruct b end; congruence.
  - clear H. unfold col_in, put_color. destruct f as [[v1 v2 v3] [c1 c2 c3] fn nn]. cbn [f_vertex f_color i1 i2 i3 corner] in *. destruct k as [|[|[|k]]]; [| | |lia]; cbn [f_vertex f_color i1 i2 i3 corner] in *; rewrite M; cbn [missing negb andb i1 i2 i3 f_vertex f_color];
      rewrite ?andb_false_r, ?andb_true_r; destruct (eq_id_spec v1 w), (eq_id_spec v2 w), (eq_id_spec v3 w); try congruence; cbn [andb]; repeat match goal with |- context [if negb (missing ?b) then _ else _] => destruct b; cbn [missing negb] end; reflexivity.
Qed.
Lemma color_at_put {N} : forall (fs : list (face N)) j f k id w, nth_error fs j = Some f -> k < 3 -> corner (f_color f) k = None ->
  (forall x, color_at fs (corner (f_vertex f) k) = Some x -> x = id) ->
  color_at (set_nth fs j (put_color f k (Some id))) w = match color_at fs w with Some x => Some x | None => if eq_id (corner (f_vertex f) k) w then Some id else None end.
Proof.
  induction fs as [|g fs IH]; intros [|j] f k id w E K M H; cbn [nth_error] in E; try discriminate; cbn [set_nth]; rewrite !color_at_cons.
  - injection E as ->. assert (Q := H). rewrite color_at_cons in Q. rewrite (col_in_put f k id w K M); [|intros x X; apply Q; rewrite X; reflexivity]. destruct (col_in f w) as [x|] eqn:CW; [reflexivity|].
    destruct (eq_id_spec (corner (f_vertex f) k) w) as [EW|NE]; [|reflexivity + (destruct (color_at fs w); reflexivity)]. subst w. rewrite CW in Q. destruct (color_at fs (corner (f_vertex f) k)) as [x|]; [f_equal; symmetry; apply Q; reflexivity|reflexivity].
  - destruct (col_in g w) as [x|] eqn:CW; [reflexivity|]. destruct (eq_id_spec (corner (f_vertex f) k) w) as [EW|NE].
    + subst w. rewrite color_at_cons, CW in H. rewrite (IH j f k id _ E K M H). destruct (eq_id_spec (corner (f_vertex f) k) (corner (f_vertex f) k)); [reflexivity|congruence].
    + (* another vertex *)
      clear H CW. revert j E. clear IH. induction fs as [|h fs IH]; intros [|j] E; cbn [nth_error] in E; try discriminate; cbn [set_nth]; rewrite !color_at_cons.
      * injection E as ->. replace (col_in (put_color f k (Some id)) w) with (col_in f w); [destruct (col_in f w); [reflexivity|destruct (color_at fs w); reflexivity]|].
        unfold col_in, put_color. destruct f as [[v1 v2 v3] [c1 c2 c3] fn nn]. cbn [f_vertex f_color i1 i2 i3 corner] in *. destruct k as [|[|[|k]]]; [| | |lia]; cbn [f_vertex f_color i1 i2 i3 corner] in *; rewrite M; cbn [missing negb andb i1 i2 i3 f_vertex f_color];
        rewrite ?andb_false_r, ?andb_true_r; destruct (eq_id_spec v1 w), (eq_id_spec v2 w), (eq_id_spec v3 w); try congruence; reflexivity.
      * destruct (col_in h w); [reflexivity|]. apply IH, E.
Qed.
Section COLORS.
Context {N : Type} (m0 : mesh N) (col : nat).
(** What holds while the colours are filled in. *)
Definition stage (m : mesh N) : Prop :=
  m_vertices m = m_vertices m0 /\ m_normals m = m_normals m0 /\ m_box m = m_box m0 /\ length (m_faces m) = length (m_faces m0) /\ (exists n, m_colors m = m_colors m0 ++ repeat col n) /\
  (forall v x, color_at (m_faces m) v = Some x -> (exists f c, In f (m_faces m0) /\ c < 3 /\ corner (f_vertex f) c = v /\ corner (f_color f) c = Some x) \/ (length (m_colors m0) <= x < length (m_colors m))) /\
  (forall j f0 f, nth_error (m_faces m0) j = Some f0 -> nth_error (m_faces m) j = Some f -> f_vertex f = f_vertex f0 /\ f_nid f = f_nid f0 /\ f_normal f = f_normal f0 /\
     forall c, c < 3 -> match corner (f_color f0) c with Some x => corner (f_color f) c = Some x | None => corner (f_color f) c = None \/ (corner (f_color f) c <> None /\ corner (f_color f) c = color_at (m_faces m) (corner (f_vertex f) c)) end).
Definition has_color (m : mesh N) (j c : nat) : Prop := exists f, nth_error (m_faces m) j = Some f /\ corner (f_color f) c <> None.
Lemma stage_start : stage m0.
Proof.
  do 4 (split; [reflexivity|]). split; [exists 0; rewrite app_nil_r; reflexivity|]. split; [intros v x H; left; apply color_at_spec, H|]. intros j f0 f A B. rewrite A in B. injection B as <-. do 3 (split; [reflexivity|]). intros c _. destruct (corner (f_color f0) c); auto.
Qed.
Lemma fill_step j k m count : k < 3 -> stage m -> let '(m', count') := fill_corner col j (m, count) k in
  stage m' /\ (j < length (m_faces m) -> has_color m' j k) /\ (forall x c, c < 3 -> has_color m x c -> has_color m' x c).
Proof.
  intros K ST. unfold fill_corner. destruct (nth_error (m_faces m) j) as [f|] eqn:E; [|split; [exact ST|]; split; [intros L; apply nth_error_None in E; lia|auto]].
  destruct (corner (f_color f) k) as [y|] eqn:M; cbn [missing]; [split; [exact ST|]; split; [intros _; exists f; split; [exact E|congruence]|auto]|].
  assert (LJ : j < length (m_faces m)) by (apply nth_error_Some; congruence). destruct ST as (S1 & S2 & S3 & S4 & (n & S5) & S6 & S7).
  assert (MAIN : forall id cols, (exists n, cols = m_colors m0 ++ repeat col n) -> length (m_colors m) <= length cols -> (color_at (m_faces m) (corner (f_vertex f) k) = Some id \/ (color_at (m_faces m) (corner (f_vertex f) k) = None /\ length (m_colors m0) <= id < length cols)) ->
    let m' := Mesh (m_vertices m) (m_normals m) cols (set_nth (m_faces m) j (put_color f k (Some id))) (m_box m) in
    stage m' /\ (j < length (m_faces m) -> has_color m' j k) /\ (forall x c, c < 3 -> has_color m x c -> has_color m' x c)).
  { intros id cols HC HL HID m'. assert (CA := fun w => color_at_put (m_faces m) j f k id w E K M ltac:(intros x X; destruct HID as [Y|[Y _]]; congruence)). split; [|split].
    - split; [exact S1|]. split; [exact S2|]. split; [exact S3|]. split; [cbn [m' m_faces]; rewrite set_nth_length; exact S4|]. split; [exact HC|]. split.
      + intros v x X. cbn [m' m_faces] in X. rewrite CA in X. destruct (color_at (m_faces m) v) as [z|] eqn:CV.
        * injection X as ->. destruct (S6 v x CV) as [H|H]; [left; exact H|right; cbn [m' m_colors]; lia].
        * destruct (eq_id_spec (corner (f_vertex f) k) v) as [EV|NV]; [|discriminate X]. injection X as <-. subst v. destruct HID as [Y|[_ Y]]; [congruence|right; exact Y].
      + intros x f0 g F0 G. cbn [m' m_faces] in G. destruct (Nat.eq_dec x j) as [->|NX].
        * rewrite set_nth_same in G by exact LJ. injection G as <-. destruct (S7 j f0 f F0 E) as (V & NI & NO & H). split; [exact V|]. split; [exact NI|]. split; [exact NO|].
          intros c C. specialize (H c C). rewrite put_corner by assumption. destruct (Nat.eqb_spec c k) as [->|NC].
          -- destruct (corner (f_color f0) k) as [z|]; [congruence|]. right. split; [congruence|]. change (f_vertex (put_color f k (Some id))) with (f_vertex f). cbn [m' m_faces]. rewrite CA. destruct (eq_id_spec (corner (f_vertex f) k) (corner (f_vertex f) k)); [|congruence]. destruct HID as [Y|[Y _]]; rewrite Y; reflexivity.
          -- destruct (corner (f_color f0) c) as [z|]; [exact H|]. destruct H as [H|[H H']]; [left; exact H|right; split; [exact H|]]. change (f_vertex (put_color f k (Some id))) with (f_vertex f). cbn [m' m_faces]. rewrite CA. rewrite <- H'. destruct (corner (f_color f) c); [reflexivity|congruence].
        * rewrite set_nth_other in G by exact NX. destruct (S7 x f0 g F0 G) as (V & NI & NO & H). split; [exact V|]. split; [exact NI|]. split; [exact NO|]. intros c C. specialize (H c C). destruct (corner (f_color f0) c) as [z|]; [exact H|].
          destruct H as [H|[H H']]; [left; exact H|right; split; [exact H|]]. cbn [m' m_faces]. rewrite CA. rewrite <- H'. destruct (corner (f_color g) c); [reflexivity|congruence].
    - intros _. exists (put_color f k (Some id)). cbn [m' m_faces]. split; [apply set_nth_same, LJ|]. rewrite put_corner by assumption. rewrite Nat.eqb_refl. discriminate.
    - intros x c C (g & G & H). unfold has_color. cbn [m' m_faces]. destruct (Nat.eq_dec x j) as [->|NX].
      + rewrite E in G. injection G as <-. exists (put_color f k (Some id)). split; [apply set_nth_same, LJ|]. rewrite put_corner by assumption. destruct (c =? k); [discriminate|exact H].
      + exists g. split; [rewrite set_nth_other by exact NX; exact G|exact H]. }
  unfold get_color. destruct (color_at (m_faces m) (corner (f_vertex f) k)) as [id|] eqn:CV.
  - apply (MAIN id (m_colors m)); [exists n; exact S5|lia|left; reflexivity].
  - cbn [add_color]. apply (MAIN (length (m_colors m)) (m_colors m ++ [col])); [exists (S n); rewrite S5, <- app_assoc; f_equal; clear; induction n as [|n IH]; [reflexivity|cbn [repeat app]; f_equal; exact IH]|rewrite app_length; lia|].
    right. split; [reflexivity|]. rewrite app_length, S5, app_length. cbn [length]. lia.
Qed.
Lemma fill_face j m count : stage m -> let '(m', count') := fold_left (fill_corner col j) [0; 1; 2] (m, count) in
  stage m' /\ (j < length (m_faces m) -> forall c, c < 3 -> has_color m' j c) /\ (forall x c, c < 3 -> has_color m x c -> has_color m' x c).
Proof.
  intros ST. cbn [fold_left]. assert (Q := fill_step j 0 m count ltac:(lia) ST). destruct (fill_corner col j (m, count) 0) as [m1 c1]. destruct Q as (ST1 & H1 & P1).
  assert (Q := fill_step j 1 m1 c1 ltac:(lia) ST1). destruct (fill_corner col j (m1, c1) 1) as [m2 c2]. destruct Q as (ST2 & H2 & P2).
  assert (Q := fill_step j 2 m2 c2 ltac:(lia) ST2). destruct (fill_corner col j (m2, c2) 2) as [m3 c3]. destruct Q as (ST3 & H3 & P3).
  assert (L0 : length (m_faces m) = length (m_faces m0)) by apply ST. assert (L1 : length (m_faces m1) = length (m_faces m0)) by apply ST1. assert (L2 : length (m_faces m2) = length (m_faces m0)) by apply ST2.
  split; [exact ST3|]. split; [|auto]. intros L c C. destruct c as [|[|[|c]]]; [apply P3, P2, H1; lia|apply P3, H2; lia|apply H3; lia|lia].
Qed.
Lemma fill_all : forall js m count, stage m -> let '(m', count') := fold_left (fun s j => fold_left (fill_corner col j) [0; 1; 2] s) js (m, count) in
  stage m' /\ (forall j, In j js -> j < length (m_faces m0) -> forall c, c < 3 -> has_color m' j c) /\ (forall x c, c < 3 -> has_color m x c -> has_color m' x c).
Proof.
  induction js as [|j js IH]; intros m count ST; [split; [exact ST|]; split; [intros j []|auto]|]. change (fold_left (fun s j => fold_left (fill_corner col j) [0; 1; 2] s) (j :: js) (m, count)) with (fold_left (fun s j => fold_left (fill_corner col j) [0; 1; 2] s) js (fold_left (fill_corner col j) [0; 1; 2] (m, count))).
  assert (Q := fill_face j m count ST). destruct (fold_left (fill_corner col j) [0; 1; 2] (m, count)) as [m1 c1]. destruct Q as (ST1 & H1 & P1). assert (Q := IH m1 c1 ST1). destruct (fold_left (fun s j => fold_left (fill_corner col j) [0; 1; 2] s) js (m1, c1)) as [m2 c2].
  destruct Q as (ST2 & H2 & P2). split; [exact ST2|]. split; [|auto]. intros x [<-|X] L c C; [apply P2; [exact C|]; apply H1; [|exact C]; destruct ST as (_ & _ & _ & -> & _); exact L|apply H2; assumption].
Qed.
End COLORS.
