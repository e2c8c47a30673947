(* C50: completion of words that start with a quote; and where completion goes wrong. *)
From Coq Require Import Ascii String List Bool Arith Lia Permutation.
From Verif.Syntax Require Import Lexer LexerFacts Complete CompleteSpec CompleteProps.
From Verif.Sys Require Import Glob GlobSpec GlobFacts GlobProps GlobRefuted.
Import ListNotations.
Local Open Scope char_scope.
Local Open Scope list_scope.

(* ---- quoted words ---- *)
Lemma quoted_scan : forall term q u rest, is_quote q = true -> ~ In q u -> ~ In bslash u -> term q = false ->
  scan_string term (Some q) (u ++ q :: rest) = scons (u ++ [q]) (scan_string term None rest).
Proof.
  intros term q u rest Q NQ NB TQ. induction u as [|c u IH]; cbn [app scan_string].
  - assert (SP : isspace q = false). { unfold is_quote in Q. apply orb_true_iff in Q as [Q|Q]; apply Ascii.eqb_eq in Q; subst; reflexivity. }
    rewrite SP, TQ, Q, Ascii.eqb_refl. reflexivity.
  - assert (X : forall (a b : text) r, scons a (scons b r) = scons (a ++ b) r). { intros a b [(x, y)| | |]; cbn; auto. now rewrite app_assoc. }
    assert (NQ' : ~ In q u) by (intros H; apply NQ; now right). assert (NB' : ~ In bslash u) by (intros H; apply NB; now right).
    specialize (IH NQ' NB'). rewrite IH. destruct (isspace c || term c); [now rewrite X|].
    destruct (is_quote c).
    + destruct (Ascii.eqb_spec c q) as [->|]; [exfalso; apply NQ; now left|]. rewrite IH. now rewrite X.
    + destruct (Ascii.eqb_spec c bslash) as [->|]; [exfalso; apply NB; now left|]. now rewrite X.
Qed.
Lemma quote_facts : forall q, is_quote q = true -> isspace q = false /\ marcel_term q = false /\ q <> "@" /\ q <> "!" /\ q <> SLASH /\ q <> bslash /\
  forall sh, terminator sh q = false.
Proof.
  intros q Q. unfold is_quote in Q. apply orb_true_iff in Q as [Q|Q]; apply Ascii.eqb_eq in Q; subst; repeat split; try discriminate; intros []; reflexivity.
Qed.
Lemma quoted_stands : forall sh q u, is_quote q = true -> ~ In q u -> ~ In bslash u -> stands_for sh (q :: u ++ [q]) u.
Proof.
  intros sh q u Q NQ NB. destruct (quote_facts q Q) as (SP & MT & A & B & _ & _ & T). exists (q :: u ++ [q]).
  assert (L : literal (q :: u ++ [q]) = Ok (u, false)).
  { unfold literal. rewrite Q. rewrite app_comm_cons, last_last, Ascii.eqb_refl. cbn [negb]. rewrite removelast_last. reflexivity. }
  split; auto. intros rest. cbn [app]. eapply one_word; eauto. cbn [scan_string]. rewrite SP, T, Q. cbn [orb]. rewrite <- app_assoc. cbn [app].
  rewrite quoted_scan by auto. cbn [scan_string]. change (isspace " ") with true. cbn [orb]. cbn [scons]. now rewrite app_nil_r.
Qed.

Lemma handler_quoted : forall q u dir prefix, is_quote q = true -> last_slash u dir prefix -> ~ In bslash u ->
  exists b, filename_handler (q :: u) = mkhandler (Some q) b prefix u /\
    (dir = [] /\ b = None \/ dir = [SLASH] /\ b = Some [SLASH] \/ exists d, d <> [] /\ dir = d ++ [SLASH] /\ b = Some d).
Proof.
  intros q u dir prefix Q (E & N & K) NB. unfold filename_handler, split_leading_quote. rewrite Q. destruct K as [->|(d & ->)].
  - cbn in E. subst. exists None. split; auto. destruct (rsplit prefix) as [(a, b)|] eqn:R; auto. apply rsplit_some in R as (-> & _). exfalso. apply N. apply in_or_app. right. now left.
  - rewrite <- app_assoc in E. cbn in E. subst u. rewrite rsplit_app by auto. destruct d as [|x d].
    + exists (Some [SLASH]). split; auto.
    + exists (Some (x :: d)). split; auto. right. right. exists (x :: d). split; [discriminate|auto].
Qed.

Lemma place_not_double : forall cwd T D, place cwd T D -> T <> [SLASH; SLASH].
Proof.
  intros cwd T D P H. destruct P as [| |c p F|c p F NC]; try discriminate; apply simple_parts in F as (O & S & _);
    inversion O as [|? ? (N & _) _]; inversion S as [|? ? NS _]; subst; (destruct c as [|a c]; [congruence|]); unfold relative, posix in H; cbn [join_slash tl app] in H.
  - injection H as H _. apply NS. now left.
  - injection H as H _. apply NS. now left.
Qed.

(* A word that starts with a quote, without backslashes and without that quote in the name *)
Theorem c50_quoted_partial : forall s fuel (cwd : path) sh q (T : text) (D : path) (prefix name suffix : text),
  depth s fuel -> consistent s -> dirs_exist s -> Forall (fun c => ~ wild c) cwd ->
  is_quote q = true -> place cwd T D -> ~ In q (T ++ prefix) ->
  name = prefix ++ suffix -> simple name -> ~ In q name -> hd_error (T ++ name) <> Some TILDE -> exists_ s (D ++ [name]) = true ->
  completed_line s cwd (q :: T ++ prefix) (q :: T ++ prefix) name = q :: T ++ name ++ (if is_dir s (D ++ [name]) then [SLASH] else [q; " "]) /\
  (forall e, e = [] \/ e = [SLASH] ->
   stands_for sh (q :: (T ++ name ++ e) ++ [q]) (T ++ name ++ e) /\ normalize s fuel cwd [FnStr (T ++ name ++ e)] = Done [D ++ [name]]).
Proof.
  intros s fuel cwd sh q T D prefix name suffix DE C E WC Q P NQ EN SN NQN NT X.
  destruct (place_text cwd T D name P SN NT) as (c & p & F & K).
  destruct (text_not_double c p (T ++ name) F) as (_ & NB & _); [tauto|].
  assert (NBT : ~ In bslash T) by (intros H; apply NB, in_or_app; now left).
  assert (NBP : ~ In bslash prefix). { intros H. apply NB, in_or_app. right. rewrite EN. apply in_or_app. now left. }
  assert (NSP : ~ In SLASH prefix). { destruct SN as ((_ & _ & _ & H) & _). intros Z. apply H. rewrite EN. apply in_or_app. now left. }
  assert (LS : last_slash (T ++ prefix) T prefix).
  { split; auto. split; auto. destruct P; auto; right; [now exists []|eauto|eauto]. }
  assert (NB' : ~ In bslash (T ++ prefix)) by (intros H; apply in_app_or in H as [H|H]; auto).
  destruct (handler_quoted q (T ++ prefix) T prefix Q LS NB') as (b & H & HB).
  split.
  - unfold completed_line, completed, completion_text. rewrite H. cbn [h_quote h_prefix h_unquoted]. rewrite Nat.sub_0_r, firstn_all, unesc_plain by auto.
    assert (SK : skipn (length prefix) name = suffix). { rewrite EN, skipn_app, Nat.sub_diag, skipn_all. reflexivity. }
    assert (OP : os_path s cwd true (T ++ name) = Some (D ++ [name])).
    { destruct (os_text s cwd c p (T ++ name) F) as (O1 & O2). destruct K as [(Q1 & Q2)|(Q1 & Q2 & Q3)]; rewrite Q2; auto. }
    assert (Y : match b with None => name | Some b => if text_eqb b [SLASH] then SLASH :: name else b ++ SLASH :: name end = T ++ name).
    { destruct HB as [(-> & ->)|[(-> & ->)|(d & ND & -> & ->)]]; auto. destruct (text_eqb_spec d [SLASH]) as [->|_]; [|now rewrite <- app_assoc].
      now apply place_not_double in P. }
    unfold ends_with. cbn [h_basedir h_quote]. rewrite Y, OP, SK. destruct (is_dir s (D ++ [name])); rewrite EN; cbn [app]; now rewrite <- !app_assoc.
  - intros e EE. split; [|apply place_file; auto]. apply quoted_stands; auto.
    + rewrite app_assoc. intros Z. apply in_app_or in Z as [Z|Z].
      * apply in_app_or in Z as [Z|Z]; auto. apply NQ, in_or_app. now left.
      * destruct (quote_facts q Q) as (_ & _ & _ & _ & NS & _). destruct EE as [->| ->]; [destruct Z|]. destruct Z as [Z|[]]. congruence.
    + rewrite app_assoc. intros Z. apply in_app_or in Z as [Z|Z]; auto. destruct EE as [->| ->]; [destruct Z|]. destruct Z as [Z|[]]. discriminate.
Qed.
Print Assumptions c50_quoted_partial.

(* ---- where the completed word is not the file ---- *)
Lemma typed_scan_sep : forall sh w v, typed sh w v -> forall c rest, isspace c = true \/ terminator sh c = true ->
  scan_string (terminator sh) None (w ++ c :: rest) = Ok (w, c :: rest).
Proof.
  induction 1 as [|d w v T IH|d w v S K Q B T IH]; intros c rest H; cbn [app scan_string].
  - replace (isspace c || terminator sh c) with true by (symmetry; apply orb_true_iff; tauto). reflexivity.
  - change (isspace bslash) with false. replace (terminator sh bslash) with false by (destruct sh; reflexivity).
    change (is_quote bslash) with false. change (bslash =? bslash) with true. cbv iota. cbn [orb]. now rewrite IH.
  - rewrite S, K, Q. apply Ascii.eqb_neq in B. rewrite B. cbn [orb]. now rewrite IH.
Qed.

(* the word as read is cut *)
Lemma cut_word : forall sh w v c rest, typed sh w v -> w <> [] -> starts_word w -> isspace c = true \/ terminator sh c = true ->
  forall chars word rest', next_token sh (w ++ c :: rest) = Ok (Some (mktok (KString chars) word, rest')) -> word = w.
Proof.
  intros sh w v c rest T N S H chars word rest' E. destruct w as [|a w]; [congruence|]. destruct S as (SP & M & QU & A & BG).
  assert (NE : forall b t, marcel_term b = true -> starts (b :: t) ((a :: w) ++ c :: rest) = false).
  { intros b t MB. cbn. destruct (b =? a) eqn:Q; auto. apply Ascii.eqb_eq in Q; subst. congruence. }
  pose proof (typed_scan_sep sh (a :: w) v T c rest H) as SC. pose proof (typed_literal sh (a :: w) v T N) as L.
  assert (R : raw_token sh ((a :: w) ++ c :: rest) = Ok (Some (mktok (KString (a :: w)) (a :: w), c :: rest))).
  { unfold raw_token. cbn [app] in *.
    assert (X1 : starts ["@"] (a :: w ++ c :: rest) = false) by (rewrite starts_one; apply Ascii.eqb_neq; congruence).
    assert (X2 : starts ["!"] (a :: w ++ c :: rest) = false) by (rewrite starts_one; apply Ascii.eqb_neq; congruence).
    rewrite X1, X2, !andb_false_r. rewrite !NE by reflexivity. rewrite ?andb_false_r. unfold terminator in SC. rewrite SC, L.
    change (a :: w ++ c :: rest) with ((a :: w) ++ c :: rest). now rewrite taken_app. }
  unfold next_token, unconsolidated in E. cbn [app skip_ws] in E. rewrite SP in E. cbn [app] in R. rewrite R in E.
  destruct (gather _ _ _ _ _) as [(ks, r)| | |] eqn:G; try discriminate.
  apply gather_ok in G as (extra & w' & -> & _).
  2: { intros x y Z. clear -Z. revert Z. generalize (c :: rest). induction l as [|d l IH]; cbn [skip_ws]; [discriminate|].
       destruct (isspace d) eqn:SD; auto. intros Z. injection Z as <- _. exact SD. }
  destruct extra as [|k extra]; cbn [rev app] in E.
  - injection E as E1 E2 E3. congruence.
  - unfold consolidate in E. destruct (expression _); discriminate.
Qed.

(* = , # and the less usual blanks are not escaped: the completed word ends there. *)
Theorem c50_separator_refuted : forall sh w v dir prefix name x c y value,
  typed sh w v -> w <> [] -> starts_word w -> starts [bslash; SLASH] w = false -> last_slash v dir prefix ->
  name = prefix ++ x ++ c :: y -> no_separator sh x -> separator sh c ->
  ~ stands_for sh (completed w w name) value.
Proof.
  intros sh w v dir prefix name x c y value T N SW NB L EN NX SC (chars & LI & W).
  assert (UQ : unquoted w). { destruct w; [exact I|]. now destruct SW as (_ & _ & H & _). }
  destruct (handler_dir (mkfsys (fun _ => false) (fun _ => false) (fun _ => false) (fun _ => []) (fun _ => None)) [] sh w v dir prefix T UQ NB L) as (H1 & H2 & H3 & _).
  assert (EE : forall n, completed w w (prefix ++ n) = completed w w prefix ++ escape n).
  { intros n. unfold completed, completion_text. rewrite H1, H2, H3. rewrite skipn_app, Nat.sub_diag, skipn_all. cbn [skipn app]. destruct (last_char_replacement w); [|now rewrite app_nil_r].
    cbn [escape]. now rewrite <- !app_assoc. }
  assert (ES : forall a b, escape (a ++ b) = escape a ++ escape b).
  { induction a as [|d a IH]; intros b; cbn [app escape]; auto. rewrite IH. now destruct (needs_escape d). }
  assert (K : exists wc vc, typed sh wc vc /\ wc <> [] /\ starts_word wc /\ wc = completed w w (prefix ++ x)).
  { destruct (completed_typed sh w v (prefix ++ x) prefix T UQ H3 H1 H2) as (TC & K). { rewrite skipn_app, Nat.sub_diag, skipn_all. exact NX. }
    exists (completed w w (prefix ++ x)), (v ++ skipn (length prefix) (prefix ++ x)). split; auto.
    destruct K as [->|(w' & d & -> & ->)].
    - destruct w as [|a w]; [congruence|]. cbn [app]. split; [discriminate|]. split; auto.
    - split; [destruct w'; discriminate|]. split; auto. destruct w' as [|a w']; [|exact SW]. cbn. repeat split; discriminate. }
  destruct K as (wc & vc & TC & NC & SWC & EC).
  assert (EQ : completed w w name = wc ++ c :: escape y).
  { rewrite EN, EC, !EE, ES, <- app_assoc. f_equal. cbn [escape]. destruct SC as (_ & SC). now rewrite SC. }
  specialize (W []). rewrite EQ in W. rewrite <- app_assoc in W. cbn [app] in W.
  apply (cut_word sh wc vc c (escape y ++ [" "]) TC NC SWC) in W; [|apply SC].
  apply (f_equal (@length ascii)) in W. rewrite app_length in W. cbn in W. lia.
Qed.
Print Assumptions c50_separator_refuted.

(* The quote in a name is not escaped in a quoted word: the closing quote opens another string, which has no end. *)
Theorem c50_quote_refuted : forall sh q u dir prefix name x y value, is_quote q = true -> last_slash u dir prefix -> ~ In q u -> ~ In bslash u ->
  name = prefix ++ x ++ q :: y -> ~ In q x -> ~ In bslash x ->
  Forall (fun c => isspace c = false /\ terminator sh c = false /\ is_quote c = false /\ c <> bslash) y ->
  ~ stands_for sh (completed (q :: u) (q :: u) name ++ [q]) value.
Proof.
  intros sh q u dir prefix name x y value Q L NQ NB EN NQX NBX F (chars & LI & W).
  destruct (handler_quoted q u dir prefix Q L NB) as (b & H & _). destruct (quote_facts q Q) as (SP & MT & QA & QB & _ & _ & T).
  assert (NP : ~ In bslash prefix). { intros Z. apply NB. destruct L as (-> & _). apply in_or_app. now right. }
  assert (EC : completed (q :: u) (q :: u) name ++ [q] = q :: (u ++ x) ++ q :: y ++ [q]).
  { unfold completed, completion_text. rewrite H. cbn [h_quote h_prefix h_unquoted]. rewrite Nat.sub_0_r, firstn_all, unesc_plain by auto.
    rewrite EN, skipn_app, Nat.sub_diag, skipn_all. cbn [skipn app]. rewrite <- !app_assoc. reflexivity. }
  specialize (W ["x"]). rewrite EC in W.
  assert (SC : scan_string (terminator sh) None (q :: (u ++ x) ++ q :: y ++ q :: [" "; "x"]) = Ok (q :: (u ++ x) ++ q :: y ++ q :: [" "; "x"], [])).
  { cbn [scan_string]. rewrite SP, T, Q. cbn [orb].
    rewrite quoted_scan; auto; try (intros Z; apply in_app_or in Z as [Z|Z]; auto).
    assert (Y : scan_string (terminator sh) None (y ++ [q; " "; "x"]) = Ok (y ++ [q; " "; "x"], [])).
    { clear -F SP T Q. induction F as [|d y (A & B & C & D) F IH]; cbn [app scan_string].
      - rewrite SP, T, Q. cbn [orb]. change (isspace " ") with true. cbn [orb]. change (isspace "x") with false.
        replace (terminator sh "x") with false by (destruct sh; reflexivity). reflexivity.
      - rewrite A, B, C. apply Ascii.eqb_neq in D. rewrite D. cbn [orb]. now rewrite IH. }
    rewrite Y. cbn [scons]. rewrite <- app_assoc. reflexivity. }
  assert (EQ : (q :: (u ++ x) ++ q :: y ++ [q]) ++ [" "; "x"] = q :: (u ++ x) ++ q :: y ++ q :: [" "; "x"]).
  { cbn [app]. rewrite <- !app_assoc. cbn [app]. rewrite <- !app_assoc. reflexivity. }
  change ((q :: (u ++ x) ++ q :: y ++ [q]) ++ " " :: ["x"]) with ((q :: (u ++ x) ++ q :: y ++ [q]) ++ [" "; "x"]) in W. rewrite EQ in W.
  set (all := (u ++ x) ++ q :: y ++ q :: [" "; "x"]) in *.
  assert (LI' : exists v', literal (q :: all) = Ok v') by (unfold literal; rewrite Q; eauto). destruct LI' as (v' & LI').
  assert (NE : forall a t, marcel_term a = true -> starts (a :: t) (q :: all) = false).
  { intros a t MA. cbn. destruct (a =? q) eqn:QE; auto. apply Ascii.eqb_eq in QE; subst. congruence. }
  assert (R : raw_token sh (q :: all) = Ok (Some (mktok (KString (q :: all)) (q :: all), []))).
  { unfold raw_token. unfold terminator in SC.
    assert (X1 : starts ["@"] (q :: all) = false) by (rewrite starts_one; apply Ascii.eqb_neq; congruence).
    assert (X2 : starts ["!"] (q :: all) = false) by (rewrite starts_one; apply Ascii.eqb_neq; congruence).
    rewrite X1, X2, !andb_false_r. rewrite !NE by reflexivity. rewrite ?andb_false_r. rewrite SC, LI'.
    unfold taken. cbn [length]. rewrite Nat.sub_0_r. now rewrite firstn_all2. }
  unfold next_token, unconsolidated in W. cbn [skip_ws] in W. rewrite SP, R in W. cbn [andb] in W. rewrite gather_false in W. cbn [rev app] in W.
  injection W as _ W _. apply (f_equal (@length ascii)) in W. unfold all in W. rewrite !app_length in W. cbn [length] in W. rewrite !app_length in W. cbn in W. lia.
Qed.
Print Assumptions c50_quote_refuted.

(* A file whose name starts with ~, in the current directory: the word stands for that name, which as a
   filename argument is the home directory of somebody, or an error. *)
Theorem c50_tilde_refuted : forall s fuel (cwd : path) sh (user : text), simple (TILDE :: user) -> no_separator sh user -> no_separator false user ->
  stands_for sh (completed [] [] (TILDE :: user)) (TILDE :: user) /\
  normalized s cwd (FnStr (TILDE :: user)) = match home s user with Some h => Done (false, h) | None => Raises end /\
  (home s user = None -> normalize s fuel cwd [FnStr (TILDE :: user)] = Raises).
Proof.
  intros s fuel cwd sh user S N1 N2.
  assert (NS : forall b, no_separator b user -> no_separator b (TILDE :: user)).
  { intros b H. constructor; auto. intros ([H1|H1] & _); [discriminate|destruct b; discriminate]. }
  assert (A : normalized s cwd (FnStr (TILDE :: user)) = match home s user with Some h => Done (false, h) | None => Raises end).
  { destruct S as (O & B & _). destruct (c51_written s cwd (TILDE :: user) []) as (_ & _ & W); [constructor; auto|constructor; auto|].
    assert (E : relative [TILDE :: user] = TILDE :: user) by (unfold relative, posix; cbn; now rewrite app_nil_r). change (normalized s cwd (FnStr (relative [TILDE :: user])) = match home s user with Some h => Done (false, h ++ []) | None => Raises end) in W.
    rewrite <- E at 1. rewrite W. destruct (home s user); auto. now rewrite app_nil_r. }
  split; [|split; auto].
  - apply (c50_word_partial sh [] [] [] [] (TILDE :: user) (TILDE :: user)); auto; try exact I; try discriminate; [constructor|].
    split; auto.
  - intros H. rewrite H in A. apply c51_refused. exists (FnStr (TILDE :: user)). split; [now left|auto].
Qed.
Print Assumptions c50_tilde_refuted.

(* Escaping a wildcard does not help: the word stands for the name, and the name is read as a pattern.  The file a[c]b in
   a directory given by its path is completed to a word that designates acb or nothing. *)
Theorem c50_bracket_refuted : forall s fuel cwd sh d0 d last prefix a c b suffix, depth s fuel -> Forall simple (d0 :: d) ->
  ~ wild a -> ~ wild b -> ~ In SLASH a -> ~ In SLASH b -> ~ In bslash a -> ~ In bslash b -> ~ In c ["!"; "]"; SLASH; bslash] ->
  typed sh (posix (d0 :: d) ++ SLASH :: last) (posix (d0 :: d) ++ SLASH :: prefix) -> bracketed a c b = prefix ++ suffix -> no_separator sh suffix ->
  exists value, stands_for sh (completed (posix (d0 :: d) ++ SLASH :: last) (posix (d0 :: d) ++ SLASH :: last) (bracketed a c b)) value /\
    forall roots, normalize s fuel cwd [FnStr value] = Done roots -> forall q, In q roots -> q = d0 :: d ++ [a ++ c :: b].
Proof.
  intros s fuel cwd sh d0 d last prefix a c b suffix DE F WA WB SA SB BA BB NC T E NS.
  assert (NBR : ~ In SLASH (bracketed a c b)). { apply bracketed_ordinary; auto. intros ->. apply NC. cbn. auto. }
  assert (NSP : ~ In SLASH prefix). { intros H. apply NBR. rewrite E. apply in_or_app. now left. }
  exists ((posix (d0 :: d) ++ [SLASH]) ++ bracketed a c b). split.
  - eapply c50_word_partial; eauto.
    + unfold posix. cbn. repeat split; discriminate.
    + split; [rewrite <- app_assoc; reflexivity|]. split; eauto.
    + unfold bracketed. destruct a; discriminate.
    + discriminate.
  - intros roots R q I. rewrite <- app_assoc in R. cbn [app] in R. rewrite posix_snoc in R.
    change (d0 :: d ++ [a ++ c :: b]) with ((d0 :: d) ++ [a ++ c :: b]).
    eapply (c51_bracket_refuted s fuel cwd (d0 :: d) a c b roots); eauto.
Qed.
Print Assumptions c50_bracket_refuted.

(* And the file with a backslash in its name is never designated by its completed word *)
Theorem c50_backslash_refuted : forall s fuel cwd sh d0 d last prefix name suffix, depth s fuel -> Forall simple (d0 :: d) ->
  ordinary name -> ~ wild name -> In bslash name ->
  typed sh (posix (d0 :: d) ++ SLASH :: last) (posix (d0 :: d) ++ SLASH :: prefix) -> name = prefix ++ suffix -> no_separator sh suffix ->
  exists value, stands_for sh (completed (posix (d0 :: d) ++ SLASH :: last) (posix (d0 :: d) ++ SLASH :: last) name) value /\
    forall roots, normalize s fuel cwd [FnStr value] = Done roots -> ~ In (d0 :: d ++ [name]) roots.
Proof.
  intros s fuel cwd sh d0 d last prefix name suffix DE F O W B T E NS.
  assert (NSP : ~ In SLASH prefix). { destruct O as (_ & _ & _ & O). intros H. apply O. rewrite E. apply in_or_app. now left. }
  exists ((posix (d0 :: d) ++ [SLASH]) ++ name). split.
  - eapply c50_word_partial; eauto.
    + unfold posix. cbn. repeat split; discriminate.
    + split; [rewrite <- app_assoc; reflexivity|]. split; eauto.
    + apply O.
    + discriminate.
  - intros roots R. rewrite <- app_assoc in R. cbn [app] in R. rewrite posix_snoc in R.
    change (d0 :: d ++ [name]) with ((d0 :: d) ++ [name]) in *.
    apply (c51_backslash_refuted s fuel cwd ((d0 :: d) ++ [name]) roots DE); auto; try discriminate.
    + apply Forall_app. split; [|constructor; auto]. now apply simple_parts.
    + apply Forall_app. split; [|constructor; auto]. eapply Forall_impl; [|exact F]. intros x (_ & _ & H). exact H.
    + apply Exists_exists. exists name. split; auto. apply in_or_app. right. now left.
Qed.
Print Assumptions c50_backslash_refuted.

(* ---- examples: the files of ex_fs (GlobRefuted.v); cp /t/b[tab], cp /t/a[tab], cp '/t/b[tab] ---- *)
Example ex_offered : candidates ex_fs [txt "t"] (filename_handler (txt "/t/a")) = [txt "a1"; txt "a[1]"].
Proof. vm_compute. reflexivity. Qed.
Example ex_completed : completed_line ex_fs [txt "t"] (txt "/t/b") (txt "/t/b") (txt "b c") = txt "/t/b\ c " /\
  completed_line ex_fs [txt "t"] (txt "'/t/b") (txt "'/t/b") (txt "b c") = txt "'/t/b c' " /\
  completed_line ex_fs [txt "t"] (txt "/") (txt "/") (txt "t") = txt "/t/" /\
  completed_line ex_fs [txt "t"] (txt "a[") (txt "a[") (txt "a[1]") = txt "a\[1] ".
Proof. vm_compute. auto. Qed.
Example ex_designates : exists word, completed_line ex_fs [txt "t"] (txt "b") (txt "b") (txt "b c") = word ++ [" "] /\
  exists value, stands_for false word value /\ normalize ex_fs 1 [txt "t"] [FnStr value] = Done [[txt "t"; txt "b c"]].
Proof.
  destruct (c50_designates_partial ex_fs 1 [txt "t"] false [] [txt "t"] (txt "b") (txt "b") (txt "b c") (txt " c")) as (word & A & B); eauto.
  - apply ex_depth.
  - apply ex_consistent.
  - apply ex_consistent.
  - constructor; [|constructor]. pose proof ex_simple as F. inversion F as [|? ? (_ & _ & H) _]; subst. exact H.
  - apply place_here.
  - apply typed_char; try reflexivity; [discriminate|constructor].
  - cbn. repeat split; discriminate.
  - intros [H|[]]. discriminate.
  - pose proof ex_simple as F. inversion F as [|? ? _ F']; subst. now inversion F'.
  - discriminate.
  - unfold no_separator, separator. repeat (apply Forall_cons; [intros ([H|H] & K); discriminate|]). constructor.
  - discriminate.
Qed.
(* = in a name *)
Example ex_separator : completed_line ex_fs [txt "t"] (txt "b") (txt "b") (txt "b=c") = txt "b=c " /\
  exists rest, next_token false (txt "b=c ") = Ok (Some (mktok (KString (txt "b")) (txt "b"), rest)).
Proof. vm_compute. eauto. Qed.
(* A directory below one whose name was typed with an escape: the test is made on the text as typed, so that a blank is
   appended instead of a slash. *)
Example ex_escaped_dir : let s := mkfsys (fun _ => true) (fun p => negb (existsb (existsb (Ascii.eqb bslash)) p)) (fun _ => false)
    (fun p => if text_eqb (posix p) (txt "/x y") then [txt "dir"] else []) (fun _ => None) in
  candidates s [] (filename_handler (txt "/x\ y/d")) = [txt "dir"] /\ is_dir s [txt "x y"; txt "dir"] = true /\
  completed_line s [] (txt "/x\ y/d") (txt "/x\ y/d") (txt "dir") = txt "/x\ y/dir ".
Proof. vm_compute. auto. Qed.
