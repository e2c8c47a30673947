(** C27 and C28: command lines as tokens; quoting. *)
From Verif.Syntax Require Import LexerFacts2.
Local Open Scope char_scope.
Local Open Scope list_scope.

(** ** C27: tokenizing *)

(** If a line is tokenized, the line is the texts of the tokens, in order, separated by white space
    and possibly followed by a comment; and the content of each token is its text, or the token is a
    run of adjacent strings and expressions read as (the start of) one formatted string. *)
Theorem c27_tiles_partial : forall modes t ks, tokens modes t = Ok ks ->
  tiles t (map raw ks) /\ Forall (fun k => faithful k \/ exists js, joined k js) ks.
Proof. intros modes t ks H. eapply lex_tiles; exact H. Qed.
Print Assumptions c27_tiles_partial.

(** Tokenizing terminates. *)
Theorem c27_terminates : forall modes t, tokens modes t <> Fuel.
Proof. intros. apply lex_fuel. lia. Qed.
Print Assumptions c27_terminates.

(** A line without backslashes and without [#] is tokenized or reported as an error: there is no
    unexpected exception. *)
Theorem c27_no_crash_partial : forall modes t, ~ In bslash t -> ~ In "#" t ->
  (exists ks, tokens modes t = Ok ks) \/ tokens modes t = Err.
Proof.
  intros modes t B H. pose proof (lex_no_crash (S (length t)) modes 0 t B H) as C.
  pose proof (c27_terminates modes t) as F. unfold tokens in *.
  destruct (lex (S (length t)) modes 0 t); eauto; easy.
Qed.
Print Assumptions c27_no_crash_partial.

(** In a line without backslashes and single quotes, nothing is lost: a token is its text, or the whole
    formatted string made of its pieces. *)
Theorem c27_joined_whole_partial : forall modes t ks, ~ In bslash t -> ~ In squote t ->
  tokens modes t = Ok ks ->
  Forall (fun k => faithful k \/ exists js, joined k js /\ tkind k = KExpr (formatted js)) ks.
Proof. intros modes t ks B S H. eapply lex_whole; eauto. Qed.
Print Assumptions c27_joined_whole_partial.

(** Examples: a pipeline; adjacent strings and expressions. *)
Example c27_case :
  tokens (fun _ => false) (txt "gen 5 | map (x: ')' * x) # all") =
  Ok [mktok (KString (txt "gen")) (txt "gen"); mktok (KString (txt "5")) (txt "5");
      mktok KPipe (txt "|"); mktok (KString (txt "map")) (txt "map");
      mktok (KExpr (txt "x: ')' * x")) (txt "(x: ')' * x)")].
Proof. reflexivity. Qed.

Example c27_case_joined :
  tokens (fun _ => false) (txt "a(x)b (| b |)") =
  Ok [mktok (KExpr (txt "f'''a{x}b'''")) (txt "a(x)b");
      mktok KBegin (txt "(|"); mktok (KString (txt "b")) (txt "b"); mktok KEnd (txt "|)")].
Proof. reflexivity. Qed.

(** The full property fails. Text can be lost without an error: the pieces of this line are the string
    from its first character to its last double quote, and the expression [(x)]; the token's content
    ends at the third single quote, and the rest is gone. *)
Theorem c27_refuted_lost :
  let t := ["a"; dquote; squote; squote; squote; ")"; ","; dquote; "("; "x"; ")"] in
  exists s, tokens (fun _ => false) t = Ok [mktok (KExpr s) t] /\
    s = txt "f'''a" ++ [dquote; squote; squote; squote] /\ ~ In "x" s.
Proof.
  intros t. eexists. split; [vm_compute; reflexivity|]. split; [reflexivity|].
  cbn. intuition discriminate.
Qed.
Print Assumptions c27_refuted_lost.

(** A comment right after a word, a backslash ending the line in double quotes, and one ending the line
    outside quotes, raise exceptions that are not error reports (AttributeError, TypeError, Exception). *)
Theorem c27_refuted_crash : forall shell : bool,
  tokens (fun _ => shell) (dquote :: txt "ab\") = Crash /\
  tokens (fun _ => shell) (txt "ab\") = Crash /\
  tokens (fun _ => false) (txt "a#") = Crash.
Proof. intros []; repeat split; reflexivity. Qed.
Print Assumptions c27_refuted_crash.

(** An unclosed parenthesis at the end of a line is not reported if the last character closes another. *)
Theorem c27_unbalanced_accepted :
  tokens (fun _ => false) (txt "map ((a)") = 
    Ok [mktok (KString (txt "map")) (txt "map"); mktok (KExpr (txt "(a")) (txt "((a)")].
Proof. reflexivity. Qed.
Print Assumptions c27_unbalanced_accepted.

(** ** C28: every text can be written *)

(** Every non-empty text, with any characters in it, written with a backslash before each character, is
    read back, both by marcel's operators and by the shell's commands. *)
Theorem c28_backslashes : forall shell t, t <> [] -> reads_as shell (backslashed t) t.
Proof.
  intros shell [|c t] NE; [easy|]. exists (backslashed (c :: t)).
  assert (S : forall term : ascii -> bool, term bslash = false ->
    scan_string term None (backslashed (c :: t)) = Ok (backslashed (c :: t), [])) by (intros; now apply scan_backslashed).
  assert (L : literal (backslashed (c :: t)) = Ok (c :: t, false)).
  { unfold literal. pose proof (unescape_backslashed (c :: t)) as U. 
    change (backslashed (c :: t)) with (bslash :: c :: backslashed t) in *. 
    change (is_quote bslash) with false. cbn iota. now rewrite U. }
  split; auto. 
  change (backslashed (c :: t)) with (bslash :: c :: backslashed t) in *.
  eapply one_token; eauto; try reflexivity; try discriminate. destruct shell; apply S; reflexivity.
Qed.
Print Assumptions c28_backslashes.

Lemma last_snoc' : forall (t : text) c d, last (t ++ [c]) d = c.
Proof. intros. now rewrite last_last. Qed.

Theorem c28_single_quotes : forall shell t, ~ In squote t -> reads_as shell (single_quoted t) t.
Proof.
  intros shell t N. exists (single_quoted t).
  assert (L : literal (single_quoted t) = Ok (t, false)).
  { unfold single_quoted, literal. change (is_quote squote) with true. cbn iota.
    change (squote :: t ++ [squote]) with ((squote :: t) ++ [squote]). rewrite last_snoc', Ascii.eqb_refl.
    cbn [negb]. now rewrite removelast_last. }
  split; auto. unfold single_quoted in *.
  eapply one_token; eauto; try reflexivity; try discriminate.
  assert (S : forall term : ascii -> bool, term squote = false ->
    scan_string term None (squote :: t ++ [squote]) = Ok (squote :: t ++ [squote], [])).
  { intros term HT. cbn [scan_string]. change (isspace squote) with false. rewrite HT. cbn [orb].
    change (is_quote squote) with true. cbn iota. now rewrite scan_single. }
  destruct shell; apply S; reflexivity.
Qed.
Print Assumptions c28_single_quotes.

Theorem c28_double_quotes : forall shell t, ~ In dquote t -> reads_as shell (double_quoted t) t.
Proof.
  intros shell t N. exists (dquote :: t ++ [dquote]).
  assert (L : literal (dquote :: t ++ [dquote]) = Ok (t, false)).
  { unfold literal. change (is_quote dquote) with true. cbn iota.
    change (dquote :: t ++ [dquote]) with ((dquote :: t) ++ [dquote]). rewrite last_snoc', Ascii.eqb_refl.
    cbn [negb]. now rewrite removelast_last. }
  split; auto. unfold double_quoted. fold (dq_body t).
  eapply one_token; eauto; try reflexivity; try discriminate.
  assert (S : forall term : ascii -> bool, term dquote = false -> term bslash = false ->
    scan_string term None (dquote :: dq_body t ++ [dquote]) = Ok (dquote :: t ++ [dquote], [])).
  { intros term HT HB. cbn [scan_string]. change (isspace dquote) with false. rewrite HT. cbn [orb].
    change (is_quote dquote) with true. cbn iota. now rewrite scan_double. }
  destruct shell; apply S; reflexivity.
Qed.
Print Assumptions c28_double_quotes.

(** A word of ordinary characters stands for itself. *)
Theorem c28_plain : forall shell t, t <> [] -> Forall ordinary t -> reads_as shell t t.
Proof.
  intros shell [|c t] NE F; [easy|]. exists (c :: t). inversion F as [|? ? O F']; subst.
  assert (B : ~ In bslash (c :: t)).
  { intro I. rewrite Forall_forall in F. apply F in I as (_ & _ & _ & X & _). now apply X. }
  assert (L : literal (c :: t) = Ok (c :: t, false)).
  { unfold literal. destruct O as (_ & _ & Q & _). rewrite Q, unescape_plain; auto. }
  split; auto. destruct O as (S & M & Q & NB & A & BG).
  eapply one_token; eauto. apply scan_ordinary; auto.
  intros d (_ & MD & _). destruct shell; auto. unfold marcel_term, shell_term in *.
  cbn in *. rewrite !orb_false_iff in *. tauto.
Qed.
Print Assumptions c28_plain.

(** So every text has a form that is read back as the text. *)
Theorem c28_every_text : forall shell t, exists line, reads_as shell line t.
Proof.
  intros shell [|c t].
  - exists (single_quoted []). apply c28_single_quotes. intros [].
  - exists (backslashed (c :: t)). now apply c28_backslashes.
Qed.
Print Assumptions c28_every_text.

(** In a line without backslashes, only the quote around it is removed, if it starts with one. *)
Theorem c28_only_quotes_removed : forall shell line t, ~ In bslash line -> reads_as shell line t ->
  line = t \/ exists q, is_quote q = true /\ (line = q :: t ++ [q] \/ line = [q] /\ t = []).
Proof.
  intros shell line t N (chars & E & L).
  apply c27_tiles_partial in E as [_ F]. inversion F as [|? ? F1 _]; subst. cbn in F1.
  destruct F1 as [F1|(js & J)]; [|destruct J as (_ & _ & _ & _ & s & lost & X & _); discriminate].
  cbn in F1. rewrite (F1 N) in L. unfold literal in L. destruct line as [|c r]; [discriminate|].
  destruct (is_quote c) eqn:Q.
  - right. exists c. split; auto. injection L as L1 L2. apply negb_false_iff, Ascii.eqb_eq in L2.
    destruct r as [|d r].
    + right. split; auto. cbn in L1. rewrite Ascii.eqb_refl in L1. now cbn in L1.
    + left. assert (L3 : last (d :: r) c = c) by exact L2.
      change (last (c :: d :: r) c) with (last (d :: r) c) in L1. rewrite L3, Ascii.eqb_refl in L1. cbn [negb] in L1.
      f_equal. rewrite (app_removelast_last c (l := d :: r)) by discriminate. now rewrite L1, L3.
  - left. rewrite unescape_plain in L by auto. congruence.
Qed.
Print Assumptions c28_only_quotes_removed.

Example c28_case : reads_as false (backslashed (txt "a b'#|")) (txt "a b'#|") /\
                   reads_as true (single_quoted (txt "a|b")) (txt "a|b") /\
                   reads_as false (double_quoted (txt "it's \n")) (txt "it's \n").
Proof.
  repeat split; [apply c28_backslashes; discriminate | apply c28_single_quotes | apply c28_double_quotes];
    cbn; intuition discriminate.
Qed.

(** A missing closing quote is flagged (the parser then reports it). *)
Theorem c28_missing_quote : forall t q, is_quote q = true -> t <> [] -> ~ In q t ->
  literal (q :: t) = Ok (t, true).
Proof.
  intros t q Q NE N. unfold literal. rewrite Q.
  assert (X : (last (q :: t) q =? q) = false).
  { apply Ascii.eqb_neq. intro E. apply N. destruct t as [|c t]; [easy|].
    change (last (q :: c :: t) q) with (last (c :: t) q) in E.
    rewrite (app_removelast_last q NE), E. apply in_or_app. right. now left. }
  now rewrite X.
Qed.
Print Assumptions c28_missing_quote.

(** But a lone quote is taken for the empty string, not flagged as missing its partner; quotes in the
    middle of a word are kept as part of the text; and a double quote escaped inside double quotes keeps its backslash. *)
Theorem c28_lone_quote : literal [squote] = Ok ([], false).
Proof. reflexivity. Qed.
Print Assumptions c28_lone_quote.

Theorem c28_inner_quotes_kept : reads_as false (txt "a'b c'") (txt "a'b c'").
Proof. eexists. split; vm_compute; reflexivity. Qed.
Print Assumptions c28_inner_quotes_kept.

Theorem c28_escaped_quote_kept : 
  reads_as false [dquote; "a"; bslash; dquote; "b"; dquote] ["a"; bslash; dquote; "b"].
Proof. eexists. split; vm_compute; reflexivity. Qed.
Print Assumptions c28_escaped_quote_kept.

(** An expression in parentheses is read up to the parenthesis that matches the first one, whatever parentheses and
    strings it contains. *)
Lemma pstr_inside : forall q s rest, is_quote q = true -> inside q s -> pstr q false (s ++ q :: rest) = Ok rest.
Proof.
  intros q s rest Q I. induction I as [|c t N B I IH|c t I IH]; cbn [app pstr].
  - rewrite Q, Ascii.eqb_refl. reflexivity.
  - apply Ascii.eqb_neq in N, B. rewrite N, B. destruct (is_quote c); exact IH.
  - change (is_quote bslash) with false. cbn iota. exact IH.
Qed.
Lemma python_string_inside : forall q s rest, is_quote q = true -> s <> [] -> inside q s ->
  python_string q (s ++ q :: rest) = Ok rest.
Proof.
  intros q s rest Q N I. unfold python_string.
  assert (T : two_quotes q (s ++ q :: rest) = None).
  { destruct s as [|c s]; [easy|]. cbn [app two_quotes]. assert (C : (c =? q) = false).
    { apply Ascii.eqb_neq. inversion I; subst; auto. intros <-. discriminate. }
    destruct (s ++ q :: rest); auto. now rewrite C. }
  rewrite T. now apply pstr_inside.
Qed.
Lemma escan_balanced : forall t, balanced t -> forall f n prev rest, 0 < n -> length (t ++ ")" :: rest) <= f ->
  exists f' p', length rest <= f' /\ escan f n prev (t ++ ")" :: rest) = escan f' (n - 1) p' rest.
Proof.
  intros t B. induction B as [|c t O C Q B IH|q s t Q NE I B IH|s t B1 IH1 B2 IH2]; intros f n prev rest N L.
  - destruct n as [|n]; [lia|]. destruct f as [|f]; [cbn in L; lia|]. exists f, ")". split; [cbn in L; lia|]. reflexivity.
  - destruct n as [|n]; [lia|]. destruct f as [|f]; [cbn in L; lia|]. cbn [app escan].
    apply Ascii.eqb_neq in O, C. rewrite O, C, Q. apply IH; [lia|]. cbn in L |- *. lia.
  - destruct n as [|n]; [lia|]. destruct f as [|f]; [cbn in L; lia|]. rewrite <- app_comm_cons. cbn [escan].
    assert (E1 : (q =? "(") = false) by (apply Ascii.eqb_neq; intros ->; discriminate).
    assert (E2 : (q =? ")") = false) by (apply Ascii.eqb_neq; intros ->; discriminate).
    rewrite E1, E2, Q, <- app_assoc, <- app_comm_cons, python_string_inside by auto. apply IH; [lia|].
    cbn in L |- *. rewrite ?app_length in *. cbn in L |- *. rewrite ?app_length in *. cbn in L |- *. lia.
  - destruct n as [|n]; [lia|]. destruct f as [|f]; [cbn in L; lia|]. rewrite <- app_comm_cons. cbn [escan].
    change ("(" =? "(") with true. cbv iota.
    replace ((s ++ ")" :: t) ++ ")" :: rest) with (s ++ ")" :: (t ++ ")" :: rest)) by now rewrite <- app_assoc.
    destruct (IH1 f (S (S n)) "(" (t ++ ")" :: rest)) as (f1 & p1 & L1 & ->); [lia| |].
    { cbn in L |- *. repeat (rewrite ?app_length in *; cbn in L |- *). lia. }
    apply IH2; auto.
Qed.
Lemma expression_balanced : forall t rest, balanced t -> expression ("(" :: t ++ ")" :: rest) = Ok rest.
Proof.
  intros t rest B. unfold expression.
  destruct (escan_balanced t B (length (t ++ ")" :: rest)) 1 "(" rest) as (f & p & _ & ->); try lia.
  cbn. destruct f; reflexivity.
Qed.
Theorem c27_expression_whole : forall modes t rest ks, balanced t -> hd_error t <> Some "|" ->
  (rest = [] \/ exists c r, rest = c :: r /\ isspace c = true) ->
  tokens modes ("(" :: t ++ ")" :: rest) = Ok ks ->
  exists ks', ks = mktok (KExpr t) ("(" :: t ++ [")"]) :: ks' /\ tiles rest (map raw ks').
Proof.
  intros modes t rest ks B H R T.
  pose proof (c27_tiles_partial _ _ _ T) as (TI & _).
  unfold tokens in T. cbn [lex] in T.
  assert (X : next_token (modes 0) ("(" :: t ++ ")" :: rest) = Ok (Some (mktok (KExpr t) ("(" :: t ++ [")"]), skip_ws rest))).
  { unfold next_token, unconsolidated. change (skip_ws ("(" :: t ++ ")" :: rest)) with ("(" :: t ++ ")" :: rest).
    unfold raw_token.
    assert (S1 : starts ["("; "|"] ("(" :: t ++ ")" :: rest) = false).
    { cbn [starts]. destruct t as [|c t]; cbn [app starts]; [reflexivity|]. destruct ("|" =? c) eqn:E; [|now rewrite andb_false_r].
      apply Ascii.eqb_eq in E. subst c. now contradiction H. }
    assert (S2 : starts ["|"; ")"] ("(" :: t ++ ")" :: rest) = false) by reflexivity.
    assert (S3 : starts ["("] ("(" :: t ++ ")" :: rest) = true) by reflexivity.
    rewrite S1, S2, S3, !andb_false_r, expression_balanced by auto.
    pose proof (expr_source_split (t ++ ")" :: rest) rest (expression_balanced t rest B)) as ES.
    apply app_inv_tail in ES. 
    assert (TK : taken ("(" :: t ++ ")" :: rest) rest = "(" :: t ++ [")"]).
    { replace ("(" :: t ++ ")" :: rest) with (("(" :: t ++ [")"]) ++ rest) by (cbn; now rewrite <- app_assoc). apply taken_app. }
    rewrite ES, TK.
    assert (AD : match rest with [] => false | c :: _ => negb (isspace c) end = false).
    { destruct R as [->|(c & r & -> & E)]; auto. now rewrite E. }
    rewrite AD. cbn [andb]. rewrite gather_false. reflexivity. }
  rewrite X in T. destruct (lex _ modes 1 (skip_ws rest)) as [ks'| | |] eqn:LX; try discriminate. injection T as <-.
  exists ks'. split; auto.
  pose proof (lex_tiles _ _ _ _ _ LX) as (TL & _).
  assert (G : forall u l, tiles (skip_ws u) l -> tiles u l). 2:{ now apply G. }
  clear. intros u l TL.
  induction u as [|c u IH]; [exact TL|]. cbn [skip_ws] in TL. destruct (isspace c) eqn:E; [|exact TL].
  apply IH in TL. inversion TL; subst.
  - apply tiles_end. now constructor.
  - apply (tiles_comment (c :: w)). now constructor.
  - apply (tiles_piece (c :: w)); auto. now constructor.
Qed.
Print Assumptions c27_expression_whole.
Example c27_expression_whole_example : 
  let t := txt "lambda x: f((x + 1) * g(')'))" in
  balanced t /\ tokens (fun _ => false) ("(" :: t ++ ")" :: txt " | red") =
    Ok [mktok (KExpr t) ("(" :: t ++ [")"]); mktok KPipe ["|"]; mktok (KString (txt "red")) (txt "red")].
Proof.
  split; [|vm_compute; reflexivity]. cbv.
  repeat (apply balanced_char; [discriminate|discriminate|reflexivity|]).
  apply (balanced_group (txt "(x + 1) * g(')')") []); [|constructor]. cbv.
  apply (balanced_group (txt "x + 1") (txt " * g(')')")); cbv; repeat (apply balanced_char; [discriminate|discriminate|reflexivity|]); [constructor|].
  apply (balanced_group (txt "')'") []); [|constructor]. cbv.
  apply (balanced_string squote (txt ")") []); [reflexivity|discriminate| |constructor]. constructor; [discriminate|discriminate|constructor].
Qed.
