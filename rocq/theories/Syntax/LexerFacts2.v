(** No crash without backslashes and comments; joined tokens; quoting. *)
From Verif.Syntax Require Export LexerFacts.
Local Open Scope char_scope.
Local Open Scope list_scope.

Lemma scan_no_crash : forall term t q, ~ In bslash t -> scan_string term q t <> Crash.
Proof.
  intros term. induction t as [|c r IH]; intros q N; cbn; [discriminate|].
  assert (K : forall q', scons [c] (scan_string term q' r) <> Crash).
  { intros q' E. specialize (IH q' (fun H => N (or_intror H))).
    destruct (scan_string term q' r) as [[? ?]| | |]; cbn in E; congruence. }
  destruct (isspace c || term c). { destruct q; [apply K|discriminate]. }
  destruct (is_quote c). { apply K. }
  destruct (c =? bslash) eqn:B; [|apply K].
  apply Ascii.eqb_eq in B. exfalso. apply N. now left.
Qed.

Lemma unescape_plain : forall t, ~ In bslash t -> unescape t = Ok t.
Proof.
  induction t as [|c r IH]; intros N; cbn; auto.
  destruct (c =? bslash) eqn:B.
  - apply Ascii.eqb_eq in B. exfalso. apply N. now left.
  - rewrite IH; auto. intro; apply N; now right.
Qed.

Lemma literal_no_crash : forall t, t <> [] -> ~ In bslash t -> literal t <> Crash.
Proof.
  intros [|c r] NE N; unfold literal; [easy|]. destruct (is_quote c); [discriminate|].
  rewrite unescape_plain by auto. discriminate.
Qed.

Lemma pstr_no_crash : forall q tr t, ~ In bslash t -> pstr q tr t <> Crash.
Proof.
  intros q tr. induction t as [|c r IH]; intros N; cbn; [discriminate|].
  assert (K : pstr q tr r <> Crash) by (apply IH; intro; apply N; now right).
  destruct (is_quote c).
  - destruct (c =? q); auto. destruct tr; [|discriminate].
    destruct r as [|a [|b r']]; auto. destruct ((a =? q) && (b =? q)); auto. discriminate.
  - destruct (c =? bslash) eqn:B; auto. apply Ascii.eqb_eq in B. exfalso. apply N. now left.
Qed.

Lemma python_string_no_crash : forall q t, ~ In bslash t -> python_string q t <> Crash.
Proof.
  intros q t N. unfold python_string. destruct (two_quotes q t) eqn:E; [|now apply pstr_no_crash].
  apply two_quotes_some in E. subst. apply pstr_no_crash. intro I. apply N. right. now right.
Qed.

Lemma escan_no_crash : forall f n prev t, ~ In bslash t -> escan f n prev t <> Crash.
Proof.
  induction f as [|f IH]; intros n prev t N; destruct n; cbn; try discriminate.
  - destruct t; [destruct (prev =? ")"); discriminate|discriminate].
  - destruct t as [|c r]; [destruct (prev =? ")"); discriminate|].
    assert (NR : ~ In bslash r) by (intro; apply N; now right).
    destruct (c =? "("); auto. destruct (c =? ")"); auto. destruct (is_quote c); auto.
    destruct (python_string c r) eqn:E; try discriminate.
    + apply IH. apply python_string_suffix in E as (p & ->). intro I. apply NR. apply in_or_app. now right.
    + exfalso. eapply python_string_no_crash; eauto.
Qed.

Lemma expression_no_crash : forall t, ~ In bslash t -> expression t <> Crash.
Proof. intros [|c r] N; cbn; [discriminate|]. apply escan_no_crash. intro; apply N; now right. Qed.

Lemma raw_token_no_crash : forall shell t, ~ In bslash t ->
  (forall c r, t = c :: r -> isspace c = false) -> raw_token shell t <> Crash.
Proof.
  intros shell t N NS. unfold raw_token. destruct t as [|c r]; [discriminate|].
  remember (c :: r) as t eqn:T.
  repeat match goal with
  | |- (if ?b then _ else _) <> _ => let S := fresh "S" in destruct b eqn:S; try discriminate
  end.
  - pose proof (expression_no_crash t N). now destruct (expression t).
  - pose proof (scan_no_crash (if shell then shell_term else marcel_term) t None N).
    destruct (scan_string _ None t) as [[cs rest]| | |] eqn:E; try easy.
    assert (NT : (isspace c || (if shell then shell_term else marcel_term) c)%bool = false).
    { rewrite (NS c r T). subst t. rewrite starts_one in *. cbn [orb].
      destruct shell; unfold shell_term, marcel_term; cbn [existsb]; rewrite !(Ascii.eqb_sym c); cbn [negb andb] in *;
        repeat match goal with Q : (_ =? c) = false |- _ => rewrite Q; clear Q end; reflexivity. }
    pose proof E as E2. rewrite T in E2. apply scan_nonempty in E2 as [_ NE]; auto.
    apply scan_suffix in E as (p & E & Q).
    assert (NP : ~ In bslash p). { intro I. apply N. rewrite E. apply in_or_app. now left. }
    rewrite (Q NP) in *. pose proof (literal_no_crash p NE NP). now destruct (literal p).
Qed.

Lemma unconsolidated_no_crash : forall shell t, ~ In bslash t -> unconsolidated shell t <> Crash.
Proof.
  intros shell t N. unfold unconsolidated.
  assert (K : raw_token shell (skip_ws t) <> Crash).
  { apply raw_token_no_crash; [|apply skip_ws_head]. destruct (skip_ws_spec t) as (w & _ & T).
    intro I. apply N. rewrite T. apply in_or_app. now right. }
  destruct (raw_token shell (skip_ws t)) as [[[? ?]|]| | |]; try discriminate. easy.
Qed.

Lemma gather_no_crash : forall f shell acc adj t, ~ In bslash t -> ~ In "#" t ->
  (adj = true -> t <> []) -> (forall c r, t = c :: r -> isspace c = false) ->
  gather f shell acc adj t <> Crash.
Proof.
  induction f as [|f IH]; intros shell acc adj t N H NE NS; destruct adj;
    try (rewrite gather_false; discriminate); [discriminate|].
  cbn. pose proof (unconsolidated_no_crash shell t N) as NC.
  destruct (unconsolidated shell t) as [[[[k adj'] r1]|]| | |] eqn:E; try discriminate; [| |easy].
  - apply unconsolidated_ok in E as (w & w' & B & B' & T & NE' & F & HD & A & W0).
    destruct (consolidatable k); [|discriminate].
    apply IH; auto.
    + intro I. apply N. rewrite T. apply in_or_app; right. apply in_or_app; right. apply in_or_app; now right.
    + intro I. apply H. rewrite T. apply in_or_app; right. apply in_or_app; right. apply in_or_app; now right.
    + intros ->. now apply A.
  - exfalso. apply unconsolidated_none in E as (w & B & [->|[c ->]]).
    + destruct w as [|c w]; [now apply NE|]. inv B. specialize (NS c w eq_refl). congruence.
    + apply H. apply in_or_app. right. now left.
Qed.

Lemma faithful_piece : forall k c, faithful k -> consolidatable k = true -> ~ In bslash (raw k) ->
  In c (piece k) -> In c (raw k) \/ c = "{" \/ c = "}".
Proof.
  intros k c F C N I. unfold piece, faithful, consolidatable in *. destruct (tkind k); try discriminate.
  - rewrite (F N) in I. auto.
  - destruct I as [<-|I]; auto. apply in_app_iff in I as [I|[<-|[]]]; auto.
    left. rewrite F. right. apply in_or_app. now left.
Qed.

Lemma pieces_chars : forall ks c, Forall faithful ks -> Forall (fun k => consolidatable k = true) ks ->
  ~ In bslash (concat (map raw ks)) -> In c (concat (map piece ks)) ->
  In c (concat (map raw ks)) \/ c = "{" \/ c = "}".
Proof.
  induction ks as [|k ks IH]; intros c F C N I; cbn in *; auto.
  inv F. inv C. apply in_app_iff in I as [I|I].
  - destruct (faithful_piece k c) as [J|J]; auto.
    + intro J. apply N. apply in_or_app. now left.
    + left. apply in_or_app. now left.
  - destruct (IH c) as [J|J]; auto.
    + intro J. apply N. apply in_or_app. now right.
    + left. apply in_or_app. now right.
Qed.

Lemma consolidate_no_crash : forall ks, Forall faithful ks -> Forall (fun k => consolidatable k = true) ks ->
  ~ In bslash (concat (map raw ks)) -> consolidate ks <> Crash.
Proof.
  intros ks F C N. unfold consolidate.
  assert (K : expression (fstring ks) <> Crash).
  { apply expression_no_crash. unfold fstring. intro I.
    apply in_app_iff in I as [I|I]. { cbn in I. intuition discriminate. }
    apply in_app_iff in I as [I|I].
    - apply pieces_chars in I as [I|[I|I]]; auto; discriminate.
    - cbn in I. intuition discriminate. }
  now destruct (expression (fstring ks)).
Qed.

(** A formatted string without single quotes and backslashes in its pieces is read whole. *)
Lemma pstr_triple_plain : forall t rest, ~ In squote t -> ~ In bslash t ->
  pstr squote true (t ++ squote :: squote :: squote :: rest) = Ok rest.
Proof.
  induction t as [|c t IH]; intros rest N B.
  - reflexivity.
  - cbn [app pstr].
    assert (E : pstr squote true (t ++ squote :: squote :: squote :: rest) = Ok rest).
    { apply IH; intro; [apply N | apply B]; now right. }
    assert (NC : (c =? squote) = false).
    { apply Ascii.eqb_neq. intros ->. apply N. now left. }
    rewrite NC, E. assert (NB : (c =? bslash) = false).
    { apply Ascii.eqb_neq. intros ->. apply B. now left. }
    rewrite NB. now destruct (is_quote c).
Qed.

Lemma expression_fstring : forall ks, ~ In squote (concat (map piece ks)) -> ~ In bslash (concat (map piece ks)) ->
  expression (fstring ks) = Ok [].
Proof.
  intros ks N B. unfold fstring.
  change (txt "(f'''") with ["("; "f"; squote; squote; squote].
  change (txt "''')") with [squote; squote; squote; ")"].
  set (p := concat (map piece ks)) in *.
  cbn [app expression length escan].
  change ("f" =? "(") with false. change ("f" =? ")") with false. change (is_quote "f") with false. cbn iota.
  change (squote =? "(") with false. change (squote =? ")") with false. change (is_quote squote) with true. cbn iota.
  unfold python_string. cbn [two_quotes]. rewrite Ascii.eqb_refl. cbn [andb].
  rewrite pstr_triple_plain by auto.
  destruct (length (p ++ [squote; squote; squote; ")"])) eqn:L.
  { rewrite app_length in L. cbn in L. lia. }
  cbn. destruct n; reflexivity.
Qed.

(** The joined token, in detail. *)
Lemma next_token_cases : forall shell t k rest, next_token shell t = Ok (Some (k, rest)) ->
  faithful k \/ exists ks r, joined k ks /\ expression (fstring ks) = Ok r /\
                             tkind k = KExpr (expr_source (fstring ks) r).
Proof.
  intros shell t k rest H. unfold next_token in H.
  destruct (unconsolidated shell t) as [[[[k0 adj] r1]|]| | |] eqn:E; try discriminate.
  apply unconsolidated_ok in E as (w & w' & B & B' & T & NE & F & HD & A & W0).
  destruct (gather (length r1) shell [k0] (adj && consolidatable k0) r1) as [[ks r2]| | |] eqn:G; try discriminate.
  destruct (consolidatable k0) eqn:C0.
  - destruct adj; cbn [andb] in G.
    + destruct (A eq_refl) as [-> _].
      apply gather_ok in G as (extra & w2 & -> & F2 & C2 & B2 & R1); auto. cbn in H.
      destruct extra as [|k1 extra].
      * inv H. now left.
      * destruct (consolidate (k0 :: k1 :: extra)) eqn:CO; try discriminate. inv H.
        unfold consolidate in CO. destruct (expression (fstring (k0 :: k1 :: extra))) as [r0| | |] eqn:EX; try discriminate.
        inv CO. right. exists (k0 :: k1 :: extra), r0. split; [|split; auto].
        repeat split; auto.
        ++ cbn. lia.
        ++ destruct (consolidate_prefix _ _ EX) as [lost FL]. eexists; exists lost. split; [reflexivity|]. exact FL.
    + rewrite gather_false in G. inv G. cbn in H. inv H. now left.
  - rewrite andb_false_r in G. rewrite gather_false in G. inv G. cbn in H. inv H. now left.
Qed.

Lemma joined_whole : forall ks r, expression (fstring ks) = Ok r -> r = [] ->
  expr_source (fstring ks) r = formatted ks.
Proof.
  intros ks r E ->. rewrite fstring_formatted in *. apply expr_source_split in E.
  now apply app_inj_tail in E as [E _].
Qed.

Lemma next_token_no_crash : forall shell t, ~ In bslash t -> ~ In "#" t -> next_token shell t <> Crash.
Proof.
  intros shell t N H. unfold next_token. pose proof (unconsolidated_no_crash shell t N) as NC.
  destruct (unconsolidated shell t) as [[[[k0 adj] r1]|]| | |] eqn:E; try discriminate; [|easy].
  apply unconsolidated_ok in E as (w & w' & B & B' & T & NE & F & HD & A & W0).
  assert (N1 : ~ In bslash r1).
  { intro I. apply N. rewrite T. apply in_or_app; right. apply in_or_app; right. apply in_or_app; now right. }
  assert (H1 : ~ In "#" r1).
  { intro I. apply H. rewrite T. apply in_or_app; right. apply in_or_app; right. apply in_or_app; now right. }
  pose proof (gather_no_crash (length r1) shell [k0] (adj && consolidatable k0) r1 N1 H1) as GC.
  destruct (gather (length r1) shell [k0] (adj && consolidatable k0) r1) as [[ks r2]| | |] eqn:G; try discriminate.
  - pose proof G as G2. apply gather_ok in G2 as (extra & w2 & -> & F2 & C2 & B2 & R1); auto. cbn [rev app].
    destruct extra as [|k1 extra]; [discriminate|].
    assert (AD : (adj && consolidatable k0)%bool = true).
    { destruct (adj && consolidatable k0)%bool; auto. rewrite gather_false in G. discriminate. }
    apply andb_true_iff in AD as [-> C0].
    assert (K : consolidate (k0 :: k1 :: extra) <> Crash).
    { apply consolidate_no_crash; auto. intro I. cbn in I. apply N. rewrite T.
      apply in_or_app; right. apply in_app_iff in I as [I|I]; apply in_or_app; [now left|right].
      apply in_or_app; right. rewrite R1. cbn. apply in_or_app. left. exact I. }
    destruct (consolidate (k0 :: k1 :: extra)); try discriminate. easy.
  - exfalso. apply GC; auto. intros Q. apply andb_true_iff in Q as [-> _]. now apply A.
Qed.

Lemma lex_no_crash : forall f modes n t, ~ In bslash t -> ~ In "#" t -> lex f modes n t <> Crash.
Proof.
  induction f as [|f IH]; intros modes n t N H; cbn; [discriminate|].
  pose proof (next_token_no_crash (modes n) t N H) as NC.
  destruct (next_token (modes n) t) as [[[k rest]|]| | |] eqn:E; try discriminate; [|easy].
  apply next_token_ok in E as (w & w' & B & B' & T & NE & F).
  assert (K : lex f modes (S n) rest <> Crash).
  { apply IH.
    - intro I. apply N. rewrite T. apply in_or_app; right. apply in_or_app; right. apply in_or_app; now right.
    - intro I. apply H. rewrite T. apply in_or_app; right. apply in_or_app; right. apply in_or_app; now right. }
  destruct (lex f modes (S n) rest); easy.
Qed.

Lemma lex_whole : forall f modes n t ks, ~ In bslash t -> ~ In squote t -> lex f modes n t = Ok ks ->
  Forall (fun k => faithful k \/ exists js, joined k js /\ tkind k = KExpr (formatted js)) ks.
Proof.
  induction f as [|f IH]; intros modes n t ks N H E; cbn in E; [discriminate|].
  destruct (next_token (modes n) t) as [[[k rest]|]| | |] eqn:X; try discriminate; [|inv E; constructor].
  pose proof X as X2. apply next_token_ok in X2 as (w & w' & B & B' & T & NE & _).
  destruct (lex f modes (S n) rest) as [ks'| | |] eqn:L; try discriminate. inv E.
  constructor.
  - apply next_token_cases in X as [X|(js & r & J & EX & K)]; auto. right. exists js. split; auto.
    rewrite K. f_equal. eapply joined_whole; eauto.
    destruct J as (_ & F & C & R & _).
    assert (NR : ~ In bslash (concat (map raw js))).
    { rewrite <- R. intro I. apply N. apply in_or_app; right. apply in_or_app; now left. }
    rewrite expression_fstring in EX; [congruence| |].
    + intro I. apply pieces_chars in I as [I|[I|I]]; auto; try discriminate.
      apply H. rewrite <- R in I. apply in_or_app; right. apply in_or_app; now left.
    + intro I. apply pieces_chars in I as [I|[I|I]]; auto; discriminate.
  - eapply IH; [| |exact L].
    + intro I. apply N. apply in_or_app; right. apply in_or_app; right. apply in_or_app; now right.
    + intro I. apply H. apply in_or_app; right. apply in_or_app; right. apply in_or_app; now right.
Qed.

(** ** Quoting *)

Lemma unescape_backslashed : forall t, unescape (backslashed t) = Ok t.
Proof.
  induction t as [|c t IH]; auto. change (backslashed (c :: t)) with (bslash :: c :: backslashed t).
  cbn [unescape]. change (bslash =? bslash) with true. cbn iota. now rewrite IH.
Qed.

Lemma scan_backslashed : forall term t, term bslash = false -> 
  scan_string term None (backslashed t) = Ok (backslashed t, []).
Proof.
  intros term t HT. induction t as [|c t IH]; auto.
  change (backslashed (c :: t)) with (bslash :: c :: backslashed t).
  cbn [scan_string]. change (isspace bslash) with false. rewrite HT. cbn [orb].
  change (is_quote bslash) with false. cbn iota. rewrite IH. reflexivity.
Qed.

Lemma scan_single : forall term t, term squote = false -> ~ In squote t ->
  scan_string term (Some squote) (t ++ [squote]) = Ok (t ++ [squote], []).
Proof.
  intros term t HT. induction t as [|c t IH]; intros N.
  - cbn. rewrite HT. reflexivity.
  - assert (E : scan_string term (Some squote) (t ++ [squote]) = Ok (t ++ [squote], [])).
    { apply IH. intro; apply N; now right. }
    assert (NC : (c =? squote) = false).
    { apply Ascii.eqb_neq. intros ->. apply N. now left. }
    cbn [app scan_string]. rewrite NC, E. cbn [scons app].
    destruct (isspace c || term c); auto. destruct (is_quote c); auto. 
    destruct (c =? bslash); auto.
Qed.

Definition dq_body (t : text) : text := flat_map (fun c => if c =? bslash then [bslash; bslash] else [c]) t.

Lemma scan_double : forall term t, term dquote = false -> term bslash = false -> ~ In dquote t ->
  scan_string term (Some dquote) (dq_body t ++ [dquote]) = Ok (t ++ [dquote], []).
Proof.
  intros term t HT HB. induction t as [|c t IH]; intros N.
  - cbn. rewrite HT. reflexivity.
  - assert (E : scan_string term (Some dquote) (dq_body t ++ [dquote]) = Ok (t ++ [dquote], [])).
    { apply IH. intro; apply N; now right. }
    assert (NC : (c =? dquote) = false).
    { apply Ascii.eqb_neq. intros ->. apply N. now left. }
    unfold dq_body. cbn [flat_map]. fold (dq_body t). destruct (c =? bslash) eqn:B.
    + apply Ascii.eqb_eq in B; subst c. cbn [app scan_string].
      change (isspace bslash) with false. rewrite HB. cbn [orb]. change (is_quote bslash) with false.
      change (bslash =? bslash) with true. change (dquote =? squote) with false. cbn iota. rewrite E. reflexivity.
    + cbn [app scan_string]. rewrite NC, B, E. cbn [scons app].
      destruct (isspace c || term c); auto. destruct (is_quote c); auto.
Qed.

Lemma scan_ordinary : forall term t, Forall ordinary t -> (forall c, ordinary c -> term c = false) ->
  scan_string term None t = Ok (t, []).
Proof.
  intros term t F HT. induction F as [|c t O F IH]; auto.
  cbn. pose proof (HT c O) as TC. destruct O as (S & M & Q & B & _). rewrite S, TC, Q. cbn [orb].
  apply Ascii.eqb_neq in B. rewrite B, IH. reflexivity.
Qed.

(** A line that is one string token. *)
Lemma one_token : forall (shell : bool) c r chars v,
  isspace c = false -> marcel_term c = false -> c <> "@" -> c <> "!" ->
  scan_string (if shell then shell_term else marcel_term) None (c :: r) = Ok (chars, []) ->
  literal chars = Ok v ->
  tokens (fun _ => shell) (c :: r) = Ok [mktok (KString chars) (c :: r)].
Proof.
  intros shell c r chars v SP M A BG E L. unfold tokens. cbn [lex].
  assert (NE : forall a t, marcel_term a = true -> starts (a :: t) (c :: r) = false).
  { intros a t MA. cbn. destruct (a =? c) eqn:Q; auto. apply Ascii.eqb_eq in Q; subst. congruence. }
  assert (R : raw_token shell (c :: r) = Ok (Some (mktok (KString chars) (c :: r), []))).
  { unfold raw_token.
    assert (X1 : starts ["@"] (c :: r) = false) by (rewrite starts_one; apply Ascii.eqb_neq; congruence).
    assert (X2 : starts ["!"] (c :: r) = false) by (rewrite starts_one; apply Ascii.eqb_neq; congruence).
    rewrite X1, X2, !andb_false_r. rewrite !NE by reflexivity. rewrite ?andb_false_r, E, L.
    unfold taken. cbn [length]. rewrite Nat.sub_0_r. change (S (length r)) with (length (c :: r)). now rewrite firstn_all. }
  assert (U : unconsolidated shell (c :: r) = Ok (Some (mktok (KString chars) (c :: r), false, []))).
  { unfold unconsolidated. cbn [skip_ws]. rewrite SP, R. reflexivity. }
  unfold next_token. rewrite U. cbn. reflexivity.
Qed.
