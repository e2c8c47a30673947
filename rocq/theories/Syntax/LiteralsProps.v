(** C91: quotes do not change a word. *)
From Coq Require Import Lia.
From Verif.Syntax Require Import LexerSpec LexerFacts LexerFacts2 LexerProps CommandLineSpec CommandLineFacts2 Literals.
Local Open Scope char_scope.
Local Open Scope list_scope.

Section Words.
Variable named : text -> option func.
Variable cluster : text -> option nat.
(** Functions and clusters have names without quotes and backslashes: symbols and identifiers. *)
Hypothesis named_plain : forall w c, In c w -> named w <> None -> is_quote c = false /\ c <> bslash.
Hypothesis cluster_plain : forall w c, In c w -> cluster w <> None -> is_quote c = false /\ c <> bslash.
Notation argument := (argument named cluster).

(** An argument converted in this way is the same however it is written. *)
Definition quotable (k : conversion_of) : Prop :=
  forall l1 l2 t, reads_as false l1 t -> reads_as false l2 t -> argument k l1 = argument k l2.

Lemma argument_reads : forall k line t, reads_as false line t ->
  exists chars, argument k line = converted named cluster k chars /\ literal chars = Ok (t, false).
Proof. intros k line t (chars & T & L). exists chars. unfold Literals.argument. rewrite T. auto. Qed.

(** Texts and files, and clusters, arrive without their quotes and backslashes. *)
Theorem c91_texts : forall k line t, In k [Unspecified; Check_str; Check_str_or_file] -> reads_as false line t ->
  argument k line = Some (G_str t).
Proof.
  intros k line t I R. destruct (argument_reads k line t R) as (chars & -> & L).
  destruct I as [<-|[<-|[<-|[]]]]; unfold converted, string_value; now rewrite L.
Qed.
Theorem c91_clusters : forall line t, reads_as false line t -> argument Cluster line = option_map G_cluster (cluster t).
Proof. intros line t R. destruct (argument_reads Cluster line t R) as (chars & -> & L). unfold converted, string_value. now rewrite L. Qed.

(** The characters of a word that is written in one of four ways *)
Lemma chars_single : forall t, ~ In squote t -> forall k, argument k (single_quoted t) = converted named cluster k (single_quoted t).
Proof.
  intros t N k. unfold Literals.argument. assert (L : literal (single_quoted t) = Ok (t, false)).
  { unfold single_quoted, literal. change (is_quote squote) with true. cbn iota.
    change (squote :: t ++ [squote]) with ((squote :: t) ++ [squote]). rewrite last_snoc', Ascii.eqb_refl.
    cbn [negb]. now rewrite removelast_last. }
  assert (T : tokens (fun _ => false) (single_quoted t) = Ok [mktok (KString (single_quoted t)) (single_quoted t)]); [|now rewrite T].
  unfold single_quoted in *. eapply one_token; eauto; try reflexivity; try discriminate.
  cbn [scan_string]. change (isspace squote) with false. change (marcel_term squote) with false. cbn [orb].
  change (is_quote squote) with true. cbn iota. now rewrite scan_single.
Qed.
Lemma chars_double : forall t, ~ In dquote t -> forall k, argument k (double_quoted t) = converted named cluster k (dquote :: t ++ [dquote]).
Proof.
  intros t N k. unfold Literals.argument. assert (L : literal (dquote :: t ++ [dquote]) = Ok (t, false)).
  { unfold literal. change (is_quote dquote) with true. cbn iota.
    change (dquote :: t ++ [dquote]) with ((dquote :: t) ++ [dquote]). rewrite last_snoc', Ascii.eqb_refl.
    cbn [negb]. now rewrite removelast_last. }
  assert (T : tokens (fun _ => false) (double_quoted t) = Ok [mktok (KString (dquote :: t ++ [dquote])) (double_quoted t)]); [|now rewrite T].
  unfold double_quoted. fold (dq_body t). eapply one_token; eauto; try reflexivity; try discriminate.
  cbn [scan_string]. change (isspace dquote) with false. change (marcel_term dquote) with false. cbn [orb].
  change (is_quote dquote) with true. cbn iota. now rewrite scan_double.
Qed.
Lemma chars_backslashed : forall t, t <> [] -> forall k, argument k (backslashed t) = converted named cluster k (backslashed t).
Proof.
  intros [|c t] NE k; [easy|]. unfold Literals.argument.
  assert (L : literal (backslashed (c :: t)) = Ok (c :: t, false)).
  { unfold literal. pose proof (unescape_backslashed (c :: t)) as U.
    change (backslashed (c :: t)) with (bslash :: c :: backslashed t) in *.
    change (is_quote bslash) with false. cbn iota. now rewrite U. }
  assert (S : scan_string marcel_term None (backslashed (c :: t)) = Ok (backslashed (c :: t), [])) by (now apply scan_backslashed).
  assert (T : tokens (fun _ => false) (backslashed (c :: t)) = Ok [mktok (KString (backslashed (c :: t))) (backslashed (c :: t))]); [|now rewrite T].
  change (backslashed (c :: t)) with (bslash :: c :: backslashed t) in *.
  eapply one_token; eauto; try reflexivity; try discriminate.
Qed.
Lemma chars_plain : forall t, t <> [] -> Forall ordinary t -> forall k, argument k t = converted named cluster k t.
Proof.
  intros [|c t] NE F k; [easy|]. unfold Literals.argument. inversion F as [|? ? O F']; subst.
  assert (B : ~ In bslash (c :: t)).
  { intro I. rewrite Forall_forall in F. apply F in I as (_ & _ & _ & X & _). now apply X. }
  assert (L : literal (c :: t) = Ok (c :: t, false)).
  { unfold literal. destruct O as (_ & _ & Q & _). rewrite Q, unescape_plain; auto. }
  assert (T : tokens (fun _ => false) (c :: t) = Ok [mktok (KString (c :: t)) (c :: t)]); [|now rewrite T].
  destruct O as (S & M & Q & NB & A & BG). eapply one_token; eauto. apply scan_ordinary; auto. intros d (_ & MD & _). exact MD.
Qed.

Lemma numeral_ordinary : forall t n, numeral t n -> t <> [] /\ Forall ordinary t.
Proof.
  assert (D : forall d, (d < 10)%nat -> ordinary (ascii_of_nat (48 + d))).
  { intros d L. do 10 (destruct d as [|d]; [repeat split; discriminate|]). lia. }
  intros t n H. induction H as [d L|t n d L H (A & B)]; split; try discriminate; try (constructor; auto).
  - destruct t; discriminate.
  - apply Forall_app. split; auto.
Qed.
Lemma ordinary_no : forall t, Forall ordinary t -> ~ In squote t /\ ~ In dquote t /\ ~ In bslash t.
Proof.
  intros t F. rewrite Forall_forall in F. repeat split; intros I; apply F in I; destruct I as (_ & _ & Q & B & _); try discriminate Q. now apply B.
Qed.

(** What begins with a quote or a backslash, and does not end with a space, is no number. *)
Lemma int_starts : forall c r z, isspace c = false -> digit_of c = None -> c <> "-" -> c <> "+" -> isspace z = false ->
  int_of_text (c :: r ++ [z]) = None.
Proof.
  intros c r z S D M P E. unfold int_of_text. rewrite (strip_edges c (r ++ [z]) (c :: r) z eq_refl S E).
  apply Ascii.eqb_neq in M, P. rewrite M, P. unfold unsigned. now rewrite D.
Qed.
Lemma backslashed_last : forall t z, backslashed (t ++ [z]) = backslashed t ++ [bslash; z].
Proof. intros t z. unfold backslashed. now rewrite flat_map_app. Qed.
Lemma int_backslashed : forall t n, numeral t n -> int_of_text (backslashed t) = None.
Proof.
  intros t n H. destruct (numeral_ends t n H) as (d & r & d' & r' & B & E & B' & E').
  destruct (digit_char d' B') as (_ & S' & _). subst t.
  pose proof (f_equal backslashed E') as EB. rewrite backslashed_last in EB. rewrite EB.
  destruct r' as [|c r'].
  - apply (int_starts bslash []); auto; try reflexivity; discriminate.
  - change (backslashed (c :: r') ++ [bslash; ascii_of_nat (48 + d')])
      with (bslash :: (c :: backslashed r') ++ [bslash] ++ [ascii_of_nat (48 + d')]).
    rewrite app_assoc. apply int_starts; auto; try reflexivity; discriminate.
Qed.
Lemma int_quoted : forall q t, is_quote q = true -> int_of_text (q :: t ++ [q]) = None.
Proof.
  intros q t Q. unfold is_quote in Q. apply Bool.orb_true_iff in Q as [Q|Q]; apply Ascii.eqb_eq in Q; subst q;
    apply int_starts; try reflexivity; discriminate.
Qed.

(** Numbers must not be quoted or escaped: the quotes are taken for a part of the number. *)
Theorem c91_numbers_refuted : forall t n, numeral t n ->
  argument To_int t = Some (G_int n) /\ argument To_int (single_quoted t) = None /\ argument To_int (double_quoted t) = None
  /\ argument To_int (backslashed t) = None.
Proof.
  intros t n H. destruct (numeral_ordinary t n H) as [NE F]. destruct (ordinary_no t F) as (NS & ND & _).
  rewrite chars_plain, chars_single, chars_double, chars_backslashed by auto. unfold converted.
  destruct (int_of_numeral t n H) as [-> _]. unfold single_quoted. rewrite !int_quoted by reflexivity.
  rewrite (int_backslashed t n H). auto.
Qed.

(** Functions may be escaped. *)
Theorem c91_functions : forall t f, t <> [] -> named t = Some f ->
  argument To_function (backslashed t) = Some (G_function t) /\ (Forall ordinary t -> argument To_function t = Some (G_function t)).
Proof.
  intros t f NE N. split.
  - rewrite chars_backslashed by auto. unfold converted, to_function. rewrite unescape_backslashed, N. reflexivity.
  - intros F. rewrite chars_plain by auto. unfold converted, to_function. rewrite unescape_ordinary, N by auto. reflexivity.
Qed.
(** They must not be quoted. *)
Lemma not_named : forall q t, is_quote q = true -> named (q :: t ++ [q]) = None.
Proof.
  intros q t Q. destruct (named (q :: t ++ [q])) as [f|] eqn:E; auto.
  destruct (named_plain (q :: t ++ [q]) q) as [X _]; [now left|now rewrite E|]. congruence.
Qed.
Theorem c91_functions_refuted : forall t, Forall ordinary t ->
  argument To_function (single_quoted t) = None /\ argument To_function (double_quoted t) = None.
Proof.
  intros t F. destruct (ordinary_no t F) as (NS & ND & NB). rewrite chars_single, chars_double by auto. unfold converted, to_function, single_quoted.
  assert (U : forall q, q <> bslash -> unescape (q :: t ++ [q]) = Ok (q :: t ++ [q])).
  { intros q Q. apply unescape_plain. intros [I|I]; [congruence|]. apply in_app_iff in I as [I|[I|[]]]; [easy|congruence]. }
  rewrite !U by discriminate. now rewrite !not_named by reflexivity.
Qed.

(** fork counts with a number that is not quoted, and runs for the characters of one that is. *)
Lemma not_cluster : forall w c, In c w -> is_quote c = true \/ c = bslash -> cluster w = None.
Proof.
  intros w c I Q. destruct (cluster w) as [k|] eqn:E; auto.
  destruct (cluster_plain w c I) as [X Y]; [now rewrite E|]. destruct Q; congruence.
Qed.
Theorem c91_fork_refuted : forall t n, numeral t n ->
  argument Fork_gen t = Some (G_int n) /\ argument Fork_gen (single_quoted t) = Some (G_str t)
  /\ argument Fork_gen (double_quoted t) = Some (G_str t) /\ argument Fork_gen (backslashed t) = Some (G_str t).
Proof.
  intros t n H. destruct (numeral_ordinary t n H) as [NE F]. destruct (ordinary_no t F) as (NS & ND & _).
  assert (L : forall q, is_quote q = true -> literal (q :: t ++ [q]) = Ok (t, false)).
  { intros q Q. unfold literal. rewrite Q. change (q :: t ++ [q]) with ((q :: t) ++ [q]). rewrite last_snoc', Ascii.eqb_refl.
    cbn [negb]. now rewrite removelast_last. }
  assert (LB : literal (backslashed t) = Ok (t, false)).
  { unfold literal. pose proof (unescape_backslashed t) as U. destruct t as [|c t]; [easy|].
    change (backslashed (c :: t)) with (bslash :: c :: backslashed t) in *.
    change (is_quote bslash) with false. cbn iota. now rewrite U. }
  rewrite chars_plain, chars_single, chars_double, chars_backslashed by auto. unfold converted.
  destruct (int_of_numeral t n H) as [-> _]. unfold single_quoted. rewrite !int_quoted by reflexivity.
  rewrite (int_backslashed t n H). unfold string_value. rewrite !L by reflexivity. rewrite LB.
  rewrite (not_cluster (squote :: t ++ [squote]) squote), (not_cluster (dquote :: t ++ [dquote]) dquote) by (auto; now left).
  rewrite (not_cluster (backslashed t) bslash); auto. destruct t; [easy|now left].
Qed.

(** So exactly texts, files and clusters may be quoted. *)
Theorem c91_exactly : forall k, (exists t f, t <> [] /\ Forall ordinary t /\ named t = Some f) ->
  (quotable k <-> In k [Unspecified; Check_str; Check_str_or_file; Cluster]).
Proof.
  intros k (t & f & NE & F & N). split.
  - intros Q. destruct k; cbn [In]; auto; exfalso.
    + assert (M : numeral (txt "7") 7) by apply (num_digit 7 ltac:(lia)). destruct (c91_numbers_refuted _ _ M) as (A & B & _).
      destruct (numeral_ordinary _ _ M) as [NE' F']. destruct (ordinary_no _ F') as (NS & _).
      rewrite (Q (txt "7") (single_quoted (txt "7")) (txt "7")), B in A; [discriminate| |];
        [now apply c28_plain|now apply c28_single_quotes].
    + destruct (c91_functions t f NE N) as [_ A]. destruct (c91_functions_refuted t F) as [B _]. destruct (ordinary_no t F) as (NS & _).
      specialize (A F). rewrite (Q t (single_quoted t) t), B in A; [discriminate| |]; [now apply c28_plain|now apply c28_single_quotes].
    + assert (M : numeral (txt "7") 7) by apply (num_digit 7 ltac:(lia)). destruct (c91_fork_refuted _ _ M) as (A & B & _).
      destruct (numeral_ordinary _ _ M) as [NE' F']. destruct (ordinary_no _ F') as (NS & _).
      rewrite (Q (txt "7") (single_quoted (txt "7")) (txt "7")), B in A; [discriminate| |];
        [now apply c28_plain|now apply c28_single_quotes].
  - intros I l1 l2 w R1 R2. assert (J : In k [Unspecified; Check_str; Check_str_or_file] \/ k = Cluster) by (cbn in *; intuition).
    destruct J as [J| ->]; [now rewrite (c91_texts k l1 w), (c91_texts k l2 w)|now rewrite (c91_clusters l1 w), (c91_clusters l2 w)].
Qed.

(** For the operators: these are the arguments that quotes spoil. *)
Theorem c91_declared : (exists t f, t <> [] /\ Forall ordinary t /\ named t = Some f) ->
  forall op arg k, In (op, arg, k) declared ->
  (~ quotable k <-> In (op, arg) [("edit", "command"); ("expand", "position"); ("fork", "forkgen"); ("gen", "pad"); ("gen", "count"); ("gen", "start");
     ("head", "n"); ("history", "n"); ("bg", "job_id"); ("fg", "job_id"); ("map", "function"); ("red", "functions"); ("run", "id");
     ("select", "function"); ("sort", "key"); ("sql", "commit"); ("squish", "function"); ("tail", "n"); ("window", "overlap");
     ("window", "disjoint"); ("window", "predicate")]%string).
Proof.
  intros E op arg k I. rewrite (c91_exactly k E). unfold declared in I. cbn [In] in I.
  repeat (destruct I as [I|I]; [injection I as <- <- <-; split;
    [intros X; first [exfalso; apply X; cbn; tauto|cbn; tauto]
    |intros X; first [cbn; intuition discriminate|exfalso; cbn in X; intuition discriminate]]|]). easy.
Qed.
End Words.

(** A flag that is quoted is not a flag. *)
Theorem c91_flags_refuted : forall d x q, validate d = true -> In x (flat_map symbols (d_flags d)) -> is_quote q = true ->
  find_flag d (OStr x) <> None /\ find_flag d (OStr (q :: x ++ [q])) = None /\ plausible (OStr (q :: x ++ [q])) = false.
Proof.
  intros d x q V I Q. assert (G : forallb good_flag (d_flags d) = true).
  { unfold validate in V. repeat (apply andb_prop in V as [V ?]); auto. }
  rewrite forallb_forall in G. repeat split.
  - intros E. cbn in E. apply in_flat_map in I as (f & If & Ix). pose proof (find_none _ _ E f If) as X. unfold is_symbol in X.
    assert (Y : existsb (teqb x) (symbols f) = true) by (apply existsb_exists; exists x; split; auto; unfold teqb; now destruct (list_eq_dec Ascii.ascii_dec x x)). congruence.
  - cbn [find_flag]. destruct (find (is_symbol (q :: x ++ [q])) (d_flags d)) as [f|] eqn:E; auto. apply find_some in E as [If E].
    apply G in If. unfold is_symbol in E. apply existsb_exists in E as (y & Iy & E). apply teqb_eq in E. subst y.
    unfold good_flag in If. repeat (apply andb_prop in If as [If ?]). unfold symbols in Iy. apply in_app_iff in Iy.
    assert (NQ : q <> "-") by (intros ->; discriminate).
    apply Ascii.eqb_neq in NQ. destruct Iy as [Iy|Iy].
    + destruct (f_short f) as [s|]; [|easy]. destruct Iy as [->|[]]. unfold good_short in *. destruct (x ++ [q]) as [|a [|b r]]; try easy. now rewrite NQ in *.
    + destruct (f_long f) as [s|]; [|easy]. destruct Iy as [->|[]]. unfold good_long in *. destruct (x ++ [q]) as [|a [|b r]]; try easy. now rewrite NQ in *.
  - cbn. destruct x; cbn; unfold is_quote in Q; apply Bool.orb_true_iff in Q as [Q|Q]; apply Ascii.eqb_eq in Q; subst q; reflexivity.
Qed.

(** head 5 and head '5'; red + and red '+'; ls 'a b' *)
Definition sample_named (w : text) : option func := if teqb w (txt "+") then Some (fun _ => None) else None.
Example c91_case :
  (forall w c, In c w -> sample_named w <> None -> is_quote c = false /\ c <> bslash)
  /\ argument sample_named (fun _ => None) To_int (txt "5") = Some (G_int 5) /\ argument sample_named (fun _ => None) To_int (txt "'5'") = None
  /\ argument sample_named (fun _ => None) To_function (txt "+") = Some (G_function (txt "+"))
  /\ argument sample_named (fun _ => None) To_function (txt "'+'") = None
  /\ argument sample_named (fun _ => None) Fork_gen (txt "'3'") = Some (G_str (txt "3"))
  /\ argument sample_named (fun _ => None) Check_str_or_file (txt "'a b'") = Some (G_str (txt "a b")).
Proof.
  split; [|repeat split; reflexivity].
  intros w c I H. unfold sample_named in H. destruct (teqb w (txt "+")) eqn:E; [|easy]. apply teqb_eq in E. subst w.
  destruct I as [<-|[]]. split; [reflexivity|discriminate].
Qed.

Print Assumptions c91_texts.
Print Assumptions c91_clusters.
Print Assumptions c91_numbers_refuted.
Print Assumptions c91_functions.
Print Assumptions c91_functions_refuted.
Print Assumptions c91_fork_refuted.
Print Assumptions c91_exactly.
Print Assumptions c91_declared.
Print Assumptions c91_flags_refuted.
