(** Cutting a text just before the end of the pipeline it is in: the same tokens are read. *)
From Verif.Syntax Require Import LexerFacts ParserSpec ParserFacts ParserSound ParserComplete ParserModes.
Local Open Scope char_scope.
Local Open Scope list_scope.

Lemma scan_some_consumes : forall term q c r cs rest, scan_string term (Some q) (c :: r) = Ok (cs, rest) -> length rest <= length r.
Proof.
  intros term q c r cs rest H.
  assert (L : forall q' r cs rest, scan_string term q' r = Ok (cs, rest) -> length rest <= length r).
  { intros q' r' cs' rest' H'. apply scan_suffix in H' as (p & -> & _). rewrite app_length. lia. }
  assert (SC : forall l x q', scons l (scan_string term q' x) = Ok (cs, rest) -> length rest <= length x).
  { intros l x q' S. apply scons_ok in S as (cs' & S & _). eapply L; eauto. }
  cbn [scan_string] in H. destruct (isspace c || term c)%bool; [eapply SC; eauto|].
  destruct (is_quote c); [eapply SC; eauto|]. destruct (c =? bslash); [|eapply SC; eauto].
  destruct (q =? squote); [eapply SC; eauto|]. destruct r as [|d r']; [discriminate|].
  destruct (d =? bslash); apply SC in H; cbn; lia.
Qed.

Section Cut.
Variable w z : text.
Hypothesis BW : blank w.
Let E : text := "|" :: ")" :: z.

(** The text ends with neither a blank nor a backslash (nor, just before the end of the pipeline, with an opening parenthesis). *)
Definition ok_end (x : text) : Prop :=
  x = [] \/ exists u c, x = u ++ [c] /\ isspace c = false /\ c <> bslash /\ (w = [] -> c <> "(").

Lemma ok_end_tail : forall c x, ok_end (c :: x) -> ok_end x.
Proof.
  intros c x [H|(u & d & H & S)]; [discriminate|]. destruct u as [|c' u]; cbn in H; inv H.
  - now left.
  - right. exists u, d. auto.
Qed.

Lemma ok_end_suffix : forall p x, ok_end (p ++ x) -> ok_end x.
Proof. induction p; intros x H; auto. apply IHp. eapply ok_end_tail. exact H. Qed.

Lemma ok_end_blank : forall x, ok_end x -> blank x -> x = [].
Proof.
  intros x [H|(u & c & -> & S & _)] B; auto. apply Forall_app in B as [_ B]. inv B. congruence.
Qed.

Lemma ok_end_bslash : ~ ok_end [bslash].
Proof. intros [H|(u & c & H & S & B & _)]; [discriminate|]. destruct u as [|a u]; [inv H; easy|]. destruct u; discriminate. Qed.

Lemma ok_end_paren : forall x, ok_end x -> x ++ w ++ E <> "(" :: E.
Proof.
  intros x O H. assert (LX : length x + length w = 1).
  { apply (f_equal (@length ascii)) in H. rewrite !app_length in H. cbn [length] in H. lia. }
  destruct x as [|a x]; cbn in LX.
  - destruct w as [|b w0] eqn:W; [discriminate|]. cbn in H. inv H. inv BW. discriminate.
  - assert (x = [] /\ w = []) as [-> W] by (destruct x, w; cbn in LX; auto; lia). cbn in H. inv H.
    destruct O as [O|(u & c & U & _ & _ & N)]; [discriminate|]. destruct u as [|b u]; [inv U; now apply N|]. destruct u; discriminate.
Qed.

Lemma scan_quoted_out : forall term q w' cs rest, blank w' -> scan_string term (Some q) (w' ++ E) = Ok (cs, rest) ->
  length rest < length E.
Proof.
  intros term q w' cs rest B. revert cs rest. induction w' as [|c w' IH]; intros cs rest H.
  - apply scan_some_consumes in H. cbn in *. lia.
  - inv B. cbn [app scan_string] in H. rewrite H2 in H. cbn [orb] in H. apply scons_ok in H as (cs' & H & _). eauto.
Qed.

Lemma scan_stop : forall term w', blank w' -> term "|" = true -> scan_string term None (w' ++ E) = Ok ([], w' ++ E).
Proof.
  intros term w' B T. unfold E. destruct w' as [|c w']; cbn [app scan_string].
  - now rewrite T, orb_true_r.
  - inv B. now rewrite H1.
Qed.

Lemma scan_cut : forall term, term "|" = true -> forall n x q cs rest, length x <= n -> ok_end x ->
  scan_string term q (x ++ w ++ E) = Ok (cs, rest) -> length E <= length rest ->
  exists rest', scan_string term q x = Ok (cs, rest') /\ rest = rest' ++ w ++ E.
Proof.
  intros term T. induction n as [|n IH]; intros x q cs rest L O H LE.
  - destruct x; [|cbn in L; lia]. cbn [app] in H. destruct q as [q|].
    + apply scan_quoted_out in H; auto. lia.
    + rewrite scan_stop in H; auto. inv H. exists []. auto.
  - destruct x as [|c x].
    + cbn [app] in H. destruct q as [q|].
      * apply scan_quoted_out in H; auto. lia.
      * rewrite scan_stop in H; auto. inv H. exists []. auto.
    + pose proof (ok_end_tail _ _ O) as O'. cbn in L.
      assert (SC : forall l x' q', length x' <= n -> ok_end x' -> scons l (scan_string term q' (x' ++ w ++ E)) = Ok (cs, rest) ->
        exists rest', scons l (scan_string term q' x') = Ok (cs, rest') /\ rest = rest' ++ w ++ E).
      { intros l x' q' L' OX S. apply scons_ok in S as (cs' & S & ->). destruct (IH _ _ _ _ L' OX S LE) as (rest' & S' & R).
        rewrite S'. exists rest'. auto. }
      change ((c :: x) ++ w ++ E) with (c :: (x ++ w ++ E)) in H. cbn [scan_string] in H |- *.
      destruct (isspace c || term c)%bool.
      * destruct q as [q|]; [apply SC in H; auto; lia|]. inv H. exists (c :: x). auto.
      * destruct (is_quote c); [apply SC in H; auto; lia|].
        destruct (c =? bslash) eqn:CB; [|apply SC in H; auto; lia].
        apply Ascii.eqb_eq in CB. subst c.
        assert (D : exists d x', x = d :: x') by (destruct x; [now apply ok_end_bslash in O|eauto]).
        destruct D as (d & x' & ->). pose proof (ok_end_tail _ _ O') as O''. cbn in L. cbn [app] in H.
        destruct q as [q|].
        -- destruct (q =? squote).
           ++ change (d :: x' ++ w ++ E) with ((d :: x') ++ w ++ E) in H. apply SC in H; auto. cbn; lia.
           ++ destruct (d =? bslash); apply SC in H; auto; lia.
        -- apply SC in H; auto; lia.
Qed.

(** Python strings *)
Lemma blank_no_quote : forall c, isspace c = true -> is_quote c = false /\ c <> bslash /\ c <> "(" /\ c <> ")" /\ c <> "#".
Proof.
  intros c H. repeat split; intros; try (intros ->; discriminate).
  unfold is_quote. destruct (c =? squote) eqn:A; [apply Ascii.eqb_eq in A; subst; discriminate|].
  destruct (c =? dquote) eqn:B; [apply Ascii.eqb_eq in B; subst; discriminate|]. reflexivity.
Qed.

Lemma pstr_out : forall q tr w' rest, blank w' -> pstr q tr (w' ++ E) = Ok rest -> length rest < length E.
Proof.
  intros q tr w' rest B. revert rest. induction w' as [|c w' IH]; intros rest H.
  - unfold E in H. cbn [app pstr] in H. change (is_quote "|") with false in H. cbn -[pstr] in H. change ("|" =? bslash) with false in H.
    cbn iota in H. apply pstr_suffix in H as (p & H). apply (f_equal (@length ascii)) in H.
    rewrite app_length in H. unfold E. cbn in *. lia.
  - inv B. destruct (blank_no_quote c H2) as (Q & NB & _). cbn [app pstr] in H. rewrite Q in H.
    destruct (c =? bslash) eqn:CB; [apply Ascii.eqb_eq in CB; easy|]. auto.
Qed.

(** The character after [x] is neither a quote nor a dollar nor... *)
Lemma tail_head : forall P : ascii -> Prop, (forall c, isspace c = true -> P c) -> P "|" ->
  exists c r, w ++ E = c :: r /\ P c.
Proof. intros P HS HP. destruct w as [|c r]; cbn [app]; unfold E; eauto. inv BW. exists c. eexists. eauto. Qed.

Lemma two_quotes_cut : forall q x, is_quote q = true ->
  two_quotes q (x ++ w ++ E) = match two_quotes q x with Some r => Some (r ++ w ++ E) | None => None end.
Proof.
  intros q x Q.
  destruct (tail_head (fun c => (c =? q) = false)) as (c & r & T & C).
  { intros c S. destruct (blank_no_quote c S) as (N & _). destruct (c =? q) eqn:A; auto. apply Ascii.eqb_eq in A. congruence. }
  { destruct ("|" =? q) eqn:A; auto. apply Ascii.eqb_eq in A. subst. discriminate. }
  unfold two_quotes. destruct x as [|a [|b x]]; cbn [app].
  - rewrite T. destruct r; auto. now rewrite C.
  - rewrite T. rewrite C. now rewrite andb_false_r.
  - destruct ((a =? q) && (b =? q))%bool; auto.
Qed.

Lemma pstr_cut : forall q tr, is_quote q = true -> forall n x rest, length x <= n -> ok_end x ->
  pstr q tr (x ++ w ++ E) = Ok rest -> length E <= length rest ->
  exists rest', pstr q tr x = Ok rest' /\ rest = rest' ++ w ++ E.
Proof.
  intros q tr Q. induction n as [|n IH]; intros x rest L O H LE.
  - destruct x; [|cbn in L; lia]. apply pstr_out in H; auto. lia.
  - destruct x as [|c x]; [apply pstr_out in H; auto; lia|].
    pose proof (ok_end_tail _ _ O) as O'. cbn in L. change ((c :: x) ++ w ++ E) with (c :: (x ++ w ++ E)) in H. cbn [pstr] in H |- *.
    destruct (is_quote c) eqn:QC.
    + destruct (c =? q) eqn:CQ.
      * destruct tr; [|inv H; eauto].
        pose proof (two_quotes_cut q x Q) as TQ. unfold two_quotes in TQ.
        remember (x ++ w ++ E) as xx. destruct xx as [|a [|b xx]].
        -- destruct x as [|a' [|b' x']]; discriminate.
        -- rewrite Heqxx in H. apply IH in H; auto; [|lia]. destruct H as (r' & H & R). exists r'. split; auto.
           destruct x as [|a' [|b' x']]; auto. destruct ((a' =? q) && (b' =? q))%bool; [discriminate|auto].
        -- destruct ((a =? q) && (b =? q))%bool.
           ++ inv H. destruct x as [|a' [|b' x']]; try discriminate. destruct ((a' =? q) && (b' =? q))%bool; try discriminate.
              inv TQ. eauto.
           ++ rewrite Heqxx in H. apply IH in H; auto; [|lia]. destruct H as (r' & H & R). exists r'. split; auto.
              destruct x as [|a' [|b' x']]; auto. destruct ((a' =? q) && (b' =? q))%bool; [discriminate|auto].
      * apply IH in H; auto. lia.
    + destruct (c =? bslash) eqn:CB; [|apply IH in H; auto; lia].
      apply Ascii.eqb_eq in CB. subst c.
      assert (D : exists d x', x = d :: x') by (destruct x; [now apply ok_end_bslash in O|eauto]).
      destruct D as (d & x' & ->). pose proof (ok_end_tail _ _ O') as O''. cbn in L. cbn [app] in H. apply IH in H; auto. lia.
Qed.

Lemma python_string_cut : forall q x rest, is_quote q = true -> ok_end x ->
  python_string q (x ++ w ++ E) = Ok rest -> length E <= length rest ->
  exists rest', python_string q x = Ok rest' /\ rest = rest' ++ w ++ E.
Proof.
  intros q x rest Q O H LE. unfold python_string in *. rewrite two_quotes_cut in H; auto.
  destruct (two_quotes q x) as [r|] eqn:TQ.
  - apply two_quotes_some in TQ. subst x. apply ok_end_tail, ok_end_tail in O. eapply pstr_cut; eauto.
  - eapply pstr_cut; eauto.
Qed.

Lemma escan_out : forall w' f n prev rest, blank w' -> 0 < n -> escan f n prev (w' ++ E) = Ok rest -> length rest < length E.
Proof.
  induction w' as [|c w' IH]; intros f n prev rest B N H; destruct n as [|n]; try lia; destruct f as [|f]; try discriminate.
  - unfold E in H. cbn [app escan] in H. change ("|" =? "(") with false in H. change ("|" =? ")") with false in H.
    change (is_quote "|") with false in H. cbn iota in H. apply escan_suffix in H as (p & H).
    apply (f_equal (@length ascii)) in H. rewrite app_length in H. unfold E. cbn in *. lia.
  - inv B. destruct (blank_no_quote c H2) as (Q & _ & N1 & N2 & _). cbn [app escan] in H.
    destruct (c =? "(") eqn:A; [apply Ascii.eqb_eq in A; easy|]. destruct (c =? ")") eqn:A2; [apply Ascii.eqb_eq in A2; easy|].
    rewrite Q in H. apply IH in H; auto.
Qed.

Lemma escan_cut : forall f f' n prev x rest, length x <= f' -> ok_end x ->
  escan f n prev (x ++ w ++ E) = Ok rest -> length E <= length rest ->
  exists rest', escan f' n prev x = Ok rest' /\ rest = rest' ++ w ++ E.
Proof.
  induction f as [|f IH]; intros f' n prev x rest L O H LE.
  - destruct n as [|n]; [destruct f'; cbn in *; inv H; eauto|].
    cbn [escan] in H. destruct (x ++ w ++ E) eqn:T; [|discriminate]. destruct x; [|discriminate]. destruct w; discriminate.
  - destruct n as [|n]; [destruct f'; cbn in *; inv H; eauto|].
    destruct x as [|c x]; [apply escan_out in H; auto; lia|]. destruct f' as [|f']; [cbn in L; lia|]. cbn in L.
    pose proof (ok_end_tail _ _ O) as O'. change ((c :: x) ++ w ++ E) with (c :: (x ++ w ++ E)) in H. cbn [escan] in H |- *.
    destruct (c =? "("); [eapply IH; eauto; lia|]. destruct (c =? ")"); [eapply IH; eauto; lia|].
    destruct (is_quote c) eqn:Q; [|eapply IH; eauto; lia].
    destruct (python_string c (x ++ w ++ E)) as [r| | |] eqn:PS; try discriminate.
    assert (LR : length E <= length r).
    { apply escan_suffix in H as (p & ->). rewrite app_length. lia. }
    destruct (python_string_cut _ _ _ Q O' PS LR) as (r' & PS' & ->). rewrite PS'.
    pose proof (python_string_suffix _ _ _ PS') as (p & P).
    eapply IH; eauto.
    + rewrite P, app_length in L. lia.
    + rewrite P in O'. eapply ok_end_suffix; eauto.
Qed.

Lemma expression_cut : forall x rest, x <> [] -> ok_end x -> expression (x ++ w ++ E) = Ok rest -> length E <= length rest ->
  exists rest', expression x = Ok rest' /\ rest = rest' ++ w ++ E.
Proof.
  intros [|c x] rest NE O H LE; [easy|]. unfold expression in *. cbn [app] in H. eapply escan_cut; eauto. eapply ok_end_tail; eauto.
Qed.

(** Symbols *)
Lemma starts_more : forall p x y, starts p x = true -> starts p (x ++ y) = true.
Proof.
  induction p as [|a p IH]; intros x y H; auto. destruct x as [|b x]; [discriminate|]. cbn in *.
  apply andb_true_iff in H as [-> H]. cbn. now apply IH.
Qed.

Lemma starts_cut0 : forall p x, Forall (fun c => isspace c = false /\ c <> "|") p -> starts p (x ++ w ++ E) = starts p x.
Proof.
  induction p as [|a p IH]; intros x F; auto. inv F. destruct H1 as [SA NA]. destruct x as [|b x].
  - destruct (tail_head (fun c => (a =? c) = false)) as (c & r & T & C).
    + intros c S. destruct (a =? c) eqn:Q; auto. apply Ascii.eqb_eq in Q. congruence.
    + destruct (a =? "|") eqn:Q; auto. apply Ascii.eqb_eq in Q. congruence.
    + cbn [app]. rewrite T. cbn. now rewrite C.
  - cbn [app starts]. rewrite IH; auto.
Qed.

Lemma starts_cut : forall a p x, x <> [] -> Forall (fun c => isspace c = false /\ c <> "|") p ->
  starts (a :: p) (x ++ w ++ E) = starts (a :: p) x.
Proof. intros a p [|b x] NE F; [easy|]. cbn [app starts]. now rewrite starts_cut0. Qed.

Lemma symbol_cut : forall kk p x k rest, starts p x = true -> symbol kk (length p) (x ++ w ++ E) = Ok (Some (k, rest)) ->
  exists rest', symbol kk (length p) x = Ok (Some (k, rest')) /\ rest = rest' ++ w ++ E.
Proof.
  intros kk p x k rest S H. apply starts_app in S. unfold symbol in *. inv H.
  assert (L : length p <= length x) by (rewrite S, app_length; lia).
  rewrite firstn_app, skipn_app. replace (length p - length x) with 0 by lia. cbn [firstn skipn]. rewrite app_nil_r.
  eexists. split; [reflexivity|]. reflexivity.
Qed.

Lemma taken_cut : forall p rest T : text, taken ((p ++ rest) ++ T) (rest ++ T) = taken (p ++ rest) rest.
Proof. intros. rewrite <- app_assoc. now rewrite !taken_app. Qed.

Lemma raw_token_cut : forall m x k rest, x <> [] -> ok_end x ->
  raw_token m (x ++ w ++ E) = Ok (Some (k, rest)) -> length E <= length rest ->
  exists rest', raw_token m x = Ok (Some (k, rest')) /\ rest = rest' ++ w ++ E.
Proof.
  intros m x k rest NE O H LE.
  assert (X : forall t, t <> [] -> raw_token m t =
    let mm := negb m in
    if mm && starts ["("; "|"] t then symbol KBegin 2 t
    else if mm && starts ["|"; ")"] t then symbol KEnd 2 t
    else if starts ["("] t then
      match expression t with
      | Ok rest => Ok (Some (mktok (KExpr (expr_source t rest)) (taken t rest), rest))
      | Err => Err | Crash => Crash | Fuel => Fuel
      end
    else if starts [")"] t then Err
    else if starts ["|"] t then symbol KPipe 1 t
    else if mm && starts ["@"] t then symbol KRemote 1 t
    else if starts ["!"] t then
      if starts ["!"; "!"] t then symbol (KBang true) 2 t else symbol (KBang false) 1 t
    else if mm && starts ["="] t then symbol KAssign 1 t
    else if mm && starts [","] t then symbol KComma 1 t
    else if mm && starts [":"] t then symbol KColon 1 t
    else if starts ["#"] t then Ok None
    else if starts [">"; ">"; "$"] t then symbol (KGt [">"; ">"; "$"]) 3 t
    else if starts [">"; "$"] t then symbol (KGt [">"; "$"]) 2 t
    else if starts [">"; ">"] t then symbol (KGt [">"; ">"]) 2 t
    else if starts [">"] t then symbol (KGt [">"]) 1 t
    else if starts ["<"; "$"] t then symbol (KLt ["<"; "$"]) 2 t
    else if starts ["<"] t then symbol (KLt ["<"]) 1 t
    else
      match scan_string (if m then shell_term else marcel_term) None t with
      | Ok (chars, rest) =>
        match literal chars with
        | Ok _ => Ok (Some (mktok (KString chars) (taken t rest), rest))
        | Err => Err | Crash => Crash | Fuel => Fuel
        end
      | Err => Err | Crash => Crash | Fuel => Fuel
      end) by (intros [|c t] N; [easy|reflexivity]).
  rewrite X in H by (destruct x; [easy|discriminate]). rewrite X by auto. cbn zeta in *.
  destruct (negb m && starts ["("; "|"] (x ++ w ++ E))%bool eqn:S1.
  { apply andb_true_iff in S1 as [NM S1]. rewrite NM. cbn [andb].
    destruct (starts ["("; "|"] x) eqn:S1'; [exact (symbol_cut _ ["("; "|"] x k rest S1' H)|]. exfalso.
    destruct x as [|a [|b x]]; [easy| |].
    - unfold symbol in H. inv H.
      destruct w as [|c w'].
      + unfold E in LE. cbn in LE. lia.
      + cbn [app starts] in S1. inv BW. apply andb_true_iff in S1 as [_ S1]. rewrite andb_true_r in S1. apply Ascii.eqb_eq in S1. subst c. discriminate.
    - cbn in S1, S1'. congruence. }
  assert (S1' : (negb m && starts ["("; "|"] x)%bool = false).
  { destruct (negb m); auto. cbn [andb] in *. destruct (starts ["("; "|"] x) eqn:Q; auto. rewrite starts_more in S1; auto. }
  rewrite S1'. rewrite !starts_cut in H by (auto; repeat constructor; discriminate).
  repeat match type of H with
  | (if ?b then _ else _) = _ => let S := fresh "S" in destruct b eqn:S
  end; try discriminate H;
  repeat match goal with Q : (_ && _)%bool = true |- _ => apply andb_true_iff in Q as [_ Q] end;
  try (match type of H with symbol ?kk ?n _ = _ =>
    match goal with Q : starts ?p x = true |- _ => let m := eval cbn in (length p) in constr_eq m n; exact (symbol_cut kk p x k rest Q H) end end).
  - destruct (expression (x ++ w ++ E)) as [r| | |] eqn:EX; try discriminate. inv H.
    destruct (expression_cut _ _ NE O EX LE) as (r' & EX' & ->). rewrite EX'.
    assert (P : exists p, x = p ++ r').
    { destruct x as [|c x]; [easy|]. cbn [expression] in EX'. apply escan_suffix in EX' as (p & ->). exists (c :: p). reflexivity. }
    destruct P as (p & ->). unfold expr_source. rewrite taken_cut. eexists. split; reflexivity.
  - destruct (scan_string (if m then shell_term else marcel_term) None (x ++ w ++ E)) as [[cs r]| | |] eqn:SC; try discriminate.
    destruct (literal cs) eqn:LT; try discriminate. inv H.
    assert (T : (if m then shell_term else marcel_term) "|" = true) by (destruct m; reflexivity).
    destruct (scan_cut _ T _ _ _ _ _ (le_n _) O SC LE) as (r' & SC' & ->). rewrite SC', LT.
    pose proof SC' as SF. apply scan_suffix in SF as (p & -> & _). rewrite taken_cut. eexists. split; reflexivity.
Qed.

(** ** One token *)
Definition C (t t' : text) : Prop :=
  t = t' ++ w ++ E \/ (t' = [] /\ exists w', blank w' /\ t = w' ++ E).

(** What is left is not inside the end of the pipeline. *)
Definition safe (t : text) : Prop := length E <= length t.

Lemma skip_ws_app : forall x y, skip_ws x <> [] -> skip_ws (x ++ y) = skip_ws x ++ y.
Proof. induction x as [|c x IH]; intros y N; [easy|]. cbn in *. destruct (isspace c); auto. Qed.

Lemma skip_ws_nonblank : forall x, x <> [] -> ok_end x -> skip_ws x <> [] /\ ok_end (skip_ws x).
Proof.
  intros x NE O. destruct (skip_ws_spec x) as (u & B & X). split.
  - intros S. rewrite S, app_nil_r in X. subst u. apply ok_end_blank in O; auto.
  - rewrite X in O. eapply ok_end_suffix; eauto.
Qed.

Lemma skip_ws_E : forall w', blank w' -> skip_ws (w' ++ E) = E.
Proof. induction w' as [|c w' IH]; intros B; [reflexivity|]. inv B. cbn [app skip_ws]. now rewrite H1, IH. Qed.

Lemma unconsolidated_rest : forall m t k adj rest, unconsolidated m t = Ok (Some (k, adj, rest)) ->
  exists rest0, raw_token m (skip_ws t) = Ok (Some (k, rest0)) /\ rest = skip_ws rest0 /\
  adj = (match rest0 with [] => false | c :: _ => negb (isspace c) end).
Proof.
  intros m t k adj rest H. unfold unconsolidated in H.
  destruct (raw_token m (skip_ws t)) as [[[k0 r0]|]| | |]; try discriminate. inv H. eauto.
Qed.

Lemma skip_ws_length : forall t, length (skip_ws t) <= length t.
Proof. induction t as [|c t IH]; cbn; auto. destruct (isspace c); cbn; lia. Qed.

Lemma unconsolidated_cut : forall m x k adj rest, x <> [] -> ok_end x ->
  unconsolidated m (x ++ w ++ E) = Ok (Some (k, adj, rest)) -> length E <= length rest ->
  exists adj' rest', unconsolidated m x = Ok (Some (k, adj', rest')) /\ C rest rest' /\ ok_end rest' /\
    (rest' <> [] -> adj' = adj) /\ (rest' = [] -> adj' = false) /\ skip_ws rest' = rest'.
Proof.
  intros m x k adj rest NE O H LE. apply unconsolidated_rest in H as (r0 & R & -> & ->).
  destruct (skip_ws_nonblank x NE O) as [NS OS]. rewrite skip_ws_app in R by auto.
  assert (L0 : length E <= length r0) by (pose proof (skip_ws_length r0); lia).
  destruct (raw_token_cut _ _ _ _ NS OS R L0) as (r' & R' & ->). unfold unconsolidated. rewrite R'.
  assert (O' : ok_end r').
  { apply raw_token_ok in R' as (X & _ & _); [|apply skip_ws_head]. rewrite X in OS. eapply ok_end_suffix; eauto. }
  destruct r' as [|c r'].
  - exists false, []. cbn [app skip_ws]. split; auto. split; [|split; [|split; [|split]]]; auto.
    + right. split; auto. exists []. split; [constructor|]. cbn. now apply skip_ws_E.
    + easy.
  - destruct (skip_ws_nonblank (c :: r') ltac:(discriminate) O') as [NS' OS'].
    eexists _, _. split; [reflexivity|]. split; [|split; [|split; [|split]]]; auto.
    + left. now apply skip_ws_app.
    + easy.
    + apply skip_ws_id. apply skip_ws_head.
Qed.

Lemma at_E : forall m w' k adj rest, blank w' -> unconsolidated m (w' ++ E) = Ok (Some (k, adj, rest)) ->
  consolidatable k = false /\ length rest < length E.
Proof.
  intros m w' k adj rest B H. apply unconsolidated_rest in H as (r0 & R & -> & ->). rewrite skip_ws_E in R by auto.
  pose proof (skip_ws_length r0). destruct m; cbn in R; inv R; split; auto; unfold E; cbn in *; lia.
Qed.

Lemma skip_ws_over : forall y, length E <= length (skip_ws (y ++ w ++ E)).
Proof.
  induction y as [|c y IH]; [cbn [app]; rewrite skip_ws_E; auto|]. cbn [app skip_ws]. destruct (isspace c); auto.
  cbn [length]. rewrite !app_length. lia.
Qed.

Lemma symbol_over : forall kk p x k rest, starts p x = true -> symbol kk (length p) (x ++ w ++ E) = Ok (Some (k, rest)) ->
  length E <= length (skip_ws rest).
Proof. intros kk p x k rest S H. apply symbol_cut in H as (r' & _ & ->); auto. apply skip_ws_over. Qed.

Lemma symbol_into_end : forall m x k rest, x <> [] -> raw_token m (x ++ w ++ E) = Ok (Some (k, rest)) -> consolidatable k = false ->
  length (skip_ws rest) < length E -> x ++ w ++ E = "(" :: E.
Proof.
  intros m x k rest NE H CK LT. unfold raw_token in H. destruct x as [|c x]; [easy|].
  change ((c :: x) ++ w ++ E) with (c :: x ++ w ++ E) in H. cbv iota in H. change (c :: x ++ w ++ E) with ((c :: x) ++ w ++ E) in H.
  remember (c :: x) as X. cbv zeta in H.
  destruct (negb m && starts ["("; "|"] (X ++ w ++ E))%bool eqn:S1.
  { apply andb_true_iff in S1 as [NM S1].
    destruct (starts ["("; "|"] X) eqn:S1'; [apply (symbol_over _ ["("; "|"]) in H; auto; lia|].
    subst X. destruct x as [|b x].
    - destruct w as [|d w'].
      + cbn [app starts] in S1. apply andb_true_iff in S1 as [S1 _]. apply Ascii.eqb_eq in S1. now subst c.
      + cbn [app starts] in S1. inv BW. apply andb_true_iff in S1 as [_ S1]. rewrite andb_true_r in S1. apply Ascii.eqb_eq in S1. subst d. discriminate.
    - cbn in S1, S1'. congruence. }
  exfalso. rewrite !starts_cut in H by (auto; repeat constructor; discriminate).
  repeat match type of H with
  | (if ?b then _ else _) = _ => let S := fresh "S" in destruct b eqn:S
  end; try discriminate H;
  repeat match goal with Q : (_ && _)%bool = true |- _ => apply andb_true_iff in Q as [_ Q] end;
  try (match type of H with symbol ?kk ?n _ = _ =>
    match goal with Q : starts ?p X = true |- _ => let m := eval cbn in (length p) in constr_eq m n; apply (symbol_over kk p) in H; auto; lia end end).
  - destruct (expression (X ++ w ++ E)); try discriminate. inv H. discriminate.
  - destruct (scan_string _ None (X ++ w ++ E)) as [[cs r]| | |]; try discriminate. destruct (literal cs); try discriminate. inv H. discriminate.
Qed.

Lemma gather_cut : forall f f' m acc adj adj' t t' ks r, C t t' -> ok_end t' -> skip_ws t' = t' -> length t' <= f' ->
  (t' <> [] -> adj' = adj) -> (t' = [] -> adj' = false) ->
  gather f m acc adj t = Ok (ks, r) -> safe r ->
  exists r', gather f' m acc adj' t' = Ok (ks, r') /\ C r r' /\ ok_end r'.
Proof.
  induction f as [|f IH]; intros f' m acc adj adj' t t' ks r HC O SK L A1 A2 H S.
  - cbn [gather] in H. destruct adj; [discriminate|]. inv H.
    assert (adj' = false) as -> by (destruct t'; [now apply A2|now apply A1]). rewrite gather_false. eauto.
  - destruct t' as [|c t'].
    + rewrite A2 by auto. rewrite gather_false. cbn [gather] in H. destruct adj; [|inv H; eauto].
      assert (T : exists w', blank w' /\ t = w' ++ E) by (destruct HC as [->|[_ ?]]; eauto). destruct T as (w' & B & ->).
      destruct (unconsolidated m (w' ++ E)) as [[[[k a] rest]|]| | |] eqn:U; try discriminate.
      destruct (at_E _ _ _ _ _ B U) as [CK _]. rewrite CK in H. inv H. eauto.
    + rewrite A1 by discriminate. cbn [gather] in H. destruct adj; [|inv H; rewrite gather_false; eauto].
      destruct HC as [->|[D _]]; [|discriminate].
      destruct (unconsolidated m ((c :: t') ++ w ++ E)) as [[[[k a] rest]|]| | |] eqn:U; try discriminate.
      destruct (consolidatable k) eqn:CK.
      * assert (LE : length E <= length rest) by (apply gather_suffix in H; unfold safe in S; lia).
        destruct (unconsolidated_cut m (c :: t') _ _ _ ltac:(discriminate) O U LE) as (a' & rest' & U' & HC & O' & B1 & B2 & SK').
        destruct f' as [|f']; [cbn in L; lia|].
        assert (L' : length rest' <= f').
        { apply unconsolidated_ok in U' as (u & u' & _ & _ & X & NE & _). apply (f_equal (@length ascii)) in X.
          rewrite !app_length in X. destruct (raw k); [exfalso; now apply NE|]. cbn in *. lia. }
        destruct (IH f' _ _ _ a' _ _ _ _ HC O' SK' L' B1 B2 H S) as (r' & G & HC' & O'').
        exists r'. split; auto. cbn [gather]. now rewrite U', CK.
      * inv H. destruct f' as [|f']; [cbn in L; lia|]. cbn [gather].
        assert (LE : length E <= length rest).
        { destruct (Nat.le_gt_cases (length E) (length rest)) as [|GT]; auto. exfalso.
          apply unconsolidated_rest in U as (r0 & R & -> & _). rewrite skip_ws_app in R by (rewrite SK; discriminate). rewrite SK in R.
          apply symbol_into_end in R; auto; [|discriminate]. revert R. now apply ok_end_paren. }
        destruct (unconsolidated_cut m (c :: t') _ _ _ ltac:(discriminate) O U LE) as (a' & rest' & U' & HC & O' & B1 & B2 & SK').
        rewrite U', CK. eexists. split; [reflexivity|]. split; auto. now left.
Qed.

Lemma next_skip : forall m t, next_token m (skip_ws t) = next_token m t.
Proof.
  intros m t. unfold next_token, unconsolidated.
  rewrite (skip_ws_id (skip_ws t)) by apply skip_ws_head. reflexivity.
Qed.

Lemma next_suffix : forall m t k r, next_token m t = Ok (Some (k, r)) ->
  exists k0 adj rest, unconsolidated m t = Ok (Some (k0, adj, rest)) /\ length r <= length rest.
Proof.
  intros m t k r H. unfold next_token in H.
  destruct (unconsolidated m t) as [[[[k0 adj] rest]|]| | |] eqn:U; try discriminate.
  destruct (gather _ _ _ _ _) as [[ks r2]| | |] eqn:G; try discriminate.
  apply gather_suffix in G. exists k0, adj, rest. split; auto.
  destruct ks as [|k1 [|k2 ks]]; try (destruct (consolidate _); try discriminate); inv H; auto.
Qed.

Lemma reads_at_E : forall m w' k r, blank w' -> Reads m (w' ++ E) k r -> length r < length E.
Proof.
  intros m w' k r B H. apply next_suffix in H as (k0 & adj & rest & U & L). apply at_E in U as [_ U]; auto. lia.
Qed.

Lemma safe_back : forall m t k r, Reads m t k r -> safe r -> safe t.
Proof. intros m t k r R L. apply reads_shorter in R. unfold safe in *. lia. Qed.

Lemma next_cut : forall m t t' k r, C t t' -> ok_end t' -> Reads m t k r -> safe r ->
  exists r', Reads m t' k r' /\ C r r' /\ ok_end r' /\ t' <> [].
Proof.
  intros m t t' k r HC O R S.
  assert (NE : t' <> []).
  { intros ->. assert (T : exists w', blank w' /\ t = w' ++ E) by (destruct HC as [->|[_ ?]]; eauto). destruct T as (w' & B & ->).
    apply reads_at_E in R; auto. unfold safe in S; lia. }
  destruct HC as [->|[D _]]; [|easy].
  destruct (next_suffix _ _ _ _ R) as (k0 & adj & rest & U & L).
  assert (LE : length E <= length rest) by (unfold safe in S; lia).
  destruct (unconsolidated_cut _ _ _ _ _ NE O U LE) as (a' & rest' & U' & HC & O' & B1 & B2 & SK').
  unfold Reads, next_token in *. rewrite U in R. rewrite U'.
  destruct (gather (length rest) m [k0] (adj && consolidatable k0) rest) as [[ks r2]| | |] eqn:G; try discriminate.
  assert (RR : r2 = r) by (destruct ks as [|k1 [|k2 ks]]; try (destruct (consolidate _); try discriminate); inv R; auto). subst r2.
  destruct (gather_cut (length rest) (length rest') m [k0] (adj && consolidatable k0)%bool (a' && consolidatable k0)%bool rest rest' ks r HC O' SK' (le_n _)
     ltac:(intros Q; now rewrite B1) ltac:(intros Q; now rewrite B2) G S) as (r' & G' & HC' & O'').
  rewrite G'. exists r'. split; [|auto].
  destruct ks as [|k1 [|k2 ks]]; try (destruct (consolidate _); try discriminate); inv R; auto.
Qed.

Lemma nothing_cut : forall t t', C t t' -> ok_end t' -> Nothing t -> Nothing t'.
Proof.
  intros t t' HC O N. destruct t' as [|c t']; [reflexivity|]. destruct HC as [->|[D _]]; [|discriminate].
  destruct (skip_ws_nonblank (c :: t') ltac:(discriminate) O) as [NS OS].
  unfold Nothing in *. rewrite <- next_skip in N |- *. rewrite skip_ws_app in N by auto.
  assert (H : raw_token false (skip_ws (c :: t') ++ w ++ E) = Ok None).
  { unfold next_token in N. destruct (unconsolidated false (skip_ws (c :: t') ++ w ++ E)) as [[[[k0 adj] r1]|]| | |] eqn:U; try discriminate.
    - destruct (gather _ _ _ _ _) as [[[|? [|? ?]] ?]| | |]; try discriminate; destruct (consolidate _); discriminate.
    - unfold unconsolidated in U. rewrite skip_ws_app in U by (rewrite skip_ws_id; auto; apply skip_ws_head).
      rewrite (skip_ws_id (skip_ws (c :: t'))) in U by apply skip_ws_head.
      destruct (raw_token false _) as [[[? ?]|]| | |]; try discriminate; auto. }
  apply raw_token_none in H as [H|[y H]]; [apply app_eq_nil in H as [H _]; contradiction|].
  destruct (skip_ws (c :: t')) as [|a b]; [easy|]. inv H. reflexivity.
Qed.

(** ** Derivations *)
Variable shell_args : text -> bool.
Notation Pipeline := (Pipeline shell_args true clear).
Notation OpSequence := (OpSequence shell_args true clear).
Notation OpArgs := (OpArgs shell_args true clear).
Notation Args := (Args shell_args true clear).
Notation Arg := (Arg shell_args true clear).
Notation Body := (Body shell_args true clear).

(** What follows is the end of the pipeline, or is before it. *)
Definition follow (t : text) : Prop :=
  (exists w', blank w' /\ t = w' ++ E) \/ exists k r, Reads false t k r /\ safe r.
Definition limit (t : text) : Prop :=
  (exists w', blank w' /\ t = w' ++ E) \/ forall k r, Reads false t k r -> safe r.

Lemma follow_limit : forall t, follow t -> limit t.
Proof.
  intros t [F|(k & r & R & S)]; [now left|]. right. intros k' r' R'. destruct (reads_fun _ _ _ _ _ _ R R') as [_ ->]. exact S.
Qed.

Lemma limit_cut : forall (Q : token -> Prop) u u', limit u -> C u u' -> ok_end u' ->
  (Nothing u \/ exists k r, Reads false u k r /\ Q k) -> Nothing u' \/ exists k r, Reads false u' k r /\ Q k.
Proof.
  intros Q u u' L HC O [N|(k & r & R & HQ)]; [left; eapply nothing_cut; eauto|].
  destruct u' as [|c u']; [left; reflexivity|]. destruct L as [(w' & B & T)|L].
  - destruct HC as [HC|[D _]]; [|discriminate]. rewrite HC, app_assoc in T. apply app_inv_tail in T.
    assert (BB : blank (c :: u')). { subst w'. apply Forall_app in B. apply B. }
    apply ok_end_blank in BB; auto. discriminate.
  - right. destruct (next_cut _ _ _ _ _ HC O R (L _ _ R)) as (r' & R' & _). eauto.
Qed.

Ltac sizes :=
  repeat match goal with
  | H : Reads _ _ _ _ |- _ => apply reads_shorter in H
  | H : Vars _ _ _ _ |- _ => apply vars_shorter in H
  | H : Params _ _ _ _ |- _ => apply params_shorter in H
  | H : Redirect _ _ _ |- _ => apply redirect_shorter in H
  | H : ParserSpec.Arg _ _ _ _ _ _ _ |- _ => apply (proj1 (shorter _)) in H
  | H : ParserSpec.Args _ _ _ _ _ _ _ |- _ => apply (proj1 (proj2 (shorter _))) in H
  | H : ParserSpec.OpArgs _ _ _ _ _ _ |- _ => apply (proj1 (proj2 (proj2 (shorter _)))) in H
  | H : ParserSpec.OpSequence _ _ _ _ _ _ |- _ => apply (proj1 (proj2 (proj2 (proj2 (shorter _))))) in H
  | H : ParserSpec.Pipeline _ _ _ _ _ _ _ |- _ => apply (proj1 (proj2 (proj2 (proj2 (proj2 (shorter _)))))) in H
  | H : ParserSpec.Body _ _ _ _ _ _ _ |- _ => apply (proj2 (proj2 (proj2 (proj2 (proj2 (shorter _)))))) in H
  end; unfold safe in *; lia.

Lemma seq_first : forall t ops r, OpSequence t ops r -> safe r -> follow r ->
  exists c t1, OpArgs t c t1 /\ safe t1 /\ follow t1.
Proof.
  intros t ops r H S F. inv H; [eauto 6|]. exists c, t1. split; auto. split; [sizes|]. right. exists p, t2. split; auto. sizes.
Qed.

Lemma args_limit : forall m t l r, Args m t l r -> safe r -> follow r -> limit t.
Proof.
  intros m t l r H S F. inv H; [now apply follow_limit|]. assert (S1 : safe t1) by sizes. inv H0.
  - destruct m; [|apply follow_limit; right; eauto]. right. intros k' r' R'.
    pose proof (next_modes _ _ _ _ _ H R' H2). unfold safe in *. lia.
  - apply follow_limit. right. exists b. eexists. split; eauto. sizes.
Qed.

Lemma clear_cut : forall p t t' ops r, OpSequence t ops r -> safe r -> follow r -> C t t' -> ok_end t' -> clear p t -> clear p t'.
Proof.
  intros p t t' ops r H S F HC O CL k r' R' W. apply seq_first in H as (c & t1 & H & S1 & F1); auto.
  inversion H as [? k0 ? HR HE | ? k0 u l ? HR HO HA]; subst.
  - destruct (next_cut _ _ _ _ _ HC O HR S1) as (x & RX & _). destruct (reads_fun _ _ _ _ _ _ R' RX) as [-> ->].
    exfalso. unfold is_word, is_expr in *. destruct (tkind k0); discriminate.
  - assert (S0 : safe u) by sizes. destruct (next_cut _ _ _ _ _ HC O HR S0) as (x & RX & HX & OX & _).
    destruct (reads_fun _ _ _ _ _ _ R' RX) as [-> ->].
    eapply (limit_cut (fun k' => p = false -> is_comma k' = false /\ is_colon k' = false)).
    + eapply args_limit; eauto.
    + eassumption.
    + assumption.
    + exact (CL _ _ HR W).
Qed.

Lemma vars_cut : forall t vs r, Vars true t vs r -> safe r -> forall t', C t t' -> ok_end t' ->
  exists r', Vars true t' vs r' /\ C r r' /\ ok_end r'.
Proof.
  induction 1; intros S t' HC O.
  - destruct (next_cut _ _ _ _ _ HC O H ltac:(sizes)) as (x & RX & HX & OX & _).
    destruct (next_cut _ _ _ _ _ HX OX H1 ltac:(sizes)) as (y & RY & HY & OY & _).
    exists y. split; auto. eapply VLast; eauto.
  - destruct (next_cut _ _ _ _ _ HC O H ltac:(sizes)) as (x & RX & HX & OX & _).
    destruct (next_cut _ _ _ _ _ HX OX H1 ltac:(sizes)) as (y & RY & HY & OY & _).
    destruct (IHVars S _ HY OY) as (v & RV & HV & OV). exists v. split; auto. eapply VMore; eauto.
  - destruct (next_cut _ _ _ _ _ HC O H0 ltac:(sizes)) as (x & RX & HX & OX & _).
    destruct (IHVars S _ HX OX) as (v & RV & HV & OV). exists v. split; auto. eapply VLax; eauto.
Qed.

Lemma params_cut : forall t vs r, Params true t vs r -> safe r -> forall t', C t t' -> ok_end t' ->
  exists r', Params true t' vs r' /\ C r r' /\ ok_end r'.
Proof.
  intros t vs r H S t' HC O. inv H.
  - exists t'. split; auto. constructor.
  - (* the separator is read again by Vars *)
    destruct (vars_cut _ _ _ H4 S _ HC O) as (x & VX & HX & OX). exists x. split; auto.
    assert (SR : safe r' /\ safe r0).
    { destruct (word_not_comma _ H1) as (NC & NL & _).
      inv H4.
      - destruct (reads_fun _ _ _ _ _ _ H0 H) as [-> ->]. destruct (reads_fun _ _ _ _ _ _ H2 H6) as [-> ->]. split; sizes.
      - destruct (reads_fun _ _ _ _ _ _ H0 H) as [-> ->]. destruct (reads_fun _ _ _ _ _ _ H2 H6) as [-> ->]. split; sizes.
      - destruct (reads_fun _ _ _ _ _ _ H0 H5) as [-> ->]. apply vars_starts in H7 as (kk & rr & RR & WW).
        destruct (reads_fun _ _ _ _ _ _ H2 RR) as [-> ->]. destruct (word_not_comma _ WW) as (A & B & _).
        rewrite A, B in H3. discriminate. }
    destruct SR as [S1 S2].
    destruct (next_cut _ _ _ _ _ HC O H0 S2) as (a & RA & HA & OA & _).
    destruct (next_cut _ _ _ _ _ HA OA H2 S1) as (b & RB & HB & OB & _).
    eapply PSome; eauto.
Qed.

Lemma redirect_cut : forall t c r, Redirect t c r -> safe r -> forall t', C t t' -> ok_end t' ->
  exists r', Redirect t' c r' /\ C r r' /\ ok_end r'.
Proof.
  intros t c r H S t' HC O. inv H.
  destruct (next_cut _ _ _ _ _ HC O H0 ltac:(sizes)) as (x & RX & HX & OX & _).
  destruct (next_cut _ _ _ _ _ HX OX H2 ltac:(sizes)) as (y & RY & HY & OY & _).
  exists y. split; auto. econstructor; eauto.
Qed.

Lemma redirect_follow : forall t c r, Redirect t c r -> safe r -> follow t.
Proof. intros t c r H S. inv H. right. exists gt, t1. split; auto. sizes. Qed.

Lemma taken_common : forall (t1 t2 T : text), length t2 <= length t1 -> taken (t1 ++ T) (t2 ++ T) = taken t1 t2.
Proof.
  intros t1 t2 T L. unfold taken. rewrite !app_length. replace (length t1 + length T - (length t2 + length T)) with (length t1 - length t2) by lia.
  rewrite firstn_app. replace (length t1 - length t2 - length t1) with 0 by lia. cbn. apply app_nil_r.
Qed.

Lemma cut :
  (forall m t a r, Arg m t a r -> safe r -> forall t', C t t' -> ok_end t' ->
     exists r', Arg m t' a r' /\ C r r' /\ ok_end r') /\
  (forall m t l r, Args m t l r -> safe r -> forall t', C t t' -> ok_end t' ->
     exists r', Args m t' l r' /\ C r r' /\ ok_end r') /\
  (forall t c r, OpArgs t c r -> safe r -> forall t', C t t' -> ok_end t' ->
     exists r', OpArgs t' c r' /\ C r r' /\ ok_end r') /\
  (forall t ops r, OpSequence t ops r -> safe r -> forall t', C t t' -> ok_end t' ->
     exists r', OpSequence t' ops r' /\ C r r' /\ ok_end r') /\
  (forall t ps ops r, Pipeline t ps ops r -> safe r -> follow r -> forall t', C t t' -> ok_end t' ->
     exists r', Pipeline t' ps ops r' /\ C r r' /\ ok_end r') /\
  (forall p t ops r, Body p t ops r -> safe r -> follow r -> forall t', C t t' -> ok_end t' ->
     exists r', Body p t' ops r' /\ C r r' /\ ok_end r').
Proof.
  apply grammar_ind.
  - intros m t k r R W Q S t' HC O. destruct (next_cut _ _ _ _ _ HC O R S) as (x & RX & HX & OX & _).
    exists x. split; auto. now constructor.
  - intros t b t1 ps ops t2 e r RB B P IP RE EE S t' HC O.
    destruct (next_cut _ _ _ _ _ HC O RB ltac:(sizes)) as (x & RX & HX & OX & _).
    destruct (IP ltac:(sizes) ltac:(right; eauto) _ HX OX) as (y & PY & HY & OY).
    destruct (next_cut _ _ _ _ _ HY OY RE S) as (v & RV & HV & OV & NY).
    exists v. split; auto.
    assert (LY : length y <= length x) by (clear - PY; sizes).
    assert (NX : x <> []). { intros ->. destruct y; [easy|cbn in LY; lia]. }
    destruct HX as [HX|[HX _]]; [|easy]. destruct HY as [HY|[HY _]]; [|easy].
    rewrite HX, HY, taken_common by auto. eapply ArgPipe; eauto.
  - intros m t S t' HC O. exists t'. split; auto. constructor.
  - intros m t a t1 l r A IA AR IR S t' HC O.
    destruct (IA ltac:(sizes) _ HC O) as (x & RX & HX & OX).
    destruct (IR S _ HX OX) as (y & RY & HY & OY). exists y. split; auto. econstructor; eauto.
  - intros t k r R W S t' HC O. destruct (next_cut _ _ _ _ _ HC O R S) as (x & RX & HX & OX & _).
    exists x. split; auto. now constructor.
  - intros t k t1 l r R W AR IR S t' HC O.
    destruct (next_cut _ _ _ _ _ HC O R ltac:(sizes)) as (x & RX & HX & OX & _).
    destruct (IR S _ HX OX) as (y & RY & HY & OY). exists y. split; auto. econstructor; eauto.
  - intros t c r A IA S t' HC O. destruct (IA S _ HC O) as (x & RX & HX & OX). exists x. split; auto. now constructor.
  - intros t c t1 p t2 cs r A IA R PP SQ IS S t' HC O.
    destruct (IA ltac:(sizes) _ HC O) as (x & RX & HX & OX).
    destruct (next_cut _ _ _ _ _ HX OX R ltac:(sizes)) as (y & RY & HY & OY & _).
    destruct (IS S _ HY OY) as (v & RV & HV & OV). exists v. split; auto. eapply SeqMore; eauto.
  - intros t ps t1 ops r P B IB S F t' HC O.
    destruct (params_cut _ _ _ P ltac:(sizes) _ HC O) as (x & RX & HX & OX).
    destruct (IB S F _ HX OX) as (y & RY & HY & OY). exists y. split; auto. econstructor; eauto.
  - intros p t ops r CL SQ IS S F t' HC O. destruct (IS S _ HC O) as (x & RX & HX & OX).
    exists x. split; auto. apply BSeq; auto. eapply (clear_cut p t t' ops r); eauto.
  - intros p t ops t1 c r CL SQ IS RD S F t' HC O. destruct (IS ltac:(sizes) _ HC O) as (x & RX & HX & OX).
    destruct (redirect_cut _ _ _ RD S _ HX OX) as (y & RY & HY & OY).
    exists y. split; auto. eapply BSeqGt; eauto. eapply (clear_cut p t t' ops t1); eauto; [sizes|]. eapply redirect_follow; eauto.
  - intros p t c r RD S F t' HC O. destruct (redirect_cut _ _ _ RD S _ HC O) as (y & RY & HY & OY).
    exists y. split; auto. now apply BGt.
  - intros p t source t1 lt r R1 W R2 L S F t' HC O.
    destruct (next_cut _ _ _ _ _ HC O R1 ltac:(sizes)) as (x & RX & HX & OX & _).
    destruct (next_cut _ _ _ _ _ HX OX R2 ltac:(sizes)) as (y & RY & HY & OY & _).
    exists y. split; auto. eapply BLt; eauto.
  - intros p t source t1 lt t2 c r R1 W R2 L RD S F t' HC O.
    destruct (next_cut _ _ _ _ _ HC O R1 ltac:(sizes)) as (x & RX & HX & OX & _).
    destruct (next_cut _ _ _ _ _ HX OX R2 ltac:(sizes)) as (y & RY & HY & OY & _).
    destruct (redirect_cut _ _ _ RD S _ HY OY) as (v & RV & HV & OV).
    exists v. split; auto. eapply BLtGt; eauto.
  - intros p t source t1 lt t2 ops r R1 W R2 L SQ IS S F t' HC O.
    destruct (next_cut _ _ _ _ _ HC O R1 ltac:(sizes)) as (x & RX & HX & OX & _).
    destruct (next_cut _ _ _ _ _ HX OX R2 ltac:(sizes)) as (y & RY & HY & OY & _).
    destruct (IS S _ HY OY) as (v & RV & HV & OV).
    exists v. split; auto. eapply BLtSeq; eauto.
  - intros p t source t1 lt t2 ops t3 c r R1 W R2 L SQ IS RD S F t' HC O.
    destruct (next_cut _ _ _ _ _ HC O R1 ltac:(sizes)) as (x & RX & HX & OX & _).
    destruct (next_cut _ _ _ _ _ HX OX R2 ltac:(sizes)) as (y & RY & HY & OY & _).
    destruct (IS ltac:(sizes) _ HY OY) as (v & RV & HV & OV).
    destruct (redirect_cut _ _ _ RD S _ HV OV) as (u & RU & HU & OU).
    exists u. split; auto. eapply BLtSeqGt; eauto.
Qed.
End Cut.
