(** C30: scripts as commands. C42: arguments of scripts. *)
From Verif.Syntax Require Import ScriptsSpec ArgsFacts4.
Local Open Scope char_scope.
Local Open Scope list_scope.

(** ** C30 *)
Lemma split_nonempty : forall t, split_lines t <> [].
Proof. destruct t as [|c r]; cbn; [discriminate|]. destruct (c =? newline); [discriminate|]. destruct (split_lines r); discriminate. Qed.

Lemma split_spec : forall t, lines_of t (split_lines t).
Proof.
  induction t as [|c r IH].
  - repeat split; [discriminate|]. intros l [<-|[]] [].
  - cbn. destruct (c =? newline) eqn:E.
    + apply Ascii.eqb_eq in E. subst c. destruct IH as (NE & J & L). split; [discriminate|]. split.
      * destruct (split_lines r); [easy|]. cbn in *. now rewrite J.
      * intros l [<-|I]; auto.
    + apply Ascii.eqb_neq in E. destruct IH as (NE & J & L). destruct (split_lines r) as [|l ls]; [easy|].
      split; [discriminate|]. split.
      * destruct ls; [cbn in *; congruence|]. rewrite <- J. reflexivity.
      * intros x [<-|I]; [|apply L; now right]. intros [Q|Q]; [congruence|]. apply (L l); auto. now left.
Qed.

Lemma join_inj : forall t ls ls', lines_of t ls -> lines_of t ls' -> ls = ls'.
Proof.
  assert (A : forall a x b, ~ In newline a -> ~ In newline b -> a <> b ++ newline :: x).
  { intros a x b Na Nb E. apply Na. rewrite E. apply in_or_app. right. now left. }
  assert (B : forall a b x y, ~ In newline a -> ~ In newline b -> a ++ newline :: x = b ++ newline :: y -> a = b /\ x = y).
  { induction a as [|c a IH]; intros [|c' b] x y Na Nb E; cbn in *.
    - split; auto; congruence.
    - injection E as E _. exfalso. apply Nb. left. congruence.
    - injection E as E _. exfalso. apply Na. left. congruence.
    - injection E as -> E. apply IH in E as [-> ->]; auto. }
  intros t ls. revert t. induction ls as [|l ls IH]; intros t ls' (NE & J & L) (NE' & J' & L'); [easy|].
  destruct ls' as [|l' ls']; [easy|].
  destruct ls as [|m ls], ls' as [|m' ls'].
  - cbn in *. congruence.
  - exfalso. cbn in J. change (join_lines (l' :: m' :: ls')) with (l' ++ newline :: join_lines (m' :: ls')) in J'.
    eapply (A l); [| |rewrite J, <- J'; reflexivity]; [apply L|apply L']; now left.
  - exfalso. cbn in J'. change (join_lines (l :: m :: ls)) with (l ++ newline :: join_lines (m :: ls)) in J.
    eapply (A l'); [| |rewrite J', <- J; reflexivity]; [apply L'|apply L]; now left.
  - change (join_lines (l :: m :: ls)) with (l ++ newline :: join_lines (m :: ls)) in J.
    change (join_lines (l' :: m' :: ls')) with (l' ++ newline :: join_lines (m' :: ls')) in J'.
    rewrite <- J' in J. apply B in J as [-> J]; [|apply L; now left|apply L'; now left]. f_equal.
    apply (IH (join_lines (m :: ls))).
    + repeat split; [discriminate|]. intros x I. apply L. now right.
    + repeat split; [discriminate|auto|]. intros x I. apply L'. now right.
Qed.

Lemma ends_spec : forall l, ends_bslash l = true -> continued l (removelast l).
Proof.
  intros l H. unfold ends_bslash in H. unfold continued. destruct (rev l) as [|c r] eqn:E; [discriminate|].
  apply Ascii.eqb_eq in H. subst c. assert (L : l = rev r ++ [bslash]) by (rewrite <- (rev_involutive l), E; reflexivity).
  rewrite L at 2. rewrite removelast_last. exact L.
Qed.

Lemma ends_not : forall l, ends_bslash l = false -> forall b, ~ continued l b.
Proof. intros l H b ->. unfold ends_bslash in H. rewrite rev_app_distr in H. cbn in H. discriminate. Qed.

Lemma ends_continued : forall l b, continued l b -> ends_bslash l = true /\ removelast l = b.
Proof. intros l b ->. unfold ends_bslash. rewrite rev_app_distr, removelast_last. split; auto. Qed.

Lemma gather_blank : forall ls c, gather_commands c ls = gather_commands c (filter nonblank ls).
Proof.
  induction ls as [|l ls IH]; intros c; cbn; auto. destruct (nonblank l) eqn:E; auto.
  cbn. rewrite E. destruct (ends_bslash l); auto. f_equal. auto.
Qed.

Lemma gather_script : forall ls, Forall (fun l => nonblank l = true) ls ->
  forall pre bodies, Forall2 continued pre bodies -> script (pre ++ ls) (gather_commands (concat bodies) ls).
Proof.
  intros ls F. induction F as [|l ls NB F IH]; intros pre bodies P.
  - cbn. rewrite app_nil_r. destruct pre as [|p pre].
    + inversion P; subst. constructor.
    + destruct (concat bodies) eqn:E.
      * eapply script_nothing; eauto. discriminate.
      * rewrite <- E. apply script_unfinished; auto; try discriminate. congruence.
  - cbn. rewrite NB. destruct (ends_bslash l) eqn:E.
    + replace (pre ++ l :: ls) with ((pre ++ [l]) ++ ls) by (now rewrite <- app_assoc).
      replace (concat bodies ++ removelast l) with (concat (bodies ++ [removelast l])) by (rewrite concat_app; cbn; now rewrite app_nil_r).
      apply IH. apply Forall2_app; auto. constructor; auto. now apply ends_spec.
    + apply script_command; auto. { now apply ends_not. } apply (IH [] []). constructor.
Qed.

Lemma gather_continued : forall ls bodies c rest, Forall2 continued ls bodies -> Forall (fun l => nonblank l = true) ls ->
  gather_commands c (ls ++ rest) = gather_commands (c ++ concat bodies) rest.
Proof.
  induction ls as [|l ls IH]; intros bodies c rest P F; inversion P as [|? b ? bs C P']; subst; cbn. { now rewrite app_nil_r. }
  inversion F as [|? ? NB F']; subst. destruct (ends_continued _ _ C) as [E R]. rewrite NB, E, R, (IH bs); auto. now rewrite <- app_assoc.
Qed.

Lemma script_gather : forall ls cmds, script ls cmds -> Forall (fun l => nonblank l = true) ls ->
  gather_commands [] ls = cmds.
Proof.
  induction 1 as [|ls bodies l rest cmds P N S IH|ls bodies NE P C|ls bodies NE P C]; intros F; auto.
  - apply Forall_app in F as [F1 F2]. inversion F2 as [|? ? NL F3]; subst.
    rewrite (gather_continued ls bodies); auto. cbn. rewrite NL.
    destruct (ends_bslash l) eqn:E. { exfalso. eapply N. apply ends_spec; eauto. }
    f_equal. auto.
  - rewrite <- (app_nil_r ls), (gather_continued ls bodies); auto. cbn. destruct (concat bodies); easy.
  - rewrite <- (app_nil_r ls), (gather_continued ls bodies); auto. cbn. now rewrite C.
Qed.

(** The commands of a script are those of its non-blank lines. *)
Theorem c30_commands : forall t ls cmds, lines_of t ls ->
  (commands_in_script t = cmds <-> script (filter nonblank ls) cmds).
Proof.
  intros t ls cmds L. assert (E : ls = split_lines t) by (eapply join_inj; eauto using split_spec). subst ls.
  assert (F : Forall (fun l => nonblank l = true) (filter nonblank (split_lines t))).
  { apply Forall_forall. intros l I. now apply filter_In in I. }
  unfold commands_in_script. rewrite gather_blank. split.
  - intros <-. apply (gather_script _ F [] []). constructor.
  - intros S. now apply script_gather.
Qed.
Print Assumptions c30_commands.

(** Every text has lines. *)
Theorem c30_lines : forall t, exists ls, lines_of t ls.
Proof. intros t. exists (split_lines t). apply split_spec. Qed.
Print Assumptions c30_lines.

(** Nothing but newlines, blank lines and continuing backslashes is lost. *)
Theorem c30_nothing_lost : forall t ls, lines_of t ls ->
  concat (commands_in_script t) =
  concat (map (fun l => if ends_bslash l then removelast l else l) (filter nonblank ls)).
Proof.
  intros t ls L. assert (S : script (filter nonblank ls) (commands_in_script t)) by (now apply (c30_commands t ls)).
  assert (C : forall ls bodies, Forall2 continued ls bodies -> 
    concat (map (fun l => if ends_bslash l then removelast l else l) ls) = concat bodies).
  { induction 1; cbn; auto. destruct (ends_continued _ _ H) as [-> ->]. now f_equal. }
  clear L. induction S as [|ms bodies l rest cmds P N S IH|ms bodies NE P E|ms bodies NE P E]; auto.
  - cbn. rewrite map_app, concat_app, (C _ _ P). cbn.
    destruct (ends_bslash l) eqn:X. { exfalso. eapply N. apply ends_spec; eauto. }
    now rewrite IH, <- app_assoc.
  - cbn. now rewrite app_nil_r, (C _ _ P).
  - now rewrite (C _ _ P), E.
Qed.
Print Assumptions c30_nothing_lost.

Example c30_case :
  commands_in_script (txt "gen 3 \" ++ newline :: txt "| map (x: x)" ++ newline :: newline :: txt "ls" ++ [newline]) =
  [txt "gen 3 | map (x: x)"; txt "ls"].
Proof. reflexivity. Qed.

(** A script given as standard input ends at its first blank line: the rest is lost. *)
Theorem c30_heredoc_refuted :
  commands_in_script (read_heredoc (txt "a" ++ newline :: newline :: txt "b")) = [txt "a"] /\
  commands_in_script (txt "a" ++ newline :: newline :: txt "b") = [txt "a"; txt "b"].
Proof. split; reflexivity. Qed.
Print Assumptions c30_heredoc_refuted.

(** ** C42 *)
Section Cli.
Variable to_int : text -> option Z.
Variable d : list (text * carg).
Hypothesis V : cli_ok d = true.

Lemma cli_symbols : NoDup (flat_map (fun va => csymbols (snd va)) d).
Proof. unfold cli_ok in V. rewrite !andb_true_iff in V. apply distinct_NoDup. tauto. Qed.
Lemma cli_vars : NoDup (map fst d).
Proof. unfold cli_ok in V. rewrite !andb_true_iff in V. apply distinct_NoDup. tauto. Qed.
Lemma cli_dash : forall va t, In va d -> In t (csymbols (snd va)) -> isflag t = true.
Proof.
  intros va t I S. unfold cli_ok in V. rewrite !andb_true_iff in V. destruct V as [_ D].
  rewrite forallb_forall in D. apply D, in_flat_map. eauto.
Qed.

Lemma csymbols_in : forall s l k def req t, In t (csymbols (CFlag s l k def req)) <-> (s = Some t \/ l = Some t).
Proof.
  intros. cbn. rewrite in_app_iff. destruct s as [a|], l as [b|]; cbn; intuition (try congruence; try easy).
  all: left; congruence || idtac.
Qed.

Lemma arg_of_some : forall t va, arg_of d t = Some va <-> In va d /\ In t (csymbols (snd va)).
Proof.
  intros t va. unfold arg_of. split.
  - intros E. apply find_some in E as [I S]. split; auto. now apply existsb_teqb.
  - intros [I S]. destruct (find _ d) as [vb|] eqn:E.
    + apply find_some in E as [I' S']. apply existsb_teqb in S'. f_equal. pose proof cli_symbols as N. clear V.
      induction d as [|vc d' IH]; [easy|]. cbn in N. apply NoDup_app_inv in N as (_ & N & D).
      destruct I as [->|I], I' as [->|I']; auto.
      * exfalso. apply (D t S). apply in_flat_map. eauto.
      * exfalso. apply (D t S'). apply in_flat_map. eauto.
    + exfalso. eapply find_none in E; eauto. cbn in E. apply existsb_teqb in S. congruence.
Qed.

Lemma scan_sound : forall n argv l, length argv <= n -> token_scan to_int d argv = Ok l ->
  exists ws, Forall2 (word to_int d) ws l /\ argv = concat ws.
Proof.
  induction n as [|n IH]; intros argv l L E.
  - destruct argv; [|cbn in L; lia]. cbn in E. injection E as <-. exists []. auto.
  - destruct argv as [|t r]; cbn [token_scan] in E. { injection E as <-. exists []. auto. }
    cbn in L. destruct (isflag t) eqn:FT.
    + destruct (arg_of d t) as [[var [|s lo k def req]]|] eqn:A; try discriminate.
      apply arg_of_some in A as [I S]. apply csymbols_in in S. destruct k.
      * destruct r as [|v r]; [discriminate|]. destruct (isflag v) eqn:FV; [discriminate|].
        destruct (token_scan to_int d r) as [l'| | |] eqn:T; try discriminate. injection E as <-.
        destruct (IH r l') as (ws & F & ->); auto. { cbn in L. lia. }
        exists ([t; v] :: ws). split; auto. constructor; auto. eapply word_string; eauto.
      * destruct (token_scan to_int d r) as [l'| | |] eqn:T; try discriminate. injection E as <-.
        destruct (IH r l') as (ws & F & ->); auto. { lia. }
        exists ([t] :: ws). split; auto. constructor; auto. eapply word_bool; eauto.
      * destruct r as [|v r]; [discriminate|]. destruct (isflag v) eqn:FV; [discriminate|].
        destruct (to_int v) as [z|] eqn:TI; [|discriminate].
        destruct (token_scan to_int d r) as [l'| | |] eqn:T; try discriminate. injection E as <-.
        destruct (IH r l') as (ws & F & ->); auto. { cbn in L. lia. }
        exists ([t; v] :: ws). split; auto. constructor; auto. eapply word_int; eauto.
    + destruct (token_scan to_int d r) as [l'| | |] eqn:T; try discriminate. injection E as <-.
      destruct (IH r l') as (ws & F & ->); auto. { lia. }
      exists ([t] :: ws). split; auto. constructor; auto. now constructor.
Qed.

Lemma scan_complete : forall ws l, Forall2 (word to_int d) ws l -> token_scan to_int d (concat ws) = Ok l.
Proof.
  induction 1 as [|w x ws l W F IH]; auto. inversion W; subst; cbn [concat app].
  - assert (A : arg_of d t = Some (var, CFlag s l0 CBool def req)) by (apply arg_of_some; split; auto; now apply csymbols_in).
    apply arg_of_some in A as A'. destruct A' as [I S]. pose proof (cli_dash _ _ I S) as D.
    cbn [token_scan]. rewrite D, A, IH. reflexivity.
  - assert (A : arg_of d t = Some (var, CFlag s l0 CString def req)) by (apply arg_of_some; split; auto; now apply csymbols_in).
    apply arg_of_some in A as A'. destruct A' as [I S]. pose proof (cli_dash _ _ I S) as D.
    cbn [token_scan]. rewrite D, A, H1, IH. reflexivity.
  - assert (A : arg_of d t = Some (var, CFlag s l0 CInt def req)) by (apply arg_of_some; split; auto; now apply csymbols_in).
    apply arg_of_some in A as A'. destruct A' as [I S]. pose proof (cli_dash _ _ I S) as D.
    cbn [token_scan]. rewrite D, A, H1, H2, IH. reflexivity.
  - cbn [token_scan]. rewrite H, IH. reflexivity.
Qed.

Lemma flag_values_last : forall l m var,
  dget var (fold_left (fun m kv => dset (fst kv) (snd kv) m) (flag_values l) m) =
  match last_given var l with Some v => Some v | None => dget var m end.
Proof.
  induction l as [|[[w|] v] l IH]; intros m var; cbn; auto.
  - rewrite IH, dget_dset. destruct (last_given var l); auto. destruct (teqb var w); auto.
  - rewrite IH. destruct (last_given var l); auto.
Qed.

Lemma dget_defaults : forall var, dget var (defaults d) =
  match dget var (map (fun va => (fst va, match snd va with
     | CAnon => OList [OList []] | CFlag _ _ _ def req => OList (if req then [] else [def]) end)) d) with
  | Some (OList [v]) => Some v
  | _ => None
  end.
Proof.
  intros var. pose proof cli_vars as N. clear V. induction d as [|[n a] d' IH]; auto. cbn in N. inversion N; subst.
  cbn. destruct (teqb var n) eqn:E.
  - apply teqb_eq in E. subst n. destruct a as [|s l k def [|]]; cbn; rewrite ?teqb_refl; auto.
    apply dget_None. intro I. apply H1. clear -I. apply in_map_iff in I as ([x y] & Q & I). cbn in Q. subst x.
    apply in_flat_map in I as ([x b] & I & J). apply in_map_iff. exists (x, b). split; auto.
    cbn in *. destruct b as [|s l k df [|]]; cbn in J; try easy; destruct J as [J|[]]; now injection J.
  - destruct a as [|s l k def [|]]; cbn; rewrite ?E; apply IH; auto.
Qed.

Lemma dget_map_in : forall (f : carg -> obj) var a, In (var, a) d -> dget var (map (fun va => (fst va, f (snd va))) d) = Some (f a).
Proof.
  intros f var a I. pose proof cli_vars as N. clear V. induction d as [|[n b] d' IH]; [easy|]. cbn in *. inversion N; subst.
  destruct I as [Q|I].
  - injection Q as -> ->. now rewrite teqb_refl.
  - rewrite teqb_neq; auto. intros ->. apply H1. apply in_map_iff. exists (n, a). auto.
Qed.
End Cli.

(** The arguments of a script are accepted exactly if they are flags, flags with values and positional
    arguments, in any order, and every required flag is there. Each variable gets the value given last,
    or its default; the anonymous one gets the positional arguments after the first two. *)
Theorem c42_arguments_partial : forall to_int d argv, cli_ok d = true ->
  ((exists values, cli_parse to_int d argv = Ok values) <->
   exists ws l, argv = concat ws /\ Forall2 (word to_int d) ws l /\
     forall var s lo k def, In (var, CFlag s lo k def true) d -> last_given var l <> None) /\
  forall values, cli_parse to_int d argv = Ok values ->
   exists ws l, argv = concat ws /\ Forall2 (word to_int d) ws l /\
     (forall var s lo k def req, In (var, CFlag s lo k def req) d ->
        dget var values = match last_given var l with Some v => Some v | None => Some def end) /\
     (forall var, In (var, CAnon) d -> dget var values = Some (OList (skipn 2 (positionals l)))).
Proof.
  intros to_int d argv V.
  assert (FA : forall var x, find (fun va => is_anon (snd va)) d = Some (var, x) -> In (var, CAnon) d /\ forall v, In (v, CAnon) d -> v = var).
  { intros var x F. apply find_some in F as [I A]. destruct x; [|discriminate]. split; auto. intros v I'.
    unfold cli_ok in V. rewrite !andb_true_iff in V. destruct V as [[[_ L] _] _]. apply Nat.leb_le in L.
    assert (A1 : In (var, CAnon) (filter (fun va => is_anon (snd va)) d)) by (apply filter_In; auto).
    assert (A2 : In (v, CAnon) (filter (fun va => is_anon (snd va)) d)) by (apply filter_In; auto).
    destruct (filter (fun va => is_anon (snd va)) d) as [|p [|q r]]; cbn in *; try lia; try easy. intuition congruence. }
  assert (UNIQ : forall var a b, In (var, a) d -> In (var, b) d -> a = b).
  { intros var a b Ia Ib. pose proof (cli_vars d V) as N. clear -N Ia Ib. induction d as [|[n c] d' IH]; [easy|].
    cbn in N. inversion N; subst. destruct Ia as [Qa|Ia], Ib as [Qb|Ib].
    - congruence.
    - injection Qa as -> ->. exfalso. apply H1. apply in_map_iff. exists (var, b). auto.
    - injection Qb as -> ->. exfalso. apply H1. apply in_map_iff. exists (var, a). auto.
    - auto. }
  set (final := fun l => match find (fun va => is_anon (snd va)) d with
                  | Some (var, _) => dset var (OList (skipn 2 (positionals l))) (fold_left (fun m kv => dset (fst kv) (snd kv) m) (flag_values l) (defaults d))
                  | None => fold_left (fun m kv => dset (fst kv) (snd kv) m) (flag_values l) (defaults d)
                  end).
  assert (FLAG : forall l var s lo k def req, In (var, CFlag s lo k def req) d ->
     dget var (final l) = match last_given var l with Some v => Some v | None => if req then None else Some def end).
  { intros l var s lo k def req I.
    assert (X : dget var (fold_left (fun m kv => dset (fst kv) (snd kv) m) (flag_values l) (defaults d)) =
                match last_given var l with Some v => Some v | None => if req then None else Some def end).
    { rewrite flag_values_last. destruct (last_given var l); auto. rewrite dget_defaults by auto.
      rewrite (dget_map_in d V (fun a => match a with CAnon => OList [OList []] | CFlag _ _ _ df rq => OList (if rq then [] else [df]) end) var _ I).
      destruct req; auto. }
    unfold final. destruct (find (fun va => is_anon (snd va)) d) as [[v x]|] eqn:F; auto.
    destruct (FA v x ltac:(first [exact eq_refl | exact F])) as [F' _]. rewrite dget_dset, teqb_neq; auto. intros ->. specialize (UNIQ _ _ _ I F'). discriminate. }
  assert (ANON : forall l var, In (var, CAnon) d -> dget var (final l) = Some (OList (skipn 2 (positionals l)))).
  { intros l var I. unfold final. destruct (find (fun va => is_anon (snd va)) d) as [[v x]|] eqn:F.
    - destruct (FA v x ltac:(first [exact eq_refl | exact F])) as [_ F']. rewrite (F' _ I), dget_dset, teqb_refl. reflexivity.
    - exfalso. eapply find_none in F; eauto. discriminate. }
  assert (PARSE : forall values, cli_parse to_int d argv = Ok values <-> exists l, token_scan to_int d argv = Ok l /\ values = final l /\
       forall var s lo k def, In (var, CFlag s lo k def true) d -> last_given var l <> None).
  { intros values. unfold cli_parse. destruct (token_scan to_int d argv) as [l| | |] eqn:T;
      [|split; [discriminate|intros (? & ? & _); discriminate]..].
    fold (final l). match goal with |- context [if ?b then _ else _] => destruct b eqn:B end.
    - split.
      + intros E. injection E as <-. exists l. repeat split; auto. intros var s lo k def I.
        rewrite forallb_forall in B. specialize (B _ I). cbn in B. rewrite (FLAG l _ _ _ _ _ _ I) in B.
        destruct (last_given var l); [discriminate|easy].
      + intros (l' & E & -> & _). injection E as <-. reflexivity.
    - split; [discriminate|]. intros (l' & E & _ & R). injection E as <-. exfalso.
      rewrite <- not_true_iff_false in B. apply B. apply forallb_forall. intros [var a] I. cbn.
      destruct a as [|s lo k def [|]]; auto. rewrite (FLAG l _ _ _ _ _ _ I). specialize (R _ _ _ _ _ I).
      destruct (last_given var l); easy. }
  split.
  - split.
    + intros (values & E). apply PARSE in E as (l & T & _ & R). destruct (scan_sound to_int d V _ _ _ (le_n _) T) as (ws & F & ->).
      exists ws, l. auto.
    + intros (ws & l & -> & F & R). exists (final l). apply PARSE. exists l. repeat split; auto. now apply scan_complete.
  - intros values E. apply PARSE in E as (l & T & -> & R).
    destruct (scan_sound to_int d V _ _ _ (le_n _) T) as (ws & F & W). exists ws, l. repeat split; auto.
    intros var s lo k def req I. rewrite (FLAG l _ _ _ _ _ _ I). specialize (R var s lo k def).
    destruct (last_given var l); auto. destruct req; auto. exfalso. now apply R.
Qed.
Print Assumptions c42_arguments_partial.

Definition c42_decl : list (text * carg) :=
  [(txt "verbose", CFlag (Some (txt "-v")) None CBool ONone false);
   (txt "size", CFlag (Some (txt "-n")) (Some (txt "--size")) CString ONone true);
   (txt "files", CAnon)].

Example c42_case : cli_ok c42_decl = true /\
  cli_parse (fun _ => None) c42_decl (map txt ["marcel"; "script"; "a"; "--size"; "5"; "b"]%string) =
  Ok [(txt "verbose", ONone); (txt "files", OList [OStr (txt "a"); OStr (txt "b")]); (txt "size", OStr (txt "5"))].
Proof. split; reflexivity. Qed.

(** A value given twice: the first is dropped without an error. *)
Theorem c42_twice_refuted :
  cli_parse (fun _ => None) c42_decl (map txt ["marcel"; "script"; "-n"; "5"; "-n"; "6"]%string) =
  Ok [(txt "verbose", ONone); (txt "files", OList []); (txt "size", OStr (txt "6"))].
Proof. reflexivity. Qed.
Print Assumptions c42_twice_refuted.

(** Positional arguments of a script that declares none are dropped without an error. *)
Theorem c42_positional_refuted :
  cli_parse (fun _ => None) [(txt "v", CFlag (Some (txt "-v")) None CBool ONone false)] (map txt ["marcel"; "script"; "a"; "-v"]%string) =
  Ok [(txt "v", OTrue)].
Proof. reflexivity. Qed.
Print Assumptions c42_positional_refuted.

(** An integer flag with another value raises ValueError instead of reporting the error. *)
Theorem c42_int_refuted :
  cli_parse (fun _ => None) [(txt "n", CFlag (Some (txt "-n")) None CInt (OInt 0) false)] (map txt ["marcel"; "script"; "-n"; "x"]%string) = Crash.
Proof. reflexivity. Qed.
Print Assumptions c42_int_refuted.
