(* C87: editing commands and startup scripts. *)
From Coq Require Import Ascii String List Bool Arith ZArith Lia.
From Verif.Sys Require Import Csv CsvSpec CsvProps History HistorySpec HistoryProps EditOp EditOpSpec.
From Verif.Syntax Require Args ArgsTable.
Import ListNotations.
Open Scope list_scope.

Lemma the_editor_ok : forall s e, the_editor s e <-> find_editor s = Some e.
Proof.
  intros s e. unfold the_editor, find_editor. destruct (var_editor s); split; intros H.
  - destruct H as [H|[H _]]; congruence.
  - now left.
  - destruct H as [H|[_ H]]; congruence.
  - auto.
Qed.
Lemma no_editor_ok : forall s, no_editor s <-> find_editor s = None.
Proof. intros s. unfold no_editor, find_editor. destruct (var_editor s); split; intros H; try (destruct H; congruence); try discriminate; auto. Qed.

(* The editor is run by bash with the file after it; without one, the user is told. *)
Theorem c87_editor : forall s file,
  (forall e, the_editor s e -> run_editor s file = Runs (e ++ txt " " ++ file)) /\
  (no_editor s -> run_editor s file = Told) /\
  (no_editor s \/ exists e, the_editor s e).
Proof.
  intros s file. split; [|split].
  - intros e E. apply the_editor_ok in E. unfold run_editor. now rewrite E.
  - intros E. apply no_editor_ok in E. unfold run_editor. now rewrite E.
  - destruct (find_editor s) as [e|] eqn:E; [right; exists e; now apply the_editor_ok|left; now apply no_editor_ok].
Qed.

Lemma word_ends : forall a sp t, a_word t -> forall x, hd_error (rev (a ++ sp ++ t)) = Some x -> isspace x = false.
Proof.
  intros a sp t (N & W) x E. rewrite app_assoc, rev_app_distr in E.
  destruct (rev t) as [|y r] eqn:R.
  - destruct t; [congruence|]. simpl in R. destruct (rev t); discriminate.
  - simpl in E. injection E as <-. rewrite Forall_forall in W. apply W. apply in_rev. rewrite R. now left.
Qed.
Lemma strip_edit : forall a sp t b, blank a -> blank sp -> blank b -> a_word t ->
  strip (word_in_front "edit" a sp t b) = txt "edit" ++ sp ++ t.
Proof.
  intros a sp t b A S B W. unfold word_in_front. apply strip_core; auto.
  - simpl. intros x E. injection E as <-. reflexivity.
  - intros x E. now apply (word_ends (txt "edit") sp t W).
Qed.

Lemma path_ok : forall s d, dir_of (here s) d -> config_ws_startup s (here s) = script_of (config_base s) d.
Proof.
  intros s d D. unfold config_ws_startup, script_of, workspace_dir_name.
  destruct D as [(E & ->)|E]; rewrite E; reflexivity.
Qed.

(* edit -s, typed at the prompt, opens the startup script of the current workspace; nothing is left behind *)
Theorem c87_startup : forall s w editor a sp flag b d,
  blank a -> blank sp -> blank b -> flag = txt "-s" \/ flag = txt "--startup" -> dir_of (here s) d ->
  let r := enter s editor (word_in_front "edit" a sp flag b) w in
  (forall e, the_editor s e -> r = (Does (Runs (e ++ txt " " ++ script_of (config_base s) d)), 0)) /\
  (no_editor s -> r = (Does Told, 0)).
Proof.
  intros s w editor a sp flag b d A S B F D r.
  assert (W : a_word flag) by (destruct F; subst; split; try discriminate; repeat constructor).
  assert (H : forall ed, handle ed (word_in_front "edit" a sp flag b) w = None).
  { intros ed. unfold handle. rewrite strip_edit by auto.
    change (starts_with "!!" (txt "edit" ++ sp ++ flag)) with false. change (starts_with "!" (txt "edit" ++ sp ++ flag)) with false.
    change (starts_with "edit" (txt "edit" ++ sp ++ flag)) with true. cbv iota.
    change (skipn 4 (txt "edit" ++ sp ++ flag)) with (sp ++ flag). rewrite words_nonspace by (auto; apply W).
    destruct F; subst; reflexivity. }
  assert (O : edit_op s (words [] (skipn 4 (strip (word_in_front "edit" a sp flag b)))) = run_editor s (config_ws_startup s (here s))).
  { rewrite strip_edit by auto. change (skipn 4 (txt "edit" ++ sp ++ flag)) with (sp ++ flag).
    rewrite words_nonspace by (auto; apply W). destruct F; subst; reflexivity. }
  assert (R : r = (Does (run_editor s (config_ws_startup s (here s))), 0)).
  { unfold r, enter, handle_here. rewrite !H, O. destruct (find_editor s); reflexivity. }
  rewrite R, (path_ok s d D). destruct (c87_editor s (script_of (config_base s) d)) as (E1 & E2 & _).
  split; [intros e E; now rewrite (E1 e E)|intros E; now rewrite E2].
Qed.

(* edit -s NAME fails with an exception of Python, for every NAME: a workspace that exists or not *)
Theorem c87_other_refuted : forall s w editor a sp flag sp' c name b,
  blank a -> blank sp -> blank sp' -> sp' <> [] -> blank b -> flag = txt "-s" \/ flag = txt "--startup" ->
  a_word (c :: name) -> c <> "-"%char ->
  enter s editor (a ++ (txt "edit" ++ sp ++ flag ++ sp' ++ c :: name) ++ b) w = (Does Crashes, 0).
Proof.
  intros s w editor a sp flag sp' c name b A S S' NS B F W NC. set (typed := a ++ _ ++ b).
  assert (T : strip typed = txt "edit" ++ sp ++ flag ++ sp' ++ c :: name).
  { unfold typed. apply strip_core; auto.
    - simpl. intros x E. injection E as <-. reflexivity.
    - intros x E. apply (word_ends (txt "edit" ++ sp ++ flag) sp' (c :: name) W). now rewrite <- !app_assoc. }
  assert (WS : words [] (skipn 4 (strip typed)) = [flag; c :: name]).
  { rewrite T. change (skipn 4 (txt "edit" ++ sp ++ flag ++ sp' ++ c :: name)) with (sp ++ flag ++ sp' ++ c :: name).
    rewrite words_spaces by auto. destruct sp' as [|x sp']; [congruence|].
    assert (X : isspace x = true) by (unfold blank in S'; simpl in S'; now apply andb_prop in S').
    assert (Y : forallb isspace sp' = true) by (unfold blank in S'; simpl in S'; now apply andb_prop in S').
    destruct F; subst flag; simpl; rewrite X; rewrite words_spaces by auto; rewrite (words_word (c :: name) []) by (try apply W; discriminate); reflexivity. }
  assert (O : edit_op s [flag; c :: name] = Crashes).
  { unfold edit_op. assert (P : Args.parse conv ArgsTable.op_edit (map Args.OStr [flag; c :: name]) =
      Some [(txt "startup", Args.OStr (c :: name)); (txt "command", Args.ONone)]).
    { assert (E1 : Args.expand_arg ArgsTable.op_edit (Args.OStr (c :: name)) = [Args.OStr (c :: name)]).
      { unfold Args.expand_arg. destruct name as [|x [|y name]]; auto. now rewrite (proj2 (Ascii.eqb_neq c "-"%char) NC). }
      assert (E2 : Args.find_flag ArgsTable.op_edit (Args.OStr (c :: name)) = None).
      { unfold Args.find_flag. cbn [Args.d_flags ArgsTable.op_edit find]. unfold Args.is_symbol. cbn [Args.symbols Args.f_short Args.f_long app existsb].
        unfold Args.teqb. destruct (list_eq_dec ascii_dec (c :: name) (Lexer.txt "-s")) as [X|_]; [inversion X; congruence|].
        destruct (list_eq_dec ascii_dec (c :: name) (Lexer.txt "--startup")) as [X|_]; [inversion X; congruence|]. reflexivity. }
      assert (E3 : Args.plausible (Args.OStr (c :: name)) = false).
      { unfold Args.plausible. destruct name; auto. now apply Ascii.eqb_neq. }
      unfold Args.parse. cbn [map flat_map]. rewrite E1.
      assert (E0 : Args.expand_arg ArgsTable.op_edit (Args.OStr flag) = [Args.OStr flag]) by (destruct F; subst; reflexivity).
      rewrite E0. cbn [app Args.extract].
      assert (X1 : Args.extract_one conv ArgsTable.op_edit (Args.mkps [] [] [] None true) (Args.OStr flag) =
        Some (Args.mkps [(txt "startup", Args.OTrue)] [] [] (Some (hd (Args.mkflag [] None None Args.VNone Args.OTrue []) (Args.d_flags ArgsTable.op_edit))) true))
        by (destruct F; subst; reflexivity).
      change (negb (Datatypes.length (Args.d_flags ArgsTable.op_edit) =? 0)) with true. rewrite X1.
      unfold Args.extract_one at 1. rewrite E2, E3. reflexivity. }
    rewrite P. reflexivity. }
  assert (H : forall ed, handle ed typed w = None).
  { intros ed. unfold handle. rewrite T.
    change (starts_with "!!" (txt "edit" ++ sp ++ flag ++ sp' ++ c :: name)) with false.
    change (starts_with "!" (txt "edit" ++ sp ++ flag ++ sp' ++ c :: name)) with false.
    change (starts_with "edit" (txt "edit" ++ sp ++ flag ++ sp' ++ c :: name)) with true. cbv iota.
    assert (WS2 := WS). rewrite T in WS2. change (skipn 4 (txt "edit" ++ sp ++ flag ++ sp' ++ c :: name)) with (sp ++ flag ++ sp' ++ c :: name) in *.
    cbv zeta. rewrite WS2. destruct F; subst; reflexivity. }
  unfold enter, handle_here. rewrite !H, WS, O. destruct (find_editor s); reflexivity.
Qed.

(* What bash makes of it: the file is one argument, the last one, if its path has neither white space nor a special
   character ... *)
Lemma words_cat : forall e f acc, words acc (e ++ " "%char :: f) = words acc e ++ words [] f.
Proof.
  induction e as [|c e IH]; intros f acc; simpl.
  - destruct acc; reflexivity.
  - destruct (isspace c); [|apply IH]. destruct acc; rewrite IH; reflexivity.
Qed.
Theorem c87_argument_partial : forall e file,
  forallb plain_char e = true -> forallb plain_char file = true -> a_word file ->
  exists ws, bash_words e = Some ws /\ bash_words (e ++ txt " " ++ file) = Some (ws ++ [file]).
Proof.
  intros e file E F W. exists (words [] e). unfold bash_words. rewrite E. split; auto.
  rewrite !forallb_app, E, F. change (txt " " ++ file) with (" "%char :: file). rewrite words_cat. simpl.
  f_equal. f_equal. apply (words_word file []); [apply W|]. destruct W; auto.
Qed.
(* ... but a home directory with a space in its name makes the editor open two other files. *)
Definition spaced : site := mksite None (Some (txt "vi")) (txt "/home/ann lee/.config") None (fun _ => false).
Theorem c87_argument_refuted : forall w editor,
  exists c, enter spaced editor (txt "edit -s") w = (Does (Runs c), 0) /\
  script_of (config_base spaced) (txt "__DEFAULT__") = txt "/home/ann lee/.config/marcel/workspace/__DEFAULT__/startup.py" /\
  bash_words c = Some [txt "vi"; txt "/home/ann"; txt "lee/.config/marcel/workspace/__DEFAULT__/startup.py"].
Proof.
  intros w editor. exists (txt "vi /home/ann lee/.config/marcel/workspace/__DEFAULT__/startup.py"). repeat split.
Qed.

(* ---- editing a command ---- *)

(* edit alone: the last command is edited *)
Theorem c87_last : forall s e cs f es editor a b c rest,
  the_editor s e -> holds cs f -> Forall fine es -> blank a -> blank b ->
  fst (history (steps (begin f) es)) = c :: rest -> editor c <> [] -> one_line (editor c) ->
  enter s editor (a ++ txt "edit" ++ b) (steps (begin f) es) = (Executes (editor c), 0).
Proof.
  intros s e cs f es editor a b c rest E H F A B C NE OL. apply the_editor_ok in E.
  destruct (inv_steps es cs _ (inv_begin _ _ H) F) as (m1 & I1). set (w := steps (begin f) es) in *.
  unfold enter, handle_here. rewrite E.
  assert (X : handle editor (a ++ txt "edit" ++ b) w = Some (editor c)).
  { unfold handle. rewrite strip_core; auto; try (simpl; intros x Y; injection Y as <-; reflexivity).
    change (starts_with "!!" (txt "edit")) with false. change (starts_with "!" (txt "edit")) with false.
    change (starts_with "edit" (txt "edit")) with true. cbv iota. change (words [] (skipn 4 (txt "edit"))) with (@nil text). cbv iota.
    rewrite C. replace (Z.of_nat (length (c :: rest)) - 1)%Z with (Z.of_nat (length rest)) by (cbn [length]; lia).
    rewrite (inv_command (cs ++ m1) w (length rest) c); auto.
    - simpl. now rewrite (edit_one_line editor c (editor c)).
    - rewrite (proj1 (inv_history _ _ I1)) in C.
      assert (R : cs ++ m1 = rev rest ++ [c]) by (rewrite <- (rev_involutive (cs ++ m1)), C; reflexivity).
      rewrite R, nth_error_app2 by (rewrite rev_length; lia). rewrite rev_length, Nat.sub_diag. reflexivity. }
  rewrite X. destruct (editor c); [congruence|reflexivity].
Qed.

Lemma numeral_word : forall t n, numeral t n -> a_word t.
Proof.
  intros t n N. destruct (numeral_facts _ _ N) as (D & Nt & _). split; auto.
  eapply Forall_impl; [|exact D]. intros c Hc. now destruct (digit_facts c Hc).
Qed.
Lemma numeral_not_flag : forall t n, numeral t n -> t <> txt "-s" /\ t <> txt "--startup".
Proof.
  intros t n N. destruct (numeral_facts _ _ N) as (D & _ & _). split; intros ->; inversion D; discriminate.
Qed.

(* The operator edit, given a number: the assertion of setup fails. *)
Lemma edit_op_number : forall s t n, numeral t n -> edit_op s [t] = Crashes.
Proof.
  intros s t n N. destruct (numeral_facts _ _ N) as (D & Nt & _). destruct t as [|c t]; [congruence|].
  assert (NC : c <> "-"%char) by (intros ->; inversion D; discriminate).
  unfold edit_op.
  assert (E1 : Args.expand_arg ArgsTable.op_edit (Args.OStr (c :: t)) = [Args.OStr (c :: t)]).
  { unfold Args.expand_arg. destruct t as [|x [|y t]]; auto. now rewrite (proj2 (Ascii.eqb_neq c "-"%char) NC). }
  assert (E2 : Args.find_flag ArgsTable.op_edit (Args.OStr (c :: t)) = None).
  { unfold Args.find_flag. cbn [Args.d_flags ArgsTable.op_edit find]. unfold Args.is_symbol. cbn [Args.symbols Args.f_short Args.f_long app existsb].
    unfold Args.teqb. destruct (list_eq_dec ascii_dec (c :: t) (Lexer.txt "-s")) as [X|_]; [inversion X; congruence|].
    destruct (list_eq_dec ascii_dec (c :: t) (Lexer.txt "--startup")) as [X|_]; [inversion X; congruence|]. reflexivity. }
  assert (E3 : Args.plausible (Args.OStr (c :: t)) = false).
  { unfold Args.plausible. destruct t; auto. now apply Ascii.eqb_neq. }
  assert (CV : conv (Lexer.txt "command") (Args.OStr (c :: t)) = Some (Args.OInt n)).
  { unfold conv. destruct (text_dec _ _) as [_|Q]; [|now destruct Q]. now rewrite (parse_numeral _ _ N). }
  unfold Args.parse. cbn [map flat_map]. rewrite E1. cbn [app Args.extract]. unfold Args.extract_one. rewrite E2, E3.
  cbn [andb Args.d_anons ArgsTable.op_edit Datatypes.length Args.ps_anon Nat.leb nth_error Args.a_name Args.ps_cur].
  rewrite CV. reflexivity.
Qed.

Lemma handle_edit : forall editor w a sp t n b, blank a -> blank sp -> blank b -> numeral t n ->
  handle editor (word_in_front "edit" a sp t b) w = Some (edit_text editor (command_by_id n w)).
Proof.
  intros editor w a sp t n b A S B N. pose proof (numeral_word _ _ N) as W. unfold handle. rewrite strip_edit by auto.
  change (starts_with "!!" (txt "edit" ++ sp ++ t)) with false. change (starts_with "!" (txt "edit" ++ sp ++ t)) with false.
  change (starts_with "edit" (txt "edit" ++ sp ++ t)) with true. cbv iota.
  change (skipn 4 (txt "edit" ++ sp ++ t)) with (sp ++ t). rewrite words_nonspace by (auto; apply W).
  destruct (numeral_not_flag _ _ N). destruct (text_dec t (txt "-s")); [congruence|]. destruct (text_dec t (txt "--startup")); [congruence|].
  now rewrite (parse_numeral _ _ N).
Qed.
Lemma enter_words : forall a sp t n b, blank a -> blank sp -> blank b -> numeral t n ->
  words [] (skipn 4 (strip (word_in_front "edit" a sp t b))) = [t].
Proof.
  intros a sp t n b A S B N. pose proof (numeral_word _ _ N) as W. rewrite strip_edit by auto.
  change (skipn 4 (txt "edit" ++ sp ++ t)) with (sp ++ t). now apply words_nonspace; try apply W.
Qed.

(* edit N without an editor: the user is not only told so; the operator edit then fails with an exception of Python,
   and a temporary file remains, each time. *)
Theorem c87_no_editor_refuted : forall s w editor a sp t n b,
  no_editor s -> blank a -> blank sp -> blank b -> numeral t n ->
  enter s editor (word_in_front "edit" a sp t b) w = (Does Crashes, 1).
Proof.
  intros s w editor a sp t n b E A S B N. apply no_editor_ok in E. unfold enter, handle_here. rewrite E.
  rewrite (handle_edit _ w a sp t n b) by auto. rewrite (strip_edit a sp t b) by (auto; now apply numeral_word in N).
  change (starts_with "edit" (txt "edit" ++ sp ++ t)) with true. cbv iota.
  rewrite <- (strip_edit a sp t b) by (auto; now apply numeral_word in N).
  rewrite (enter_words a sp t n b) by auto. now rewrite (edit_op_number s t n N).
Qed.

(* edit N, where N is not the number of a command: the editor is opened, on an empty text; what the user writes is
   executed; if nothing is written, the operator edit fails with an exception of Python. *)
Theorem c87_no_command_refuted : forall s e w editor a sp t n b,
  the_editor s e -> blank a -> blank sp -> blank b -> numeral t n -> (Z.of_nat (length (fst (history w))) <= n)%Z ->
  let r := enter s editor (word_in_front "edit" a sp t b) w in
  (editor [] = [] -> r = (Does Crashes, 0)) /\
  (editor [] <> [] -> one_line (editor []) -> r = (Executes (editor []), 0)).
Proof.
  intros s e w editor a sp t n b E A S B N L r. apply the_editor_ok in E.
  assert (C : command_by_id n w = []).
  { unfold command_by_id. destruct (n <? 0)%Z; auto. now rewrite (proj2 (Z.leb_le _ _) L). }
  unfold r, enter, handle_here. rewrite E, (handle_edit _ w a sp t n b), C by auto. split.
  - intros X. rewrite (edit_one_line editor [] [] X) by (unfold one_line; simpl; tauto).
    rewrite (enter_words a sp t n b) by auto. now rewrite (edit_op_number s t n N).
  - intros X OL. rewrite (edit_one_line editor [] (editor []) eq_refl OL). destruct (editor []); [congruence|reflexivity].
Qed.

(* Any line that starts with these four letters is taken for the command edit: an assignment to a variable such as
   edit1 is not executed, the command with number 1 is edited and executed in its place. *)
Theorem c87_prefix_refuted : forall s e cs f es editor a t n sp r b c,
  the_editor s e -> holds cs f -> Forall fine es -> blank a -> blank b -> numeral t n ->
  sp <> [] -> blank sp -> a_word r ->
  nth_error (rev (fst (history (steps (begin f) es)))) (Z.to_nat n) = Some c -> editor c <> [] -> one_line (editor c) ->
  enter s editor (a ++ (txt "edit" ++ t ++ sp ++ r) ++ b) (steps (begin f) es) = (Executes (editor c), 0).
Proof.
  intros s e cs f es editor a t n sp r b c E H F A B N NS S W C NE OL. apply the_editor_ok in E.
  destruct (inv_steps es cs _ (inv_begin _ _ H) F) as (m1 & I1). set (w := steps (begin f) es) in *.
  rewrite (proj1 (inv_history _ _ I1)), rev_involutive in C.
  unfold enter, handle_here. rewrite E.
  assert (X : handle editor (a ++ (txt "edit" ++ t ++ sp ++ r) ++ b) w = Some (editor c)).
  { unfold handle. rewrite strip_core; auto.
    2:{ simpl. intros x Y. injection Y as <-. reflexivity. }
    2:{ intros x Y. apply (word_ends (txt "edit" ++ t) sp r W). now rewrite <- app_assoc. }
    change (starts_with "!!" (txt "edit" ++ t ++ sp ++ r)) with false. change (starts_with "!" (txt "edit" ++ t ++ sp ++ r)) with false.
    change (starts_with "edit" (txt "edit" ++ t ++ sp ++ r)) with true. cbv iota.
    change (skipn 4 (txt "edit" ++ t ++ sp ++ r)) with (t ++ sp ++ r).
    assert (WS : exists rest, words [] (t ++ sp ++ r) = t :: rest).
    { pose proof (numeral_word _ _ N) as (T1 & T2). destruct sp as [|x sp]; [congruence|].
      assert (SX : isspace x = true) by (unfold blank in S; simpl in S; now apply andb_prop in S).
      exists (words [] (sp ++ r)). enough (G : forall u acc, Forall (fun c => isspace c = false) u -> acc ++ u <> [] ->
        words acc (u ++ x :: sp ++ r) = (acc ++ u) :: words [] (sp ++ r)).
      { apply (G t []); auto. }
      induction u as [|y u IH]; intros acc FU NU; simpl.
      - rewrite SX. rewrite app_nil_r in *. destruct acc; [congruence|reflexivity].
      - inversion FU as [|? ? Y1 Y2]; subst. rewrite Y1, IH; auto.
        + now rewrite <- app_assoc.
        + destruct acc; discriminate. }
    destruct WS as (rest & ->). destruct (numeral_not_flag _ _ N).
    destruct (text_dec t (txt "-s")); [congruence|]. destruct (text_dec t (txt "--startup")); [congruence|].
    rewrite (parse_numeral _ _ N).
    assert (NN : (0 <= n)%Z).
    { clear -N. induction N; unfold digit_value in *; [|]; unfold isdigit in *; apply between_ok in H; lia. }
    replace n with (Z.of_nat (Z.to_nat n)) by lia. rewrite (inv_command _ _ _ _ I1 C). simpl option_map.
    now rewrite (edit_one_line editor c (editor c)). }
  rewrite X. destruct (editor c); [congruence|reflexivity].
Qed.

(* ---- examples ---- *)
Definition box : site := mksite (Some (txt "emacs -nw")) (Some (txt "vi")) (txt "/home/ann/.config") (Some (txt "proj")) (fun n => true).
Example box_editor : the_editor box (txt "emacs -nw") /\ dir_of (here box) (txt "proj") /\
  enter box (fun t => t) (txt " edit  --startup") (begin []) =
    (Does (Runs (txt "emacs -nw /home/ann/.config/marcel/workspace/proj/startup.py")), 0) /\
  bash_words (txt "emacs -nw /home/ann/.config/marcel/workspace/proj/startup.py") =
    Some [txt "emacs"; txt "-nw"; txt "/home/ann/.config/marcel/workspace/proj/startup.py"].
Proof. repeat split; try (now left); now right. Qed.
Example box_other : known box (txt "proj") = true /\ enter box (fun t => t) (txt "edit -s proj") (begin []) = (Does Crashes, 0) /\
  a_word (txt "proj").
Proof. repeat split; [discriminate|repeat constructor]. Qed.
Example box_prefix : enter box (fun t => t) (txt "edit1 = 5") (steps (begin []) day) = (Executes (txt "ls"), 0).
Proof. reflexivity. Qed.
Example box_last : enter box (fun t => t ++ txt " /") (txt "edit") (steps (begin []) day) = (Executes (txt "ls -r /"), 0).
Proof. reflexivity. Qed.
Example box_none : enter (mksite None None [] None (fun _ => true)) (fun t => t) (txt "edit 1") (steps (begin []) day) = (Does Crashes, 1) /\
  enter box (fun t => t) (txt "edit 12") (steps (begin []) day) = (Does Crashes, 0) /\ numeral (txt "1") 1.
Proof. repeat split. exact (numeral_1 "1"%char eq_refl). Qed.

Print Assumptions c87_editor.
Print Assumptions c87_startup.
Print Assumptions c87_other_refuted.
Print Assumptions c87_argument_partial.
Print Assumptions c87_argument_refuted.
Print Assumptions c87_last.
Print Assumptions c87_no_editor_refuted.
Print Assumptions c87_no_command_refuted.
Print Assumptions c87_prefix_refuted.
