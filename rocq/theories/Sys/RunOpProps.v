(* C89: running a command again with run. *)
From Coq Require Import Ascii String List Bool Arith ZArith Lia Wf_nat.
From Verif.Sys Require Import Csv CsvSpec CsvProps History HistorySpec HistoryProps RunOp.
From Verif.Syntax Require Args ArgsTable.
Import ListNotations.
Open Scope list_scope.

(* ---- specification ---- *)
Definition blank (t : text) : Prop := forallb isspace t = true.
(* The line asks to run command n *)
Definition asks_for (line : text) (n : Z) : Prop :=
  exists a sp t b, blank a /\ blank sp /\ sp <> [] /\ blank b /\ numeral t n /\ line = word_in_front "run" a sp t b.
(* The first word of the line is another one than run, or there is none *)
Definition no_run (line : text) : Prop :=
  blank line \/ exists a x r, blank a /\ x <> [] /\ Forall (fun c => isspace c = false) x /\ x <> txt "run" /\
    (r = [] \/ exists c r', r = c :: r' /\ isspace c = true) /\ line = a ++ x ++ r.

(* ---- proofs ---- *)
Lemma words_split : forall x acc r, Forall (fun c => isspace c = false) x -> acc ++ x <> [] ->
  (r = [] \/ exists c r', r = c :: r' /\ isspace c = true) -> words acc (x ++ r) = (acc ++ x) :: words [] r.
Proof.
  induction x as [|c x IH]; intros acc r F N R; simpl.
  - rewrite app_nil_r in *. destruct R as [->|(c & r' & -> & C)].
    + destruct acc; [congruence|reflexivity].
    + simpl. rewrite C. destruct acc; [congruence|reflexivity].
  - inversion F as [|? ? C F2]; subst. rewrite C, IH; auto.
    + now rewrite <- app_assoc.
    + destruct acc; discriminate.
Qed.
Lemma no_run_ok : forall line, no_run line -> run_args line = None.
Proof.
  intros line [B|(a & x & r & A & NX & X & NR & R & ->)]; unfold run_args.
  - rewrite <- (app_nil_r line), words_spaces by exact B. reflexivity.
  - rewrite words_spaces by exact A. rewrite (words_split x []) by auto. cbn [app].
    destruct (text_dec x (txt "run")); [congruence|reflexivity].
Qed.
Lemma numeral_ns : forall t n, numeral t n -> Forall (fun c => isspace c = false) t /\ t <> [].
Proof.
  intros t n N. destruct (numeral_facts _ _ N) as (D & Nt & _). split; auto.
  eapply Forall_impl; [|exact D]. intros c Hc. now destruct (digit_facts c Hc).
Qed.
Lemma words_blank : forall b, blank b -> words [] b = [].
Proof. intros b B. rewrite <- (app_nil_r b), words_spaces by exact B. reflexivity. Qed.
Lemma asks_args : forall line n, asks_for line n -> exists t, numeral t n /\ run_args line = Some [t].
Proof.
  intros line n (a & sp & t & b & A & S & NS & B & N & ->). exists t. split; auto. destruct (numeral_ns _ _ N) as (T & NT).
  unfold run_args, word_in_front. rewrite words_spaces by exact A. rewrite <- !app_assoc.
  destruct sp as [|x sp]; [congruence|]. unfold blank in S. simpl in S. apply andb_prop in S as (X & S).
  rewrite (words_split (txt "run") [] ((x :: sp) ++ t ++ b)); [|repeat constructor|discriminate|right; exists x, (sp ++ t ++ b); auto].
  cbn [app]. destruct (text_dec (txt "run") (txt "run")) as [_|Q]; [|now destruct Q].
  simpl. rewrite X. rewrite words_spaces by exact S. rewrite (words_split t []); auto.
  - now rewrite words_blank.
  - destruct b as [|y b]; [now left|]. right. exists y, b. split; auto. unfold blank in B. simpl in B. now apply andb_prop in B.
Qed.
Lemma next_number : forall t n w, numeral t n -> next_command [t] w = Some (command_by_id n w).
Proof.
  intros t n w N. destruct (numeral_facts _ _ N) as (D & Nt & _). destruct t as [|c t]; [congruence|].
  assert (NC : c <> "-"%char) by (intros ->; inversion D; discriminate).
  unfold next_command.
  assert (E1 : Args.expand_arg ArgsTable.op_run (Args.OStr (c :: t)) = [Args.OStr (c :: t)]).
  { unfold Args.expand_arg. destruct t as [|x [|y t]]; auto. now rewrite (proj2 (Ascii.eqb_neq c "-"%char) NC). }
  unfold Args.parse. cbn [map flat_map]. rewrite E1. cbn [app Args.extract]. unfold Args.extract_one.
  change (Args.find_flag ArgsTable.op_run (Args.OStr (c :: t))) with (@None Args.flag). cbv iota.
  change (negb (Datatypes.length (Args.d_flags ArgsTable.op_run) =? 0)) with false. rewrite andb_false_r.
  cbn [Args.d_anons ArgsTable.op_run Datatypes.length Args.ps_anon Nat.leb nth_error Args.a_name Args.ps_cur conv_id].
  rewrite (parse_numeral _ _ N). reflexivity.
Qed.

(* What a line leads to is determined. *)
Theorem c89_determined : forall w c t t', executes w c t -> executes w c t' -> t = t'.
Proof.
  intros w c t t' H. revert t'. induction H; intros t' H'; inversion H'; subst; try congruence.
  f_equal. apply IHexecutes. congruence.
Qed.

(* run N executes command N, once, and that is all; the command is any but another run *)
Theorem c89_run : forall cs f es line n c t, holds cs f -> Forall fine es -> asks_for line n ->
  nth_error (rev (fst (history (steps (begin f) es)))) (Z.to_nat n) = Some c -> no_run c ->
  (executes (steps (begin f) es) line t <-> t = [line; c]).
Proof.
  intros cs f es line n c t H F A C N.
  destruct (inv_steps es cs _ (inv_begin _ _ H) F) as (m1 & I1). set (w := steps (begin f) es) in *.
  rewrite (proj1 (inv_history _ _ I1)), rev_involutive in C.
  destruct (asks_args _ _ A) as (s & Ns & E).
  assert (NN : (0 <= n)%Z).
  { clear -Ns. induction Ns; unfold digit_value in *; [|]; unfold isdigit in *; apply between_ok in H; lia. }
  assert (X : executes w line [line; c]).
  { assert (CB : command_by_id n w = c)
      by (replace n with (Z.of_nat (Z.to_nat n)) by lia; exact (inv_command _ _ _ _ I1 C)).
    eapply executes_next; [exact E|rewrite (next_number _ _ _ Ns), CB; reflexivity|].
    apply executes_other. now apply no_run_ok. }
  split; [intros T; exact (c89_determined _ _ _ _ T X)|intros ->; exact X].
Qed.

(* A number that no command has: nothing but the message (the empty command does nothing) *)
Theorem c89_no_command : forall w line n t, asks_for line n -> (Z.of_nat (length (fst (history w))) <= n)%Z ->
  (executes w line t <-> t = [line; []]).
Proof.
  intros w line n t A L. destruct (asks_args _ _ A) as (s & Ns & E).
  assert (C : command_by_id n w = []).
  { unfold command_by_id. destruct (n <? 0)%Z; auto. now rewrite (proj2 (Z.leb_le _ _) L). }
  assert (X : executes w line [line; []]).
  { eapply executes_next; [exact E|rewrite (next_number _ _ _ Ns), C; reflexivity|]. apply executes_other. reflexivity. }
  split; [intros T; exact (c89_determined _ _ _ _ T X)|intros ->; exact X].
Qed.

(* If a run command in the history asks only for commands before it, then run N ends, for every N. *)
Theorem c89_ends_partial : forall cs f es, holds cs f -> Forall fine es ->
  let h := rev (fst (history (steps (begin f) es))) in
  (forall k c, nth_error h k = Some c -> no_run c \/ exists m, asks_for c m /\ (m < Z.of_nat k)%Z) ->
  forall line n, asks_for line n -> exists t, executes (steps (begin f) es) line t /\ length t <= Z.to_nat n + 2.
Proof.
  intros cs f es H F h B. destruct (inv_steps es cs _ (inv_begin _ _ H) F) as (m1 & I1). set (w := steps (begin f) es) in *.
  assert (Eh : h = cs ++ m1) by (unfold h; rewrite (proj1 (inv_history _ _ I1)), rev_involutive; reflexivity).
  assert (G : forall k line n, Z.to_nat n = k -> asks_for line n -> exists t, executes w line t /\ length t <= k + 2).
  { intros k. induction k as [k IH] using lt_wf_ind. intros line n K A. destruct (asks_args _ _ A) as (s & Ns & E).
    assert (NN : (0 <= n)%Z).
    { clear -Ns. induction Ns; unfold digit_value in *; [|]; unfold isdigit in *; apply between_ok in H; lia. }
    destruct (nth_error h k) as [c|] eqn:C.
    - assert (X : command_by_id n w = c).
      { replace n with (Z.of_nat k) by lia. apply (inv_command _ _ _ _ I1). now rewrite <- Eh. }
      destruct (B k c C) as [N|(m & Am & L)].
      + exists [line; c]. split; [|simpl; lia]. eapply executes_next; [exact E|rewrite (next_number _ _ _ Ns), X; reflexivity|].
        apply executes_other. now apply no_run_ok.
      + assert (0 <= m)%Z.
        { destruct (asks_args _ _ Am) as (u & Nu & _). clear -Nu. induction Nu; unfold digit_value in *; [|]; unfold isdigit in *; apply between_ok in H; lia. }
        destruct (IH (Z.to_nat m) ltac:(lia) c m eq_refl Am) as (t & T & Lt). exists (line :: t). split; [|simpl; lia].
        eapply executes_next; [exact E|rewrite (next_number _ _ _ Ns), X; reflexivity|exact T].
    - apply nth_error_None in C. exists [line; []]. split; [|simpl; lia].
      apply (proj2 (c89_no_command w line n [line; []] A ltac:(
        unfold h in C; rewrite rev_length in C; lia))). reflexivity. }
  intros line n A. apply (G _ line n eq_refl A).
Qed.

(* run without an argument never runs anything: not the previous command *)
Theorem c89_previous_refuted : forall w a b t, blank a -> blank b ->
  (executes w (a ++ txt "run" ++ b) t <-> t = [a ++ txt "run" ++ b; []]).
Proof.
  intros w a b t A B.
  assert (E : run_args (a ++ txt "run" ++ b) = Some []).
  { unfold run_args. rewrite words_spaces by exact A. rewrite (words_split (txt "run") []).
    - cbn [app]. destruct (text_dec (txt "run") (txt "run")) as [_|Q]; [|now destruct Q]. now rewrite words_blank.
    - repeat constructor.
    - discriminate.
    - destruct b as [|y b]; [now left|]. right. exists y, b. split; auto. unfold blank in B. simpl in B. now apply andb_prop in B. }
  assert (X : executes w (a ++ txt "run" ++ b) [a ++ txt "run" ++ b; []]).
  { eapply executes_next; [exact E|reflexivity|]. apply executes_other. reflexivity. }
  split; [intros T; exact (c89_determined _ _ _ _ T X)|intros ->; exact X].
Qed.

(* run N, where N is the number of that very command, never ends. *)
Theorem c89_itself_refuted : forall cs f es line n, holds cs f -> Forall fine es -> asks_for line n ->
  nth_error (rev (fst (history (steps (begin f) es)))) (Z.to_nat n) = Some line ->
  forall t, ~ executes (steps (begin f) es) line t.
Proof.
  intros cs f es line n H F A C t X.
  destruct (inv_steps es cs _ (inv_begin _ _ H) F) as (m1 & I1). set (w := steps (begin f) es) in *.
  rewrite (proj1 (inv_history _ _ I1)), rev_involutive in C.
  destruct (asks_args _ _ A) as (s & Ns & E).
  assert (NN : (0 <= n)%Z).
  { clear -Ns. induction Ns; unfold digit_value in *; [|]; unfold isdigit in *; apply between_ok in H; lia. }
  assert (Y : next_command [s] w = Some line).
  { rewrite (next_number _ _ _ Ns). f_equal. replace n with (Z.of_nat (Z.to_nat n)) by lia. exact (inv_command _ _ _ _ I1 C). }
  remember line as l eqn:El in X. induction X; subst.
  - congruence.
  - congruence.
  - apply IHX. congruence.
Qed.

(* In a script, run N fails with an exception of Python, for every number *)
Theorem c89_script_refuted : forall t n, numeral t n -> run_in_script [t] = None.
Proof.
  intros t n N. pose proof (next_number t n (begin []) N) as X. unfold next_command in X. unfold run_in_script.
  destruct (Args.parse conv_id ArgsTable.op_run (map Args.OStr [t])); [reflexivity|discriminate].
Qed.

(* ---- examples ---- *)
Example run_day : executes (steps (begin []) day) (txt "run 1") [txt "run 1"; txt "ls"] /\ asks_for (txt "run 1") 1 /\ no_run (txt "ls -r").
Proof.
  split; [|split].
  - eapply executes_next; [reflexivity|reflexivity|]. apply executes_other. reflexivity.
  - exists [], (txt " "), (txt "1"), []. repeat split; try discriminate. exact (numeral_1 "1"%char eq_refl).
  - right. exists [], (txt "ls"), (txt " -r"). split; [reflexivity|]. split; [discriminate|]. split; [repeat constructor|].
    split; [discriminate|]. split; [|reflexivity]. right. exists " "%char, (txt "-r"). split; reflexivity.
Qed.
(* The user enters ls, and then run 1: that is command 1 *)
Definition loop : list event := [Enter t0 (txt "ls"); Enter t0 (txt "run 1")].
Example loop_forever : Forall fine loop /\ forall t, ~ executes (steps (begin []) loop) (txt "run 1") t.
Proof.
  assert (F : Forall fine loop) by (repeat constructor; simpl; intuition discriminate). split; auto.
  apply (c89_itself_refuted [] [] loop (txt "run 1") 1); try reflexivity; [exact holds_none|exact F|].
  exists [], (txt " "), (txt "1"), []. repeat split; try discriminate. exact (numeral_1 "1"%char eq_refl).
Qed.

Print Assumptions c89_determined.
Print Assumptions c89_run.
Print Assumptions c89_no_command.
Print Assumptions c89_ends_partial.
Print Assumptions c89_previous_refuted.
Print Assumptions c89_itself_refuted.
Print Assumptions c89_script_refuted.
