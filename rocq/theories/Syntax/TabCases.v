(** Cases of C76, and what does not hold. *)
From Verif.Syntax Require Export TabProps.
From Verif.Syntax Require Import CommandLineFacts1.
Local Open Scope char_scope.
Local Open Scope list_scope.

Lemma plain_ordinary : forall w, forallb (fun c => negb (isspace c || marcel_term c || is_quote c || (c =? bslash) || (c =? "@") || (c =? "!"))) w = true -> Forall ordinary w.
Proof.
  intros w H. rewrite forallb_forall in H. apply Forall_forall. intros c I. apply H in I. apply negb_true_iff in I.
  do 5 (apply orb_false_iff in I as [I ?]). repeat split; auto; now apply Ascii.eqb_neq.
Qed.
Definition everything (l : list item) : Prop := True.
Definition ls_reads (w : text) : bool := teqb w (txt "ls").

Example c76_operators_case : unfinished ls_reads everything (txt "ls -r | join -k (|gen 3 | wi") (AtOperator (txt "wi")) /\
  completions ls_reads (fun _ => true) [] (txt "ls -r | join -k (|gen 3 | wi") = Offers [txt "ndow "].
Proof.
  assert (W : forall n i, n <> [] -> i <> [] -> Forall ordinary n -> Forall ordinary i -> written_op [Word n; Word i] (n ++ [" "] ++ i)).
  { intros. apply wr_more; [now constructor|repeat constructor|discriminate|]. apply wr_last. now constructor. }
  assert (H : forall n i, whole_op ls_reads everything [Word n; Word i]) by (intros; repeat constructor).
  split; [|vm_compute; reflexivity].
  assert (B : blank [" "]) by repeat constructor.
  apply (un_pipe ls_reads everything [Word (txt "ls"); Word (txt "-r")] (txt "ls -r") [" "] [" "] (txt "join -k (|gen 3 | wi")); auto.
  { apply (W (txt "ls") (txt "-r")); (discriminate || (apply plain_ordinary; reflexivity)). }
  apply (un_nest ls_reads everything (txt "join") [Word (txt "-k")] (txt "join -k") [" "] [] (txt "gen 3 | wi")); auto; try discriminate; [|constructor|].
  { apply (W (txt "join") (txt "-k")); (discriminate || (apply plain_ordinary; reflexivity)). }
  apply (un_pipe ls_reads everything [Word (txt "gen"); Word (txt "3")] (txt "gen 3") [" "] [" "] (txt "wi")); auto.
  { apply (W (txt "gen") (txt "3")); (discriminate || (apply plain_ordinary; reflexivity)). }
  constructor. apply plain_ordinary. reflexivity.
Qed.
Example c76_flags_case : unfinished ls_reads everything (txt "gen 3 | filter (f) --k") (AtFlag (txt "filter") (txt "--k")) /\
  completions ls_reads (fun _ => true) [] (txt "gen 3 | filter (f) --k") = Offers [txt "eep "].
Proof.
  split; [|vm_compute; reflexivity]. assert (B : blank [" "]) by repeat constructor.
  apply (un_pipe ls_reads everything [Word (txt "gen"); Word (txt "3")] (txt "gen 3") [" "] [" "] (txt "filter (f) --k")); auto; [|repeat constructor|].
  { apply (wr_more (Word (txt "gen")) (txt "gen") [" "] [Word (txt "3")] (txt "3")); [|auto|discriminate|apply wr_last];
      (constructor; [discriminate|apply plain_ordinary; reflexivity]). }
  apply (un_flag ls_reads everything (txt "filter") [Expr (txt "f")] (txt "filter (f)") [" "] (txt "-k")); auto; try discriminate.
  - apply (wr_more (Word (txt "filter")) (txt "filter") [" "] [Expr (txt "f")] (txt "(f)")); [|auto|discriminate|apply wr_last].
    + constructor; [discriminate|apply plain_ordinary; reflexivity].
    + apply (wr_expr (txt "f")); [|discriminate]. apply balanced_char; [discriminate|discriminate|reflexivity|constructor].
  - repeat constructor.
  - apply plain_ordinary. reflexivity.
Qed.

Notation ask := (completions ls_reads (fun _ => true) [txt "cat"]).
Example c76_arguments_case : ask (txt "ls | cd /et") = Files (txt "/et") /\ ask (txt "ls ") = Files [] /\ ask (txt "cd ~jo") = Users (txt "~jo").
Proof. vm_compute. auto. Qed.

(** An empty line, or one of blanks, is an exception. *)
Theorem c76_empty_refuted : forall shell_args creates executables b, blank b -> completions shell_args creates executables b = Crashed.
Proof.
  intros sh cr ex b B. unfold completions, parsed, tab_parse.
  assert (N : next_token false b = Ok None) by (rewrite <- (app_nil_r b), next_blank by auto; reflexivity).
  erewrite mbind_done by (apply peek_ok; exact N). reflexivity.
Qed.
(** So are a flag of anything but an operator (an executable, or a variable), and an expression before the cursor, *)
Example c76_executable_case : ask (txt "cat -") = Crashed /\ ask (txt "my_pipeline -x") = Crashed /\ ask (txt "@host -") = Crashed.
Proof. vm_compute. auto. Qed.
Example c76_expression_refuted : ask (txt "(f)") = Crashed /\ ask (txt "(f") = Crashed.
Proof. vm_compute. auto. Qed.
(** after which there can be no operator. *)
Example c76_after_expression_refuted : exists l, ask (txt "(f) ") = Offers l /\ length l = 53.
Proof. eexists; split; vm_compute; reflexivity. Qed.
(** The file of a redirection: all of the operators, and then nothing. *)
Example c76_redirection_refuted : (exists l, ask (txt "ls > ") = Offers l /\ length l = 53) /\ ask (txt "ls > fo") = Offers [].
Proof. split; [eexists; split; vm_compute; reflexivity|vm_compute; reflexivity]. Qed.
(** An expression that has not been closed: the operators. *)
Example c76_open_expression_refuted : exists l, ask (txt "ls | map (f") = Offers l /\ length l = 53.
Proof. eexists; split; vm_compute; reflexivity. Qed.
(** An error in a nested pipeline that has been closed hides all that comes after. *)
Example c76_error_refuted : completions ls_reads (fun _ => false) [] (txt "join (|gen 3|) -") <> completions ls_reads (fun _ => true) [] (txt "join (|gen 3|) -").
Proof. vm_compute. discriminate. Qed.
(** A line that starts with a word that starts with help is taken for a question. *)
Example c76_help_case : ask (txt "helpers fi") = Topics (txt "fi").
Proof. vm_compute. reflexivity. Qed.
Print Assumptions c76_operators_partial.
Print Assumptions c76_flags_partial.
Print Assumptions c76_arguments_partial.
Print Assumptions c76_other_flags_refuted.
Print Assumptions c76_help_refuted.
Print Assumptions c76_empty_refuted.
