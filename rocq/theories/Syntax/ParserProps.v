(** C47: a line is a command exactly if the grammar says so, and stands for what the grammar says. *)
From Verif.Syntax Require Import LexerFacts ParserSpec ParserFacts ParserSound ParserComplete.
Local Open Scope list_scope.

(** The commands are the texts of the accepted language, each standing for what the grammar says. *)
Theorem c47_accepted : forall shell_args t c, parse shell_args t = Ok c <-> Accepted shell_args t c.
Proof.
  intros. split; [apply parse_sound|]. unfold Accepted. apply command_complete; left; auto.
Qed.

(** Parsing comes to an end on every text. *)
Theorem c47_always_answers : forall shell_args t, parse shell_args t <> Fuel.
Proof. apply parse_no_fuel. Qed.

(** Whatever is accepted is in the documented grammar, but for commas left out between parameters. *)
Theorem c47_sound_partial : forall shell_args t c, parse shell_args t = Ok c ->
  Command shell_args true (fun _ _ => True) (fun _ => True) t c.
Proof.
  intros shell_args t c H. apply parse_sound in H. eapply command_weaken; eauto.
Qed.

(** Every command of the documented grammar is accepted, and stands for what the grammar says, as long
    as no operator takes the arguments of a shell. *)
Theorem c47_documented_partial : forall shell_args t c, (forall w, shell_args w = false) ->
  Documented shell_args t c -> parse shell_args t = Ok c.
Proof. intros shell_args t c N H. eapply command_complete; [right; auto|right; auto|exact H]. Qed.

(** So the documented grammar is not ambiguous. *)
Theorem c47_unambiguous_partial : forall shell_args t c c', (forall w, shell_args w = false) ->
  Documented shell_args t c -> Documented shell_args t c' -> c = c'.
Proof.
  intros shell_args t c c' N H H'. apply c47_documented_partial in H; auto. apply c47_documented_partial in H'; auto. congruence.
Qed.

(** A redirection is the operator it stands for, at the start or at the end of the pipeline: nothing else
    is changed, and the rest of the pipeline comes between. *)
Theorem c47_redirections : forall shell_args fine p t ops r,
  Body shell_args true fine p t ops r ->
  OpSequence shell_args true fine t ops r \/
  (exists w inner, ops = inner ++ [w] /\ exists gt target, is_gt gt = true /\ w = writing gt target) \/
  (exists source inner, ops = source :: inner /\ exists lt from, is_lt lt = true /\ source = reading lt from).
Proof.
  intros shell_args fine p t ops r H. inv H; auto; right;
    repeat match goal with R : Redirect _ _ _ |- _ => inv R end.
  - left. eauto 10.
  - left. exists (writing gt target), []. eauto 10.
  - right. eauto 10.
  - right. eauto 10.
  - right. eauto 10.
  - right. eauto 10.
Qed.

(** *** Examples *)
Definition word (s : string) : token := mktok (KString (txt s)) (txt s).
Definition sym (k : kind) (s : string) : token := mktok k (txt s).
Definition no_shell (_ : text) : bool := false.
Definition echo_shell (w : text) : bool := teqb w (txt "echo").

(** A pipeline with parameters, a function, a nested pipeline and redirections *)
Example c47_example :
  parse no_shell (txt "f = (| x, y: d < map (a: a) | join (| load v |) >> out |)  # comment") =
  Ok (CAssign (txt "f")
        (APipe [txt "x"; txt "y"]
           [Call (OMade "read") [AToken (word "d")];
            Call (OWord (word "map")) [AToken (mktok (KExpr (txt "a: a")) (txt "(a: a)"))];
            Call (OWord (word "join")) [APipe [] [Call (OWord (word "load")) [AToken (word "v")]] (txt "load v")];
            Call (OMade "write") [AMade "--append"; AToken (word "out")]]
           (txt "x, y: d < map (a: a) | join (| load v |) >> out"))).
Proof. reflexivity. Qed.

Example c47_documented_example : exists c, Documented no_shell (txt "ls -fr | (f: f.size) > sizes") c.
Proof.
  eexists. eapply ComRun with (r := []); [exact I| |reflexivity].
  eapply Pipe; [apply PNone|]. eapply BSeqGt; [exact I| |].
  - eapply SeqMore; [eapply OpWord; [reflexivity|reflexivity|]| | |].
    + eapply ArgsMore; [eapply ArgWord; reflexivity|]. apply ArgsNone.
    + reflexivity.
    + reflexivity.
    + apply SeqOne. eapply OpExpr; reflexivity.
  - econstructor; reflexivity.
Qed.

(** *** Where the code departs from its documentation *)

(** A comma between parameters may be left out (after the first): [x, y z: ls] has three. *)
Theorem c47_refuted_commas :
  parse no_shell (txt "x, y z: ls") = Ok (CRun [txt "x"; txt "y"; txt "z"] [Call (OWord (word "ls")) []]) /\
  forall c, ~ Documented no_shell (txt "x, y z: ls") c.
Proof.
  split; [reflexivity|]. intros c H. pose proof (c47_documented_partial no_shell _ _ (fun _ => eq_refl) H) as P.
  assert (C : c = CRun [txt "x"; txt "y"; txt "z"] [Call (OWord (word "ls")) []]) by (vm_compute in P |- *; congruence).
  subst c. inversion H as [|? ps ops r _ HP HN]; subst. inversion HP as [? ? t1 ? ? HPar HB]; subst.
  inversion HPar as [|? k r0 sep r' vs rest R W R2 S V]; subst.
  inversion V as [|? k1 r1 cm r1' vs1 r1'' R3 W3 R4 C4 V2 E1|]; subst; [|discriminate].
  unfold Reads in R3. vm_compute in R3. inv R3. unfold Reads in R4. vm_compute in R4. inv R4.
  inversion V2 as [|? k2 r2 cm2 r2' vs2 r2'' R5 W5 R6 C6 V3 E2|]; subst; [|discriminate].
  unfold Reads in R5. vm_compute in R5. inv R5. unfold Reads in R6. vm_compute in R6. inv R6. discriminate.
Qed.

(** The first argument of an executable is also read as if it were not one: [echo =x] is an assignment, [echo :x]
    runs [x] in a pipeline with a parameter, and [echo ,x] and [echo a#b] are in error. *)
Theorem c47_refuted_shell :
  parse echo_shell (txt "echo =x") = Ok (CAssign (txt "echo") (AToken (word "x"))) /\
  parse echo_shell (txt "echo :x") = Ok (CRun [txt "echo"] [Call (OWord (word "x")) []]) /\
  (forall s, In s ["echo ,x"; "echo a#b"]%string -> parse echo_shell (txt s) = Err) /\
  (forall s, In s ["=x"; ",x"; ":x"; "a#b"]%string ->
     Documented echo_shell (txt "echo " ++ txt s) (CRun [] [Call (OWord (word "echo")) [AToken (word s)]])).
Proof.
  split; [reflexivity|]. split; [reflexivity|]. split.
  - intros s [<-|[<-|[]]]; reflexivity.
  - intros s H. cbn in H. decompose [or] H; try easy; subst s;
      (eapply ComRun with (r := []); [exact I| |reflexivity]; eapply Pipe; [apply PNone|]; apply BSeq; [exact I|];
       apply SeqOne; eapply OpWord; [reflexivity|reflexivity|]; eapply ArgsMore; [eapply ArgWord; reflexivity|]; apply ArgsNone).
Qed.

(** The kinds of tokens the grammar speaks of, in terms of what the lexer finds: in particular, an operator is named by a word, [@], [!] or
    [!!]. *)
Theorem c47_token_kinds : forall k,
  (is_word k = true <-> exists cs, tkind k = KString cs) /\
  (is_expr k = true <-> exists s, tkind k = KExpr s) /\
  (is_comma k = true <-> tkind k = KComma) /\
  (is_colon k = true <-> tkind k = KColon) /\
  (is_assign k = true <-> tkind k = KAssign) /\
  (is_pipe k = true <-> tkind k = KPipe) /\
  (is_begin k = true <-> tkind k = KBegin) /\
  (is_end k = true <-> tkind k = KEnd) /\
  (is_gt k = true <-> exists a, tkind k = KGt a) /\
  (is_lt k = true <-> exists a, tkind k = KLt a) /\
  (is_opword k = true <-> (exists cs, tkind k = KString cs) \/ tkind k = KRemote \/ exists b, tkind k = KBang b) /\
  (forall cs, tkind k = KString cs -> word_value k = cs).
Proof.
  intros k. unfold is_word, is_expr, is_comma, is_colon, is_assign, is_pipe, is_begin, is_end, is_gt, is_lt, is_opword, word_value.
  destruct (tkind k); repeat split; intros; try discriminate; try congruence; eauto;
    repeat match goal with
    | H : exists _, _ |- _ => destruct H
    | H : _ \/ _ |- _ => destruct H
    end; try discriminate.
Qed.
Print Assumptions c47_token_kinds.

(** [@] names an operator. *)
Example c47_token_kinds_example :
  exists k r, Reads false (txt "@ h (| ls |)") k r /\ is_opword k = true /\ tkind k = KRemote /\
    exists c, parse no_shell (txt "@ h (| ls |)") = Ok c /\ c <> CRun [] [].
Proof. eexists; eexists. split; [reflexivity|]. split; [reflexivity|]. split; [reflexivity|]. eexists. split; [vm_compute; reflexivity|discriminate]. Qed.
