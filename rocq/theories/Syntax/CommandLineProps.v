(** C74: a typed command line does what its words say. *)
From Verif.Syntax Require Import LexerFacts CommandLineFacts4.
From Verif.Ops Require Builtin ExecProps OpsProps1.
Local Open Scope char_scope.
Local Open Scope list_scope.

Section Lines.
Variable compile : text -> option func.
Variable named : text -> option func.
Variable is_var : text -> bool.
Variable shell_args : text -> bool.
(** The operators are not hidden by variables, and take their arguments as marcel does. *)
Hypothesis free : forall n, In n operator_names -> is_var (txt n) = false /\ shell_args (txt n) = false.

Lemma plain_meant :
  (forall is m, does compile named is m -> plain_op shell_args is) /\
  (forall l src, sends compile named l src -> Forall (plain_op shell_args) l) /\
  (forall os ms, does_all compile named os ms -> Forall (plain_op shell_args) os) /\
  (forall ls srcs, sends_all compile named ls srcs -> Forall (fun l => Forall (plain_op shell_args) l) ls).
Proof.
  assert (P : forall n is, In n operator_names -> Forall (plain_item shell_args) is -> plain_op shell_args (op_named n is)).
  { intros n is I F. apply pl_op; auto. intros E. now rewrite (proj2 (free n I)) in E. }
  assert (U : forall i n, is_unsigned compile i n -> plain_item shell_args i) by (intros i n []; constructor).
  assert (Z : forall i n, is_int compile i n -> plain_item shell_args i) by (intros i n []; [eauto|constructor]).
  assert (F : forall i n, is_fn compile named i n -> plain_item shell_args i) by (intros i n []; constructor).
  assert (R : forall i n, is_reducer compile named i n -> plain_item shell_args i) by (intros i n []; constructor).
  assert (FL : forall s l b is, flag_at s l b is -> Forall (plain_item shell_args) is) by (intros s l b is []; repeat constructor).
  assert (V : forall s l b is, valued compile s l b is -> Forall (plain_item shell_args) is) by (intros s l b is []; repeat constructor; eauto).
  assert (C : forall f is, comparing compile f is -> Forall (plain_item shell_args) is) by (intros f is []; repeat constructor).
  assert (N : forall ls, Forall (fun l => Forall (plain_op shell_args) l) ls -> Forall (plain_item shell_args) (map Nest ls)).
  { intros ls H. induction H; constructor; auto. now constructor. }
  assert (O1 : forall o is, optional (is_fn compile named) o is -> Forall (plain_item shell_args) is) by (intros o is []; repeat constructor; eauto).
  assert (O2 : forall o is, optional (is_int compile) o is -> Forall (plain_item shell_args) is) by (intros o is []; repeat constructor; eauto).
  apply meaning_ind; intros; try (constructor; fail); try (constructor; eauto; fail);
    try (apply P; [cbn; tauto|]); repeat rewrite Forall_app; repeat split; eauto 6; try (repeat constructor; eauto; fail).
  - (* red *) match goal with Q : Forall2 (is_reducer _ _) _ _ |- _ => clear - R Q; induction Q; constructor; eauto end.
  - (* filter, without a mode *) destruct o as [o| ->]; [eauto|constructor].
  - (* gen *) constructor; auto. apply P; [cbn; tauto|]. rewrite Forall_app. split; eauto.
Qed.

Lemma no_vars : forall n x, In (n, x) operators -> is_var (txt n) = false.
Proof. intros n x I. apply free. apply (in_map fst) in I. exact I. Qed.

Notation run_line := (run_line compile named is_var shell_args).

Theorem c74_line_partial : forall l src line, sends compile named l src -> typed l line -> run_line line = Some src.
Proof.
  intros l src line S T. pose proof (proj1 (proj2 plain_meant) l src S) as P.
  destruct (typed_parse shell_args l line P T) as (cs & PA & ST). unfold CommandLine.run_line. rewrite PA.
  exact (proj1 (proj2 (meant compile named is_var no_vars)) l src S cs ST).
Qed.

(** Sending to the next operator *)
Lemma exec_next : forall m ms es out, Builtin.builtin m -> Forall Builtin.builtin ms ->
  Machine.exec m (es, Machine.Ok) = (out ++ [Machine.Flush], Machine.Ok) ->
  Machine.exec (Machine.pipe (m :: ms)) (es, Machine.Ok) = Machine.exec (Machine.pipe ms) (out, Machine.Ok).
Proof.
  intros m ms es out B BS E. rewrite !MachineFacts.exec_through in *. cbn [Machine.pipe].
  rewrite MachineFacts.through_seq; [|now apply Builtin.builtin_orderly|].
  - rewrite E. destruct (MachineFacts.through (Machine.pipe ms) (out ++ [Machine.Flush])) as [o []]; reflexivity.
  - apply MachineFacts.orderly_pipe. eapply Forall_impl; [|exact BS]. intros. now apply Builtin.builtin_orderly.
Qed.

(** The numbers below [n] that satisfy [P], mapped by [F], at most [k] of them: whatever the expressions, and however the line is laid out. *)
Definition row (z : Z) : Val.val := Val.VTuple [Val.VInt z].
Theorem c74_numbers : forall tn n tk k sp p sf f P F line,
  numeral tn n -> (0 < n)%Z -> numeral tk k -> (0 < k)%Z -> compile sp = Some p -> compile sf = Some f ->
  (forall z, p [Val.VInt z] = Some (Val.VBool (P z))) -> (forall z, f [Val.VInt z] = Some (Val.VInt (F z))) ->
  typed [[Word (txt "gen"); Word tn]; [Word (txt "select"); Expr sp]; [Expr sf]; [Word (txt "head"); Word tk]] line ->
  exists out, run_line line = Some (out ++ [Machine.Flush], Machine.Ok) /\ Machine.errs out = [] /\
    Machine.rows out = map row (firstn (Z.to_nat k) (map F (filter P (map Z.of_nat (seq 0 (Z.to_nat n)))))).
Proof.
  intros tn n tk k sp p sf f P F line TN N TK K CP CF HP HF T.
  set (zs := map Z.of_nat (seq 0 (Z.to_nat n))).
  set (src := Machine.exec (Machine.pipe [Basic.select_op p; Basic.map_op f; Basic.head_op k]) (Gen.gen_source n 0 None)).
  assert (R : run_line line = Some src).
  { eapply c74_line_partial; [|exact T]. unfold src.
    apply (send compile named None [] (Word tn) n None [] [[Word (txt "select"); Expr sp]; [Expr sf]; [Word (txt "head"); Word tk]]).
    - constructor.
    - now constructor.
    - lia.
    - constructor.
    - constructor; [apply do_select; now constructor|]. constructor; [now constructor|]. constructor; [|constructor].
      apply do_head. now repeat constructor. }
  assert (G : Gen.gen_source n 0 None = (map (fun z => Machine.Data (Val.VInt z)) zs, Machine.Ok)).
  { reflexivity. }
  assert (OS : forall l : list Machine.event, (forall e, In e l -> exists x, e = Machine.Data x) -> Spec.open_stream l).
  { intros l H. apply forallb_forall. intros e I. now destruct (H e I) as (x & ->). }
  unfold src in R. rewrite G in R.
  assert (E1 : Machine.exec (Basic.select_op p) (map (fun z => Machine.Data (Val.VInt z)) zs, Machine.Ok) =
               (map (fun z => Machine.Data (row z)) (filter P zs) ++ [Machine.Flush], Machine.Ok)).
  { rewrite BasicFacts.select_exec. 2:{ apply OS. intros e I. apply in_map_iff in I as (z & <- & _). eauto. }
    do 2 f_equal. clear - HP. induction zs as [|z zs IH]; auto. cbn [map flat_map filter Val.wrap Val.components]. rewrite HP, IH.
    cbn [Val.truthy]. now destruct (P z). }
  assert (E2 : Machine.exec (Basic.map_op f) (map (fun z => Machine.Data (row z)) (filter P zs), Machine.Ok) =
               (map (fun z => Machine.Data (Val.VInt (F z))) (filter P zs) ++ [Machine.Flush], Machine.Ok)).
  { rewrite BasicFacts.map_exec. 2:{ apply OS. intros e I. apply in_map_iff in I as (z & <- & _). eauto. }
    do 2 f_equal. clear - HF. induction (filter P zs) as [|z zs' IH]; auto. cbn [map flat_map Val.wrap Val.components row]. now rewrite HF, IH. }
  rewrite (exec_next _ [Basic.map_op f; Basic.head_op k] _ _ (Builtin.b_select p) ltac:(repeat constructor) E1) in R.
  rewrite (exec_next _ [Basic.head_op k] _ _ (Builtin.b_map f) ltac:(repeat constructor) E2) in R.
  destruct (@OpsProps1.c05_head_takes_prefix k (map (fun z => Machine.Data (Val.VInt (F z))) (filter P zs))) as (out & E3 & RW & ER).
  { lia. } { apply OS. intros e I. apply in_map_iff in I as (z & <- & _). eauto. }
  rewrite (exec_next _ [] _ _ (Builtin.b_head k) ltac:(repeat constructor) E3) in R.
  rewrite MachineFacts.exec_through in R. cbn [Machine.pipe] in R. rewrite MachineFacts.through_wire, map_app in R.
  exists (map Machine.as_input out). split; [exact R|].
  assert (AE : forall l, Machine.errs (map Machine.as_input l) = Machine.errs l) by (induction l as [|[] l IH]; cbn; congruence).
  assert (AR : forall l, Machine.rows (map Machine.as_input l) = Machine.rows l).
  { induction l as [|[] l IH]; cbn; auto. now rewrite IH, ValFacts.wrap_wrap. }
  rewrite AE, AR, RW, ER. split.
  - clear. induction (filter P zs); auto.
  - rewrite <- firstn_map, map_map. f_equal. clear. induction (filter P zs) as [|z l IH]; auto. cbn [map Machine.rows]. now rewrite IH.
Qed.

(** A negative count is taken for a flag, and refused. *)
Theorem c74_negative_count_refused : forall t n line, numeral t n -> typed [[Word (txt "gen"); Word ("-" :: t)]] line -> run_line line = None.
Proof.
  intros t n line N T.
  assert (PL : Forall (plain_op shell_args) [[Word (txt "gen"); Word ("-" :: t)]]) by (repeat constructor; intros E; now rewrite (proj2 (free "gen" (or_introl eq_refl))) in E).
  destruct (typed_parse shell_args _ line PL T) as (cs & PA & ST). unfold CommandLine.run_line. rewrite PA.
  inversion ST as [|? c ? cs' SC SR]; subst. inversion SR; subst. apply (call_create compile named is_var) in SC as (l & S & C).
  unfold run_ops. cbn [create_all]. rewrite C. inversion S; subst. inversion H3; subst.
  apply (value_word compile named is_var) in H1 as [V _]. cbn [values]. rewrite V.
  assert (X : create compile named is_var (txt "gen") [inl (OStr ("-" :: t))] = None); [|change (txt "gen") with ["g"; "e"; "n"] in X; now rewrite X].
  erewrite (create_known compile named is_var no_vars "gen"); [|now left|reflexivity]. cbn [as_objects]. unfold Args.parse.
  destruct (numeral_ends t n N) as (d & r & _ & _ & B & -> & _). destruct (digit_char d B) as (_ & _ & _ & _ & D & _).
  assert (NG : negative_obj (OStr ("-" :: ascii_of_nat (48 + d) :: r))) by (eexists; eexists; split; [reflexivity|exact D]).
  cbn [flat_map]. rewrite (expand_negative op_gen _ eq_refl NG). cbn [app extract]. unfold extract_one.
  rewrite (find_negative op_gen _ eq_refl NG). reflexivity.
Qed.
End Lines.
Print Assumptions c74_line_partial.
Print Assumptions c74_numbers.
Print Assumptions c74_negative_count_refused.

(** ** A concrete case: a nested pipeline, flags, blanks and a comment *)
Section Case.
Definition small : func := fun args => match args with [Val.VInt z] => Some (Val.VBool (z <? 4)%Z) | _ => None end.
Definition seven : func := fun args => match args with [] => Some (Val.VInt 7) | _ => None end.
Definition demo_compile (t : text) : option func :=
  if teqb t (txt "lambda x: x < 4") then Some small else if teqb t (txt "3 + (4)") then Some seven else None.
Definition demo_named (t : text) : option func := None.
Definition demo_line : text := txt "  gen (3 + (4)) |select (lambda x: x < 4)  | difference (| gen  2 1|)|tail 02  # (comment".

Definition demo_items : list (list item) :=
  [[Word (txt "gen"); Expr (txt "3 + (4)")]; [Word (txt "select"); Expr (txt "lambda x: x < 4")];
   [Word (txt "difference"); Nest [[Word (txt "gen"); Word (txt "2"); Word (txt "1")]]]; [Word (txt "tail"); Word (txt "02")]].

Lemma demo_typed : typed demo_items demo_line.
Proof.
  assert (O : forall w, w <> [] -> forallb (fun c => negb (isspace c) && negb (marcel_term c) && negb (is_quote c) && negb (c =? bslash) && negb (c =? "@") && negb (c =? "!"))%bool w = true ->
              written_item (Word w) w).
  { intros w N F. constructor; auto. rewrite Forall_forall. rewrite forallb_forall in F. intros c I. apply F in I.
    repeat rewrite andb_true_iff in I. repeat rewrite negb_true_iff in I. destruct I as [[[[[A B] C] D] E] G].
    repeat split; auto; intros ->; discriminate. }
  assert (S1 : blank [" "]) by (repeat constructor). assert (S2 : blank [" "; " "]) by (repeat constructor). assert (S0 : blank []) by constructor.
  exists [" "; " "], (txt "gen (3 + (4)) |select (lambda x: x < 4)  | difference (| gen  2 1|)|tail 02"), [" "; " "].
  repeat split; auto; [|right; exists (txt " (comment"); split; [discriminate|reflexivity]].
  change (txt "gen (3 + (4)) |select (lambda x: x < 4)  | difference (| gen  2 1|)|tail 02") with
    ((txt "gen" ++ [" "] ++ ("(" :: txt "3 + (4)" ++ [")"])) ++ [" "] ++ "|" :: [] ++
     ((txt "select" ++ [" "] ++ ("(" :: txt "lambda x: x < 4" ++ [")"])) ++ [" "; " "] ++ "|" :: [" "] ++
      ((txt "difference" ++ [" "] ++ ("(" :: "|" :: [" "] ++ (txt "gen" ++ [" "; " "] ++ (txt "2" ++ [" "] ++ txt "1")) ++ [] ++ ["|"; ")"])) ++ [] ++ "|" :: [] ++
       (txt "tail" ++ [" "] ++ txt "02")))).
  assert (B : forall t, forallb (fun c => negb (c =? "(") && negb (c =? ")") && negb (is_quote c))%bool t = true -> balanced t).
  { induction t as [|c t IH]; intros F; [constructor|]. cbn in F. repeat rewrite andb_true_iff in F. repeat rewrite negb_true_iff in F.
    destruct F as [[[A C] D] F]. constructor; auto; intros ->; discriminate. }
  apply wr_pipe; auto; [|apply wr_pipe; auto; [|apply wr_pipe; auto; [|apply wr_one]]].
  - apply wr_more; [apply O; [discriminate|reflexivity]|auto|discriminate|apply wr_last, wr_expr; [|discriminate]].
    change (txt "3 + (4)") with (txt "3 + " ++ "(" :: txt "4" ++ ")" :: []). cbn [txt list_ascii_of_string app].
    repeat (apply balanced_char; [discriminate|discriminate|reflexivity|]). apply (balanced_group ["4"] []); [now apply B|constructor].
  - apply wr_more; [apply O; [discriminate|reflexivity]|auto|discriminate|apply wr_last, wr_expr; [|discriminate]]. now apply B.
  - apply wr_more; [apply O; [discriminate|reflexivity]|auto|discriminate|apply wr_last, wr_nest; auto]. apply wr_one.
    apply wr_more; [apply O; [discriminate|reflexivity]|auto|discriminate|].
    apply wr_more; [apply O; [discriminate|reflexivity]|auto|discriminate|apply wr_last, O; [discriminate|reflexivity]].
  - apply wr_more; [apply O; [discriminate|reflexivity]|auto|discriminate|apply wr_last, O; [discriminate|reflexivity]].
Qed.

Definition demo_source : source :=
  Machine.exec (Machine.pipe [Basic.select_op small; SetOps.difference_op (Machine.exec (Machine.pipe []) (Gen.gen_source 2 1 None)); Basic.tail_op 2])
               (Gen.gen_source 7 0 None).
Lemma demo_sends : sends demo_compile demo_named demo_items demo_source.
Proof.
  assert (D : forall d t, (d < 10)%nat -> t = [ascii_of_nat (48 + d)] -> numeral t (Z.of_nat d)) by (intros d t L ->; now constructor).
  apply (send demo_compile demo_named None [] (Expr (txt "3 + (4)")) 7 None []); [constructor|apply uns_computed with (f := seven); reflexivity|discriminate|constructor|].
  constructor; [apply do_select; now constructor|]. constructor; [apply do_difference|].
  - apply (send demo_compile demo_named None [] (Word (txt "2")) 2 (Some 1%Z) [Word (txt "1")]); [constructor| |discriminate| |constructor].
    + constructor. apply (D 2); [lia|reflexivity].
    + constructor. constructor. constructor. apply (D 1); [lia|reflexivity].
  - constructor; [|constructor]. apply do_tail. constructor. constructor.
    apply (num_more (txt "0") 0 2); [lia|]. apply (D 0); [lia|reflexivity].
Qed.
Example c74_case : run_line demo_compile demo_named (fun _ => false) (fun _ => false) demo_line = Some demo_source /\ Machine.rows (fst demo_source) = [row 0; row 3] /\ snd demo_source = Machine.Ok.
Proof.
  split; [|vm_compute; auto]. eapply c74_line_partial; [|apply demo_sends|apply demo_typed]. intros. auto.
Qed.
End Case.
