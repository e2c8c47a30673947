(** C48: the text kept for a pipeline or a function is compiled again to what was written. *)
From Verif.Syntax Require Import LexerFacts ParserSpec ParserFacts ParserSound ParserComplete ParserCut FunArgs Saved.
From Verif.Syntax Require Import ParserProps.
Local Open Scope char_scope.
Local Open Scope list_scope.

(** The text kept is the one between [(|] and [|)], without the blanks around it. *)
Theorem c48_text : forall shell_args t v ps ops src, parse shell_args t = Ok (CAssign v (APipe ps ops src)) ->
  exists before a b after, blank a /\ blank b /\
  t = before ++ txt "(|" ++ a ++ src ++ b ++ txt "|)" ++ after.
Proof.
  intros sa t v ps ops src H. apply parse_sound in H. inversion H as [? var t1 eq t2 ar r RV WV RE AE AR NR|]; subst.
  inversion AR as [|? b u1 ? ? u2 e ? RB HB P RE2 HE]; subst.
  destruct (reads_tail _ _ _ _ RV) as [p1 ->]. destruct (reads_tail _ _ _ _ RE) as [p2 ->].
  destruct (proj1 (proj2 (proj2 (proj2 (proj2 (tails sa))))) _ _ _ _ P) as [x ->].
  rewrite taken_app. destruct (strip_parts x) as (a & b' & A & B & X & _).
  assert (SYM : forall m y k z s, Reads m y k z -> (faithful k -> raw k = s) -> (forall c, tkind k <> KExpr c) -> exists w1 w2, blank w1 /\ blank w2 /\ y = w1 ++ s ++ w2 ++ z).
  { intros m y k z s R F NX. apply next_token_ok in R as (w1 & w2 & B1 & B2 & -> & _ & [FF|(ks & _ & _ & _ & _ & s' & lost & KS & _)]); [|now apply NX in KS].
    rewrite <- (F FF). eauto. }
  destruct (SYM _ _ _ _ (txt "(|") RB) as (w1 & w2 & B1 & B2 & ->).
  { unfold faithful, is_begin in *. destruct (tkind b); try discriminate. auto. }
  { unfold is_begin in HB. intros c D. rewrite D in HB. discriminate. }
  destruct (SYM _ _ _ _ (txt "|)") RE2) as (w3 & w4 & B3 & B4 & ->).
  { unfold faithful, is_end in *. destruct (tkind e); try discriminate. auto. }
  { unfold is_end in HE. intros c D. rewrite D in HE. discriminate. }
  exists (p1 ++ p2 ++ w1), (w2 ++ a), (b' ++ w3), (w4 ++ r).
  split; [apply Forall_app; auto|]. split; [apply Forall_app; auto|]. rewrite X at 1. now rewrite <- !app_assoc.
Qed.

(** Compiled again, it has the same parameters, operators and arguments; unless it ends with a backslash
    or an opening parenthesis. (The executables there are decide how arguments are read: they are taken to be the same.) *)
Theorem c48_pipeline_partial : forall shell_args t v ps ops src,
  parse shell_args t = Ok (CAssign v (APipe ps ops src)) ->
  (forall u c, src = u ++ [c] -> c <> bslash /\ c <> "(") ->
  parse_pipeline shell_args src = Ok (ps, ops).
Proof.
  intros sa t v ps ops src H N. apply parse_sound in H. inv H. unfold parse_pipeline.
  erewrite arg_again by eassumption. reflexivity.
Qed.

Example c48_case : exists ops src,
  parse no_shell (txt "recent = (| days: ls | select (file: now() - file.mtime < days(float(days))) | args (| f: map (f: f.size) |) > out |)")
    = Ok (CAssign (txt "recent") (APipe [txt "days"] ops src)) /\
  src = txt "days: ls | select (file: now() - file.mtime < days(float(days))) | args (| f: map (f: f.size) |) > out" /\
  length ops = 4 /\ parse_pipeline no_shell src = Ok ([txt "days"], ops).
Proof. do 2 eexists. split; [vm_compute; reflexivity|]. repeat split. Qed.

(** The blank after a backslash at the end is lost: the pipeline cannot be compiled again. *)
Theorem c48_refuted :
  exists ops, parse no_shell (txt "p = (| ls foo\ |)") = Ok (CAssign (txt "p") (APipe [] ops (txt "ls foo\"))) /\
  parse_pipeline no_shell (txt "ls foo\") <> Ok ([], ops).
Proof. eexists. split; [vm_compute; reflexivity|]. vm_compute. discriminate. Qed.

(** The Python expression evaluated when the text kept for a function is compiled again is the one evaluated by the assignment. *)
Theorem c48_function : forall s, recompiled s = compiled s true.
Proof. apply recompiled_same. Qed.

Local Open Scope string_scope.
Definition prefixes : list string := ["lambda: "; "lambda "; "lambda: lambda "; ""].
Local Close Scope string_scope.

(** Written between parentheses, that Python expression, which is the one of the command after a prefix, is
    read as an expression with this text and nothing after it. *)
Theorem c48_function_text : forall m t k r src p, Reads m t k r -> tkind k = KExpr src ->
  In p prefixes -> hd_error (txt p ++ src) <> Some "|" ->
  exists k', Reads false ("(" :: (txt p ++ src) ++ [")"]) k' [] /\ tkind k' = KExpr (txt p ++ src).
Proof.
  intros m t k r src p R K I NB. rewrite <- app_assoc. eapply function_text; eauto.
  intros c IC. cbn in I.
  assert (F : Forall (fun c => c <> "(" /\ c <> ")" /\ is_quote c = false) (txt p)).
  { decompose [or] I; try easy; subst p; cbn; repeat (constructor; [repeat split; discriminate|]); constructor. }
  rewrite Forall_forall in F. now apply F.
Qed.

Local Open Scope string_scope.
(** [inc = (x: x + 1)] is kept as [(lambda: lambda x: x + 1)] *)
Example c48_function_case :
  let s := Source false [PName "x"; POp ":"; PName "x"; POp "+"; POther "1"] in
  compiled s true = [lam; colon; lam; PName "x"; POp ":"; PName "x"; POp "+"; POther "1"] /\
  recompiled s = compiled s true /\ compiled (kept s) true = compiled s true.
Proof. repeat split. Qed.
Example c48_function_text_case :
  exists k r, Reads false (txt "(x: f(x, ')'))more") k r /\ tkind k = KExpr (txt "f'''{x: f(x, ')')}more'''") /\
  exists k r, Reads false (txt "(x: f(x, ')')) more") k r /\ tkind k = KExpr (txt "x: f(x, ')')").
Proof. do 2 eexists. split; [vm_compute; reflexivity|]. split; [reflexivity|]. do 2 eexists. split; [vm_compute; reflexivity|]. reflexivity. Qed.
