(** The grammar of commands, as documented in marcel/parser.py:833-905, over texts: which texts are
    commands, and what each of them stands for.  The tokens of a text are those of the lexer (C27). *)
From Verif.Syntax Require Export Parser.
Local Open Scope list_scope.

(** Reading a text, as that of a shell or not, finds the token [k], and [r] is left. *)
Definition Reads (m : bool) (t : text) (k : token) (r : text) : Prop := next_token m t = Ok (Some (k, r)).

(** Nothing is left but blanks and a comment. *)
Definition Nothing (t : text) : Prop := next_token false t = Ok None.


Section Grammar.
Variable shell_args : text -> bool.
(** Whether the commas between the parameters of a pipeline may be left out after the first. *)
Variable lax : bool.
(** What is asked of the text of a sequence of operators that starts a pipeline, with parameters
    or not, and of that of a command which is a pipeline. *)
Variable fine : bool -> text -> Prop.
Variable fine_command : text -> Prop.

(** vars: words separated by commas, and a colon *)
Inductive Vars : text -> list text -> text -> Prop :=
| VLast : forall t k r colon r',
    Reads false t k r -> is_word k = true -> Reads false r colon r' -> is_colon colon = true ->
    Vars t [word_value k] r'
| VMore : forall t k r comma r' vs r'',
    Reads false t k r -> is_word k = true -> Reads false r comma r' -> is_comma comma = true ->
    Vars r' vs r'' ->
    Vars t (word_value k :: vs) r''
| VLax : forall t k r vs r',
    lax = true -> Reads false t k r -> is_word k = true -> Vars r vs r' ->
    Vars t (word_value k :: vs) r'.

(** The parameters of a pipeline, if it has any: the first is followed by a comma or a colon. *)
Inductive Params : text -> list text -> text -> Prop :=
| PNone : forall t, Params t [] t
| PSome : forall t k r sep r' vs rest,
    Reads false t k r -> is_word k = true -> Reads false r sep r' -> is_comma sep || is_colon sep = true ->
    Vars t vs rest -> Params t vs rest.

(** [lt] and [gt]: the operator a redirection stands for *)
Definition reading (lt source : token) : call :=
  match tkind lt with
  | KLt a => Call (OMade (if teqb a (txt "<$") then "load" else "read")) [AToken source]
  | _ => Call (OMade "read") [AToken source]
  end.
Definition writing (gt target : token) : call :=
  match tkind gt with
  | KGt a =>
    if teqb a (txt ">$") then Call (OMade "store") [AToken target]
    else if teqb a (txt ">>$") then Call (OMade "store") [AMade "--append"; AToken target]
    else if teqb a (txt ">>") then Call (OMade "write") [AMade "--append"; AToken target]
    else Call (OMade "write") [AToken target]
  | _ => Call (OMade "write") [AToken target]
  end.

(** [gt str] *)
Inductive Redirect : text -> call -> text -> Prop :=
| RGt : forall t gt t1 target r,
    Reads false t gt t1 -> is_gt gt = true -> Reads false t1 target r -> is_word target = true ->
    Redirect t (writing gt target) r.

Inductive Arg : bool -> text -> arg -> text -> Prop :=
| ArgWord : forall m t k r,
    Reads m t k r -> is_word k || is_expr k = true -> missing_quote k = false ->
    Arg m t (AToken k) r
| ArgPipe : forall t b t1 params ops t2 e r,
    Reads false t b t1 -> is_begin b = true -> Pipeline t1 params ops t2 -> Reads false t2 e r -> is_end e = true ->
    Arg false t (APipe params ops (strip (taken t1 t2))) r
with Args : bool -> text -> list arg -> text -> Prop :=
| ArgsNone : forall m t, Args m t [] t
| ArgsMore : forall m t a t1 l r, Arg m t a t1 -> Args m t1 l r -> Args m t (a :: l) r
with OpArgs : text -> call -> text -> Prop :=
| OpExpr : forall t k r, Reads false t k r -> is_expr k = true -> OpArgs t (Call (OMade "map") [AToken k]) r
| OpWord : forall t k t1 l r,
    Reads false t k t1 -> is_opword k = true -> Args (is_word k && shell_args (word_value k)) t1 l r ->
    OpArgs t (Call (OWord k) l) r
with OpSequence : text -> list call -> text -> Prop :=
| SeqOne : forall t c r, OpArgs t c r -> OpSequence t [c] r
| SeqMore : forall t c t1 p t2 cs r,
    OpArgs t c t1 -> Reads false t1 p t2 -> is_pipe p = true -> OpSequence t2 cs r -> OpSequence t (c :: cs) r
with Pipeline : text -> list text -> list call -> text -> Prop :=
| Pipe : forall t params t1 ops r,
    Params t params t1 -> Body (match params with [] => false | _ => true end) t1 ops r ->
    Pipeline t params ops r
with Body : bool -> text -> list call -> text -> Prop :=
| BSeq : forall p t ops r, fine p t -> OpSequence t ops r -> Body p t ops r
| BSeqGt : forall p t ops t1 w r, fine p t -> OpSequence t ops t1 -> Redirect t1 w r -> Body p t (ops ++ [w]) r
| BGt : forall p t w r, Redirect t w r -> Body p t [w] r
| BLt : forall p t source t1 lt r,
    Reads false t source t1 -> is_word source = true -> Reads false t1 lt r -> is_lt lt = true ->
    Body p t [reading lt source] r
| BLtGt : forall p t source t1 lt t2 w r,
    Reads false t source t1 -> is_word source = true -> Reads false t1 lt t2 -> is_lt lt = true -> Redirect t2 w r ->
    Body p t [reading lt source; w] r
| BLtSeq : forall p t source t1 lt t2 ops r,
    Reads false t source t1 -> is_word source = true -> Reads false t1 lt t2 -> is_lt lt = true -> OpSequence t2 ops r ->
    Body p t (reading lt source :: ops) r
| BLtSeqGt : forall p t source t1 lt t2 ops t3 w r,
    Reads false t source t1 -> is_word source = true -> Reads false t1 lt t2 -> is_lt lt = true -> OpSequence t2 ops t3 ->
    Redirect t3 w r -> Body p t (reading lt source :: ops ++ [w]) r.

(** A command, and nothing after it. *)
Inductive Command : text -> command -> Prop :=
| ComAssign : forall t var t1 eq t2 a r,
    Reads false t var t1 -> is_word var = true -> Reads false t1 eq t2 -> is_assign eq = true ->
    Arg false t2 a r -> Nothing r ->
    Command t (CAssign (word_value var) a)
| ComRun : forall t params ops r,
    fine_command t -> Pipeline t params ops r -> Nothing r ->
    Command t (CRun params ops).
End Grammar.

(** The documented grammar. *)
Definition Documented shell_args := Command shell_args false (fun _ _ => True) (fun _ => True).

(** The language accepted: commas may be missing, and the token after the first word of a pipeline,
    read as one that is not an argument of an executable, must not be in error, nor look like the comma or colon of parameters
    or like an assignment. *)
Definition clear (params : bool) (t : text) : Prop :=
  forall k r, Reads false t k r -> is_word k = true ->
  Nothing r \/
  exists k' r', Reads false r k' r' /\ (params = false -> is_comma k' = false /\ is_colon k' = false).
Definition clear_command (t : text) : Prop :=
  forall k r k' r', Reads false t k r -> is_word k = true -> Reads false r k' r' -> is_assign k' = false.
Definition Accepted shell_args := Command shell_args true clear clear_command.

Scheme Arg_mind := Induction for Arg Sort Prop
  with Args_mind := Induction for Args Sort Prop
  with OpArgs_mind := Induction for OpArgs Sort Prop
  with OpSequence_mind := Induction for OpSequence Sort Prop
  with Pipeline_mind := Induction for Pipeline Sort Prop
  with Body_mind := Induction for Body Sort Prop.
Combined Scheme grammar_ind from Arg_mind, Args_mind, OpArgs_mind, OpSequence_mind, Pipeline_mind, Body_mind.
