(** The parser (marcel/parser.py:795-1260): from the text of a command to the operators and arguments it
    calls for.  What is done with them afterwards (create_op, parser.py:1264-1325, which may reject the command) is in Syntax/Args.v and
    Syntax/FunArgs.v.

    Simplifications: an exception, of whatever class, is [Err] (so which message is given is not
    modelled); the bookkeeping for tab completion (OpArgContext, counting of arguments) is left out; a
    token keeps its text, not its position. *)
From Verif.Syntax Require Export Lexer Scripts.
Local Open Scope char_scope.
Local Open Scope list_scope.

(** The name of an operator: a token of the line, or a name supplied by the parser
    (ConstructedString, parser.py:495-, for the operator implied by a redirection or by an expression). *)
Inductive opname : Type := OWord (k : token) | OMade (s : string).

(** An argument: a token, a word supplied by the parser, or a pipeline with its parameters, its
    operators with their arguments, and its text (PipelineExecutable.source). *)
Inductive arg : Type :=
| AToken (k : token)
| AMade (s : string)
| APipe (params : list text) (ops : list call) (source : text)
with call : Type := Call (op : opname) (args : list arg).

Inductive command : Type :=
| CAssign (var : text) (value : arg)
| CRun (params : list text) (ops : list call).

Definition is_word (k : token) : bool := match tkind k with KString _ => true | _ => false end.
Definition is_expr (k : token) : bool := match tkind k with KExpr _ => true | _ => false end.
Definition is_comma (k : token) : bool := match tkind k with KComma => true | _ => false end.
Definition is_colon (k : token) : bool := match tkind k with KColon => true | _ => false end.
Definition is_assign (k : token) : bool := match tkind k with KAssign => true | _ => false end.
Definition is_pipe (k : token) : bool := match tkind k with KPipe => true | _ => false end.
Definition is_begin (k : token) : bool := match tkind k with KBegin => true | _ => false end.
Definition is_end (k : token) : bool := match tkind k with KEnd => true | _ => false end.
Definition is_gt (k : token) : bool := match tkind k with KGt _ => true | _ => false end.
Definition is_lt (k : token) : bool := match tkind k with KLt _ => true | _ => false end.
(** What op() accepts (parser.py:1172-1177) *)
Definition is_opword (k : token) : bool :=
  match tkind k with KString _ | KRemote | KBang _ => true | _ => false end.

(** String.value (parser.py:418-419): the characters, quotes and escapes included. *)
Definition word_value (k : token) : text := match tkind k with KString cs => cs | _ => [] end.

(** String.missing_quote (parser.py:433-434) *)
Definition missing_quote (k : token) : bool :=
  match tkind k with
  | KString cs => match literal cs with Ok (_, b) => b | _ => false end
  | _ => false
  end.

Definition bind {A B} (r : res A) (f : A -> res B) : res B :=
  match r with Ok a => f a | Fuel => Fuel | Err | Crash => Err end.
Notation "'do' x <- r ; k" := (bind r (fun x => k)) (at level 200, x pattern, r at level 100, k at level 200).

(** next_token with one expected type (parser.py:1240-1251; [or]s of such calls are one test here): the token and
    what follows it, or [None], and then nothing has been consumed. *)
Definition tok1 (m : bool) (want : token -> bool) (t : text) : res (option (token * text)) :=
  do x <- next_token m t;
  match x with
  | Some (k, r) => Ok (if want k then Some (k, r) else None)
  | None => Ok None
  end.

(** next_token with two expected types: whether they are there. peek (parser.py:812-822) reads both tokens before the
    types are compared. *)
Definition look2 (a b : token -> bool) (t : text) : res bool :=
  do x <- next_token false t;
  match x with
  | Some (k, r) =>
    do y <- next_token false r;
    match y with
    | Some (k', _) => Ok (a k && b k')
    | None => Ok false
    end
  | None => Ok false
  end.

(** vars (parser.py:1221-1236), after next_token has stopped at the first word: [k] is the current token, [t] what follows it.
    The number bounds the number of tokens. *)
Fixpoint vars_loop (f : nat) (k : token) (t : text) : res (list text * text) :=
  match f with
  | 0 => Fuel
  | S f =>
    if is_word k then
      do c <- tok1 false is_comma t;
      match c with
      | Some (_, t1) =>
        do w <- tok1 false is_word t1;
        match w with
        | Some (k', t2) => do (vs, t3) <- vars_loop f k' t2; Ok (word_value k :: vs, t3)
        | None => Err
        end
      | None =>
        do n <- next_token false t;
        match n with
        | Some (k', t1) => do (vs, t3) <- vars_loop f k' t1; Ok (word_value k :: vs, t3)
        | None => Err  (* None.is_string() *)
        end
      end
    else if is_colon k then Ok ([], t) else Err
  end.

Definition vars (t : text) : res (list text * text) :=
  do x <- next_token false t;
  match x with
  | Some (k, r) => vars_loop (S (length t)) k r
  | None => Err
  end.

(** redirect_in_op, redirect_out_op (parser.py:1135-1141), Gt.is_var, Gt.is_append, Lt.is_var (621-655) *)
Definition is_var_arrow (k : token) : bool :=
  match tkind k with
  | KGt s => teqb s [">"; "$"] || teqb s [">"; ">"; "$"]
  | KLt s => teqb s ["<"; "$"]
  | _ => false
  end.
Definition is_append (k : token) : bool :=
  match tkind k with KGt s => teqb s [">"; ">"] || teqb s [">"; ">"; "$"] | _ => false end.
Definition redirect_in (lt source : token) : call :=
  Call (OMade (if is_var_arrow lt then "load" else "read")) [AToken source].
Definition redirect_out (gt target : token) : call :=
  Call (OMade (if is_var_arrow gt then "store" else "write"))
       (if is_append gt then [AMade "--append"; AToken target] else [AToken target]).

(** The optional [gt str] after a sequence of operators (parser.py:1090-1096, 1107-1117) *)
Definition redirected (ops : list call) (t : text) : res (list call * text) :=
  do b <- look2 is_gt is_word t;
  if b : bool then
    do g <- next_token false t;
    match g with
    | Some (gt, t1) =>
      do s <- next_token false t1;
      match s with
      | Some (target, t2) => Ok (ops ++ [redirect_out gt target], t2)
      | None => Err
      end
    | None => Err
    end
  else Ok (ops, t).

(** pipeline_end (parser.py:1253-1255) *)
Definition pipeline_end (t : text) : res bool :=
  do x <- next_token false t;
  match x with Some (k, _) => Ok (is_end k) | None => Ok true end.

Section Parser.
(** Parser.ShellOpContext.shell_args (parser.py:965-972): whether the arguments of the operator with this name are
    read as those of a shell.  It depends on the variables, operators and executables there are. *)
Variable shell_args : text -> bool.

Definition shell_mode (k : token) : bool := is_word k && shell_args (word_value k).

(** pipeline, after the parameters (parser.py:1070-1117, 1128-1130), given op_sequence *)
Definition pipeline_ops (op_sequence : text -> res (list call * text)) (t : text) : res (list call * text) :=
  do b3 <- look2 is_word is_lt t;
  if b3 : bool then
    do x <- next_token false t;
    match x with
    | Some (source, t1) =>
      do y <- next_token false t1;
      match y with
      | Some (lt, t2) =>
        do g <- tok1 false is_gt t2;
        match g with
        | Some (gt, t3) =>
          do s <- tok1 false is_word t3;
          match s with
          | Some (target, t4) => Ok ([redirect_in lt source; redirect_out gt target], t4)
          | None => Err
          end
        | None =>
          do e <- pipeline_end t2;
          if e : bool then Ok ([redirect_in lt source], t2)
          else do (ops, t3) <- op_sequence t2; redirected (redirect_in lt source :: ops) t3
        end
      | None => Err
      end
    | None => Err
    end
  else
    do b4 <- look2 is_gt is_word t;
    if b4 : bool then redirected [] t
    else do (ops, t1) <- op_sequence t; redirected ops t1.

(** pipeline (parser.py:1069-1133) *)
Definition pipeline_body (op_sequence : text -> res (list call * text)) (t : text) : res (list text * list call * text) :=
  do c1 <- look2 is_word is_comma t;
  do c2 <- (if c1 : bool then Ok true else look2 is_word is_colon t);
  do (params, t) <- (if c2 : bool then vars t else Ok ([], t));
  do (ops, t) <- pipeline_ops op_sequence t;
  do x <- next_token false t;   (* tokens.more(), 992 *)
  Ok (params, ops, t).

(** op_args, op (parser.py:1154-1177), given the reading of arguments *)
Definition op_args (arguments : bool -> text -> res (list arg * text)) (t : text) : res (call * text) :=
  do e <- tok1 false is_expr t;
  match e with
  | Some (k, t1) => Ok (Call (OMade "map") [AToken k], t1)
  | None =>
    do o <- tok1 false is_opword t;
    match o with
    | Some (k, t1) => do (args, t2) <- arguments (shell_mode k) t1; Ok (Call (OWord k) args, t2)
    | None => Err
    end
  end.

(** op_sequence (parser.py:1146-1151) *)
Definition sequence_body (arguments : bool -> text -> res (list arg * text))
    (op_sequence : text -> res (list call * text)) (t : text) : res (list call * text) :=
  do (c, t) <- op_args arguments t;
  do p <- tok1 false is_pipe t;
  match p with
  | Some (_, t1) => do (cs, t2) <- op_sequence t1; Ok (c :: cs, t2)
  | None => Ok ([c], t)
  end.

(** The loop over the arguments (parser.py:1165-1168) *)
Definition arguments_body (argument : bool -> text -> res (option (arg * text)))
    (arguments : bool -> text -> res (list arg * text)) (m : bool) (t : text) : res (list arg * text) :=
  do a <- argument m t;
  match a with
  | Some (a, t1) => do (l, t2) <- arguments m t1; Ok (a :: l, t2)
  | None => Ok ([], t)
  end.

(** arg (parser.py:1179-1219); [m]: shell_op *)
Definition argument_body (pipeline : text -> res (list text * list call * text)) (m : bool) (t : text)
    : res (option (arg * text)) :=
  do b <- (if m then Ok None else tok1 m is_begin t);
  match b with
  | Some (_, t1) =>
    do (params, ops, t2) <- pipeline t1;
    do e <- tok1 m is_end t2;
    match e with
    | Some (_, t3) => Ok (Some (APipe params ops (strip (taken t1 t2)), t3))
    | None => Err
    end
  | None =>
    do k <- tok1 m (fun k => is_word k || is_expr k) t;
    match k with
    | Some (k, t1) => if missing_quote k then Err else Ok (Some (AToken k, t1))
    | None => Ok None
    end
  end.

(** The four together; the number bounds the depth of the calls. *)
Fixpoint pipeline (f : nat) (t : text) : res (list text * list call * text) :=
  match f with 0 => Fuel | S f => pipeline_body (op_sequence f) t end
with op_sequence (f : nat) (t : text) : res (list call * text) :=
  match f with 0 => Fuel | S f => sequence_body (arguments f) (op_sequence f) t end
with arguments (f : nat) (m : bool) (t : text) : res (list arg * text) :=
  match f with 0 => Fuel | S f => arguments_body (argument f) (arguments f) m t end
with argument (f : nat) (m : bool) (t : text) : res (option (arg * text)) :=
  match f with 0 => Fuel | S f => argument_body (pipeline f) m t end.

(** parse, command, assignment (parser.py:1017-1067), at_end (1257-1258), with the check that nothing follows *)
Definition at_end (t : text) : res bool :=
  do x <- next_token false t; Ok (match x with None => true | Some _ => false end).

Definition parse_in (f : nat) (t : text) : res command :=
  do e <- at_end t;
  if e : bool then Err else   (* EmptyCommand *)
  do b <- look2 is_word is_assign t;
  do (c, t) <-
    (if b : bool then
       do x <- next_token false t;
       match x with
       | Some (var, t1) =>
         do y <- next_token false t1;
         match y with
         | Some (_, t2) =>
           do a <- argument f false t2;
           match a with
           | Some (a, t3) => Ok (CAssign (word_value var) a, t3)
           | None => Err
           end
         | None => Err
         end
       | None => Err
       end
     else do (params, ops, t1) <- pipeline f t; Ok (CRun params ops, t1));
  do e <- at_end t;
  if e : bool then Ok c else Err.

(** Each token takes at most four nested calls. *)
Definition enough (t : text) : nat := 4 * length t + 8.
Definition parse (t : text) : res command := parse_in (enough t) t.

(** parse_pipeline (parser.py:1032-1035): the text of a saved pipeline. What may follow the pipeline is not looked at. *)
Definition parse_pipeline (t : text) : res (list text * list call) :=
  do (params, ops, _) <- pipeline (enough t) t; Ok (params, ops).

End Parser.
