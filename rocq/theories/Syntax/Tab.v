(** The tab key on operators and flags (marcel/tabcompleter.py:59-183, and what the parser records for it, marcel/parser.py:902-1030, 1069-1219, 1327-1374).

    The same parser as in Syntax/Parser.v, with its state: when the text ends early, which is the normal case here, an exception is raised, and
    what counts is the state it leaves behind. *)
From Verif.Syntax Require Export Parser Args.
From Verif.Syntax Require ArgsTable Complete.
Local Open Scope char_scope.
Local Open Scope list_scope.

(** OpArgContext (parser.py:902-937) *)
Inductive context : Type := OTHER | OP | FLAG | ARG.

(** The state: the position (the text still to be read), Parser.token and whether it is_terminal (parser.py:253-257), Parser.op_arg_context,
    and Parser.pipeline_stack, innermost first: the op_token of each PipelineSourceTracker. *)
Record state := St { pos : text; cur : option (token * bool); ctx : context; stack : list (option opname) }.
Definition set_pos t s := St t (cur s) (ctx s) (stack s).
Definition set_ctx c s := St (pos s) (cur s) c (stack s).
Definition set_stack l s := St (pos s) (cur s) (ctx s) l.

(** A value; an exception of any class but one; MissingQuoteException; [NoFuel] is of the model *)
Inductive outcome (A : Type) : Type := Done (a : A) | Raised | Quote (w : text) | NoFuel.
Arguments Done {A} _.
Arguments Raised {A}.
Arguments Quote {A} _.
Arguments NoFuel {A}.
Definition M (A : Type) : Type := state -> outcome A * state.
Definition ret {A} (a : A) : M A := fun s => (Done a, s).
Definition raised {A} : M A := fun s => (Raised, s).
Definition mbind {A B} (x : M A) (f : A -> M B) : M B := fun s =>
  match x s with
  | (Done a, s') => f a s'
  | (Raised, s') => (Raised, s')
  | (Quote w, s') => (Quote w, s')
  | (NoFuel, s') => (NoFuel, s')
  end.
Notation "'let!' x <- r ; k" := (mbind r (fun x => k)) (at level 200, x pattern, r at level 100, k at level 200).
Definition update (f : state -> state) : M unit := fun s => (Done tt, f s).

(** What the lexer raises.  peek (parser.py:812-822) goes back to where it was, unless there is an exception; then the position is that of
    the token that cannot be read. *)
Definition of_res {A} (r : state -> res A) : M A := fun s =>
  match r s with Ok a => (Done a, s) | Err | Crash => (Raised, s) | Fuel => (NoFuel, s) end.

Section Tab.
Variable line : text.                 (* Parser.text *)
Variable shell_args : text -> bool.   (* as in Syntax/Parser.v *)
(** create_op (parser.py:1264-1325): whether it succeeds *)
Variable creates : call -> bool.

(** parser.py:253-257.  Adjacent tokens read as one (consolidate, 705-718) are an Expression with a text of its own, and so with an end of its own:
    its length.  They are told from an expression of the line by their raw text. *)
Definition is_terminal (t : text) (k : token) : bool :=
  match tkind k with
  | KExpr s => if teqb (raw k) ("(" :: s ++ [")"]) then teqb (skip_ws t) (raw k) else length s + 2 =? length line
  | _ => teqb (skip_ws t) (raw k)
  end%nat.

Definition peek (m : bool) : M (option (token * text)) := of_res (fun s => next_token m (pos s)).
(** tokens.next_token (806-807), and self.token (1250) *)
Definition consume (m : bool) : M (option token) :=
  let! x <- peek m;
  match x with
  | Some (k, r) => fun s => (Done (Some k), St r (Some (k, is_terminal (pos s) k)) (ctx s) (stack s))
  | None => fun s => (Done None, St (pos s) None (ctx s) (stack s))
  end.
(** next_token with one, and with two types (1238-1251) *)
Definition accept (m : bool) (want : token -> bool) : M (option token) :=
  let! x <- peek m;
  match x with
  | Some (k, _) => if want k then consume m else ret None
  | None => ret None
  end.
Definition peek2 (a b : token -> bool) : M bool := fun s =>
  match next_token false (pos s) with
  | Ok (Some (k, r)) =>
    match next_token false r with
    | Ok (Some (k', _)) => (Done (a k && b k'), s)
    | Ok None => (Done false, s)
    | Err | Crash => (Raised, set_pos r s)
    | Fuel => (NoFuel, s)
    end
  | Ok None => (Done false, s)
  | Err | Crash => (Raised, s)
  | Fuel => (NoFuel, s)
  end.
Definition accept2 (a b : token -> bool) : M bool :=
  let! both <- peek2 a b;
  if both : bool then let! _ <- consume false; ret true else ret false.
Definition is_some {A} (o : option A) : bool := match o with Some _ => true | None => false end.

(** PipelineSourceTracker.__enter__, __exit__ (984-1000): the second runs however the block ends. *)
Definition tracked {A} (body : M A) : M A := fun s =>
  let (r, s1) := body (St (pos s) (cur s) OP (None :: stack s)) in
  match next_token false (pos s1) with
  | Ok (Some _) => (r, St (pos s1) (cur s1) (ctx s) (tl (stack s1)))
  | Ok None => (r, s1)
  | Err | Crash => (Raised, s1)
  | Fuel => (NoFuel, s1)
  end.

(** current_pipeline().op_token = ... (1169) *)
Definition set_op (o : opname) : M unit :=
  update (fun s => set_stack (match stack s with _ :: l => Some o :: l | [] => [] end) s).

(** redirect_out_op after [op_sequence gt str] (1090-1096, 1107-1117) *)
Definition redirection (ops : list call) : M (list call) :=
  let! b <- accept2 is_gt is_word;
  if b : bool then
    fun s => (let! target <- consume false;
              match cur s, target with
              | Some (gt, _), Some target => ret (ops ++ [redirect_out gt target])
              | _, _ => raised
              end) s
  else ret ops.

(** vars (1221-1236) *)
Fixpoint variables (f : nat) : M (list text) :=
  match f with
  | 0 => fun s => (NoFuel, s)
  | S f => fun s =>
    match cur s with
    | None => (Raised, s)
    | Some (k, _) =>
      (if is_word k then
         let! c <- accept false is_comma;
         match c with
         | Some _ => let! w <- accept false is_word;
                     if is_some w then let! vs <- variables f; ret (word_value k :: vs) else let! _ <- consume false; raised
         | None => let! _ <- consume false; let! vs <- variables f; ret (word_value k :: vs)
         end
       else if is_colon k then ret [] else raised) s
    end
  end.

(** pipeline (1069-1133), given op_sequence *)
Definition redirected_pipeline (op_sequence : M (list call)) : M (list call) :=
  let! b <- accept2 is_word is_lt;
  if b : bool then
    let! _ <- update (set_ctx OTHER);
    fun s =>
    match cur s with
    | None => (Raised, s)
    | Some (source, _) =>
      (let! lt <- consume false;
       match lt with
       | None => raised
       | Some lt =>
         let! g <- accept false is_gt;
         match g with
         | Some gt => let! t <- accept false is_word;
                      match t with
                      | Some target => ret [redirect_in lt source; redirect_out gt target]
                      | None => raised
                      end
         | None => let! e <- of_res (fun s => pipeline_end (pos s));
                   if e : bool then ret [redirect_in lt source]
                   else let! ops <- op_sequence; redirection (redirect_in lt source :: ops)
         end
       end) s
    end
  else
    let! b <- accept2 is_gt is_word;
    if b : bool then
      let! _ <- update (set_ctx OTHER);
      fun s =>
      match cur s with
      | None => (Raised, s)
      | Some (gt, _) => (let! t <- accept false is_word;
                         match t with Some target => ret [redirect_out gt target] | None => raised end) s
      end
    else let! ops <- op_sequence; redirection ops.

Fixpoint create_all (cs : list call) : M unit :=
  match cs with
  | [] => ret tt
  | c :: cs => if creates c then create_all cs else raised
  end.

Definition tab_pipeline_body (op_sequence : M (list call)) : M (list text * list call) :=
  tracked (fun s =>
    (let! c1 <- accept2 is_word is_comma;
     let! c2 <- (if c1 : bool then ret true else accept2 is_word is_colon);
     let! params <- (if c2 : bool then variables (S (length (pos s))) else ret []);
     let! ops <- redirected_pipeline op_sequence;
     let! _ <- create_all ops;
     ret (params, ops)) s).

(** op_args, op (1154-1177) *)
Definition tab_op_args (arguments : bool -> M (list arg)) : M call :=
  let! e <- accept false is_expr;
  match e with
  | Some k => let! _ <- set_op (OMade "map"); ret (Call (OMade "map") [AToken k])
  | None =>
    let! _ <- update (set_ctx OP);
    let! o <- accept false is_opword;
    match o with
    | Some k => let! args <- arguments (shell_mode shell_args k); let! _ <- set_op (OWord k); ret (Call (OWord k) args)
    | None => raised
    end
  end.

(** op_sequence (1146-1151) *)
Definition tab_sequence_body (arguments : bool -> M (list arg)) (op_sequence : M (list call)) : M (list call) :=
  let! c <- tab_op_args arguments;
  let! p <- accept false is_pipe;
  if is_some p then let! cs <- op_sequence; ret (c :: cs) else ret [c].

Definition tab_arguments_body (argument : bool -> M (option arg)) (arguments : bool -> M (list arg)) (m : bool) : M (list arg) :=
  let! a <- argument m;
  match a with
  | Some a => let! l <- arguments m; ret (a :: l)
  | None => ret []
  end.

(** set_op_arg_context (1198-1212) *)
Definition last_blank : bool := match rev line with c :: _ => isspace c | [] => false end.
Definition set_context (m : bool) : M unit :=
  let! x <- peek m;
  match x with
  | None => if last_blank then update (set_ctx ARG) else ret tt
  | Some (k, _) =>
    match tkind k with
    | KString cs => update (set_ctx (if starts ["-"] cs then FLAG else ARG))
    | _ => update (set_ctx OTHER)
    end
  end.

(** arg (1179-1219); count_arg (1340-1343) counts for expect_op, which nothing calls *)
Definition tab_argument_body (pipeline : M (list text * list call)) (m : bool) : M (option arg) :=
  let! _ <- set_context m;
  let! b <- (if m then ret None else accept m is_begin);
  match b with
  | Some _ => fun s0 =>
    (let! (params, ops) <- pipeline;
     fun s1 => (let! e <- accept m is_end;
                if is_some e then ret (Some (APipe params ops (strip (taken (pos s0) (pos s1))))) else raised) s1) s0
  | None =>
    let! k <- accept m (fun k => is_word k || is_expr k);
    match k with
    | Some k => if missing_quote k then (fun s => (Quote (word_value k), s)) else ret (Some (AToken k))
    | None => ret None
    end
  end.

Definition no_fuel {A} : M A := fun s => (NoFuel, s).
Fixpoint tab_pipeline (f : nat) : M (list text * list call) :=
  match f with 0 => no_fuel | S f => tab_pipeline_body (tab_op_sequence f) end
with tab_op_sequence (f : nat) : M (list call) :=
  match f with 0 => no_fuel | S f => tab_sequence_body (tab_arguments f) (tab_op_sequence f) end
with tab_arguments (f : nat) (m : bool) : M (list arg) :=
  match f with 0 => no_fuel | S f => tab_arguments_body (tab_argument f) (tab_arguments f) m end
with tab_argument (f : nat) (m : bool) : M (option arg) :=
  match f with 0 => no_fuel | S f => tab_argument_body (tab_pipeline f) m end.

(** parse, command, assignment (1017-1067).  create_assignment and the value of an expression (which may not compile) come after all of the
    state has been set, if nothing follows; if something does, the same exception comes out (the value is not needed here). *)
Definition tab_parse (f : nat) : M unit :=
  let! x <- peek false;
  if is_some x then
    let! b <- accept2 is_word is_assign;
    let! _ <- (if b : bool then
                 let! _ <- update (set_ctx OTHER);
                 let! _ <- accept false is_assign;
                 let! a <- tab_argument f false;
                 if is_some a then ret tt else raised
               else let! _ <- tab_pipeline f; ret tt);
    let! x <- peek false;
    if is_some x then raised else ret tt
  else raised.

Definition parsed : outcome unit * state := tab_parse (enough line) (St line None OP []).
End Tab.

(** Token.value of the tokens there are *)
Definition token_value (k : token) : option text :=
  match tkind k with
  | KBegin => Some ["("; "|"] | KEnd => Some ["|"; ")"] | KPipe => Some ["|"] | KRemote => Some ["@"]
  | KBang d => Some (if d : bool then ["!"; "!"] else ["!"]) | KAssign => Some ["="] | KComma => Some [","] | KColon => Some [":"]
  | KGt s | KLt s => Some s
  | KString cs => Some cs
  | KExpr _ => None   (* a function *)
  end.

(** TabCompleter.parse (tabcompleter.py:91-113), terminal_token_value (parser.py:1022-1023).  [inr tt]: an exception, since there is no token.
    [inl None]: a function (or an exception, if it cannot be compiled). *)
Definition typed_token (r : outcome unit * state) : (option text) + unit :=
  match r with
  | (Quote w, _) => inl (Some w)
  | (_, s) => match cur s with
              | None => inr tt
              | Some (k, terminal) => inl (if terminal then token_value k else Some [])
              end
  end.

(** marcel.op.public (op/__init__.py:16-70) *)
Definition public : list text := map txt
  ["args"; "assign"; "bash"; "bg"; "case"; "cast"; "cd"; "difference"; "dirs"; "download"; "edit"; "env"; "exit"; "expand"; "fg"; "filter"; "fork";
   "gen"; "head"; "help"; "history"; "import"; "intersect"; "jobs"; "join"; "load"; "ls"; "map"; "popd"; "ps"; "pushd"; "pwd"; "red"; "read";
   "remote"; "reverse"; "run"; "select"; "sort"; "squish"; "sql"; "store"; "sudo"; "tail"; "timer"; "trace"; "unique"; "union"; "upload";
   "version"; "window"; "write"; "ws"]%string.

(** string_completion (tabcompleter.py:165-170) *)
Definition string_completion (token completion : text) : text := skipn (length token) completion ++ [" "].

Fixpoint ends_with_colon (t : text) : bool := match t with [] => false | [c] => c =? ":" | _ :: r => ends_with_colon r end.
Definition pipeline_syntax (t : text) : bool := teqb t ["|"] || teqb t ["("; "|"] || ends_with_colon t.

(** complete_op (tabcompleter.py:115-141); the executables are those of PATH (172-183) *)
Definition complete_op (executables : list text) (token : text) : list text :=
  let token := if pipeline_syntax token then [] else token in
  let ops := filter (starts token) public in
  match ops with
  | [] => map (string_completion token) (filter (starts token) executables)
  | _ => map (string_completion token) ops
  end.

(** Parser.flags (parser.py:1362-1374): None if the operator is not one of op_modules (KeyError) *)
Definition option_list {A} (o : option A) : list A := match o with Some a => [a] | None => [] end.
Definition flags_of (d : decl) : list text := flat_map (fun f => option_list (f_short f) ++ option_list (f_long f)) (d_flags d).

(** env.op_modules (env.py:85, opmodule.py:80-84): the declarations of the operators; None for the three that take no arguments from a
    command line (opmodule.py:65-69: an AssertionError) *)
Definition op_modules : list (text * option decl) :=
  combine (map txt
    ["args"; "assign"; "bash"; "bg"; "case"; "cast"; "cd"; "difference"; "dirs"; "download"; "edit"; "env"; "exit"; "expand"; "fg"; "filter"; "fork";
     "gen"; "head"; "help"; "history"; "import"; "intersect"; "jobs"; "join"; "load"; "ls"; "map"; "popd"; "ps"; "pushd"; "pwd"; "read"; "red";
     "remote"; "reverse"; "run"; "select"; "sort"; "sql"; "squish"; "store"; "sudo"; "tail"; "timer"; "trace"; "union"; "unique"; "upload";
     "version"; "window"; "write"; "ws"]%string) (map Some ArgsTable.all_ops)
  ++ [(txt "first", None); (txt "gather", None); (txt "runpipeline", None)].

Fixpoint lookup {A} (n : text) (l : list (text * A)) : option A :=
  match l with [] => None | (m, a) :: l' => if teqb n m then Some a else lookup n l' end.
Definition op_value (o : opname) : text :=
  match o with OWord k => match token_value k with Some v => v | None => [] end | OMade s => txt s end.

Definition flags (s : state) : option (list text) :=
  match stack s with
  | Some o :: _ => match lookup (op_value o) op_modules with
                   | Some (Some d) => Some (flags_of d)
                   | _ => None
                   end
  | _ => Some []
  end.

(** What the tab key offers: nothing, after an exception; texts to append; or the names of files, users or help topics that complete a word
    (complete_arg, tabcompleter.py:152-166; files are in Syntax/Complete.v) *)
Inductive offer : Type :=
| Crashed
| Offers (l : list text)
| Files (w : text)
| Users (w : text)
| Topics (w : text).

(** Quote.unquote (49-56) *)
Definition unquote (t : text) : text :=
  match t with
  | [] => []
  | c :: r => let x := if is_quote c then r else t in
              match rev x with d :: y => if is_quote d then rev y else x | [] => x end
  end.
Definition complete_arg (line w : text) : offer :=
  if starts (txt "help") (strip line) then Topics w
  else if starts ["~"] (unquote w) && negb (existsb (Ascii.eqb "/") (unquote w)) then Users w
  else Files w.

(** get_completions (tabcompleter.py:66-82), complete_flag (143-147) *)
Definition completions (shell_args : text -> bool) (creates : call -> bool) (executables : list text) (line : text) : offer :=
  let r := parsed line shell_args creates in
  match typed_token r with
  | inr _ => Crashed
  | inl None => match ctx (snd r) with OTHER => Offers [] | _ => Crashed end
  | inl (Some w) =>
    match ctx (snd r) with
    | OP => Offers (complete_op executables w)
    | FLAG => match flags (snd r) with
              | Some l => Offers (map (string_completion w) (filter (starts w) (Complete.sorted l)))
              | None => Crashed
              end
    | ARG => complete_arg line w
    | OTHER => Offers []
    end
  end.
