(** Which function a parenthesised expression stands for:
    marcel/function_args_parser.py, and Expression.value in marcel/parser.py:348-376.
    Python's tokenizer is not modelled: the text between the parentheses is given as the list of its
    Python tokens, with a mark saying whether it starts with white space (the tokenizer then
    starts with an INDENT token). ENCODING and NEWLINE tokens, which the parser skips, are left out.
    The tokens after the point at which the parser stops are never asked for. *)
From Coq Require Export String Bool List.
Export ListNotations.
Local Open Scope string_scope.
Local Open Scope list_scope.

Inductive ptok : Type :=
| PName (s : string)    (* NAME tokens, keywords included *)
| POp (s : string)      (* OP *)
| PIndent
| POther (s : string).  (* numbers, strings, comments, errors *)

Record source : Type := Source { indented : bool; ptoks : list ptok }.
Definition stream (s : source) : list ptok := if indented s then PIndent :: ptoks s else ptoks s.

(** function_args_parser.py:21-30 *)
Inductive fstate : Type := FStart | FArgList | FStar | FArg | FEnd | FNoArgs.
(** function_args_parser.py:33-48 *)
Inductive fsym : Type := SLambda | SName | SComma | SStar | SColon | SOther.
Definition fsym_of (t : ptok) : fsym :=
  match t with
  | PName s => if s =? "lambda" then SLambda else SName
  | POp s => if s =? "," then SComma else if s =? "*" then SStar else if s =? ":" then SColon else SOther
  | _ => SOther
  end.

Record flags : Type := Flags { explicit_lambda : bool; explicit_colon : bool; has_args : bool }.

(** function_args_parser.py:62-73 (the table) and 98-132 (the handlers); a missing entry is NO_ARGS (82-84). *)
Definition ftrans (q : fstate) (y : fsym) (f : flags) : fstate * flags :=
  match q, y with
  | FStart, SLambda => (FArgList, Flags true (explicit_colon f) (has_args f))
  | FStart, SStar => (FStar, f)
  | FStart, SName => (FArg, Flags (explicit_lambda f) (explicit_colon f) true)
  | FStart, SColon => (FEnd, Flags (explicit_lambda f) true (has_args f))
  | FArgList, SName => (FArg, Flags (explicit_lambda f) (explicit_colon f) true)
  | FArgList, SStar => (FStar, f)
  | FArgList, SColon => (FEnd, Flags (explicit_lambda f) true (has_args f))
  | FStar, SName => (FArg, f)
  | FArg, SComma => (FArgList, f)
  | FArg, SColon => (FEnd, Flags (explicit_lambda f) true (has_args f))
  | _, _ => (FNoArgs, f)
  end.
Definition fterminal (q : fstate) : bool := match q with FEnd | FNoArgs => true | _ => false end.

(** function_args_parser.py:81-92, the loop. *)
Fixpoint floop (q : fstate) (f : flags) (ts : list ptok) : fstate * flags :=
  match ts with
  | [] => (q, f)
  | t :: r => let '(q', f') := ftrans q (fsym_of t) f in
              if fterminal q' then (q', f') else floop q' f' r
  end.
(** function_args_parser.py:81-96 *)
Definition fparse (ts : list ptok) : flags :=
  match floop FStart (Flags false false false) ts with
  | (FEnd, f) => f
  | _ => Flags false false false
  end.

Definition lam : ptok := PName "lambda".
Definition colon : ptok := POp ":".

(** parser.py:361-370; the prefixes as tokens. *)
Definition fprefix (f : flags) (for_assignment : bool) : list ptok :=
  if explicit_lambda f then
    if has_args f && for_assignment then [lam; colon] else []
  else if has_args f then
    if for_assignment then [lam; colon; lam] else [lam]
  else if explicit_colon f then [lam] else [lam; colon].

(** parser.py:348-376: the tokens of the Python expression handed to eval. (White space at the start
    is harmless once something precedes it; with an empty prefix, eval strips it.) *)
Definition compiled (s : source) (for_assignment : bool) : list ptok :=
  fprefix (fparse (stream s)) for_assignment ++ ptoks s.
