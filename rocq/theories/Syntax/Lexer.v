(** The lexer (marcel/parser.py:85-789) and string literals (marcel/stringliteral.py).

    A text is a list of 8-bit characters (simplification: no unicode). The lexer's position in its
    text is represented by the text still to be read; a token's [raw()] (parser.py:125-126) is the text
    between its start and its end. *)
From Coq Require Export Ascii String List Bool Arith Lia.
Export ListNotations.
Local Open Scope char_scope.
Local Open Scope list_scope.

Definition text := list ascii.
Definition txt (s : string) : text := list_ascii_of_string s.

(** str.isspace for characters below 256. *)
Definition isspace (c : ascii) : bool :=
  let n := nat_of_ascii c in
  (((9 <=? n) && (n <=? 13)) || ((28 <=? n) && (n <=? 32)) || (n =? 133) || (n =? 160))%nat.

Definition squote : ascii := "039".
Definition dquote : ascii := "034".
Definition bslash : ascii := "\".
Definition is_quote (c : ascii) : bool := (c =? squote) || (c =? dquote).

(** parser.py:161-177 and 178-188: the one-character members of the lists (a character is tested
    against the list, so the longer members never match). *)
Definition marcel_term (c : ascii) : bool :=
  existsb (Ascii.eqb c) ["("; ")"; "|"; "="; "#"; ","; ":"; "<"; ">"].
Definition shell_term (c : ascii) : bool :=
  existsb (Ascii.eqb c) ["("; ")"; "|"; "<"; ">"].

(** The text consumed from [t] when [rest] remains. *)
Definition taken (t rest : text) : text := firstn (length t - length rest) t.

(** ** Results: success, a reported error (KillCommandException), or an exception the lexer does not
    mean to raise (TypeError, AttributeError, plain Exception). *)
Inductive res (A : Type) : Type :=
| Ok (a : A)
| Err
| Crash
| Fuel.
Arguments Ok {A} _.
Arguments Err {A}.
Arguments Crash {A}.
Arguments Fuel {A}.

(** ** String tokens: parser.py:436-480 [String.scan]. Result: the collected characters and the rest.
    [q] is the open quote. In double quotes, an escape at the end of the text appends None to [chars],
    and [''.join(chars)] raises TypeError (469, 475, 480). *)
Definition scons (l : text) (r : res (text * text)) : res (text * text) :=
  match r with Ok (cs, rest) => Ok (l ++ cs, rest) | e => e end.

Fixpoint scan_string (term : ascii -> bool) (q : option ascii) (t : text) : res (text * text) :=
  match t with
  | [] => Ok ([], [])
  | c :: r =>
    if isspace c || term c then
      match q with
      | None => Ok ([], t)
      | Some _ => scons [c] (scan_string term q r)
      end
    else if is_quote c then
      scons [c] (scan_string term
                   (match q with
                    | None => Some c
                    | Some q0 => if (c =? q0)%char then None else q
                    end) r)
    else if c =? bslash then
      match q with
      | None => match r with
                | [] => Ok ([c], [])
                | d :: r' => scons [c; d] (scan_string term q r')
                end
      | Some q0 =>
        if (q0 =? squote)%char then scons [c] (scan_string term q r)
        else match r with
             | [] => Crash
             | d :: r' => if d =? bslash then scons [d] (scan_string term q r')
                          else scons [bslash; d] (scan_string term q r')
             end
      end
    else scons [c] (scan_string term q r)
  end.

(** ** String literals: stringliteral.py:52-78 [compute_unadorned]. *)
Fixpoint unescape (t : text) : res text :=
  match t with
  | [] => Ok []
  | c :: r =>
    if c =? bslash then
      match r with
      | [] => Crash  (* 76: raise Exception('string literal terminated by lone escape') *)
      | d :: r' => match unescape r' with Ok s => Ok (d :: s) | e => e end
      end
    else match unescape r with Ok s => Ok (c :: s) | e => e end
  end.

(** value (stringliteral.py:32), and whether a closing quote is missing (47-48). *)
Definition literal (t : text) : res (text * bool) :=
  match t with
  | [] => Crash  (* self[0]: IndexError *)
  | c :: r =>
    if is_quote c then
      let unterminated := negb (last t c =? c) in
      (* self[1:] or self[1:-1] *)
      Ok (if unterminated then r else removelast r, unterminated)
    else match unescape t with Ok s => Ok (s, false) | Err => Err | Crash => Crash | Fuel => Fuel end
  end.

(** ** Python strings inside expressions: parser.py:290-336 [PythonString.scan]; only where it ends
    matters. [t] is the text after the opening quote(s). An escape at the end of the text evaluates
    [None in Token.ESCAPABLE]: TypeError. *)
Definition two_quotes (q : ascii) (t : text) : option text :=  (* 330-336 advance_if_triple *)
  match t with
  | a :: b :: r => if (a =? q) && (b =? q) then Some r else None
  | _ => None
  end.

Fixpoint pstr (q : ascii) (triple : bool) (t : text) : res text :=
  match t with
  | [] => Err
  | c :: r =>
    if is_quote c then
      if c =? q then
        if triple then
          match r with
          | a :: b :: r' => if (a =? q) && (b =? q) then Ok r' else pstr q triple r
          | _ => pstr q triple r
          end
        else Ok r
      else pstr q triple r
    else if c =? bslash then
      match r with
      | [] => Crash
      | _ :: r' => pstr q triple r'
      end
    else pstr q triple r
  end.

Definition python_string (q : ascii) (t : text) : res text :=
  match two_quotes q t with
  | Some r => pstr q true r
  | None => pstr q false t
  end.

(** ** Expressions: parser.py:386-401 [Expression.scan], after the opening parenthesis. [prev] is the
    last character read ([self.text[self.end - 1]] at 400). *)
Fixpoint escan (fuel : nat) (nesting : nat) (prev : ascii) (t : text) : res text :=
  match nesting with
  | 0 => Ok t
  | _ =>
    match t with
    | [] => if prev =? ")" then Ok [] else Err
    | c :: r =>
      match fuel with
      | 0 => Fuel
      | S f =>
        if c =? "(" then escan f (S nesting) c r
        else if c =? ")" then escan f (nesting - 1) c r
        else if is_quote c then
          match python_string c r with
          | Ok r' => escan f nesting c r'   (* the string ends with the quote c *)
          | Err => Err
          | Crash => Crash
          | Fuel => Fuel
          end
        else escan f nesting c r
      end
    end
  end.

Definition expression (t : text) : res text :=  (* t starts with "(" *)
  match t with
  | c :: r => escan (length r) 1 c r
  | [] => Err
  end.

(** parser.py:381-384 [source]: the raw text without its first and last characters. *)
Definition expr_source (t rest : text) : text := removelast (tl (taken t rest)).

(** ** Tokens *)
Inductive kind : Type :=
| KBegin | KEnd | KPipe | KRemote | KBang (double : bool) | KAssign | KComma | KColon
| KGt (sym : text) | KLt (sym : text)
| KString (chars : text)       (* StringLiteral(chars) *)
| KExpr (source : text).

Record token := mktok { tkind : kind; raw : text }.

Fixpoint starts (p t : text) : bool :=  (* parser.py:779-780 match *)
  match p, t with
  | [], _ => true
  | a :: p', b :: t' => (a =? b) && starts p' t'
  | _ :: _, [] => false
  end.

Fixpoint skip_ws (t : text) : text :=  (* parser.py:782-789 *)
  match t with
  | c :: r => if isspace c then skip_ws r else t
  | [] => []
  end.

(** parser.py:720-777 [next_unconsolidated_token], from the first non-blank character: the token and
    the rest, [Ok None] at the end of the text or at a comment. [shell] is [parser.shell_op]. *)
Definition symbol (k : kind) (n : nat) (t : text) : res (option (token * text)) :=
  Ok (Some (mktok k (firstn n t), skipn n t)).

Definition raw_token (shell : bool) (t : text) : res (option (token * text)) :=
  let m := negb shell in
  match t with
  | [] => Ok None
  | _ =>
    if m && starts ["("; "|"] t then symbol KBegin 2 t
    else if m && starts ["|"; ")"] t then symbol KEnd 2 t
    else if starts ["("] t then
      match expression t with
      | Ok rest => Ok (Some (mktok (KExpr (expr_source t rest)) (taken t rest), rest))
      | Err => Err | Crash => Crash | Fuel => Fuel
      end
    else if starts [")"] t then Err
    else if starts ["|"] t then symbol KPipe 1 t
    else if m && starts ["@"] t then symbol KRemote 1 t
    else if starts ["!"] t then  (* 526-534 *)
      if starts ["!"; "!"] t then symbol (KBang true) 2 t else symbol (KBang false) 1 t
    else if m && starts ["="] t then symbol KAssign 1 t
    else if m && starts [","] t then symbol KComma 1 t
    else if m && starts [":"] t then symbol KColon 1 t
    else if starts ["#"] t then Ok None
    else if starts [">"; ">"; "$"] t then symbol (KGt [">"; ">"; "$"]) 3 t
    else if starts [">"; "$"] t then symbol (KGt [">"; "$"]) 2 t
    else if starts [">"; ">"] t then symbol (KGt [">"; ">"]) 2 t
    else if starts [">"] t then symbol (KGt [">"]) 1 t
    else if starts ["<"; "$"] t then symbol (KLt ["<"; "$"]) 2 t
    else if starts ["<"] t then symbol (KLt ["<"]) 1 t
    else
      match scan_string (if shell then shell_term else marcel_term) None t with
      | Ok (chars, rest) =>
        match literal chars with  (* 480: StringLiteral(''.join(chars)) *)
        | Ok _ => Ok (Some (mktok (KString chars) (taken t rest), rest))
        | Err => Err | Crash => Crash | Fuel => Fuel
        end
      | Err => Err | Crash => Crash | Fuel => Fuel
      end
  end.

(** With the skipping of white space before and after, and [adjacent_to_next] (775-776). *)
Definition unconsolidated (shell : bool) (t : text) : res (option (token * bool * text)) :=
  match raw_token shell (skip_ws t) with
  | Ok None => Ok None
  | Ok (Some (k, rest)) =>
    Ok (Some (k, match rest with [] => false | c :: _ => negb (isspace c) end, skip_ws rest))
  | Err => Err | Crash => Crash | Fuel => Fuel
  end.

Definition consolidatable (k : token) : bool :=
  match tkind k with KString _ | KExpr _ => true | _ => false end.

(** parser.py:705-718 [consolidate]. The new token is an Expression of its own text; its raw text here
    is the text of the line it stands for. *)
Definition piece (k : token) : text :=
  match tkind k with
  | KString cs => cs
  | KExpr s => "{" :: s ++ ["}"]
  | _ => []
  end.

Definition fstring (ks : list token) : text :=
  txt "(f'''" ++ concat (map piece ks) ++ txt "''')".

Definition consolidate (ks : list token) : res token :=
  match expression (fstring ks) with
  | Ok rest => Ok (mktok (KExpr (expr_source (fstring ks) rest)) (concat (map raw ks)))
  | Err => Err | Crash => Crash | Fuel => Fuel
  end.

(** parser.py:683-703 [next_token]: the loop over adjacent tokens ([acc], newest first); [t] is what is
    left after the newest. [consolidatable(None)] is an AttributeError. *)
Fixpoint gather (fuel : nat) (shell : bool) (acc : list token) (adj : bool) (t : text) : res (list token * text) :=
  if adj then
    match fuel with
    | 0 => Fuel
    | S f =>
      match unconsolidated shell t with
      | Ok None => Crash
      | Ok (Some (k, adj', rest)) =>
        if consolidatable k then gather f shell (k :: acc) adj' rest
        else Ok (rev acc, t)  (* reset *)
      | Err => Err | Crash => Crash | Fuel => Fuel
      end
    end
  else Ok (rev acc, t).

Definition next_token (shell : bool) (t : text) : res (option (token * text)) :=
  match unconsolidated shell t with
  | Ok None => Ok None
  | Ok (Some (k, adj, rest)) =>
    match gather (length rest) shell [k] (adj && consolidatable k) rest with
    | Ok ([k1], rest') => Ok (Some (k1, rest'))
    | Ok (ks, rest') => match consolidate ks with
                        | Ok k' => Ok (Some (k', rest'))
                        | Err => Err | Crash => Crash | Fuel => Fuel
                        end
    | Err => Err | Crash => Crash | Fuel => Fuel
    end
  | Err => Err | Crash => Crash | Fuel => Fuel
  end.

(** Reading a whole line. The mode changes from token to token as the parser enters and leaves the
    arguments of executables (parser.py:949-972); [modes n] is the mode for the n-th token. *)
Fixpoint lex (fuel : nat) (modes : nat -> bool) (n : nat) (t : text) : res (list token) :=
  match fuel with
  | 0 => Fuel
  | S f =>
    match next_token (modes n) t with
    | Ok None => Ok []
    | Ok (Some (k, rest)) =>
      match lex f modes (S n) rest with
      | Ok ks => Ok (k :: ks)
      | e => e
      end
    | Err => Err | Crash => Crash | Fuel => Fuel
    end
  end.

Definition tokens (modes : nat -> bool) (t : text) : res (list token) := lex (S (length t)) modes 0 t.
