(** What tokenizing and quoting should do. *)
From Verif.Syntax Require Export Lexer.
Local Open Scope char_scope.
Local Open Scope list_scope.

Definition blank (w : text) : Prop := Forall (fun c => isspace c = true) w.

(** [tiles t rs]: [t] is the non-empty pieces [rs] in order, with only white space before, between and
    after them, and possibly a comment at the end. *)
Inductive tiles : text -> list text -> Prop :=
| tiles_end : forall w, blank w -> tiles w []
| tiles_comment : forall w c, blank w -> tiles (w ++ "#" :: c) []
| tiles_piece : forall w r t rs, blank w -> r <> [] -> tiles t rs -> tiles (w ++ r ++ t) (r :: rs).

(** The content of a token is its text: symbols are themselves, an expression is what its parentheses
    enclose, a string without backslashes is itself. *)
Definition faithful (k : token) : Prop :=
  match tkind k with
  | KBegin => raw k = ["("; "|"]
  | KEnd => raw k = ["|"; ")"]
  | KPipe => raw k = ["|"]
  | KRemote => raw k = ["@"]
  | KBang true => raw k = ["!"; "!"]
  | KBang false => raw k = ["!"]
  | KAssign => raw k = ["="]
  | KComma => raw k = [","]
  | KColon => raw k = [":"]
  | KGt s | KLt s => raw k = s
  | KString cs => ~ In bslash (raw k) -> cs = raw k
  | KExpr s => raw k = "(" :: s ++ [")"]
  end.

(** The Python source of the formatted string made of adjacent strings and expressions. *)
Definition formatted (ks : list token) : text := txt "f'''" ++ concat (map piece ks) ++ txt "'''".

(** Adjacent strings and expressions, read as one formatted string. *)
Definition joined (k : token) (ks : list token) : Prop :=
  2 <= length ks /\ Forall faithful ks /\ Forall (fun k => consolidatable k = true) ks /\
  raw k = concat (map raw ks) /\
  exists s lost, tkind k = KExpr s /\ formatted ks = s ++ lost.

(** Ways of writing a text as one word. *)
Definition backslashed (t : text) : text := flat_map (fun c => [bslash; c]) t.
Definition single_quoted (t : text) : text := squote :: t ++ [squote].
Definition double_quoted (t : text) : text :=
  dquote :: flat_map (fun c => if c =? bslash then [bslash; bslash] else [c]) t ++ [dquote].

(** A character with no role in the syntax of command lines. *)
Definition ordinary (c : ascii) : Prop :=
  isspace c = false /\ marcel_term c = false /\ is_quote c = false /\ c <> bslash /\ c <> "@" /\ c <> "!".

(** [reads_as line t]: the line is one word, standing for the text [t], with no quote missing. *)
Definition reads_as (shell : bool) (line t : text) : Prop :=
  exists chars, tokens (fun _ => shell) line = Ok [mktok (KString chars) line] /\
                literal chars = Ok (t, false).

(** The inside of a Python string delimited by [q]. *)
Inductive inside (q : ascii) : text -> Prop :=
| inside_end : inside q []
| inside_char : forall c t, c <> q -> c <> bslash -> inside q t -> inside q (c :: t)
| inside_escape : forall c t, inside q t -> inside q (bslash :: c :: t).

(** A Python expression, as far as parentheses and strings go. *)
Inductive balanced : text -> Prop :=
| balanced_nil : balanced []
| balanced_char : forall c t, c <> "(" -> c <> ")" -> is_quote c = false -> balanced t -> balanced (c :: t)
| balanced_string : forall q s t, is_quote q = true -> s <> [] -> inside q s -> balanced t -> balanced (q :: s ++ q :: t)
| balanced_group : forall s t, balanced s -> balanced t -> balanced ("(" :: s ++ ")" :: t).
