(** How bash divides a command into words (Bash manual, 3.1.1 and 3.1.2). *)
From Verif.Syntax Require Export Lexer.
Local Open Scope char_scope.
Local Open Scope list_scope.

(** What separates words. *)
Definition bash_blank (c : ascii) : Prop := c = " " \/ c = "009".
Definition blanks (b : text) : Prop := Forall bash_blank b.

(** A character that stands for itself as far as the division goes.  (The characters [;] and [&] count as parts of the
    words they are written next to; other white space than blanks is left out.) *)
Definition plain (c : ascii) : Prop :=
  isspace c = false /\ c <> "(" /\ c <> ")" /\ c <> "|" /\ c <> "<" /\ c <> ">" /\ c <> squote /\ c <> dquote /\ c <> bslash.

(** The inside of double quotes: a backslash protects what follows it. *)
Inductive in_double : text -> Prop :=
| ind_end : in_double []
| ind_char : forall c t, c <> dquote -> c <> bslash -> in_double t -> in_double (c :: t)
| ind_escape : forall c t, in_double t -> in_double (bslash :: c :: t).

(** The parts of a word. *)
Inductive parts : text -> Prop :=
| parts_end : parts []
| parts_plain : forall c w, plain c -> parts w -> parts (c :: w)
| parts_escape : forall c w, parts w -> parts (bslash :: c :: w)
| parts_single : forall s w, ~ In squote s -> parts w -> parts (squote :: s ++ squote :: w)
| parts_double : forall s w, in_double s -> parts w -> parts (dquote :: s ++ dquote :: w).

(** A word; [#] would start a comment, [!] is marcel's own. *)
Definition word (w : text) : Prop := parts w /\ exists c r, w = c :: r /\ c <> "#" /\ c <> "!".

(** What ends a command: nothing more, a comment, or an operator. *)
Definition ends (r : text) : Prop := r = [] \/ exists c r', r = c :: r' /\ (c = "|" \/ c = "<" \/ c = ">" \/ c = "#").

(** [words t ws r]: the text [t] is the words [ws], written as they are in the list, with blanks between them, and then [r].
    Only an operator can follow a word without a blank. *)
Inductive words : text -> list text -> text -> Prop :=
| words_end : forall b r, blanks b -> ends r -> words (b ++ r) [] r
| words_last : forall b w r, blanks b -> word w -> ends r -> hd "|" r <> "#" -> words (b ++ w ++ r) [w] r
| words_more : forall b w c t ws r, blanks b -> word w -> bash_blank c -> words t ws r ->
    words (b ++ w ++ c :: t) (w :: ws) r.

(** The last character of a word. *)
Definition ends_in (w : text) (c : ascii) : Prop := exists u, w = u ++ [c].

(** Not affected by the known defects: it does not end with (escaped) white space, and if it starts with a quote, it ends
    with the same. *)
Definition regular (w : text) : Prop :=
  (forall c, ends_in w c -> isspace c = false) /\
  (forall c r, w = c :: r -> is_quote c = true -> ends_in w c).

(** A word that is not read as a flag of the operator bash: [-i], [--interactive], or [-ii], [-iii], ... *)
Definition no_flag (w : text) : Prop :=
  w <> txt "--interactive" /\ ~ exists n, w = "-" :: repeat "i" (S n).

(** The name of an executable: a plain word that does not look like a flag. *)
Definition plain_name (name : text) : Prop :=
  name <> [] /\ Forall plain name /\ hd "-" name <> "-" /\ hd "#" name <> "#" /\ hd "!" name <> "!".
