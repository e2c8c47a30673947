(** How bash reads a command (Bash manual 3.1.2, 3.5), and how scp reads its arguments (scp(1)). *)
From Verif.Syntax Require Export Lexer.
Local Open Scope char_scope.
Local Open Scope list_scope.

(** Characters that bash never treats specially, wherever they are in the arguments of a command. *)
Definition ordinary (c : ascii) : Prop :=
  In c (txt "ABCDEFGHIJKLMNOPQRSTUVWXYZabcdefghijklmnopqrstuvwxyz0123456789_@%+=:,./-").

(** [stands_for w v]: what is written [w] is the string [v].  Ordinary characters stand for themselves; everything does
    between single quotes; between double quotes, everything but the double quote, the backslash, the dollar sign, the
    backquote and the exclamation mark does.  Other ways to write a string are left out. *)
Inductive stands_for : text -> text -> Prop :=
| sf_end : stands_for [] []
| sf_char : forall c w v, ordinary c -> stands_for w v -> stands_for (c :: w) (c :: v)
| sf_single : forall s w v, ~ In squote s -> stands_for w v -> stands_for (squote :: s ++ squote :: w) (s ++ v)
| sf_double : forall s w v, Forall (fun c => ~ In c [dquote; bslash; "$"; "`"; "!"]) s -> stands_for w v ->
    stands_for (dquote :: s ++ dquote :: w) (s ++ v).

(** [command t vs]: bash reads the text [t] as a simple command, the strings [vs]. *)
Inductive command : text -> list text -> Prop :=
| command_last : forall w v, w <> [] -> stands_for w v -> command w [v]
| command_more : forall w v t vs, w <> [] -> stands_for w v -> command t vs -> command (w ++ " " :: t) (v :: vs).

(** What scp takes an argument for: it is on another host if there is a colon in it before any slash. *)
Inductive place : Type := Here (file : text) | There (login file : text).
Inductive scp_reads : text -> place -> Prop :=
| sr_there : forall login file, login <> [] -> ~ In ":" login -> ~ In "/" login -> scp_reads (login ++ ":" :: file) (There login file)
| sr_here : forall u file, ~ In ":" u -> scp_reads (u ++ "/" :: file) (Here (u ++ "/" :: file))
| sr_name : forall file, ~ In ":" file -> scp_reads file (Here file).

(** Text made of ordinary characters only *)
Definition ordinary_text (t : text) : Prop := Forall ordinary t.
