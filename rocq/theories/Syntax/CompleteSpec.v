(* What the completion of a filename is meant to do (C50). *)
From Coq Require Import Ascii String List Bool Arith.
From Verif.Syntax Require Import Lexer Complete.
From Verif.Sys Require Import Glob GlobSpec.
Import ListNotations.
Local Open Scope char_scope.
Local Open Scope list_scope.

Definition terminator (shell : bool) : ascii -> bool := if shell then shell_term else marcel_term.

(* On a line, followed by a blank, the word is one argument that stands for v *)
Definition stands_for (shell : bool) (word v : text) : Prop :=
  exists chars, literal chars = Ok (v, false) /\
    forall rest, next_token shell (word ++ " " :: rest) = Ok (Some (mktok (KString chars) word, skip_ws rest)).

(* The inside of a word typed without quotes, and the text it stands for: escaped characters, and those that need not be *)
Inductive typed (shell : bool) : text -> text -> Prop :=
| typed_nil : typed shell [] []
| typed_escape : forall c w v, typed shell w v -> typed shell (bslash :: c :: w) (c :: v)
| typed_char : forall c w v, isspace c = false -> terminator shell c = false -> is_quote c = false -> c <> bslash ->
    typed shell w v -> typed shell (c :: w) (c :: v).
(* and it does not start like something else than a word *)
Definition starts_word (w : text) : Prop :=
  match w with c :: _ => isspace c = false /\ marcel_term c = false /\ is_quote c = false /\ c <> "@" /\ c <> "!" | [] => True end.

(* A name with the separators that are not in NEEDS_ESCAPE left out *)
Definition separator (shell : bool) (c : ascii) : Prop := (isspace c = true \/ terminator shell c = true) /\ needs_escape c = false.
Definition no_separator (shell : bool) (t : text) : Prop := Forall (fun c => ~ separator shell c) t.


(* The text up to the last slash, with it, and what comes after it *)
Definition last_slash (v dir name : text) : Prop := v = dir ++ name /\ ~ In SLASH name /\ (dir = [] \/ exists d, dir = d ++ [SLASH]).

(* The directory the text up to the last slash stands for *)
Definition directory (s : fsys) (cwd : path) (dir : text) : option path := os_path s cwd true dir.

(* Directories written as names only, absolute or from the current directory; and the path *)
Inductive place (cwd : path) : text -> path -> Prop :=
| place_here : place cwd [] cwd
| place_root : place cwd [SLASH] []
| place_absolute : forall c p, Forall simple (c :: p) -> place cwd (posix (c :: p) ++ [SLASH]) (c :: p)
| place_relative : forall c p, Forall simple (c :: p) -> hd_error c <> Some TILDE ->
    place cwd (relative (c :: p) ++ [SLASH]) (cwd ++ c :: p).
