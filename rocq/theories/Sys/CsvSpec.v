(* What reading CSV files is meant to do (C37). *)
From Coq Require Import Ascii String List Bool Arith.
From Verif.Sys Require Import Csv.
Import ListNotations.

(* The end of a line: \n, \r\n or \r *)
Definition line_end (e : text) : Prop := e = [LF] \/ e = [CR; LF] \/ e = [CR].
(* A line, without its end *)
Definition one_line (l : text) : Prop := ~ In LF l /\ ~ In CR l.

(* The content of a file with the given lines; the last line may lack its end *)
Inductive content : list text -> text -> Prop :=
| content_none : content [] []
| content_last : forall l, one_line l -> l <> [] -> content [l] l
| content_more : forall l e ls t, one_line l -> line_end e -> content ls t ->
    (* \r followed by \n is one end of line *)
    (e = [CR] -> forall r, t <> LF :: r) ->
    content (l :: ls) (l ++ e ++ t).

(* How a field may be written, with delimiter d *)
Fixpoint doubled (f : text) : text :=
  match f with
  | [] => []
  | c :: r => if Ascii.eqb c QUOTE then QUOTE :: QUOTE :: doubled r else c :: doubled r
  end.
Inductive written (d : ascii) : text -> text -> Prop :=
| plain : forall f, ~ In d f -> hd_error f <> Some QUOTE -> written d f f
| quoted : forall f, written d f (QUOTE :: doubled f ++ [QUOTE]).

(* A row, with at least one field, written as one line *)
Inductive row_line (d : ascii) : list text -> text -> Prop :=
| row_one : forall f w, written d f w -> row_line d [f] w
| row_more : forall f w fs l, written d f w -> row_line d fs l -> row_line d (f :: fs) (w ++ d :: l).

(* The names that headings can be: Python identifiers that are not keywords and do not start
   with an underscore, all different.  For simplicity, of ASCII letters, digits and underscores. *)
Definition good_name (n : text) : Prop :=
  Forall (fun c => identifier_char c = true) n /\
  (exists c r, n = c :: r /\ isletter c = true) /\ ~ In n keywords.
Definition good_names (ns : list text) : Prop := Forall good_name ns /\ NoDup ns.

(* The name made of a heading: without the surrounding white space, and with underscores for
   the characters that cannot be in a name.  (ASCII characters only.) *)
Definition name_of (h n : text) : Prop :=
  exists a core b, h = a ++ core ++ b /\
    forallb isspace a = true /\ forallb isspace b = true /\
    (forall c, hd_error core = Some c -> isspace c = false) /\
    (forall c, hd_error (rev core) = Some c -> isspace c = false) /\
    Forall (fun c => nat_of_ascii c < 128) core /\
    n = map (fun c => if identifier_char c then c else underscore) core.

(* What is expected for a row, when the names of the columns are given: fields that are
   missing are None, and a row with too many fields is an error. *)
Definition keyed (names : list text) (row : list cell) (o : out) : Prop :=
  if length row <=? length names
  then o = Named names (row ++ repeat CNone (length names - length row))
  else exists line, o = Error line.

Definition blank (l : text) : Prop := l = [].
