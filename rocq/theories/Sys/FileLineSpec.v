(** What the lines of a listing say. *)
From Verif.Sys Require Export FileLine.
From Coq Require Import DecimalString.
Local Open Scope list_scope.

(** ** Type and permissions (POSIX): the type is the number in the bits from 12 on, the permissions are the bits 8 to 0. *)
Definition file_type (mode : N) : N := N.modulo (N.div mode 4096) 16.
Definition REGULAR : N := 8. Definition DIRECTORY : N := 4. Definition LINK : N := 10.
Definition BLOCK : N := 6. Definition SOCKET : N := 12. Definition FIFO : N := 1. Definition CHARACTER : N := 2.
(** The letter that ls(1) shows *)
Definition type_letter (mode : N) : ascii :=
  let t := file_type mode in
  (if N.eqb t DIRECTORY then "d" else if N.eqb t LINK then "l" else if N.eqb t BLOCK then "b" else if N.eqb t SOCKET then "s"
   else if N.eqb t FIFO then "p" else if N.eqb t CHARACTER then "c" else "-")%char.
Definition letter (mode : N) (bit : N) (c : ascii) : ascii := if N.testbit mode bit then c else "-"%char.
Definition permissions (mode : N) : text :=
  [letter mode 8 "r"; letter mode 7 "w"; letter mode 6 "x"; letter mode 5 "r"; letter mode 4 "w"; letter mode 3 "x";
   letter mode 2 "r"; letter mode 1 "w"; letter mode 0 "x"]%char.

(** ** Reading a line: six fields. All but the last are without blanks (the date is four words); the last is the rest of the line. *)
Record fields := mkfields { l_mode : text; l_user : text; l_group : text; l_size : text; l_date : list text; l_path : text }.
Fixpoint skip_blanks (s : text) : text :=
  match s with c :: r => if Ascii.eqb c blank then skip_blanks r else s | [] => [] end.
Fixpoint word (s : text) : text * text :=
  match s with
  | c :: r => if Ascii.eqb c blank then ([], s) else let '(w, r) := word r in (c :: w, r)
  | [] => ([], [])
  end.
Definition next (s : text) : text * text := word (skip_blanks s).
Definition read_line (s : text) : fields :=
  let '(mode, s) := next s in
  let '(user, s) := next s in
  let '(group, s) := next s in
  let '(size, s) := next s in
  let '(d1, s) := next s in
  let '(d2, s) := next s in
  let '(d3, s) := next s in
  let '(d4, s) := next s in
  mkfields mode user group size [d1; d2; d3; d4] (skipn 2 s).

(** A terminal does not show what is between ESC and m. *)
Fixpoint displayed (hidden : bool) (s : text) : text :=
  match s with
  | [] => []
  | c :: r =>
      if hidden then displayed (negb (Ascii.eqb c "m"%char)) r
      else if Ascii.eqb c ESC then displayed true r
      else c :: displayed false r
  end.

(** A text is a number in decimal; a user or group is shown by name, or by number if it has none *)
Definition is_number (t : text) (n : N) : Prop := option_map N.of_uint (NilZero.uint_of_string (string_of_list_ascii t)) = Some n.
Definition identifies (t : text) (name : option text) (id : N) : Prop := match name with Some n => t = n | None => is_number t id end.

Definition is_word (w : text) : Prop := w <> [] /\ ~ In blank w.
Definition plain (s : text) : Prop := ~ In ESC s.
(** Names are single words; dates are four *)
Definition ordinary_names (db : names) : Prop :=
  (forall i n, user_name db i = Some n -> is_word n /\ plain n) /\ (forall i n, group_name db i = Some n -> is_word n /\ plain n).
Definition ordinary_date (d : text) (w : list text) : Prop :=
  length w = 4 /\ (forall x, In x w -> is_word x /\ plain x) /\ d = join [blank] w.

(** ** Columns: where the words before the path end (the last four are the date) *)
Fixpoint word_ends (pos : nat) (s : text) : list nat :=
  match s with
  | a :: ((b :: _) as r) => if negb (Ascii.eqb a blank) && Ascii.eqb b blank then S pos :: word_ends (S pos) r else word_ends (S pos) r
  | _ => []
  end.
Definition columns (line : text) : list nat := firstn 8 (word_ends 0 line).

(** A listing: each file is shown when it is found (ls at the prompt), or when all have been found (ls | sort). *)
Section Listing.
Variable db : names.
Variable date : N -> text.
(** A file, as it is shown, and what it points to *)
Definition entry : Type := stat * (text * text).
Definition line (f : formatting) (e : entry) : text := render_full db date f (fst e) (fst (snd e)) (snd (snd e)) None None.
Fixpoint at_once (f : formatting) (l : list entry) : list text :=
  match l with
  | [] => []
  | e :: r => let f := adjust_formatting db (fst e) f in line f e :: at_once f r
  end.
Definition widths (l : list entry) : formatting := fold_left (fun f e => adjust_formatting db (fst e) f) l default_formatting.
Definition afterwards (l : list entry) : list text := map (line (widths l)) l.
End Listing.
Definition all_equal {A} (l : list A) : Prop := forall x y, In x l -> In y l -> x = y.
Definition aligned (lines : list text) : Prop := all_equal (map columns lines).

(** ** Colors *)
(** The extension: what follows the last dot, unless that dot is the first or last character; else the empty text. *)
Definition extension (name e : text) : Prop :=
  (e <> [] /\ ~ In "."%char e /\ exists stem, stem <> [] /\ name = stem ++ "."%char :: e) \/
  (e = [] /\ forall stem e', name = stem ++ "."%char :: e' -> ~ In "."%char e' -> stem = [] \/ e' = []).
Definition by_extension (sc : scheme) (name : text) (c : color) : Prop :=
  exists table e, file_extension sc = Some table /\ extension name e /\ table (map to_lower e) = Some c.
(** Otherwise, what it is: for a link, whether what it points to, seen from its own directory, exists. *)
Definition by_type (sc : scheme) (d : disk) (p : path) (mode : N) (link : target) : option color :=
  if N.eqb (file_type mode) LINK then if exists_ d (from (parent p) link) then file_link sc else file_link_broken sc
  else if executable d p then file_executable sc
  else if N.eqb (file_type mode) DIRECTORY then file_dir sc else file_file sc.

(** ** Paths *)
Definition proper (p : path) : Prop := forall x, In x p -> x <> [] /\ ~ In "/"%char x /\ x <> tx ".".
Definition prefix (p q : path) : Prop := exists r, q = p ++ r.

(** ** Uses of a File: reading an attribute, asking whether it can be executed, sending it to another process (and using it there), each
    at some moment. The metadata seen by each reading. *)
Inductive use : Type := Read | Execute | Send.
Fixpoint history (f : file) (h : list (moment * use)) : list (option stat) :=
  match h with
  | [] => []
  | (m, Read) :: h => let '(f, s) := examine m f in s :: history f h
  | (m, Execute) :: h => let '(f, _) := check_executable m f in history f h
  | (m, Send) :: h => let '(f, c) := send m f in history (match c with Some g => g | None => f end) h
  end.
(** The metadata at the first moment when the file is there and a reading or sending needs them *)
Fixpoint first_seen (h : list (moment * use)) : option stat :=
  match h with
  | [] => None
  | (_, Execute) :: h => first_seen h
  | (m, _) :: h => match now_stat m with Some s => Some s | None => first_seen h end
  end.
Definition wanted (o : options) (s : stat) : Prop :=
  o_file o = true /\ file_type (st_mode s) = REGULAR \/ o_dir o = true /\ file_type (st_mode s) = DIRECTORY \/
  o_symlink o = true /\ file_type (st_mode s) = LINK.
