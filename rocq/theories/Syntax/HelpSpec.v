(** What help texts mean: the language described at marcel/helpformatter.py:20-71, as documents, how a document is
    written as text, and what must be displayed. Nothing here refers to how the formatter works. *)
From Verif.Syntax Require Export ScriptsSpec Help.
Local Open Scope char_scope.
Local Open Scope list_scope.

(** ** Documents. A character is written as it is, or after a backslash. *)
Inductive hchar : Type := Raw (c : ascii) | Esc (c : ascii).
Definition char_of (x : hchar) : ascii := match x with Raw c | Esc c => c end.
Definition write_char (x : hchar) : text := match x with Raw c => [c] | Esc c => [bslash; c] end.
Definition char_ok (x : hchar) : Prop :=
  match x with
  | Raw c => c <> obrace /\ c <> cbrace /\ c <> bslash
  | Esc c => c <> newline
  end.

(** Text markup: {CODE:TEXT}. The codes, in either case. *)
Inductive style_code : text -> style -> Prop :=
| code_r : style_code ["r"] HRef      | code_R : style_code ["R"] HRef
| code_b : style_code ["b"] HBold     | code_B : style_code ["B"] HBold
| code_i : style_code ["i"] HItalic   | code_I : style_code ["I"] HItalic
| code_n : style_code ["n"] HName     | code_N : style_code ["N"] HName
| code_c : forall c r g b flags, In c ["c"; "C"] -> (r < 6)%nat -> (g < 6)%nat -> (b < 6)%nat ->
    (length flags <= 2)%nat -> Forall (fun x => In x ["b"; "B"; "i"; "I"]) flags ->
    style_code (c :: ascii_of_nat (48 + r) :: ascii_of_nat (48 + g) :: ascii_of_nat (48 + b) :: flags)
      (HColor (Z.of_nat r) (Z.of_nat g) (Z.of_nat b)
         (existsb (fun x => (x =? "b") || (x =? "B")) flags) (existsb (fun x => (x =? "i") || (x =? "I")) flags)).

Inductive piece : Type := Ch (x : hchar) | Styled (code : text) (s : style) (content : list hchar).
Definition write_piece (p : piece) : text :=
  match p with
  | Ch x => write_char x
  | Styled code _ content => obrace :: code ++ colon :: flat_map write_char content ++ [cbrace]
  end.
Definition write (b : list piece) : text := flat_map write_piece b.

(** A text to be seen: characters, with their colors. *)
Definition shown : Type := list (ascii * option style).
Definition show_piece (p : piece) : shown :=
  match p with
  | Ch x => [(char_of x, None)]
  | Styled _ s content => map (fun x => (char_of x, Some s)) content
  end.
Definition show (b : list piece) : shown := flat_map show_piece b.
(** Without the whitespace. *)
Definition ink (s : shown) : shown := filter (fun a => negb (isspace (fst a))) s.

(** Styled text must have something to see, and must not contain an empty line: the braces must be in one paragraph. *)
Definition piece_ok (p : piece) : Prop :=
  match p with
  | Ch x => char_ok x
  | Styled code s content =>
    style_code code s /\ Forall char_ok content /\ ink (show_piece p) <> [] /\
    Forall (fun l => nonblank l = true) (removelast (tl (split_lines (flat_map write_char content))))
  end.

(** Paragraph markup: {p} or {L}, with arguments. A number is its digits. *)
Inductive parg : Type := PWrap | PWrapIs (w : bool) | PIndent (ds : list nat) | PIndent2 (ds1 ds2 : list nat).
Definition digits (ds : list nat) : text := map (fun d => ascii_of_nat (48 + d)) ds.
Definition number (ds : list nat) : nat := fold_left (fun a d => 10 * a + d)%nat ds O.
Definition write_parg (a : parg) : text :=
  match a with
  | PWrap => txt "wrap"
  | PWrapIs true => txt "wrap=T"
  | PWrapIs false => txt "wrap=F"
  | PIndent d => txt "indent=" ++ digits d
  | PIndent2 d1 d2 => txt "indent=" ++ digits d1 ++ colon :: digits d2
  end.
Definition digits_ok (ds : list nat) : Prop := ds <> [] /\ Forall (fun d => (d < 10)%nat) ds.
Definition parg_ok (a : parg) : Prop :=
  match a with
  | PWrap | PWrapIs _ => True
  | PIndent d => digits_ok d
  | PIndent2 d1 d2 => digits_ok d1 /\ digits_ok d2
  end.
Record pmark := mkpm { is_list : bool; upper : bool; pargs : list parg }.
Definition code_char (m : pmark) : ascii :=
  match is_list m, upper m with false, false => "p" | false, true => "P" | true, false => "l" | true, true => "L" end.
Definition write_pmark (m : pmark) : text :=
  obrace :: code_char m :: flat_map (fun a => "," :: write_parg a) (pargs m) ++ [cbrace].
(** Of arguments given twice, the last counts. *)
Definition pformat_of (m : pmark) : pformat :=
  let base := if is_list m then mkpf 4 6 true else mkpf 0 0 true in
  fold_left (fun f a =>
    match a with
    | PWrap => mkpf (indent1 f) (indent2 f) true
    | PWrapIs w => mkpf (indent1 f) (indent2 f) w
    | PIndent d => mkpf (number d) (number d) (wrap f)
    | PIndent2 d1 d2 => mkpf (number d1) (number d2) (wrap f)
    end) (pargs m) base.

(** A document: the text before the first paragraph markup, and each paragraph markup with the text after it. *)
Record doc := mkdoc { lead : list piece; parts : list (pmark * list piece) }.
Definition write_doc (d : doc) : text := write (lead d) ++ flat_map (fun mb => write_pmark (fst mb) ++ write (snd mb)) (parts d).
Definition show_doc (d : doc) : shown := show (lead d) ++ flat_map (fun mb => show (snd mb)) (parts d).

(** The documents considered. The text ends in something other than paragraph markup; and what is before paragraph
    markup does not end in an escaped backslash. *)
Fixpoint bodies_ok (b : list piece) (ps : list (pmark * list piece)) : Prop :=
  Forall piece_ok b /\
  match ps with
  | [] => True
  | (m, b') :: r => last b (Ch (Raw space)) <> Ch (Esc bslash) /\ Forall parg_ok (pargs m) /\ bodies_ok b' r
  end.
Definition doc_ok (d : doc) : Prop :=
  bodies_ok (lead d) (parts d) /\ match rev (parts d) with (_, []) :: _ => False | _ => True end.

(** ** Paragraphs. The lines of a text: cut at the newlines that are not inside text markup. *)
Fixpoint piece_lines (b : list piece) : list (list piece) :=
  match b with
  | [] => [[]]
  | p :: r =>
    let cut := match p with Ch (Raw c) => c =? newline | _ => false end in
    if cut then [] :: piece_lines r
    else match piece_lines r with l :: ls => (p :: l) :: ls | [] => [[p]] end
  end.
(** An empty line has only whitespace, not escaped. *)
Definition empty_line (l : list piece) : bool :=
  forallb (fun p => match p with Ch (Raw c) => isspace c | _ => false end) l.

(** What is on the line of a paragraph markup after it is ignored if it is whitespace, and so is the whitespace in front
    of other text there. The white space that ends a document is not ignored entirely: its last character remains. *)
Definition blank_piece (p : piece) : bool :=
  match p with Ch x => isspace (char_of x) && negb (char_of x =? newline) | _ => false end.
Fixpoint after_markup (last : bool) (b : list piece) : list piece :=
  match b with
  | [] => []
  | p :: r =>
    if blank_piece p then match r with [] => if last then b else [] | _ => after_markup last r end
    else match p with Ch (Raw c) => if c =? newline then r else b | _ => b end
  end.

(** Consecutive lines that are all empty or all not empty are together. *)
Fixpoint group_lines (ls : list (list piece)) : list (list (list piece)) :=
  match ls with
  | [] => []
  | l :: r =>
    match group_lines r with
    | (l' :: g) :: gs => if Bool.eqb (empty_line l) (empty_line l') then (l :: l' :: g) :: gs else [l] :: (l' :: g) :: gs
    | gs => [l] :: gs
    end
  end.
(** The last line does not count if it is empty. *)
Definition body_groups (b : list piece) : list (list (list piece)) :=
  group_lines (let ls := piece_lines b in if empty_line (last ls []) then removelast ls else ls).
(** The first group has the format given by the markup, the others the default format. *)
Definition body_paragraphs (f : pformat) (b : list piece) : list (pformat * list (list piece)) :=
  match body_groups b with
  | [] => [(f, [])]
  | g :: gs => (f, g) :: map (fun h => (mkpf 0 0 true, h)) gs
  end.
Fixpoint part_paragraphs (ps : list (pmark * list piece)) : list (pformat * list (list piece)) :=
  match ps with
  | [] => []
  | (m, b) :: r => body_paragraphs (pformat_of m) (after_markup (match r with [] => true | _ => false end) b) ++ part_paragraphs r
  end.
Definition paragraphs (d : doc) : list (pformat * list (list piece)) :=
  (match lead d with [] => [] | b => body_paragraphs (mkpf 0 0 true) b end) ++ part_paragraphs (parts d).

(** ** What is displayed. The text of a paragraph: its lines (an empty line has nothing) separated by newlines. *)
Fixpoint show_lines (ls : list (list piece)) : shown :=
  match ls with
  | [] => []
  | [l] => if empty_line l then [] else show l
  | l :: r => (if empty_line l then [] else show l) ++ (newline, None) :: show_lines r
  end.
Definition plain (s : shown) : text := map fst s.

(** The words of a text. *)
Fixpoint words_from (w : text) (t : text) : list text :=
  match t with
  | [] => match w with [] => [] | _ => [w] end
  | c :: r => if isspace c then match w with [] => words_from [] r | _ => w :: words_from [] r end
              else words_from (w ++ [c]) r
  end.
Definition words (t : text) : list text := words_from [] t.

(** A line that fits: the indent, and then text that is not wider than the columns left, or where it cannot be broken. *)
Definition line_ok (columns indent : nat) (l : text) : Prop :=
  exists body, l = repeat space indent ++ body /\ body <> [] /\
    (length l <= columns \/ Forall (fun c => tw_space c = false) body)%nat.
Definition lines_ok (columns i1 i2 : nat) (ls : list text) : Prop :=
  match ls with [] => True | l :: r => line_ok columns i1 l /\ Forall (line_ok columns i2) r end.

(** What is displayed for a paragraph. Wrapped: its words in order, on lines that are indented and fit. Not wrapped:
    its lines, indented. Either way, the characters have their colors. *)
Definition displayed (columns : nat) (p : pformat * list (list piece)) (out : shown) : Prop :=
  let '(f, ls) := p in
  ink out = ink (show_lines ls) /\
  if wrap f then
    exists lines, plain out = join_lines lines /\ words (plain out) = words (plain (show_lines ls)) /\
                  lines_ok columns (indent1 f) (indent2 f) lines
  else
    exists l r, lines_of (plain (show_lines ls)) (l :: r) /\
      plain out = join_lines ((repeat space (indent1 f) ++ l) :: map (fun x => repeat space (indent2 f) ++ x) r).

Definition seen (out : list seg) : shown := flat_map (fun s => map (fun c => (c, fst s)) (snd s)) out.
Fixpoint join_shown (l : list shown) : shown :=
  match l with [] => [] | [s] => s | s :: r => s ++ (newline, None) :: join_shown r end.
