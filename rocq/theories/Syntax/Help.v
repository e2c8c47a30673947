(** Formatting help (marcel/helpformatter.py). Model only; see HelpSpec.v for the specification. *)
From Verif.Syntax Require Export Scripts.
Local Open Scope char_scope.
Local Open Scope list_scope.

Definition obrace : ascii := "{".
Definition cbrace : ascii := "}".
Definition colon : ascii := ":".
Definition space : ascii := " ".

(** How a function can end. [HInvalid] is InvalidMarkupException (helpformatter.py:88-91), [HCrash] is any other
    exception, [HLoops] is a loop that makes no progress. *)
Inductive hres (A : Type) : Type := HOk (a : A) | HInvalid | HCrash | HLoops.
Arguments HOk {A} a. Arguments HInvalid {A}. Arguments HCrash {A}. Arguments HLoops {A}.
Definition hbind {A B} (r : hres A) (f : A -> hres B) : hres B :=
  match r with HOk a => f a | HInvalid => HInvalid | HCrash => HCrash | HLoops => HLoops end.
Fixpoint hmap {A B} (f : A -> hres B) (l : list A) : hres (list B) :=
  match l with [] => HOk [] | a :: r => hbind (f a) (fun b => hbind (hmap f r) (fun bs => HOk (b :: bs))) end.

(** ** helpformatter.py:94-206 [TextPointer]: the text before the pointer, reversed, and the text after it. (The
    count of characters that are not whitespace, nonws, is kept by the code but never used.) *)
Record tp := mktp { before : text; after : text }.

(** What peek and next return: helpformatter.py:81-83. *)
Inductive htok : Type := MOpen | MClose | TEnd | TChar (c : ascii).
Definition htok_eqb (a b : htok) : bool :=
  match a, b with
  | MOpen, MOpen | MClose, MClose | TEnd, TEnd => true
  | TChar c, TChar d => c =? d
  | _, _ => false
  end.

(** helpformatter.py:143-158 *)
Definition next (p : tp) : htok * tp :=
  match after p with
  | [] => (TEnd, p)
  | c :: r =>
    let p1 := mktp (c :: before p) r in
    if c =? obrace then (MOpen, p1)
    else if c =? cbrace then (MClose, p1)
    else if c =? bslash then
      match r with
      | [] => (TEnd, p1)
      | d :: r' => (TChar d, mktp (d :: c :: before p) r')
      end
    else (TChar c, p1)
  end.
(** helpformatter.py:130-141 *)
Definition peek (p : tp) : htok :=
  match after p with
  | [] => TEnd
  | c :: r =>
    if c =? obrace then MOpen
    else if c =? cbrace then MClose
    else if c =? bslash then match r with [] => TEnd | d :: _ => TChar d end
    else TChar c
  end.
(** helpformatter.py:160-161 *)
Definition at_end (p : tp) : bool := match after p with [] => true | _ => false end.
(** helpformatter.py:166-170. Each step moves the pointer, or is at the end: the fuel is the text that is left. *)
Fixpoint advance_loop (fuel : nat) (c : htok) (p : tp) : tp :=
  match next p with
  | (TEnd, p') => p'
  | (x, p') =>
    if htok_eqb x c then p'
    else match fuel with O => p' | S f => advance_loop f c p' end
  end.
Definition advance_past (c : htok) (p : tp) : tp := advance_loop (length (after p)) c p.
(** helpformatter.py:192-202 *)
Definition backup (p : tp) : option tp :=
  match before p with
  | [] => None
  | c :: b =>
    match b with
    | d :: b' => if d =? bslash then Some (mktp b' (d :: c :: after p)) else Some (mktp b (c :: after p))
    | [] => Some (mktp b (c :: after p))
    end
  end.
(** helpformatter.py:172-174 *)
Definition advance_to (c : htok) (p : tp) : option tp := backup (advance_past c p).
(** helpformatter.py:185-187 *)
Definition contents_to (p e : tp) : text := firstn (length (before e) - length (before p)) (after p).

(** ** str.lower, for ASCII; str.split; int, for decimal digits only. (Simplification: int also accepts a sign,
    whitespace around and underscores inside the number; here they are invalid markup.) *)
Definition lower (c : ascii) : ascii :=
  let n := nat_of_ascii c in if ((65 <=? n) && (n <=? 90))%nat then ascii_of_nat (n + 32) else c.
Fixpoint split_on (sep : ascii) (t : text) : list text :=
  match t with
  | [] => [[]]
  | c :: r =>
    if c =? sep then [] :: split_on sep r
    else match split_on sep r with l :: ls => (c :: l) :: ls | [] => [[c]] end
  end.
Definition digit_value (c : ascii) : option nat :=
  let n := nat_of_ascii c in if ((48 <=? n) && (n <=? 57))%nat then Some (n - 48)%nat else None.
Fixpoint digits_value (acc : nat) (t : text) : option nat :=
  match t with
  | [] => Some acc
  | c :: r => match digit_value c with Some d => digits_value (10 * acc + d) r | None => None end
  end.
Definition int_of (t : text) : option nat := match t with [] => None | _ => digits_value 0 t end.

(** ** helpformatter.py:227-269 [ParagraphMarkup] *)
Record pformat := mkpf { indent1 : nat; indent2 : nat; wrap : bool }.

(** helpformatter.py:243-265: one part; what has been seen so far is the indents and wrap. *)
Definition parse_part (seen : option (nat * nat) * option bool) (part : text) : hres (option (nat * nat) * option bool) :=
  match split_on "=" part with
  | [k] => if teqb (map lower k) (txt "wrap") then HOk (fst seen, Some true) else HInvalid
  | [k; v] =>
    if teqb (map lower k) (txt "indent") then
      match map int_of (split_on ":" v) with
      | [Some a] => HOk (Some (a, a), snd seen)
      | [Some a; Some b] => HOk (Some (a, b), snd seen)
      | _ => HInvalid
      end
    else if teqb (map lower k) (txt "wrap") then HOk (fst seen, Some (teqb (map lower v) (txt "t")))
    else HOk seen
  | _ => HInvalid
  end.
Fixpoint parse_parts (seen : option (nat * nat) * option bool) (parts : list text) : hres (option (nat * nat) * option bool) :=
  match parts with
  | [] => HOk seen
  | a :: r => hbind (parse_part seen a) (fun s => parse_parts s r)
  end.
(** helpformatter.py:211-214 (the braces) and 237-269. The assertion: the code, of at most one character, is in the
    string pl (so it can be empty). *)
Definition paragraph_markup (markup : text) : hres pformat :=
  match markup with
  | [] => HCrash
  | o :: _ =>
    if negb ((o =? obrace) && (last markup o =? cbrace)) then HInvalid
    else
      match split_on "," (removelast (tl markup)) with
      | [] => HCrash
      | code :: parts =>
        let code := map lower code in
        if (1 <? length code)%nat then HInvalid
        else if negb (teqb code (txt "p") || teqb code (txt "l") || teqb code []) then HCrash
        else hbind (parse_parts (None, None) parts) (fun s =>
          let '(i1, i2) := match fst s with Some ii => ii | None => if teqb code (txt "p") then (0, 0) else (4, 6) end in
          HOk (mkpf i1 i2 (match snd s with Some w => w | None => true end)))
      end
  end.

(** ** helpformatter.py:272-354 [TextMarkup]. The colors: the four of the color scheme, or a color defined in the
    markup (whose int can be applied to -1, -2, -3: the pointer's MARKUP_OPEN, MARKUP_CLOSE, TEXTP_END). *)
Inductive style : Type := HRef | HBold | HItalic | HName | HColor (r g b : Z) (bold italic : bool).

Definition int_of_tok (t : htok) : option Z :=
  match t with
  | MOpen => Some (-1)%Z
  | MClose => Some (-2)%Z
  | TEnd => Some (-3)%Z
  | TChar c => option_map Z.of_nat (digit_value c)
  end.

(** helpformatter.py:336-344 *)
Fixpoint style_flags (spec : text) (bi : bool * bool) : hres (bool * bool) :=
  match spec with
  | [] => HOk bi
  | x :: r =>
    if lower x =? "b" then style_flags r (true, snd bi)
    else if lower x =? "i" then style_flags r (fst bi, true)
    else HInvalid
  end.

(** helpformatter.py:309-354: the color, and the pointer past the colon. *)
Definition formatting (p : tp) : hres (style * tp) :=
  match next p with
  | (MOpen, p1) =>
    match next p1 with
    | (TChar c, p2) =>
      let simple s := match next p2 with (TChar d, p3) => if d =? colon then HOk (s, p3) else HInvalid | _ => HInvalid end in
      if lower c =? "r" then simple HRef
      else if lower c =? "b" then simple HBold
      else if lower c =? "i" then simple HItalic
      else if lower c =? "n" then simple HName
      else if lower c =? "c" then
        let '(t1, q1) := next p2 in
        let '(t2, q2) := next q1 in
        let '(t3, q3) := next q2 in
        match int_of_tok t1, int_of_tok t2, int_of_tok t3 with
        | Some r, Some g, Some b =>
          match advance_to (TChar colon) q3 with
          | None => HCrash
          | Some at_colon =>
            let spec := contents_to q3 at_colon in
            if (2 <? length spec)%nat then HInvalid
            else hbind (style_flags spec (false, false)) (fun bi =>
              HOk (HColor r g b (fst bi) (snd bi), snd (next at_colon)))
          end
        | _, _, _ => HInvalid
        end
      else HInvalid
    | _ => HInvalid
    end
  | _ => HCrash
  end.

(** helpformatter.py:281-300: the content, and the pointer past the closing brace. The fuel is the text that is left. *)
Fixpoint markup_content (fuel : nat) (content : text) (p : tp) : hres (text * tp) :=
  match fuel with
  | O => HInvalid
  | S f =>
    if at_end p then HInvalid
    else match next p with
         | (MClose, p') => HOk (content, p')
         | (TChar c, p') => markup_content f (content ++ [c]) p'
         | _ => HInvalid
         end
  end.

Definition nonws (t : text) : text := filter (fun c => negb (isspace c)) t.

(** helpformatter.py:274-304; the markup kept for later: how many non-whitespace characters precede it, how many are
    in it, and its color. *)
Record mark := mkmark { preceding : nat; marked : nat; mstyle : style }.
Definition text_markup (p : tp) (preceding : nat) : hres (mark * text * tp) :=
  hbind (formatting p) (fun '(s, q) =>
  hbind (markup_content (S (length (after q))) [] q) (fun '(content, e) =>
  HOk (mkmark preceding (length (nonws content)) s, content, e))).

(** ** helpformatter.py:386-407 [Paragraph.remove_markup]: the text without markup, and the markup. At a closing brace, or
    at a backslash that ends the text, the loop goes on and on. *)
Fixpoint remove_markup (fuel : nat) (p : tp) (count : nat) (plain : text) (marks : list mark) : hres (text * list mark) :=
  match fuel with
  | O => HLoops
  | S f =>
    if at_end p then HOk (plain, marks)
    else match peek p with
         | MOpen => hbind (text_markup p count) (fun '(m, content, e) =>
                      remove_markup f e (count + marked m) (plain ++ content) (marks ++ [m]))
         | MClose | TEnd => HLoops
         | TChar c => remove_markup f (snd (next p)) (if isspace c then count else S count) (plain ++ [c]) marks
         end
  end.

(** ** The standard library's textwrap.TextWrapper, with break_long_words and break_on_hyphens false, and the other
    options at their defaults. Its whitespace, and str.expandtabs(8), from column [j]. *)
Definition tw_space (c : ascii) : bool :=
  let n := nat_of_ascii c in (((9 <=? n) && (n <=? 13)) || (n =? 32))%nat.
Definition tab : ascii := "009".
Definition creturn : ascii := "013".
Fixpoint expandtabs (j : nat) (t : text) : text :=
  match t with
  | [] => []
  | c :: r =>
    if c =? tab then let n := (8 - j mod 8)%nat in repeat space n ++ expandtabs (j + n) r
    else if (c =? newline) || (c =? creturn) then c :: expandtabs 0 r
    else c :: expandtabs (S j) r
  end.
(** _munge_whitespace *)
Definition munge (t : text) : text := map (fun c => if tw_space c then space else c) (expandtabs 0 t).
(** _split: the text cut into runs of whitespace and runs of other characters. *)
Fixpoint chunks (t : text) : list text :=
  match t with
  | [] => []
  | c :: r =>
    match chunks r with
    | (d :: x) :: cs => if Bool.eqb (tw_space c) (tw_space d) then (c :: d :: x) :: cs else [c] :: (d :: x) :: cs
    | cs => [c] :: cs
    end
  end.
(** _wrap_chunks, the inner loop: the chunks that fit, given the length so far, and the others. *)
Fixpoint fill (width len : nat) (cs : list text) : list text * list text :=
  match cs with
  | [] => ([], [])
  | c :: r =>
    if (len + length c <=? width)%nat then let '(l, rest) := fill width (len + length c) r in (c :: l, rest)
    else ([], cs)
  end.
Definition drop_last_blank (l : list text) : list text :=
  match rev l with c :: r => if nonblank c then l else rev r | [] => l end.
(** _wrap_chunks, the outer loop. [started]: some line has been made. A width less than the indent's is like 0, as no
    chunk is empty. Each step takes at least one chunk: the fuel is the number of chunks. *)
Fixpoint wrap_chunks (fuel width i1 i2 : nat) (started : bool) (cs : list text) : list text :=
  match fuel, cs with
  | _, [] => []
  | O, _ => []
  | S f, c :: r =>
    let indent := repeat space (if started then i2 else i1) in
    let w := (width - length indent)%nat in
    let '(line, rest) := fill w 0 (if negb (nonblank c) && started then r else cs) in
    let '(line, rest) :=
      match line, rest with
      | [], d :: rs => if (w <? length d)%nat then ([d], rs) else (line, rest)
      | _, _ => (line, rest)
      end in
    match drop_last_blank line with
    | [] => wrap_chunks f width i1 i2 started rest
    | line => (indent ++ concat line) :: wrap_chunks f width i1 i2 true rest
    end
  end.
Definition textwrap (width i1 i2 : nat) (t : text) : hres (list text) :=
  let cs := chunks (munge t) in
  if (width =? 0)%nat then HCrash else HOk (wrap_chunks (length cs) width i1 i2 false cs).

(** ** helpformatter.py:409-436 [Paragraph.wrap], given the number of columns. *)
Fixpoint join_spaces (ls : list text) : text :=
  match ls with [] => [] | [l] => l | l :: r => l ++ space :: join_spaces r end.
Definition trim_lines (t : text) : text := join_spaces (map strip (split_lines t)).
Definition indent_lines (i1 i2 : nat) (ls : list text) : list text :=
  match ls with [] => [] | l :: r => (repeat space i1 ++ l) :: map (fun x => repeat space i2 ++ x) r end.
Definition wrap_paragraph (columns : nat) (f : pformat) (plain : text) : hres text :=
  if wrap f then hbind (textwrap columns (indent1 f) (indent2 f) (trim_lines plain)) (fun ls => HOk (join_lines ls))
  else HOk (join_lines (indent_lines (indent1 f) (indent2 f) (split_lines plain))).

(** ** helpformatter.py:438-471 [Paragraph.format]: what is written, as pieces of text with their colors; the function
    that applies a color to a text is left out. *)
Definition seg : Type := option style * text.

(** The loops at 448-453 and 461-466: the text up to and including the k-th non-whitespace character; None is IndexError. *)
Fixpoint take_nonws (k : nat) (t : text) : option (text * text) :=
  match k, t with
  | O, _ => Some ([], t)
  | S _, [] => None
  | S k', c :: r => match take_nonws (if isspace c then k else k') r with Some (a, b) => Some (c :: a, b) | None => None end
  end.
(** The loop at 455-457. *)
Fixpoint take_ws (t : text) : option (text * text) :=
  match t with
  | [] => None
  | c :: r => if isspace c then match take_ws r with Some (a, b) => Some (c :: a, b) | None => None end else Some ([], t)
  end.
(** [count] is the number of non-whitespace characters before [t]. *)
Fixpoint format_marks (t : text) (count : nat) (marks : list mark) : hres (list seg) :=
  match t, marks with
  | [], _ => HOk []
  | _, [] => HOk [(None, t)]
  | _, m :: ms =>
    match take_nonws (preceding m - count) t with
    | None => HCrash
    | Some (a, t1) =>
      match take_ws t1 with
      | None => HCrash
      | Some (b, t2) =>
        match take_nonws (marked m) t2 with
        | None => HCrash
        | Some (s, t3) => hbind (format_marks t3 (max count (preceding m) + marked m) ms)
                                (fun r => HOk ((None, a) :: (None, b) :: (Some (mstyle m), s) :: r))
        end
      end
    end
  end.

(** A paragraph: its format and its lines (helpformatter.py:365-372). *)
Record para := mkpara { p_format : pformat; p_lines : list text }.
Definition default_format : pformat := mkpf 0 0 true.   (* 363: {p} *)

(** The calls for each paragraph at helpformatter.py:493-496. *)
Definition format_para (columns : nat) (p : para) : hres (list seg) :=
  let t := join_lines (p_lines p) in
  hbind (remove_markup (S (length t)) (mktp [] t) 0 [] []) (fun '(plain, marks) =>
  hbind (wrap_paragraph columns (p_format p) plain) (fun wrapped =>
  format_marks wrapped 0 marks)).

(** ** helpformatter.py:560-572 [find_paragraph_markup]: None when open.at_end(). The loop stops when the pointer is at
    the end; each step moves it. *)
Definition is_pl (t : htok) : bool := match t with TChar c => (lower c =? "p") || (lower c =? "l") | _ => false end.
Fixpoint find_open (fuel : nat) (open : tp) : tp :=
  match fuel with
  | O => open
  | S f => if negb (at_end open) && negb (is_pl (peek open)) then find_open f (advance_past MOpen open) else open
  end.
Definition find_paragraph_markup (p : tp) : hres (option (tp * tp)) :=
  let open := find_open (length (after p)) (advance_past MOpen p) in
  if at_end open then HOk None
  else
    let close := advance_past MClose open in
    if at_end close then HCrash
    else match backup open with Some o => HOk (Some (o, close)) | None => HCrash end.

(** helpformatter.py:513-519: past the whitespace after the markup, up to and including the first newline. *)
Fixpoint skip_loop (fuel : nat) (c : htok) (p : tp) : htok * tp :=
  match fuel with
  | O => (c, p)
  | S f => match c with
           | TChar x => if isspace x && negb (x =? newline) then let '(c', p') := next p in skip_loop f c' p' else (c, p)
           | _ => (c, p)
           end
  end.
Definition skip_markup_line (p : tp) : option tp :=
  let '(c, q) := next p in
  let '(c, q) := skip_loop (length (after p)) c q in
  if htok_eqb c (TChar newline) then Some q else backup q.

(** helpformatter.py:501-520 [find_explicit_paragraph_boundaries]. Each round passes a markup: the fuel is the text left. *)
Inductive block : Type := BText (t : text) | BPara (f : pformat).
Fixpoint find_blocks (fuel : nat) (p : tp) : hres (list block) :=
  match fuel with
  | O => HLoops
  | S f =>
    if at_end p then HOk []
    else hbind (find_paragraph_markup p) (fun oc =>
      match oc with
      | None => HOk [BText (after p)]
      | Some (open, close) =>
        hbind (paragraph_markup (contents_to open close)) (fun fmt =>
        match skip_markup_line close with
        | None => HCrash
        | Some p' =>
          hbind (find_blocks f p') (fun bs =>
          HOk ((if (length (before p) <? length (before open))%nat then [BText (contents_to p open)] else [])
               ++ BPara fmt :: bs))
        end)
      end)
  end.

(** ** helpformatter.py:378-384 [Paragraph.append] and 473-475: None when the line is rejected. *)
Definition normalize (l : text) : text := if nonblank l then l else [].
Definition para_append (p : para) (line : text) : option para :=
  match rev (p_lines p) with
  | [] => Some (mkpara (p_format p) [normalize line])
  | l :: _ => if Bool.eqb (nonblank l) (nonblank line) then Some (mkpara (p_format p) (p_lines p ++ [normalize line])) else None
  end.
(** helpformatter.py:543-551: [done] are the finished paragraphs, [p] is the current one. *)
Fixpoint add_lines (done : list para) (p : para) (ls : list text) : list para * para :=
  match ls with
  | [] => (done, p)
  | l :: r =>
    match para_append p l with
    | Some p' => add_lines done p' r
    | None => add_lines (done ++ [p]) (mkpara default_format [normalize l]) r
    end
  end.
(** helpformatter.py:574-577 and 541-542 *)
Definition block_lines (t : text) : list text :=
  let ls := split_lines t in if nonblank (last ls []) then ls else removelast ls.
(** helpformatter.py:533-551 *)
Fixpoint add_blocks (done : list para) (p : para) (bs : list block) : list para :=
  match bs with
  | [] => done ++ [p]
  | BPara f :: r => add_blocks (done ++ [p]) (mkpara f []) r
  | BText t :: r => let '(done', p') := add_lines done p (block_lines t) in add_blocks done' p' r
  end.
(** helpformatter.py:524-552 *)
Definition make_paragraphs (bs : list block) : list para :=
  match bs with
  | [] => []
  | BPara f :: r => add_blocks [] (mkpara f []) r
  | BText _ :: _ => add_blocks [] (mkpara default_format []) bs
  end.

(** ** helpformatter.py:486-497 [HelpFormatter.format], given the number of columns (554-558). *)
Fixpoint join_segs (l : list (list seg)) : list seg :=
  match l with [] => [] | [s] => s | s :: r => s ++ (None, [newline]) :: join_segs r end.
Definition format_help (columns : nat) (t : text) : hres (list seg) :=
  hbind (find_blocks (S (length t)) (mktp [] t)) (fun bs =>
  hbind (hmap (format_para columns) (make_paragraphs bs)) (fun out => HOk (join_segs out))).
