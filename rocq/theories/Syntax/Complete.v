(* Tab completion of filenames: marcel/tabcompleter.py:33-35 (NEEDS_ESCAPE), 43-59 (Quote), 198-237 (ArgHandler), 289-371 (FilenameHandler).

   The line up to the cursor ends with the word w being typed; [token] is what the lexer makes of it (parser.py:1022-1023,
   1217-1218): the characters collected by String.scan, or nothing after a blank.  prompt_toolkit replaces the last
   -start_position characters before the cursor by the text of the completion.

   Simplifications: characters have 8 bits; the directory can be read and does not change; completion of
   user names, flags, operators and help topics is left out. *)
From Coq Require Import Ascii String List Bool Arith.
From Verif.Syntax Require Import Lexer.
From Verif.Sys Require Import Glob.
Import ListNotations.
Local Open Scope char_scope.
Local Open Scope list_scope.

(* 33-34: string.whitespace and the others *)
Definition needs_escape (c : ascii) : bool :=
  existsb (Ascii.eqb c) [" "; "009"; "010"; "013"; "011"; "012"] ||
  existsb (Ascii.eqb c) ["$"; "!"; dquote; "&"; squote; "("; ")"; "*"; ":"; ";"; "<"; ">"; "?"; "@"; "["; bslash; "`"; "{"; "|"].

(* 48-50 *)
Definition split_leading_quote (t : text) : option ascii * text :=
  match t with c :: r => if is_quote c then (Some c, r) else (None, t) | [] => (None, t) end.

(* str.rindex('/'): what is before the last slash, and after it *)
Fixpoint rsplit (t : text) : option (text * text) :=
  match t with
  | [] => None
  | c :: r =>
      match rsplit r with
      | Some (a, b) => Some (c :: a, b)
      | None => if c =? SLASH then Some ([], r) else None
      end
  end.

(* FilenameHandler.__init__, 291-311: quote, basedir, prefix and the unquoted token *)
Record handler := mkhandler { h_quote : option ascii; h_basedir : option text; h_prefix : text; h_unquoted : text }.
Definition filename_handler (token : text) : handler :=
  let '(q, u) := split_leading_quote token in
  match rsplit u with
  | Some ([], b) => mkhandler q (Some [SLASH]) b u
  | Some (a, b) => mkhandler q (Some a) b u
  | None => mkhandler q None u u
  end.

(* pathlib.Path(t).expanduser(), made absolute by the system: the components *)
Definition path_comps (t : text) : list text := filter (fun c => negb (text_eqb c [] || text_eqb c DOT)) (split_slash t).
Definition os_path (s : fsys) (cwd : path) (expand : bool) (t : text) : option path :=
  if starts [SLASH] t then Some (path_comps t)
  else match path_comps t with
       | (c :: user) :: cs =>
           if expand && (c =? TILDE) then match home s user with Some h => Some (h ++ cs) | None => None end
           else Some (cwd ++ (c :: user) :: cs)
       | cs => Some (cwd ++ cs)
       end.

(* sorted() of a list of strings *)
Fixpoint text_leb (a b : text) : bool :=
  match a, b with
  | [], _ => true
  | _ :: _, [] => false
  | x :: a, y :: b => if x =? y then text_leb a b else (nat_of_ascii x <=? nat_of_ascii y)%nat
  end.
Fixpoint insert (x : text) (l : list text) : list text :=
  match l with [] => [x] | y :: l' => if text_leb x y then x :: l else y :: insert x l' end.
Fixpoint sorted (l : list text) : list text := match l with [] => [] | x :: l => insert x (sorted l) end.

(* complete_arg, 313-321, and elements_matching_prefix, 217-218.  resolve_escapes (220-233) and util.unescape do the same. *)
Definition candidates (s : fsys) (cwd : path) (h : handler) : list text :=
  let expand := match h_quote h with Some q => negb (q =? dquote) | None => true end in
  let dir := match h_basedir h with
             | None => Some cwd
             | Some b => match unesc b with [] => Some cwd | u => os_path s cwd expand u end
             end in
  match dir with
  | Some d => sorted (filter (starts (unesc (h_prefix h))) (listdir s d))
  | None => []
  end.

(* compute_token_escaping, 359-365 *)
Definition last_char_replacement (u : text) : option text :=
  match rev u with
  | [] => None
  | c :: r => if needs_escape c then
                match r with
                | d :: _ => if d =? bslash then None else Some [bslash; c]
                | [] => Some [bslash; c]
                end
              else None
  end.
(* 344-354: the suffix *)
Fixpoint escape (t : text) : text :=
  match t with [] => [] | c :: r => if needs_escape c then bslash :: c :: escape r else c :: escape r end.

(* completion_text, 340-352, for the file [name]: how many characters before the cursor go, and what comes.  The test of
   is_dir is made on the directory as it was typed. *)
Definition ends_with (s : fsys) (cwd : path) (h : handler) (name : text) : text :=
  let p := match h_basedir h with None => name | Some b => if text_eqb b [SLASH] then SLASH :: name else b ++ SLASH :: name end in
  match os_path s cwd true p with
  | Some d => if is_dir s d then [SLASH] else match h_quote h with Some q => [q; " "] | None => [" "] end
  | None => []
  end.
Definition completion_text (h : handler) (name : text) : nat * text :=
  let suffix := skipn (length (unesc (h_prefix h))) name in
  match h_quote h with
  | None =>
      match last_char_replacement (h_unquoted h) with
      | Some r => (1, r ++ escape suffix)
      | None => (0, escape suffix)
      end
  | Some _ => (0, suffix)
  end.

(* The word on the line after the completion with [name], without and with what is appended *)
Definition completed (w token name : text) : text :=
  let '(n, t) := completion_text (filename_handler token) name in firstn (length w - n) w ++ t.
Definition completed_line (s : fsys) (cwd : path) (w token name : text) : text :=
  completed w token name ++ ends_with s cwd (filename_handler token) name.
