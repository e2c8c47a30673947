(** What is shown of marcel's objects, and in which colors (help color, help object, help process, help history). *)
From Verif.Sys Require Export PromptSpec Shown.
From Coq Require Import ZArith.
Local Open Scope list_scope.

(** ** Colors: RGB values in the range 0-5, a 6x6x6 cube; bold, italic or both *)
Definition valid (c : rgb) : Prop :=
  (0 <= red c <= 5 /\ 0 <= green c <= 5 /\ 0 <= blue c <= 5 /\ 0 <= style_bits c <= 3)%Z.
(** The colors 16-231 of a terminal with 256 colors are the cube *)
Definition cube (n : N) : option (Z * Z * Z) :=
  if (N.leb 16 n && N.leb n 231)%bool then
    let m := (Z.of_N n - 16)%Z in Some (m / 36, (m / 6) mod 6, m mod 6)%Z
  else None.
(** How a character looks: its place in the cube (None: the terminal's own color), bold, italic *)
Definition look : Type := option (Z * Z * Z) * bool * bool.
Definition ordinary : look := (None, false, false).
Definition seen (st : style) : look := (match s_color st with Some n => cube n | None => None end, s_bold st, s_italic st).
Definition on_screen (t : text) : list (ascii * look) := map (fun p => (fst p, seen (snd p))) (terminal Reading normal t).
(** BOLD = 1, ITALIC = 2, BOLD | ITALIC = 3 *)
Definition look_of (v : value) : look :=
  match v with
  | AColor c => (Some (red c, green c, blue c), Z.eqb (style_bits c) 1 || Z.eqb (style_bits c) 3, Z.eqb (style_bits c) 2 || Z.eqb (style_bits c) 3)
  | _ => ordinary
  end.

(** ** Texts with the names of their colors in the scheme (None: no color) *)
Definition span : Type := text * option string.
Definition span_look (cs : scheme) (s : span) : look := match snd s with Some k => look_of (cs (tx k)) | None => ordinary end.
Definition in_colors (cs : scheme) (l : list span) : list (ascii * look) := flat_map (fun s => map (fun a => (a, span_look cs s)) (fst s)) l.
Definition letters (l : list span) : text := flat_map fst l.

Definition gap : span := (tx "  ", None).
Definition newline : span := ([LF], None).
Definition comma_unless (last : bool) : span := (if last then [] else tx ",", None).
Definition value_span (v : value) : span := (value_text v, Some "color_scheme_value"%string).
Definition name_span (k : text) : span := (k, Some "color_scheme_key"%string).
Fixpoint entry_spans (l : list (text * value)) : list span :=
  match l with
  | [] => []
  | (k, v) :: r => (tx "        ", None) :: name_span k :: (tx ": ", None) :: value_span v
                   :: comma_unless (match r with [] => true | _ => false end) :: newline :: entry_spans r
  end.
Fixpoint attribute_spans (sc : scheme) (keys : list text) : list span :=
  match keys with
  | [] => []
  | k :: r =>
      let comma := comma_unless (match r with [] => true | _ => false end) in
      (tx "    ", None) :: name_span k :: (tx ": ", None) ::
      match sc k with
      | ADict l => (tx "{", None) :: newline :: entry_spans (sorted_entries l) ++ [(tx "    }", None); comma; newline]
      | v => [value_span v; comma; newline]
      end ++ attribute_spans sc r
  end.
(** A process is shown with pid and parent right-aligned in 6 columns, user and status left-aligned in 8 and 10, and its command *)
Definition spans (x : thing) : list span :=
  match x with
  | AProcess pid ppid user status cmdline =>
      let filled n t := repeat " "%char (n - length t) in
      let u := match user with Some u => u | None => [] end in
      let s := match status with Some s => s | None => [] end in
      [(filled 6 (decimal pid) ++ decimal pid, Some "process_pid"%string); gap; (filled 6 (decimal ppid) ++ decimal ppid, Some "process_ppid"%string); gap;
       (u ++ filled 8 u, Some "process_user"%string); gap; (s ++ filled 10 s, Some "process_status"%string); gap;
       (match cmdline with None => [] | Some l => join [" "%char] l end, Some "process_command"%string)]
  | ARecord id command => [gap; (decimal id, Some "history_id"%string); (tx ":  ", None); (command, Some "history_command"%string)]
  | AnError None message => [(tx "Error: " ++ message, Some "error"%string)]
  | AnError (Some l) message => [(tx "Error(" ++ l ++ tx "): " ++ message, Some "error"%string)]
  | AWorkspace name None => [(tx "Workspace(" ++ name ++ tx ")", None)]
  | AWorkspace name (Some h) => [(tx "Workspace(" ++ name ++ tx " @ " ++ h ++ tx ")", None)]
  | AScheme sc => (tx "{", None) :: newline :: attribute_spans sc KEYS ++ [(tx "}", None)]
  | ASimple t => [(t, None)]
  end.

(** psutil was allowed to see the user and the status *)
Definition visible (x : thing) : Prop :=
  match x with AProcess _ _ user status _ => user <> None /\ status <> None | _ => True end.
(** No text contains an escape character *)
Definition printable (x : thing) : Prop := Forall (fun s => ~ In ESC (fst s)) (spans x).
(** All attributes that texts are colored with are colors, or nothing *)
Definition colors_only (cs : scheme) : Prop :=
  forall k, k <> tx "file_extension" -> match cs k with Nothing => True | AColor c => valid c | _ => False end.

(** These are the values the documentation allows *)
Definition assignable (v : value) : Prop :=
  match v with
  | Nothing | AColor _ => True
  | ADict l => Forall (fun p => exists c, snd p = AColor c) l
  | Another _ => False
  end.
