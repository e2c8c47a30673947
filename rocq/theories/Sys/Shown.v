(** What write shows of marcel's objects, and in which colors: object/color.py, util.py:145-154 [colorize], 163-168 [print_to_stderr],
    write.py:263-286 [DefaultWriter], process.py:70-89, historyrecord.py:49-55, error.py:32-41, workspace.py:221-227 (C85).
    Model only; see ShownSpec.v. Files are in FileLine.v (C67), the prompt in Prompt.v (C72). *)
From Verif.Sys Require Export FileLine.
From Coq Require Import ZArith.
Local Open Scope list_scope.

(** Python raises (AttributeError, TypeError, ColorSchemeError): Fails *)
Inductive result (A : Type) : Type := Fine (a : A) | Fails.
Arguments Fine {A}. Arguments Fails {A}.
Definition bind {A B} (r : result A) (f : A -> result B) : result B := match r with Fine a => f a | Fails => Fails end.

(** ** object/color.py:22-52 [Color] *)
Record rgb := mkrgb { red : Z; green : Z; blue : Z; style_bits : Z }.
Definition PLAIN : Z := 0. Definition BOLD : Z := 1. Definition ITALIC : Z := 2.
(** color.py:28-36 [__init__]: the color, and whether it was called bad on stderr *)
Definition new_color (r g b s : Z) : rgb * bool :=
  (mkrgb r g b s,
   ((Z.min r (Z.min g b) <? 0) || (Z.max r (Z.max g b) >? 5) || (s <? 0) || (s >? Z.lor BOLD ITALIC))%Z).
(** color.py:36 *)
Definition color_code (c : rgb) : Z := (16 + red c * 36 + green c * 6 + blue c)%Z.
(** color.py:47-51 [bold], [italic] *)
Definition is_bold (c : rgb) : bool := negb (Z.land (style_bits c) BOLD =? 0)%Z.
Definition is_italic (c : rgb) : bool := negb (Z.land (style_bits c) ITALIC =? 0)%Z.
(** str of an int *)
Definition int_text (z : Z) : text := match z with Zneg p => tx "-" ++ decimal (Npos p) | _ => decimal (Z.to_N z) end.
(** color.py:38-45 [__repr__] *)
Definition color_repr (c : rgb) : text :=
  let style := match is_bold c, is_italic c with
               | true, true => tx ", BOLD | ITALIC" | true, false => tx ", BOLD" | false, true => tx ", ITALIC" | false, false => []
               end in
  tx "Color(" ++ int_text (red c) ++ tx ", " ++ int_text (green c) ++ tx ", " ++ int_text (blue c) ++ style ++ tx ")".
(** util.py:145-154 [colorize], for a Color *)
Definition paint (s : text) (c : rgb) : text :=
  let style := match is_bold c, is_italic c with
               | true, true => ESC :: tx "[1m" ++ ESC :: tx "[3m"
               | true, false => ESC :: tx "[1m"
               | false, true => ESC :: tx "[3m"
               | false, false => ESC :: tx "[0m"
               end in
  style ++ ESC :: tx "[38;5;" ++ int_text (color_code c) ++ tx "m" ++ s ++ ESC :: tx "[0m".

(** ** color.py:61-115 [ColorScheme]
    Simplification: the keys of a dict are strings. *)
Inductive value : Type := Nothing | AColor (c : rgb) | ADict (l : list (text * value)) | Another (str : text).
Definition scheme := text -> value.
(** color.py:63-84, sorted *)
Definition KEYS : list text :=
  map tx ["color_scheme_key"; "color_scheme_value"; "error"; "file_dir"; "file_executable"; "file_extension"; "file_file"; "file_link";
          "file_link_broken"; "help_bold"; "help_italic"; "help_name"; "help_reference"; "history_command"; "history_id"; "process_command";
          "process_pid"; "process_ppid"; "process_status"; "process_user"]%string.
Definition same (a b : text) : bool := if list_eq_dec ascii_dec a b then true else false.
(** color.py:86-88 [__init__] *)
Definition new_scheme : scheme := fun _ => Nothing.
Definition is_color (v : value) : bool := match v with AColor _ => true | _ => false end.
Definition update (sc : scheme) (key : text) (v : value) : scheme := fun k => if same k key then v else sc k.
(** color.py:96-107 [__setattr__] *)
Definition set_attribute (sc : scheme) (key : text) (v : value) : result scheme :=
  if existsb (same key) KEYS then
    match v with
    | Another _ => Fails
    | ADict l => if forallb (fun p => is_color (snd p)) l then Fine (update sc key v) else Fails
    | _ => Fine (update sc key v)
    end
  else Fails.
(** color.py:113-115 [set_extension_color]: d[ext] = value *)
Fixpoint put (l : list (text * value)) (ext : text) (v : value) : list (text * value) :=
  match l with
  | [] => [(ext, v)]
  | (e, w) :: l => if same e ext then (e, v) :: l else (e, w) :: put l ext v
  end.
Definition set_extension_color (sc : scheme) (ext : text) (v : value) : result scheme :=
  match sc (tx "file_extension") with
  | ADict l => Fine (update sc (tx "file_extension") (ADict (put l ext v)))
  | _ => Fails
  end.

(** util.py:145-154 [colorize], for what an attribute of a scheme can be: None leaves the text alone; what is no Color has no bold *)
Definition colorize (s : text) (v : value) : result text :=
  match v with Nothing => Fine s | AColor c => Fine (paint s c) | ADict _ | Another _ => Fails end.

(** str() of a value in an attribute; a dict is shown entry by entry *)
Definition value_text (v : value) : text :=
  match v with Nothing => tx "None" | AColor c => color_repr c | ADict _ => [] | Another t => t end.
(** sorted, of strings: stable insertion *)
Fixpoint text_le (a b : text) : bool :=
  match a, b with
  | [], _ => true
  | _ :: _, [] => false
  | x :: a, y :: b => if Ascii.eqb x y then text_le a b else Nat.leb (nat_of_ascii x) (nat_of_ascii y)
  end.
Fixpoint insert (p : text * value) (l : list (text * value)) : list (text * value) :=
  match l with
  | [] => [p]
  | q :: l => if text_le (fst p) (fst q) then p :: q :: l else q :: insert p l
  end.
Definition sorted_entries (l : list (text * value)) : list (text * value) := fold_right insert [] l.
Definition LF : ascii := "010"%char.
(** color.py:117-138 [render_full]; [cs] is the scheme to show the scheme with *)
Fixpoint entry_lines (cs : scheme) (l : list (text * value)) : result (list text) :=
  match l with
  | [] => Fine []
  | (k, v) :: l =>
      bind (colorize k (cs (tx "color_scheme_key"))) (fun k =>
      bind (colorize (value_text v) (cs (tx "color_scheme_value"))) (fun v =>
      bind (entry_lines cs l) (fun r =>
      Fine ((tx "        " ++ k ++ tx ": " ++ v ++ match l with [] => [] | _ => tx "," end) :: r))))
  end.
Fixpoint attribute_lines (cs shown : scheme) (keys : list text) : result (list text) :=
  match keys with
  | [] => Fine []
  | k :: keys =>
      let comma := match keys with [] => [] | _ => tx "," end in
      bind (colorize k (cs (tx "color_scheme_key"))) (fun key =>
      bind (match shown k with
            | ADict l => bind (entry_lines cs (sorted_entries l)) (fun e =>
                         Fine ((tx "    " ++ key ++ tx ": {") :: e ++ [tx "    }" ++ comma]))
            | v => bind (colorize (value_text v) (cs (tx "color_scheme_value"))) (fun v =>
                   Fine [tx "    " ++ key ++ tx ": " ++ v ++ comma])
            end) (fun lines =>
      bind (attribute_lines cs shown keys) (fun r => Fine (lines ++ r))))
  end.
Definition scheme_text (cs shown : scheme) : result text :=
  bind (attribute_lines cs shown KEYS) (fun lines => Fine (tx "{" ++ LF :: join [LF] lines ++ LF :: tx "}")).

(** ** The objects that write is given, alone in a tuple *)
Inductive thing : Type :=
  | AProcess (pid ppid : N) (user status : option text) (cmdline : option (list text))   (* None: psutil was not allowed to see it *)
  | ARecord (id : N) (command : text)
  | AnError (label : option text) (message : text)
  | AWorkspace (name : text) (home : option text)
  | AScheme (sc : scheme)
  | ASimple (str : text).                                                              (* not Renderable: print shows its str() *)
Definition left_aligned (width : nat) (s : text) : text := s ++ repeat blank (width - length s).
(** '{:8s}'.format(None) is a TypeError *)
Definition string_field (width : nat) (s : option text) : result text := match s with Some s => Fine (left_aligned width s) | None => Fails end.
(** process.py:59-60 *)
Definition command_of (cmdline : option (list text)) : text := match cmdline with None => [] | Some l => join (tx " ") l end.
(** [if color_scheme: x = colorize(x, color_scheme.key)] *)
Definition optionally (s : text) (cs : option scheme) (key : text) : result text :=
  match cs with None => Fine s | Some cs => colorize s (cs key) end.
(** process.py:70-89 *)
Definition process_text (cs : option scheme) (pid ppid : N) (user status : option text) (cmdline : option (list text)) : result text :=
  bind (string_field 8 user) (fun user =>
  bind (string_field 10 status) (fun status =>
  bind (optionally (right_aligned 6 (decimal pid)) cs (tx "process_pid")) (fun pid =>
  bind (optionally (right_aligned 6 (decimal ppid)) cs (tx "process_ppid")) (fun ppid =>
  bind (optionally user cs (tx "process_user")) (fun user =>
  bind (optionally status cs (tx "process_status")) (fun status =>
  bind (optionally (command_of cmdline) cs (tx "process_command")) (fun command =>
  Fine (join (tx "  ") [pid; ppid; user; status; command])))))))).
(** historyrecord.py:49-55: None has no attribute history_id *)
Definition record_text (cs : option scheme) (id : N) (command : text) : result text :=
  match cs with
  | None => Fails
  | Some cs =>
      bind (colorize (decimal id) (cs (tx "history_id"))) (fun id =>
      bind (colorize command (cs (tx "history_command"))) (fun command =>
      Fine (tx "  " ++ id ++ tx ":  " ++ command)))
  end.
(** error.py:32-41 *)
Definition error_text (label : option text) (message : text) : text :=
  match label with None => tx "Error: " ++ message | Some l => tx "Error(" ++ l ++ tx "): " ++ message end.
(** workspace.py:221-227 *)
Definition workspace_text (name : text) (home : option text) : text :=
  match home with None => tx "Workspace(" ++ name ++ tx ")" | Some h => tx "Workspace(" ++ name ++ tx " @ " ++ h ++ tx ")" end.
(** render_full, or what print makes of the value *)
Definition render (cs : option scheme) (x : thing) : result text :=
  match x with
  | AProcess pid ppid user status cmdline => process_text cs pid ppid user status cmdline
  | ARecord id command => record_text cs id command
  | AnError label message => optionally (error_text label message) cs (tx "error")
  | AWorkspace name home => Fine (workspace_text name home)
  | AScheme sc => match cs with None => Fails | Some cs => scheme_text cs sc end
  | ASimple t => Fine t
  end.

(** write.py:263-286 [DefaultWriter]: the scheme is used if the output is sys.__stdout__. A line is printed; what raises (write.py:150-153)
    prints nothing. *)
Inductive destination : Type := Stdout | AFile.
Definition scheme_for (d : destination) (cs : scheme) : option scheme := match d with Stdout => Some cs | AFile => None end.
Definition written (d : destination) (cs : scheme) (l : list thing) : text :=
  flat_map (fun x => match render (scheme_for d cs) x with Fine t => t ++ [LF] | Fails => [] end) l.

(** util.py:163-168 [print_to_stderr] *)
Definition print_to_stderr (cs : option scheme) (message : text) : result text :=
  bind (optionally message cs (tx "error")) (fun m => Fine (m ++ [LF])).

(** persistence/defaultinitialconfig.py:15-39: what a new configuration sets, apart from the extensions *)
Definition set_all (sc : scheme) (l : list (string * value)) : result scheme :=
  fold_left (fun r p => bind r (fun sc => set_attribute sc (tx (fst p)) (snd p))) l (Fine sc).
