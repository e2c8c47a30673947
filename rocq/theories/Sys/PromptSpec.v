(** What the prompt shows (help prompt, help color). *)
From Verif.Sys Require Export Prompt.
From Coq Require Import DecimalString.
Local Open Scope list_scope.

(** ** A terminal: what it shows, character by character, and how *)
Record style := mkstyle { s_color : option N; s_bold : bool; s_italic : bool }.
Definition normal : style := mkstyle None false false.
Definition number (t : text) : option N := option_map N.of_uint (NilZero.uint_of_string (string_of_list_ascii t)).
(** ESC [ parameters m: ECMA-48, SGR *)
Definition select_graphic (p : text) (s : style) : style :=
  if list_eq_dec ascii_dec p (tx "0") then normal
  else if list_eq_dec ascii_dec p (tx "1") then mkstyle (s_color s) true (s_italic s)
  else if list_eq_dec ascii_dec p (tx "3") then mkstyle (s_color s) (s_bold s) true
  else if list_eq_dec ascii_dec (firstn 5 p) (tx "38;5;") then mkstyle (number (skipn 5 p)) (s_bold s) (s_italic s)
  else s.
Inductive mode : Type := Reading | Escape | Parameters (read : text).
Fixpoint terminal (m : mode) (st : style) (s : text) : list (ascii * style) :=
  match s with
  | [] => []
  | c :: s =>
      match m with
      | Reading => if Ascii.eqb c ESC then terminal Escape st s else (c, st) :: terminal Reading st s
      | Escape => if Ascii.eqb c "["%char then terminal (Parameters []) st s else terminal Reading st s
      | Parameters p => if Ascii.eqb c "m"%char then terminal Reading (select_graphic p st) s else terminal (Parameters (p ++ [c])) st s
      end
  end.

(** ** The prompt: a color is in effect for all following strings, until a different one is specified. Functions evaluate to colors or strings. *)
Definition style_of (c : option color) : style := match c with Some c => mkstyle (Some (code c)) (bold c) (italic c) | None => normal end.
Definition in_style (c : option color) (t : text) : list (ascii * style) := map (fun a => (a, style_of c)) t.
Inductive displays : option color -> list piece -> list (ascii * style) -> Prop :=
  | D_end c : displays c [] []
  | D_color c c' l r : displays (Some c') l r -> displays c (Colored c' :: l) r
  | D_text c t l r : displays c l r -> displays c (Words t :: l) (in_style c t ++ r)
  | D_function_text c t l r : displays c l r -> displays c (Calls (Returns_text t) :: l) (in_style c t ++ r)
  | D_function_color c c' repr l r : displays (Some c') l r -> displays c (Calls (Returns_color c' repr) :: l) r.

(** ** The directory that a text of the prompt designates *)
Definition part (p : text) : Prop := p <> [] /\ ~ In "/"%char p.
(** Outside of named workspaces: ~ is the home directory *)
Inductive designates (home : dir) : text -> dir -> Prop :=
  | In_full d : designates home (posix d) d
  | At_home : designates home (tx "~") home
  | Below_home r : r <> [] -> designates home (tx "~/" ++ join slash r) (home ++ r).
(** In a workspace with a home, a path is relative to it, and nothing is the home itself *)
Inductive designates_ws (h : dir) : text -> dir -> Prop :=
  | Ws_full d : designates_ws h (posix d) d
  | Ws_home : designates_ws h [] h
  | Ws_below r : r <> [] -> designates_ws h (join slash r) (h ++ r).
