(** The prompt: marcel/env.py:284-337 [EnvironmentInteractive.prompt, prompt_string], marcel/util.py:145-154 [colorize] (C72).
    Model only; see PromptSpec.v.

    Simplifications: a directory is the list of the parts of its absolute path; PROMPT is a string or a list, or cannot be iterated. *)
From Verif.Sys Require Export FileLine.
Local Open Scope list_scope.

Definition dir := list text.
Definition slash : text := tx "/".
(** str of an absolute path *)
Definition posix (d : dir) : text := slash ++ join slash d.

Definition text_eqb (a b : text) : bool := if list_eq_dec ascii_dec a b then true else false.
(** str.startswith *)
Fixpoint starts_with (p s : text) : bool :=
  match p, s with
  | [], _ => true
  | a :: p, b :: s => Ascii.eqb a b && starts_with p s
  | _, [] => false
  end.
(** pathlib's relative_to; None: ValueError *)
Fixpoint relative_path (d base : dir) {struct base} : option dir :=
  match base, d with
  | [], _ => Some d
  | a :: base, b :: d => if text_eqb a b then relative_path d base else None
  | _, [] => None
  end.

(** env.py:285-304 [prompt_dir]; [workspace]: None: the default workspace; Some h: a workspace, and its home if it has one *)
Definition prompt_dir (home : dir) (workspace : option (option dir)) (pwd : dir) : text :=
  match workspace with
  | None => if starts_with (posix home) (posix pwd) then tx "~" ++ skipn (length (posix home)) (posix pwd) else posix pwd
  | Some None => posix pwd
  | Some (Some h) =>
      match relative_path pwd h with
      | Some [] => []                 (* relative_to gives '.' *)
      | Some r => join slash r
      | None => posix pwd
      end
  end.

(** What a function in the prompt does *)
Inductive result : Type :=
  | Returns_text (t : text)
  | Returns_color (c : color) (repr : text)   (* an object like any other; [repr]: its str() *)
  | Returns_object (truthy : bool) (str : text)
  | Raises                                    (* an Exception *)
  | Kills.                                    (* a BaseException *)
Inductive piece : Type := Colored (c : color) | Words (t : text) | Calls (r : result) | Other.
(** PROMPT *)
Inductive prompt_value : Type := Pieces (l : list piece) | Not_iterable.

Inductive outcome : Type :=
  | Prompt (t : text)
  | Default        (* the error is printed, and the default prompt used: 334-337 *)
  | Dies.          (* an exception that nothing catches on the way to main.py:391 *)

(** env.py:314-332: the loop; [None]: nothing to append *)
Definition shown (x : piece) : option text + outcome :=
  match x with
  | Colored _ => inl None
  | Words [] | Calls (Returns_text []) => inl None
  | Words t | Calls (Returns_text t) => inl (Some t)
  | Calls (Returns_color _ r) => inl (Some r)
  | Calls (Returns_object true s) => inl (Some s)
  | Calls (Returns_object false _) => inl None
  | Calls Raises => inr Default
  | Calls Kills => inr Dies
  | Other => inr Dies            (* KillShellException, 329: not an Exception *)
  end.
Fixpoint pieces (c : option color) (l : list piece) (buffer : text) : outcome :=
  match l with
  | [] => Prompt buffer
  | x :: l =>
      let c := match x with Colored c => Some c | _ => c end in
      match shown x with
      | inl None => pieces c l buffer
      | inl (Some t) => pieces c l (buffer ++ colorize t c)
      | inr o => o
      end
  end.
Definition prompt_string (p : prompt_value) : outcome := match p with Pieces l => pieces None l [] | Not_iterable => Default end.

(** env.py:306-308: [fixed]: PROMPT_DIR cannot be changed, because the startup script defines it; [P]: PROMPT, given PROMPT_DIR *)
Definition prompt (home : dir) (workspace : option (option dir)) (pwd : dir) (fixed : bool) (P : text -> prompt_value) : outcome :=
  if fixed then Dies else prompt_string (P (prompt_dir home workspace pwd)).
