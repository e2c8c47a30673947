(** The current directory and the directory stack: marcel/directorystate.py, and the operators
    cd, pushd, popd, dirs, pwd (marcel/op/{cd,pushd,popd,dirs,pwd}.py). *)
From Coq Require Export String Bool Lia List.
Export ListNotations.
Local Open Scope string_scope.
Local Open Scope list_scope.

(** Absolute paths. *)
Definition path := string.

(** What the operating system says at a given moment. *)
Record fsys : Type := Fsys {
  f_exists : path -> bool;      (* os.path.exists, Path.exists *)
  f_isdir : path -> bool;       (* Path.is_dir *)
  f_access : path -> bool;      (* os.access X_OK *)
  f_resolve : path -> path      (* Path.resolve: symbolic links followed *)
}.

(** An entry of the stack is a string, or (after dirs --clear) a pathlib.Path. *)
Inductive entry : Type := EStr (p : path) | EPath (p : path).
Definition epath (e : entry) : path := match e with EStr p => p | EPath p => p end.

(** [cwd]: of the process. [pwd], [dirs]: the variables PWD and DIRS; the top of the stack is the last entry. *)
Record dstate : Type := Dstate { cwd : path; pwd : path; dirs : list entry }.

Inductive dout : Type :=
| DOk
| DKill       (* KillCommandException: reported, command abandoned *)
| DCrash.     (* any other exception *)

(** directorystate.py:101-120 [_clean_dir_stack]. When nothing is removed DIRS is left as it is
    (entries keep their type); otherwise all entries become strings. *)
Definition usable (f : fsys) (e : entry) : bool := f_exists f (epath e) && f_access f (epath e).
Definition clean (f : fsys) (s : dstate) : dstate :=
  if forallb (usable f) (dirs s) then s
  else Dstate (cwd s) (pwd s) (map (fun e => EStr (epath e)) (filter (usable f) (dirs s))).

(** dir_stack[-1] = new_dir, or append to the empty stack (directorystate.py:44-47). *)
Definition set_top (l : list entry) (p : path) : list entry := removelast l ++ [EStr p].

(** directorystate.py:50-55: the test on the top, [!=] of a string and a Path being true. *)
Definition top_is_not (l : list entry) (home : path) : bool :=
  match rev l with
  | EPath p :: _ => negb (p =? home)
  | _ => true
  end.

(** The stack push_dir prepares (directorystate.py:61-67). *)
Definition pushed (f : fsys) (l : list entry) (d : option path) : list entry :=
  match d with
  | Some p => l ++ [EStr (f_resolve f p)]
  | None =>
    match rev l with
    | a :: b :: r => rev r ++ [a; b]
    | _ => l
    end
  end.
Definition top (l : list entry) : option entry := match rev l with e :: _ => Some e | [] => None end.

(** [change_current_dir] (directorystate.py:34-55) of an absolute path, [push_dir]
    (57-69). They call each other when a directory does not exist; [fuel] bounds the recursion, as
    Python does. os.chdir fails for what is not an accessible directory: PermissionError and
    FileNotFoundError are turned into KillCommandException by the operators, NotADirectoryError is not. *)
Fixpoint change (fuel : nat) (f : fsys) (home : path) (p : path) (s : dstate) {struct fuel} : dstate * dout :=
  match fuel with
  | 0 => (s, DCrash)
  | S fuel =>
    let s := clean f s in
    let new := f_resolve f p in
    if f_exists f new then
      if f_isdir f new then
        if f_access f new then (Dstate new new (set_top (dirs s) new), DOk)
        else (s, DKill)
      else (s, DCrash)
    else if top_is_not (dirs s) home then
      (* push_dir(home) *)
      let s := clean f s in
      let stack := pushed f (dirs s) (Some home) in
      let '(s', o) := change fuel f home (f_resolve f home) s in
      match o with
      | DOk => (Dstate (cwd s') (pwd s') stack, DOk)
      | _ => (s', o)
      end
    else (s, DOk)
  end.
Definition recursion_limit : nat := 500.  (* about 1000 Python frames *)
Definition change_current_dir (f : fsys) (home p : path) (s : dstate) : dstate * dout := change recursion_limit f home p s.

(** directorystate.py:57-69. DIRS is assigned the prepared stack whatever change_current_dir did with the old one. *)
Definition push_dir (f : fsys) (home : path) (d : option path) (s : dstate) : dstate * dout :=
  let s := clean f s in
  let stack := pushed f (dirs s) d in
  match top stack with
  | None => (s, DCrash)  (* dir_stack[-1] of the empty list *)
  | Some t =>
    let '(s', o) := change_current_dir f home (epath t) s in
    match o with
    | DOk => (Dstate (cwd s') (pwd s') stack, DOk)
    | _ => (s', o)
    end
  end.

(** directorystate.py:71-76. (The stack popped is the one change_current_dir updated: entries that
    survived the cleaning are not removed by the next one, and exist.) *)
Definition pop_dir (f : fsys) (home : path) (s : dstate) : dstate * dout :=
  let s := clean f s in
  match rev (dirs s) with
  | _ :: b :: _ =>
    let '(s', o) := change_current_dir f home (epath b) s in
    match o with
    | DOk => (Dstate (cwd s') (pwd s') (removelast (dirs s')), DOk)
    | _ => (s', o)
    end
  | _ => (s, DOk)
  end.

(** directorystate.py:78-81 *)
Definition reset_dir_stack (s : dstate) : dstate := Dstate (cwd s) (pwd s) [EPath (pwd s)].

(** The commands. The argument of cd and pushd is what marcel.op.filenames.Filenames.normalize returns for
    it: the list of the paths matching. *)
Inductive dcmd : Type :=
| CCd (ps : list path)
| CPushd (d : option (list path))
| CPopd
| CDirs (clear : bool)
| CPwd.

(** The state after a command, what it outputs, and how it ended. Filenames (op/filenames.py:40) cleans the stack. *)
Definition show (f : fsys) (r : dstate * dout) : dstate * list path * dout :=
  let '(s, o) := r in
  match o with
  | DOk => let s := clean f s in (s, rev (map epath (dirs s)), DOk)
  | _ => (s, [], o)
  end.
Definition run_cmd (f : fsys) (home : path) (c : dcmd) (s : dstate) : dstate * list path * dout :=
  match c with
  | CCd [p] => (* op/cd.py:58-80 *)
    let s := clean f s in
    if f_isdir f p then let '(s, o) := change_current_dir f home p s in (s, [], o) else (s, [], DKill)
  | CCd _ => (clean f s, [], DKill)
  | CPushd None => show f (push_dir f home None s)          (* op/pushd.py:61-86 *)
  | CPushd (Some [p]) => show f (push_dir f home (Some p) (clean f s))
  | CPushd (Some _) => (clean f s, [], DKill)
  | CPopd => show f (pop_dir f home s)                       (* op/popd.py:50-58 *)
  | CDirs clear => show f (if clear then reset_dir_stack s else s, DOk)   (* op/dirs.py:54-58 *)
  | CPwd => let s := clean f s in (s, [pwd s], DOk)         (* op/pwd.py:49-50 *)
  end.

(** A session: commands, each with the file system found at that moment. *)
Fixpoint session (home : path) (cs : list (fsys * dcmd)) (s : dstate) : dstate :=
  match cs with
  | [] => s
  | (f, c) :: r => session home r (fst (fst (run_cmd f home c s)))
  end.
(** env.py:133-143: at startup. *)
Definition startup (d : path) : dstate := Dstate d d [EStr d].
