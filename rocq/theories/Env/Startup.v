(** Startup of a session: marcel/builtin.py, marcel/env.py:126-159,249-268,272-273 (initial_namespace, create, never_mutable),
    marcel/configscript.py:23-60, marcel/object/workspace.py:242-258 (open), marcel/main.py:162-169 (run_startup_scripts) (C71).
    Model only; see StartupSpec.v.

    Simplifications: a startup script is a list of the statements below, without control structures; a function it defines reads global names
    and returns them; a function of marcel.builtin other than set_prompt and run_on_startup has no effect, and its result is determined by its
    arguments; attributes (COLOR_SCHEME.x = ...) and Python's own builtins are left out. *)
From Coq Require Export String List Bool Arith Lia.
Export ListNotations.
Local Open Scope string_scope.
Local Open Scope list_scope.

Inductive value : Type :=
  | Object (n : nat)                    (* any object that the script can write down *)
  | Text (s : string)
  | Initial (x : string)                (* what env.py:139-154 computes for x *)
  | Builtin (x : string)                (* what builtin.py defines as x *)
  | Startup_list                        (* THE list object builtin.STARTUP_SCRIPTS, whatever it holds *)
  | Function (reads : list string)      (* def f(): return (x, y, ...) *)
  | Tuple (l : list value)
  | Made (f : string) (args : list value)  (* the result of a function of builtin.py *)
  | Nothing.                            (* None *)

(** The module marcel.builtin, as far as it changes *)
Record module := mkmodule { m_prompt : value; m_scripts : list value }.
(** builtin.py:32-33: as loaded by the process *)
Definition loaded : module := mkmodule (Text "$ ") [].

(** builtin.__dict__, in the order of builtin.py:16-75 *)
Definition builtin_dict (m : module) : list (string * value) :=
  map (fun x => (x, Builtin x)) ["__name__"; "__doc__"; "__file__"; "__builtins__";
     "datetime"; "now"; "Color"; "Cluster"; "Database"; "File"; "Process"; "anon"; "flag"; "boolean_flag"; "int_flag";
     "username"; "groupname"; "quote_files"; "_JSONUtil"; "_JSON_UTIL"]
  ++ [("STARTUP_SCRIPTS", Startup_list); ("PROMPT", m_prompt m)]
  ++ map (fun x => (x, Builtin x)) ["minutes"; "hours"; "days"; "cluster"; "epoch"; "database"; "json_parse"; "json_format";
     "run_on_startup"; "set_prompt"].
Definition private (x : string) : bool := String.prefix "_" x.

Definition names := string -> option value.
Definition no_names : names := fun _ => None.
Definition put (x : string) (v : value) (n : names) : names := fun y => if String.eqb y x then Some v else n y.
Definition put_all (l : list (string * value)) (n : names) : names := fold_left (fun n xv => put (fst xv) (snd xv) n) l n.

(** env.py:139-154 *)
Definition initial : list (string * value) :=
  map (fun x => (x, Initial x)) ["MARCEL_VERSION"; "HOME"; "PWD"; "DIRS"; "USER"; "HOST"; "parse_args"; "WORKSPACE"; "pos"; "o"; "PROMPT";
     "BOLD"; "ITALIC"; "COLOR_SCHEME"; "Color"; "set_db_default"].
(** env.py:156-158: the functions [lambda env: value] are called after the loop (workspace.py:248), when [value] is the last one of the dict *)
Definition late (d : list (string * value)) : list (string * value) :=
  let last_value := snd (List.last d ("", Nothing)) in
  map (fun xv => (fst xv, last_value)) (filter (fun xv => negb (private (fst xv))) d).
(** env.py:126-159, 46-48: the namespace before the startup script *)
Definition permanent (m : module) : names := put_all (late (builtin_dict m)) (put_all initial no_names).

(** Startup scripts *)
Inductive expr : Type :=
  | Const (v : value)
  | Name (x : string)
  | Call (f : string) (args : list (value + string)).   (* f(v, x, ...) *)
Inductive stmt : Type :=
  | Import_all                                (* from marcel.builtin import * *)
  | Assign (x : string) (e : expr)
  | Define (f : string) (reads : list string)
  | Do (e : expr).
Definition script := list stmt.

Record state := mkstate { s_module : module; s_locals : list (string * value) }.
Fixpoint get (x : string) (d : list (string * value)) : option value :=
  match d with [] => None | (y, v) :: d => if String.eqb x y then Some v else get x d end.
Fixpoint set_local (x : string) (v : value) (d : list (string * value)) : list (string * value) :=
  match d with [] => [(x, v)] | (y, w) :: d => if String.eqb x y then (x, v) :: d else (y, w) :: set_local x v d end.

(** configscript.py:52-56: exec(source, namespace, locals): a name is looked up in locals, then in namespace *)
Definition look (g : names) (l : list (string * value)) (x : string) : option value :=
  match get x l with Some v => Some v | None => g x end.
Fixpoint sequence {A} (l : list (option A)) : option (list A) :=
  match l with [] => Some [] | None :: _ => None | Some a :: l => option_map (cons a) (sequence l) end.
Definition argument (g : names) (l : list (string * value)) (a : value + string) : option value :=
  match a with inl v => Some v | inr x => look g l x end.

(** Calling a function: builtin.py:37-75. A function of the script runs with the global names only. None: an exception *)
Definition call (g : names) (m : module) (f : value) (args : list value) : option (module * value) :=
  match f with
  | Builtin "set_prompt" => Some (mkmodule (Tuple args) (m_scripts m), Nothing)
  | Builtin "run_on_startup" => match args with [s] => Some (mkmodule (m_prompt m) (m_scripts m ++ [s]), Nothing) | _ => None end
  | Builtin x => Some (m, Made x args)
  | Function reads => match args with [] => option_map (fun l => (m, Tuple l)) (sequence (map g reads)) | _ => None end
  | _ => None
  end.
Definition eval (g : names) (s : state) (e : expr) : option (module * value) :=
  match e with
  | Const v => Some (s_module s, v)
  | Name x => option_map (fun v => (s_module s, v)) (look g (s_locals s) x)
  | Call f args =>
      match look g (s_locals s) f, sequence (map (argument g (s_locals s)) args) with
      | Some f, Some args => call g (s_module s) f args
      | _, _ => None
      end
  end.
Definition step (g : names) (s : state) (c : stmt) : option state :=
  match c with
  | Import_all =>
      Some (mkstate (s_module s) (fold_left (fun l xv => set_local (fst xv) (snd xv) l)
                                   (filter (fun xv => negb (private (fst xv))) (builtin_dict (s_module s))) (s_locals s)))
  | Assign x e => option_map (fun mv => mkstate (fst mv) (set_local x (snd mv) (s_locals s))) (eval g s e)
  | Define f reads => Some (mkstate (s_module s) (set_local f (Function reads) (s_locals s)))
  | Do e => option_map (fun mv => mkstate (fst mv) (s_locals s)) (eval g s e)
  end.
Fixpoint exec (g : names) (s : state) (p : script) : option state :=
  match p with [] => Some s | c :: p => match step g s c with Some s => exec g s p | None => None end end.

(** env.py:272-273 *)
Definition never_mutable : list string := ["MARCEL_VERSION"; "HOME"; "USER"; "HOST"; "WORKSPACE"].
Definition mem (x : string) (l : list string) : bool := existsb (String.eqb x) l.

(** A session: its variables, and those that commands cannot change because of the startup script *)
Record session := mksession { vars : names; fixed : list string }.
Inductive opened : Type :=
  | Open (m : module) (s : session)
  | Refused (m : module)          (* configscript.py:37-40: KillCommandException *)
  | Script_error.                 (* configscript.py:58: StartupScriptException *)
(** workspace.py:242-254 [open]; [saved]: the variables kept in env.pickle *)
Definition open (m : module) (p : script) (saved : list (string * value)) : opened :=
  match exec (permanent m) (mkstate m []) p with
  | None => Script_error
  | Some s =>
      let defined := map fst (s_locals s) in
      if existsb (fun x => mem x defined) never_mutable then Refused (s_module s)
      else Open (s_module s) (mksession (put_all saved (put_all (s_locals s) (permanent m))) defined)
  end.

(** main.py:162-169 [run_startup_scripts]: the scripts run, in order; then how it ended *)
Inductive ending : Type := Fine | Not_a_script (* KillCommandException *) | Crash (* TypeError *).
Fixpoint run_scripts (l : list value) : list string * ending :=
  match l with
  | [] => ([], Fine)
  | Text s :: l => let (r, e) := run_scripts l in (s :: r, e)
  | _ :: _ => ([], Not_a_script)
  end.
Definition startup_commands (m : module) (s : session) : list string * ending :=
  match vars s "STARTUP_SCRIPTS" with
  | Some Startup_list => run_scripts (m_scripts m)
  | Some (Tuple l) => run_scripts l
  | _ => ([], Crash)
  end.
