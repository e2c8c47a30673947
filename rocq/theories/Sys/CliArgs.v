(** parse_args: the command line of a script.

    A script calls parse_args(...) with keyword arguments: a variable, and flag(...), boolean_flag(...), int_flag(...) or anon(). *)
From Coq Require Export ZArith List String Ascii Bool Lia.
From Verif.Py Require Export Val.
Import ListNotations.
Local Open Scope string_scope.
Local Open Scope list_scope.

(** How a call ends: with a value, or with KillShellException, KillCommandException or an ordinary exception (AssertionError, ValueError,
    TypeError).  exception.py: the first two extend BaseException, so core.py:77-87 does not catch them. *)
Inductive outcome (A : Type) := Ok (a : A) | Shell | Killed | Ordinary.
Arguments Ok {A} a. Arguments Shell {A}. Arguments Killed {A}. Arguments Ordinary {A}.
Definition bind {A B : Type} (o : outcome A) (k : A -> outcome B) : outcome B :=
  match o with Ok a => k a | Shell => Shell | Killed => Killed | Ordinary => Ordinary end.

(** What the script writes: cliargs.py:260-272.  A boolean flag is never required (264-265).  [DOther]: anything else. *)
Inductive decl :=
| DFlag (f1 : string) (f2 : option string) (default : val) (required : bool)
| DInt (f1 : string) (f2 : option string) (default : val) (required : bool)
| DBool (f1 : string) (f2 : option string) (default : val)
| DAnon
| DOther (v : val).

(** cliargs.py:41-66, 68-94, 139-156: the fields of the objects *)
Inductive kind := KStr | KInt | KBool.
Inductive arg :=
| Anon
| Flag (k : kind) (short long : option string) (default : val) (required : bool)
| NotAnArg.

(** str.startswith *)
Fixpoint startswith (p s : string) : bool :=
  match p, s with
  | EmptyString, _ => true
  | String a p, String b s => Ascii.eqb a b && startswith p s
  | _, _ => false
  end.

(** cliargs.py:126-137 *)
Definition check_valid_flag (f : string) : outcome unit :=
  if (String.length f <? 2)%nat then Shell
  else let f := if startswith "--" f then substring 2 (String.length f) f
                else if startswith "-" f then substring 1 (String.length f) f
                else f in
       if (String.length f =? 0)%nat then Shell else Ok tt.

Definition is_dash (c : option ascii) : bool := match c with Some c => Ascii.eqb c "-" | None => false end.

(** cliargs.py:116-119 *)
Definition is_short (f : string) : outcome bool :=
  bind (check_valid_flag f) (fun _ => Ok (is_dash (get 0 f) && negb (is_dash (get 1 f)))).
(** cliargs.py:121-124 *)
Definition is_long (f : string) : outcome bool :=
  bind (check_valid_flag f) (fun _ => Ok (is_dash (get 0 f) && is_dash (get 1 f))).

(** [and]: the second operand is evaluated only if the first is true *)
Definition and_then (a : outcome bool) (b : outcome bool) : outcome bool := bind a (fun a => if a then b else Ok false).

(** cliargs.py:70-93 [FlagArg.__init__] *)
Definition new_flag (k : kind) (f1 : string) (f2 : option string) (default : val) (required : bool) : outcome arg :=
  match f2 with
  | None =>
    bind (is_short f1) (fun s =>
      if s then Ok (Flag k (Some f1) None default required)
      else bind (is_long f1) (fun l => if l then Ok (Flag k None (Some f1) default required) else Ordinary))
  | Some f2 =>
    bind (and_then (is_short f1) (is_long f2)) (fun sl =>
      if sl then Ok (Flag k (Some f1) (Some f2) default required)
      else bind (and_then (is_long f1) (is_short f2)) (fun ls =>
        if ls then Ok (Flag k (Some f2) (Some f1) default required) else Shell))
  end.

(** cliargs.py:260-272 *)
Definition make (d : decl) : outcome arg :=
  match d with
  | DFlag f1 f2 x r => new_flag KStr f1 f2 x r
  | DInt f1 f2 x r => new_flag KInt f1 f2 x r
  | DBool f1 f2 x => new_flag KBool f1 f2 x false
  | DAnon => Ok Anon
  | DOther _ => Ok NotAnArg
  end.

(** The arguments of the call are evaluated from left to right *)
Fixpoint make_all (kw : list (string * decl)) : outcome (list (string * arg)) :=
  match kw with
  | [] => Ok []
  | (v, d) :: kw => bind (make d) (fun a => bind (make_all kw) (fun l => Ok ((v, a) :: l)))
  end.

(** cliargs.py:166-180.  (Simplification: the names are identifiers.) *)
Fixpoint check_args (anon_seen : bool) (l : list (string * arg)) : outcome unit :=
  match l with
  | [] => Ok tt
  | (_, NotAnArg) :: _ => Shell
  | (_, Anon) :: l => if anon_seen then Shell else check_args true l
  | (_, Flag _ _ _ _ _) :: l => check_args anon_seen l
  end.

Definition mem (f : string) (l : list string) : bool := existsb (String.eqb f) l.

(** cliargs.py:101-109 [register] *)
Definition register (f : option string) (all : list string) : outcome (list string) :=
  match f with
  | None => Ok all
  | Some f => if mem f all then Shell else Ok (f :: all)
  end.

(** cliargs.py:181-183 *)
Fixpoint register_all (l : list (string * arg)) (all : list string) : outcome unit :=
  match l with
  | [] => Ok tt
  | (_, Flag _ s g _ _) :: l => bind (register s all) (fun all => bind (register g all) (fun all => register_all l all))
  | _ :: l => register_all l all
  end.

(** cliargs.py:161-183 [CommandLine.__init__] *)
Definition command_line (l : list (string * arg)) : outcome unit := bind (check_args false l) (fun _ => register_all l []).

(** cliargs.py:187-188 *)
Definition isflag (a : string) : bool := startswith "-" a.

Definition same (f : string) (o : option string) : bool := match o with Some g => String.eqb g f | None => false end.

(** cliargs.py:190-194, 111-112 *)
Fixpoint arg_of (l : list (string * arg)) (f : string) : option (string * kind) :=
  match l with
  | [] => None
  | (v, Flag k s g _ _) :: l => if same f s || same f g then Some (v, k) else arg_of l f
  | _ :: l => arg_of l f
  end.

(** cliargs.py:207-230 [token_scan].  [to_int]: Python's int(), [None] if it raises ValueError *)
Fixpoint scan (to_int : string -> option Z) (l : list (string * arg)) (argv : list string) : outcome (list (option string * val)) :=
  match argv with
  | [] => Ok []
  | t :: argv =>
    if isflag t then
      match arg_of l t with
      | None => Shell
      | Some (v, KBool) => bind (scan to_int l argv) (fun r => Ok ((Some v, VBool true) :: r))
      | Some (v, k) =>
        match argv with
        | [] => Shell
        | x :: argv =>
          if isflag x then Shell
          else match k with
               | KInt => match to_int x with
                         | Some z => bind (scan to_int l argv) (fun r => Ok ((Some v, VInt z) :: r))
                         | None => Ordinary
                         end
               | _ => bind (scan to_int l argv) (fun r => Ok ((Some v, VStr x) :: r))
               end
        end
      end
    else bind (scan to_int l argv) (fun r => Ok ((None, VStr t) :: r))
  end.

(** A dict *)
Fixpoint put (v : string) (x : val) (d : list (string * val)) : list (string * val) :=
  match d with
  | [] => [(v, x)]
  | (w, y) :: d => if String.eqb w v then (w, x) :: d else (w, y) :: put v x d
  end.
Fixpoint has_key (v : string) (d : list (string * val)) : bool :=
  match d with [] => false | (w, _) :: d => String.eqb w v || has_key v d end.

(** cliargs.py:235-237; 271-272 *)
Fixpoint defaults (l : list (string * arg)) (d : list (string * val)) : list (string * val) :=
  match l with
  | [] => d
  | (v, Flag _ _ _ x r) :: l => defaults l (if r then d else put v x d)
  | (v, _) :: l => defaults l (put v (VList []) d)
  end.
(** cliargs.py:239-243 *)
Fixpoint supplied (r : list (option string * val)) (d : list (string * val)) (anon : list val) : list (string * val) * list val :=
  match r with
  | [] => (d, anon)
  | (None, x) :: r => supplied r d (anon ++ [x])
  | (Some v, x) :: r => supplied r (put v x d) anon
  end.
(** cliargs.py:196-200 *)
Fixpoint anon_arg (l : list (string * arg)) : option string :=
  match l with
  | [] => None
  | (v, Anon) :: _ => Some v
  | _ :: l => anon_arg l
  end.
(** cliargs.py:248-249 *)
Fixpoint required_given (l : list (string * arg)) (d : list (string * val)) : bool :=
  match l with
  | [] => true
  | (v, Flag _ _ _ _ true) :: l => has_key v d && required_given l d
  | _ :: l => required_given l d
  end.

(** cliargs.py:185-250 [parse] *)
Definition parse (to_int : string -> option Z) (l : list (string * arg)) (argv : list string) : outcome (list (string * val)) :=
  bind (scan to_int l argv) (fun r =>
    let (d, anon) := supplied r (defaults l []) [] in
    let d := match anon_arg l with Some v => put v (VList (skipn 2 anon)) d | None => d end in
    if required_given l d then Ok d else Shell).

(** The variables of the workspace; [fixed]: those that cannot be assigned (workspace.py:133-140, 190-195) *)
Definition env := string -> option val.
Definition assign (v : string) (x : val) (e : env) : env := fun w => if String.eqb w v then Some x else e w.
Fixpoint setvars (fixed : string -> bool) (d : list (string * val)) (e : env) : env * outcome unit :=
  match d with
  | [] => (e, Ok tt)
  | (v, x) :: d => if fixed v then (e, Killed) else setvars fixed d (assign v x e)
  end.

(** cliargs.py:252-258 [parse_args], env.py:146: [usage] is not one of the keyword arguments; flags are made before the call *)
Definition parse_args (to_int : string -> option Z) (fixed : string -> bool) (kw : list (string * decl)) (argv : list string) (e : env)
  : env * outcome unit :=
  match bind (make_all kw) (fun l =>
          let l := filter (fun a => negb (String.eqb (fst a) "usage")) l in
          bind (command_line l) (fun _ => parse to_int l argv)) with
  | Ok d => setvars fixed (d ++ [("ARGV", VList (map VStr (tl argv)))]) e
  | Shell => (e, Shell)
  | Killed => (e, Killed)
  | Ordinary => (e, Ordinary)
  end.

(** ** The script.  [Other]: a command that does something else to the variables *)
Inductive command := ParseArgs (kw : list (string * decl)) | Other (f : env -> env).

(** main.py:110-127 [parse_and_run_command], 331-346 [main_script_run], core.py:77-87 [call]: an ordinary exception becomes an Error, which
    is printed; a KillCommandException is printed; a KillShellException ends the script.  The flag: whether the script came to its end *)
Fixpoint script (to_int : string -> option Z) (fixed : string -> bool) (argv : list string) (cs : list command) (e : env) : env * bool :=
  match cs with
  | [] => (e, true)
  | ParseArgs kw :: cs =>
    match parse_args to_int fixed kw argv e with
    | (e, Shell) => (e, false)
    | (e, _) => script to_int fixed argv cs e
    end
  | Other f :: cs => script to_int fixed argv cs (f e)
  end.
