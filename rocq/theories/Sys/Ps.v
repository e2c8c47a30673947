(** The operator ps (marcel/op/ps.py). *)
From Coq Require Export ZArith List Lia.
From Verif.Syntax Require Export Args.
From Verif.Sys Require Export History.
Export ListNotations.
Local Open Scope list_scope.

(** A process, as psutil describes it (PROC_ATTRS, ps.py:29-43). What may not be read is None. (Simplification: only what ps looks at.) *)
Record process := mkprocess { pr_pid : Z; pr_uids : option (list Z); pr_gids : option (list Z);
                              pr_name : option text; pr_exe : option text; pr_cmdline : option (list text) }.

(** The value of an attribute of the operator: None, True, a string, an int, or the object _UNINITIALIZED (ps.py:80-84). *)
Inductive pval := PNone | PTrue | PStr (s : text) | PInt (n : Z) | PUninit.
Record psop := mkpsop { o_user : pval; o_group : pval; o_pid : pval; o_command : pval }.

(** ps.py:87-93 [ps], the API function, with its parameters, _UNINITIALIZED if left out; the argument list is empty, so that the parser
    leaves the attributes alone. ps.py:110-116: the command line starts with None everywhere, and the parser sets the attribute of the
    flag given, if any (C29). *)
Definition api_ps (user group pid command : option pval) : psop :=
  let get p := match p with Some v => v | None => PUninit end in
  mkpsop (get user) (get group) (get pid) (get command).

(** bool(x) *)
Definition ptrue (v : pval) : bool :=
  match v with PNone => false | PTrue => true | PStr s => match s with [] => false | _ => true end | PInt n => negb (Z.eqb n 0) | PUninit => true end.
Definition p_none (v : pval) : bool := match v with PNone => true | _ => false end.

(** The outcome of setup, and of applying the filter to a process *)
Inductive out (A : Type) := Good (a : A) | Kill | TypeError.
Arguments Good {A}. Arguments Kill {A}. Arguments TypeError {A}.
Inductive filter_ := FAll | FUser (id : Z) | FGroup (id : Z) | FPid (n : Z) | FCommand (v : pval).

Section Ps.
(** int(s); the databases of users and groups (pwd.getpwall, grp.getgrall); the current user and group. *)
Variable int_of : text -> option Z.
Variable users groups : list (text * Z).
Variable my_uid my_gid : Z.

(** util.py:50-54 [uid], 64-68 [gid]: the first entry with this name. A value that is no string equals no name. *)
Fixpoint lookup (db : list (text * Z)) (v : pval) : option Z :=
  match db with
  | [] => None
  | (name, id) :: db => match v with
                        | PStr s => if teqb name s then Some id else lookup db v
                        | _ => None
                        end
  end.
(** int(x) *)
Definition to_int (v : pval) : out Z :=
  match v with
  | PStr s => match int_of s with Some n => Good n | None => Kill end
  | PInt n => Good n
  | PTrue => Good 1%Z
  | PNone | PUninit => TypeError
  end.
(** ps.py:163-173 [convert_to_id] *)
Definition convert_to_id (db : list (text * Z)) (v : pval) : out Z :=
  match lookup db v with
  | Some id => Good id
  | None => to_int v
  end.

(** ps.py:123-148 [setup]: the operator (whose attributes are converted), and the filter. *)
Definition setup (op : psop) : out (psop * filter_) :=
  let '(mkpsop user group pid command) := op in
  let user' := if p_none user then Good (user, FAll)
               else match (match user with PTrue => Good my_uid | _ => convert_to_id users user end) with
                    | Good id => Good (PInt id, FUser id)
                    | Kill => Kill
                    | TypeError => TypeError
                    end in
  match user' with
  | Kill => Kill | TypeError => TypeError
  | Good (user, f) =>
    let group' := if p_none group then Good (group, f)
                  else match (match group with PTrue => Good my_gid | _ => convert_to_id groups group end) with
                       | Good id => Good (PInt id, FGroup id)
                       | Kill => Kill
                       | TypeError => TypeError
                       end in
    match group' with
    | Kill => Kill | TypeError => TypeError
    | Good (group, f) =>
      let pid' := if ptrue pid then match to_int pid with
                                    | Good n => Good (PInt n, FPid n)
                                    | Kill => Kill
                                    | TypeError => TypeError
                                    end
                  else Good (pid, f) in
      match pid' with
      | Kill => Kill | TypeError => TypeError
      | Good (pid, f) => Good (mkpsop user group pid command, if ptrue command then FCommand command else f)
      end
    end
  end.

(** [x in y], for a string y *)
Definition inside (v : pval) (t : text) : out bool := match v with PStr s => Good (contains s t) | _ => TypeError end.
Fixpoint any_inside (v : pval) (ts : list text) : out bool :=   (* the list comprehension is evaluated before reduce *)
  match ts with
  | [] => Good false
  | t :: ts => match inside v t, any_inside v ts with
               | Good a, Good b => Good (a || b)
               | _, _ => TypeError
               end
  end.
Definition or_else (a : out bool) (b : out bool) : out bool := match a with Good false => b | _ => a end.
Definition when_some (A : Type) (x : option A) (f : A -> out bool) : out bool := match x with Some a => f a | None => Good false end.
(** The filters: ps.py:129-148 *)
Definition apply (f : filter_) (p : process) : out bool :=
  match f with
  | FAll => Good true
  | FUser id => match pr_uids p with Some ids => Good (existsb (Z.eqb id) ids) | None => TypeError end
  | FGroup id => match pr_gids p with Some ids => Good (existsb (Z.eqb id) ids) | None => TypeError end
  | FPid n => Good (Z.eqb n (pr_pid p))
  | FCommand v => or_else (when_some _ (pr_name p) (inside v))
                  (or_else (when_some _ (pr_exe p) (inside v)) (when_some _ (pr_cmdline p) (any_inside v)))
  end.

(** ps.py:150-154 [run]: what is sent, and whether it ended normally *)
Fixpoint report (f : filter_) (ps : list process) : list process * bool :=
  match ps with
  | [] => ([], true)
  | p :: ps => match apply f p with
               | Good b => let '(out, ok) := report f ps in (if b then p :: out else out, ok)
               | _ => ([], false)
               end
  end.

(** A run of the operator: the operator afterwards, what it sends, how it ends. *)
Inductive ending := Normally | Killed | Raised.
Definition run_ps (op : psop) (ps : list process) : psop * list process * ending :=
  match setup op with
  | Good (op', f) => let '(sent, ok) := report f ps in (op', sent, if ok then Normally else Raised)
  | Kill => (op, [], Killed)
  | TypeError => (op, [], Raised)
  end.
End Ps.
