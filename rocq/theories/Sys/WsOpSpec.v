(** What a session of ws commands should be.  A small specification: workspaces have a name, variables and a home; one of them is
    the current one.  Nothing here is about saving, loading, locking or files, except [represents], which says what must be
    on disk (with the predicates of WorkspacesSpec.v). *)
From Verif.Sys Require Export WorkspacesSpec WsOp.
From Coq Require Import Sorted.
Local Open Scope string_scope.
Local Open Scope list_scope.

(** ** Commands *)
Inductive cmd : Type :=
| Which | All | New (n : string) | Open (n : string) | Close | Delete (n : string) | DeleteBroken | Home (d : string).

(** A word that cannot be taken for a flag *)
Definition plain (s : string) : Prop := forall r, s <> String "-" r.
Definition word (s : string) : text := list_ascii_of_string s.
(** How a command is written *)
Inductive written : list text -> cmd -> Prop :=
| W_which : written [] Which
| W_all f : In f ["-l"; "--list"] -> written [word f] All
| W_new f n : In f ["-n"; "--new"] -> plain n -> written [word f; word n] (New n)
| W_open f n : In f ["-o"; "--open"] -> plain n -> written [word f; word n] (Open n)
| W_name n : plain n -> written [word n] (Open n)
| W_close f : In f ["-c"; "--close"] -> written [word f] Close
| W_delete f n : In f ["-d"; "--delete"] -> plain n -> written [word f; word n] (Delete n)
| W_broken f : In f ["-b"; "--delete-broken"] -> written [word f] DeleteBroken
| W_home f d : In f ["-h"; "--home"] -> plain d -> written [word f; word d] (Home d).

(** ** What they should do *)
(** [shelf n]: the variables and the home of workspace [n]; [base]: the variables of the default workspace; [current]: [None] is
    the default workspace *)
Record state := mkst { shelf : string -> option (string * option string); base : string; current : option string }.

Definition upd_shelf (f : string -> option (string * option string)) (n : string) (x : option (string * option string)) :=
  fun m => if String.eqb m n then x else f m.
Definition no_variables : string := "{}".

Definition variables (a : state) : string :=
  match current a with None => base a | Some n => match shelf a n with Some (v, _) => v | None => "" end end.
Definition current_home (a : state) : option string :=
  match current a with None => None | Some n => match shelf a n with Some (_, h) => h | None => None end end.
Definition current_name (a : state) : string := match current a with None => "" | Some n => n end.

Definition assign (v : string) (a : state) : state :=
  match current a with
  | None => mkst (shelf a) v (current a)
  | Some n => mkst (upd_shelf (shelf a) n (Some (v, current_home a))) (base a) (current a)
  end.

(** Names in order *)
Definition in_order (l : shown) : Prop := Sorted (fun x y => String.ltb (fst x) (fst y) = true) l.

Section Spec.
Variable absolute : string -> string.
Variable busy : string -> option nat.  (* the process, other than this one, that is using a workspace *)

Inductive does : state -> cmd -> reply -> state -> Prop :=
| D_which a : does a Which (Shown [(current_name a, current_home a)]) a
| D_all a l : in_order l ->
    (forall n h, In (n, h) l <-> n = "" /\ h = None \/ exists v, shelf a n = Some (v, h)) -> does a All (Shown l) a
| D_new a n : shelf a n = None ->
    does a (New n) (Shown [(n, None)]) (mkst (upd_shelf (shelf a) n (Some (no_variables, None))) (base a) (Some n))
| D_new_refused a n : shelf a n <> None -> does a (New n) Refused a
| D_open a n : shelf a n <> None -> current a <> Some n -> does a (Open n) (Shown [(n, None)]) (mkst (shelf a) (base a) (Some n))
| D_open_again a n : shelf a n <> None -> current a = Some n -> does a (Open n) (Shown []) a
| D_open_refused a n : shelf a n = None -> does a (Open n) Refused a
| D_close a n : current a = Some n -> does a Close (Shown [("", None)]) (mkst (shelf a) (base a) None)
| D_close_again a : current a = None -> does a Close (Shown []) a
| D_delete a n : shelf a n <> None -> current a <> Some n -> busy n = None ->
    does a (Delete n) (Shown []) (mkst (upd_shelf (shelf a) n None) (base a) (current a))
| D_delete_refused a n : shelf a n = None \/ current a = Some n \/ busy n <> None -> does a (Delete n) Refused a
| D_broken a : does a DeleteBroken (Shown []) a
| D_home a n d v h : current a = Some n -> shelf a n = Some (v, h) ->
    does a (Home d) (Shown [(n, Some (absolute d))]) (mkst (upd_shelf (shelf a) n (Some (v, Some (absolute d)))) (base a) (current a))
| D_home_refused a d : current a = None -> does a (Home d) Refused a.

(** A session *)
Inductive session_does : state -> list event -> list reply -> state -> Prop :=
| S_end a : session_does a [] [] a
| S_assign a v es rs a' : session_does (assign v a) es rs a' -> session_does a (Assign v :: es) rs a'
| S_ws a words c r a1 es rs a' : written words c -> does a c r a1 -> session_does a1 es rs a' ->
    session_does a (Ws words :: es) (r :: rs) a'.

(** The commands of a session: names that a workspace can have; workspaces that others are using are not opened *)
Definition fair_cmd (c : cmd) : Prop :=
  match c with
  | New n | Delete n => usable n
  | Open n => usable n /\ busy n = None
  | _ => True
  end.
Definition fair (e : event) : Prop :=
  match e with
  | Assign v => v <> ""
  | Ws words => exists c, written words c /\ fair_cmd c
  end.
End Spec.

(** ** What is on disk *)
Section Disk.
Variable pid : nat.
Variable alive : nat -> bool.
Variable busy : string -> option nat.

Definition marks_of (a : state) (n : string) : option nat -> bool :=
  match current a with
  | Some m => if String.eqb m n then held pid else match busy n with Some q => held q | None => nobody end
  | None => match busy n with Some q => held q | None => nobody end
  end.

(** Exactly the files of workspace [n] are there, or there is nothing of it *)
Definition on_disk (a : state) (n : string) (w : fs) : Prop :=
  match shelf a n with
  | None => absent n w
  | Some (v, h) => v <> "" /\ exists st e hist res, contents n (marks_of a n) st e (pickle_home h) hist res w /\ (current a <> Some n -> e = v)
  end.

Record represents (s : session) (a : state) : Prop := {
  r_tidy : tidy (disk s);
  r_broken : forall b, look [root b; Nm "broken"] (disk s) = Some D;
  r_startup : exists t, look (place Config DEF ++ [Nm "startup.py"]) (disk s) = Some (F t);
  r_data : look (place Data DEF) (disk s) = Some D;
  r_here : here s = match current a with None => default | Some n => named n end;
  r_vars : vars s = variables a;
  r_home : home s = current_home a;
  r_named : forall n, usable n -> on_disk a n (disk s);
  r_only : forall n, shelf a n <> None -> usable n;
  r_current : forall n, current a = Some n -> shelf a n <> None /\ busy n = None;
  r_busy : forall n q, busy n = Some q -> alive q = true /\ q <> pid /\ shelf a n <> None;
  r_base : base a <> "";
  r_env : look (place Data DEF ++ [EnvOf pid]) (disk s) <> Some D;
  r_default : current a <> None ->
    look (place Data DEF ++ [EnvOf pid]) (disk s) = None /\ base a = no_variables \/
    look (place Data DEF ++ [EnvOf pid]) (disk s) = Some (F (base a))
}.
End Disk.
