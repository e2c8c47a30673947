(** import: marcel/op/import.py:51-122, marcel/object/workspace.py:145-148 (C70). Model only; see ImportSpec.v.

    Simplifications: importing a module has no other effect, and fails only if there is none of that name; the scope and other processes are
    the subject of C66. *)
From Coq Require Export String List Bool Arith Lia.
Export ListNotations.
Local Open Scope string_scope.
Local Open Scope list_scope.

Section Import.
Variable V : Type.

(** A module: the object itself, its __dict__ in order, its __all__ *)
Record module := mkmodule { object : V; contents : list (string * V); all : option (list string) }.
(** A module's name, without the dots *)
Definition dotted := list string.
Definition written (m : dotted) : string := String.concat "." m.

Definition vars := string -> option V.
Definition assign (x : string) (v : V) (n : vars) : vars := fun y => if String.eqb y x then Some v else n y.
Fixpoint get (x : string) (d : list (string * V)) : option V :=
  match d with [] => None | (y, v) :: d => if String.eqb x y then Some v else get x d end.

(** importlib.import_module: None: ModuleNotFoundError *)
Variable find : dotted -> option module.
(** str.isidentifier *)
Variable identifier : string -> bool.
(** workspace.py:146 check_mutability *)
Variable immutable : string -> bool.

Inductive outcome : Type := Done | Refused | Crash.
(** workspace.py:145-148 [setvar_import] *)
Definition setvar_import (x : string) (v : V) (n : vars) : vars * outcome := if immutable x then (n, Refused) else (assign x v n, Done).

Definition private (x : string) : bool := String.prefix "_" x.
(** import.py:100-106, the loop *)
Fixpoint import_all (d : list (string * V)) (n : vars) : vars * outcome :=
  match d with
  | [] => (n, Done)
  | (x, v) :: d =>
      if private x then import_all d n
      else match setvar_import x v n with
           | (n, Done) => import_all d n
           | r => r
           end
  end.

(** The arguments: import.py:51-57; [name] is --as *)
Record arguments := mkarguments { a_module : dotted; a_symbol : option string; a_name : option string }.
Definition truthy (o : option string) : bool := match o with Some "" | None => false | Some _ => true end.
Definition default (o : option string) (x : string) : string := match o with Some y => y | None => x end.

(** import.py:79-87 [setup]: false: KillCommandException *)
Definition setup (a : arguments) : bool :=
  let wildcard := match a_symbol a with Some s => String.eqb s "*" | None => false end in
  negb (truthy (a_symbol a) && negb (wildcard || match a_symbol a with Some s => identifier s | None => false end)) &&
  negb (truthy (a_name a) && negb (match a_name a with Some s => identifier s | None => false end)) &&
  negb (wildcard && match a_name a with Some _ => true | None => false end).

(** import.py:89-119 [run] *)
Definition run (a : arguments) (n : vars) : vars * outcome :=
  if setup a then
    match find (a_module a) with
    | None => (n, Refused)
    | Some m =>
        match a_symbol a with
        | None => setvar_import (default (a_name a) (written (a_module a))) (object m) n
        | Some s =>
            if String.eqb s "*" then import_all (contents m) n
            else if identifier s then
              match get s (contents m) with
              | Some v => setvar_import (default (a_name a) s) v n
              | None => (n, Refused)
              end
            else (n, Crash)
        end
    end
  else (n, Refused).
End Import.
Arguments contents {V}. Arguments object {V}. Arguments all {V}. Arguments get {V}. Arguments assign {V}. Arguments run {V}. Arguments mkmodule {V}.
