(** The import statements of Python. *)
From Verif.Env Require Export Import.
Local Open Scope string_scope.
Local Open Scope list_scope.

Section Spec.
Variable V : Type.
Variable find : dotted -> option (module V).

Inductive statement : Type :=
| ImportModule (m : dotted)                      (* import m *)
| ImportModuleAs (m : dotted) (n : string)       (* import m as n *)
| FromImport (m : dotted) (s : string)           (* from m import s *)
| FromImportAs (m : dotted) (s n : string)       (* from m import s as n *)
| FromImportAll (m : dotted).                    (* from m import * *)

(** The command for a statement, as on the help page *)
Definition command (t : statement) : arguments :=
  match t with
  | ImportModule m => mkarguments m None None
  | ImportModuleAs m n => mkarguments m None (Some n)
  | FromImport m s => mkarguments m (Some s) None
  | FromImportAs m s n => mkarguments m (Some s) (Some n)
  | FromImportAll m => mkarguments m (Some "*") None
  end.

(** Python's rules: [import a.b] binds a; [from m import s] takes s from m, or else the module m.s; [from m import *] takes the names
    in __all__, if there is one, or else all that do not start with an underscore. The bindings made, in order. None: ImportError. *)
Definition entry (md : module V) (s : string) : option V := option_map snd (List.find (fun e => String.eqb s (fst e)) (contents md)).
Definition symbol (md : module V) (m : dotted) (s : string) : option V :=
  match entry md s with Some v => Some v | None => option_map (@object V) (find (m ++ [s])) end.
Definition bind (x : string) (o : option V) : option (list (string * V)) := option_map (fun v => [(x, v)]) o.
Fixpoint all_of {A B} (f : A -> option B) (l : list A) : option (list B) :=
  match l with
  | [] => Some []
  | a :: l => match f a, all_of f l with Some b, Some r => Some (b :: r) | _, _ => None end
  end.
Definition bindings (t : statement) : option (list (string * V)) :=
  match t with
  | ImportModule m =>
      match find m, m with
      | Some _, top :: _ => bind top (option_map (@object V) (find [top]))
      | _, _ => None
      end
  | ImportModuleAs m n => bind n (option_map (@object V) (find m))
  | FromImport m s => match find m with Some md => bind s (symbol md m s) | None => None end
  | FromImportAs m s n => match find m with Some md => bind n (symbol md m s) | None => None end
  | FromImportAll m =>
      match find m with
      | Some md =>
          match all md with
          | Some l => all_of (fun s => option_map (pair s) (symbol md m s)) l
          | None => Some (filter (fun e => negb (String.prefix "_" (fst e))) (contents md))
          end
      | None => None
      end
  end.
(** The value of a variable after bindings: that of the last one *)
Definition bound (l : list (string * V)) (n : vars V) (x : string) : option V :=
  fold_left (fun r e => if String.eqb x (fst e) then Some (snd e) else r) l (n x).
(** The names in a statement are identifiers *)
Definition well_formed (identifier : string -> bool) (t : statement) : Prop :=
  match t with
  | ImportModule m => m <> [] /\ forall x, In x m -> identifier x = true
  | ImportModuleAs _ n => identifier n = true
  | FromImport _ s => identifier s = true
  | FromImportAs _ s n => identifier s = true /\ identifier n = true
  | FromImportAll _ => True
  end.
End Spec.
Arguments entry {V}. Arguments bindings {V}. Arguments bound {V}.
