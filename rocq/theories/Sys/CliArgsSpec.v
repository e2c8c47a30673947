(** What parse_args should do. *)
From Verif.Sys Require Export CliArgs.
Local Open Scope string_scope.
Local Open Scope list_scope.

(** -x or -xyz; --x or --xyz *)
Definition short_flag (f : string) : Prop := exists c r, f = String "-" (String c r) /\ c <> "-"%char.
Definition long_flag (f : string) : Prop := exists c r, f = String "-" (String "-" (String c r)).

(** The flags of a variable *)
Definition names (d : decl) : list string :=
  match d with
  | DFlag f1 f2 _ _ | DInt f1 f2 _ _ | DBool f1 f2 _ => f1 :: match f2 with Some f => [f] | None => [] end
  | _ => []
  end.
Definition proper_names (l : list string) : Prop :=
  match l with
  | [f] => short_flag f \/ long_flag f
  | [f; g] => (short_flag f /\ long_flag g) \/ (long_flag f /\ short_flag g)
  | _ => False
  end.

(** Declarations that make sense: every flag belongs to one variable, and at most one variable gets the rest *)
Record well_formed (kw : list (string * decl)) : Prop := {
  wf_vars : NoDup (map fst kw);
  wf_names : forall v d, In (v, d) kw -> v <> "usage" /\ v <> "ARGV";
  wf_decls : forall v d, In (v, d) kw -> d = DAnon \/ proper_names (names d);
  wf_anon : forall v w, In (v, DAnon) kw -> In (w, DAnon) kw -> v = w;
  wf_flags : NoDup (flat_map (fun a => names (snd a)) kw) }.

(** A command line is made of uses: -b, -f x, and other words *)
Inductive use := Switch (f : string) | Given (f x : string) | Word (w : string).
Definition written (u : use) : list string := match u with Switch f => [f] | Given f x => [f; x] | Word w => [w] end.
Definition dashed (w : string) : Prop := exists r, w = String "-" r.

Inductive proper (to_int : string -> option Z) (kw : list (string * decl)) : use -> Prop :=
| p_switch : forall v f1 f2 x f, In (v, DBool f1 f2 x) kw -> In f (names (DBool f1 f2 x)) -> proper to_int kw (Switch f)
| p_given : forall v f1 f2 x r f y, In (v, DFlag f1 f2 x r) kw -> In f (names (DFlag f1 f2 x r)) -> ~ dashed y -> proper to_int kw (Given f y)
| p_number : forall v f1 f2 x r f y z, In (v, DInt f1 f2 x r) kw -> In f (names (DInt f1 f2 x r)) -> ~ dashed y -> to_int y = Some z ->
    proper to_int kw (Given f y)
| p_word : forall w, ~ dashed w -> proper to_int kw (Word w).

Definition words (us : list use) : list string := flat_map (fun u => match u with Word w => [w] | _ => [] end) us.

(** The value that a use has for a variable *)
Definition value_in (to_int : string -> option Z) (d : decl) (u : use) : option val :=
  match d, u with
  | DBool _ _ _, Switch f => if in_dec string_dec f (names d) then Some (VBool true) else None
  | DFlag _ _ _ _, Given f y => if in_dec string_dec f (names d) then Some (VStr y) else None
  | DInt _ _ _ _, Given f y => if in_dec string_dec f (names d) then option_map VInt (to_int y) else None
  | _, _ => None
  end.
(** If a flag is used several times, the last one counts *)
Definition last_in (to_int : string -> option Z) (d : decl) (us : list use) : option val :=
  fold_left (fun acc u => match value_in to_int d u with Some x => Some x | None => acc end) us None.

Definition meaning (to_int : string -> option Z) (d : decl) (us : list use) : option val :=
  match d with
  | DAnon => Some (VList (map VStr (words us)))
  | DFlag _ _ x r | DInt _ _ x r => match last_in to_int d us with Some y => Some y | None => if r then None else Some x end
  | DBool _ _ x => match last_in to_int d us with Some y => Some y | None => Some x end
  | DOther _ => None
  end.

(** The variables can be assigned *)
Definition free (fixed : string -> bool) (kw : list (string * decl)) : Prop :=
  fixed "ARGV" = false /\ forall v d, In (v, d) kw -> fixed v = false.
