(** env: marcel/op/env.py:61-190 (C69). Model only; see EnvOpSpec.v.

    Simplifications: scopes of pipelines (C23) and what deletion does elsewhere (C26, C66) are left out; the arguments are those that
    the parser accepts (C29): at most one of VAR, --delete and --pattern, --os not with --delete or --builtins. *)
From Coq Require Export String Ascii List Bool Arith NArith Lia.
Export ListNotations.
Local Open Scope string_scope.
Local Open Scope list_scope.

Section EnvOp.
Variable V : Type.
Variable is_none : V -> bool.

Definition dict := list (string * V).
Fixpoint get (x : string) (d : dict) : option V :=
  match d with [] => None | (y, v) :: d => if String.eqb x y then Some v else get x d end.
Fixpoint pop (x : string) (d : dict) : dict :=
  match d with [] => [] | (y, v) :: d => if String.eqb x y then d else (y, v) :: pop x d end.

(** [p in s], for texts *)
Fixpoint contains (p s : string) : bool :=
  String.prefix p s || match s with EmptyString => false | String _ s => contains p s end.

(** sorted(items): tuples are compared by the variable first, and these differ. Python compares texts by the codes of their characters. *)
Fixpoint leq (a b : string) : bool :=
  match a, b with
  | EmptyString, _ => true
  | String _ _, EmptyString => false
  | String c a, String d b =>
      let m := N_of_ascii c in let n := N_of_ascii d in
      if N.ltb m n then true else if N.ltb n m then false else leq a b
  end.
Fixpoint insert (e : string * V) (l : dict) : dict :=
  match l with [] => [e] | f :: l => if leq (fst e) (fst f) then e :: f :: l else f :: insert e l end.
Definition sorted (l : dict) : dict := fold_right insert [] l.

(** What is given on the command line, env.py:80-93 *)
Record arguments := mkarguments { a_var : option string; a_delete : option string; a_pattern : option string; a_os : bool; a_builtins : bool }.
Inductive outcome : Type := Done | Killed.
(** What is sent, the variables afterwards, how it ends *)
Record result := mkresult { sent : dict; after : dict; ending : outcome }.
(** if self.x: the text is there and not empty *)
Definition truthy (o : option string) : option string := match o with Some "" => None | _ => o end.

(** env.py:146-181 [EnvMarcel]; workspace.py:124-130, 150-159 [getvar], [delvar], check_mutability *)
Variable immutable : string -> bool.
Definition include (a : arguments) (e : string * V) : bool := a_builtins a || negb (String.eqb (fst e) "__builtins__").
Definition marcel_one_var (x : string) (d : dict) : result :=
  match get x d with
  | Some v => if is_none v then mkresult [] d Killed else mkresult [(x, v)] d Done
  | None => mkresult [] d Killed
  end.
Definition marcel_delete_var (x : string) (d : dict) : result :=
  if immutable x then mkresult [] d Killed
  else match get x d with
       | Some v => mkresult [(x, v)] (pop x d) Done
       | None => mkresult [] d Done
       end.
Definition marcel_matching_vars (a : arguments) (p : string) (d : dict) : result :=
  mkresult (sorted (filter (include a) (filter (fun e => contains p (fst e)) d))) d Done.
Definition marcel_all_vars (a : arguments) (d : dict) : result := mkresult (filter (include a) (sorted d)) d Done.

(** env.py:184-207 [EnvOS]; [host] is os.environ *)
Definition os_one_var (x : string) (host d : dict) : result :=
  match get x host with Some v => mkresult [(x, v)] d Done | None => mkresult [] d Killed end.
Definition os_matching_vars (p : string) (host d : dict) : result := mkresult (filter (fun e => contains p (fst e)) (sorted host)) d Done.
Definition os_all_vars (host d : dict) : result := mkresult (sorted host) d Done.

(** env.py:117-130 [setup], [run]. (--delete with --os: excluded by the parser.) *)
Definition run (a : arguments) (host d : dict) : result :=
  match truthy (a_var a) with
  | Some x => if a_os a then os_one_var x host d else marcel_one_var x d
  | None =>
      match truthy (a_delete a) with
      | Some x => marcel_delete_var x d
      | None =>
          match truthy (a_pattern a) with
          | Some p => if a_os a then os_matching_vars p host d else marcel_matching_vars a p d
          | None => if a_os a then os_all_vars host d else marcel_all_vars a d
          end
      end
  end.
End EnvOp.
Arguments get {V}. Arguments pop {V}. Arguments sorted {V}. Arguments sent {V}. Arguments after {V}. Arguments ending {V}. Arguments mkresult {V}.
