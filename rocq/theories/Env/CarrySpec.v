(** What a variable is worth, whichever process asks. *)
From Verif.Env Require Export Carry.
Local Open Scope string_scope.
Local Open Scope list_scope.

Section Spec.
Variable V : Type.
Variable P : python V.
Variable permanent : dict V.

(** The variable that a command assigns, and its value, in a process whose variables are [n] *)
Definition assigned (n : string -> option V) (a : action V) : option (string * V) :=
  match a with
  | AssignText x t => Some (x, str P t)
  | AssignExpression x t => option_map (pair x) (eval P t n)
  | AssignPipeline x t => option_map (pair x) (parse P t)
  | ImportAs x m None => option_map (pair x) (module P m)
  | ImportAs x m (Some t) => option_map (pair x) (symbol P m t)
  | Delete _ | Permanent _ _ => None
  end.

(** The assignments of a history: variable, command, value; the value of a variable after them is the last one. *)
Definition effect : Type := string * action V * V.
Definition name_of (e : effect) : string := fst (fst e).
Definition names (l : list effect) : list string := map name_of l.
Definition value (l : list effect) (x : string) : option V :=
  fold_left (fun r e => if String.eqb x (name_of e) then Some (snd e) else r) l (get x permanent).

Fixpoint effects (h : list (event V)) (past : list effect) : list effect :=
  match h with
  | [] => past
  | Reopen :: h => effects h past
  | Do a :: h =>
      match assigned (value past) a with
      | Some (x, v) => effects h (past ++ [(x, a, v)])
      | None => effects h past
      end
  end.
Definition expected (h : list (event V)) (x : string) : option V := value (effects h []) x.

(** Only assignments and imports *)
Definition additive (h : list (event V)) : Prop :=
  forall e, In e h -> match e with Do (Delete _) | Do (Permanent _ _) => False | _ => True end.

(** The expression [t] has the same value wherever the variables [depends t] have. *)
Definition respects (depends : string -> list string) : Prop :=
  forall t n n', (forall x, In x (depends t) -> n x = n' x) -> eval P t n = eval P t n'.

(** Strings can be pickled; what is between (| and |) is a pipeline *)
Definition sane : Prop :=
  (forall s, kind_of P (str P s) = KOther /\ pickles P (str P s) = true /\ dills P (str P s) = true) /\
  (forall t v, parse P t = Some v -> kind_of P v = KPipeline).

(** The value of an expression can be carried elsewhere: a built-in function is the one with its name in its module; a module can be
    imported; data can be pickled; a pipeline is what the expression, read as a pipeline, denotes; and for a function, each variable
    that its expression uses is either never assigned, or was assigned for the first time before the function's variable was,
    and for the last time before the function. *)
Definition portable (depends : string -> list string) (l : list effect) : Prop :=
  forall l1 x y t v l2, l = l1 ++ (x, AssignExpression y t, v) :: l2 -> ~ In x (names l2) ->
  match kind_of P v with
  | KBuiltin m f => exists m', m = Some m' /\ symbol P m' f = Some v
  | KModule m => module P m = Some v
  | KCallable =>
      forall z, In z (depends t) ->
        ~ In z (names l) \/
        z <> x /\ ~ In z (names l2) /\ exists l3 l4, l = l3 ++ l4 /\ In z (names l3) /\ ~ In x (names l3)
  | KPipeline => parse P t = Some v
  | KOther => pickles P v = true /\ dills P v = true
  end.

(** The history is such that the values can be carried at its end, and each time the workspace is opened again. *)
Definition carried (depends : string -> list string) (h : list (event V)) : Prop :=
  portable depends (effects h []) /\ forall h1 h2, h = h1 ++ Reopen :: h2 -> portable depends (effects h1 []).
End Spec.
Arguments name_of {V}. Arguments names {V}. Arguments value {V}.
