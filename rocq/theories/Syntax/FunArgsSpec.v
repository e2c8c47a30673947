(** What parenthesised expressions should stand for (notes/function_notation.txt, help/overview). *)
From Verif.Syntax Require Export FunArgs.
Local Open Scope string_scope.
Local Open Scope list_scope.

(** Parameters as in Python's lambda: x, *x, **x, x=default. *)
Definition is_name (t : ptok) : Prop := exists s, t = PName s /\ s <> "lambda".
Definition plain_default (d : list ptok) : Prop :=
  d <> [] /\ forall t, In t d -> t <> POp "," /\ t <> POp ":" /\ t <> lam.
Inductive param : list ptok -> Prop :=
| p_name t : is_name t -> param [t]
| p_star t : is_name t -> param [POp "*"; t]
| p_kw t : is_name t -> param [POp "**"; t]
| p_default t d : is_name t -> plain_default d -> param (t :: POp "=" :: d).
Inductive params (P : list ptok -> Prop) : list ptok -> Prop :=
| ps_one p : P p -> params P p
| ps_trailing p : P p -> params P (p ++ [POp ","])
| ps_more p ps : P p -> params P ps -> params P (p ++ POp "," :: ps).

(** The parameters marcel knows: x and *x. *)
Inductive simple_param : list ptok -> Prop :=
| sp_name t : is_name t -> simple_param [t]
| sp_star t : is_name t -> simple_param [POp "*"; t].

(** The Python expression for a function with parameters [ps] and result [body]. *)
Definition function (ps body : list ptok) : list ptok := lam :: ps ++ colon :: body.
(** The Python expression for a function without parameters that evaluates [e]. *)
Definition thunk (e : list ptok) : list ptok := function [] e.

(** A parameter list, with or without the word lambda in front. *)
Definition opt_lambda (l : bool) : list ptok := if l then [lam] else [].

(** As used by an operator: the function itself. In an assignment, marcel evaluates the
    expression to get the value assigned, so that a function with parameters is wrapped in
    a function without. *)
Definition wanted (assign : bool) (ps body : list ptok) : list ptok :=
  if assign then thunk (function ps body) else function ps body.

(** [ts] starts with the parameters of a function. *)
Definition has_header (P : list ptok -> Prop) (ts : list ptok) : Prop :=
  exists l ps body, ts = opt_lambda l ++ ps ++ colon :: body /\ (ps = [] \/ params P ps).
Definition has_plain (ps : list ptok) : Prop :=
  exists t p r, is_name t /\ ps = p ++ t :: r /\ (p = [] \/ exists q, p = q ++ [POp ","]).
