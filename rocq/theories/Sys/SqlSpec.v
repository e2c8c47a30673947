(** What is permanent in the database, in terms of the statements executed one after the other. *)
From Verif.Sys Require Export Sql.
Set Implicit Arguments.
Local Open Scope Z_scope.
Local Open Scope list_scope.

Section Spec.
Variables D A : Type.
Variable exec : D -> A -> option (D * Z).

(** [executed d xs ns d']: the statements all succeed, with the given update counts, and lead from [d] to [d']. *)
Inductive executed : D -> list A -> list Z -> D -> Prop :=
| ex_none : forall d, executed d [] [] d
| ex_more : forall d a d1 n xs ns d', exec d a = Some (d1, n) -> executed d1 xs ns d' -> executed d (a :: xs) (n :: ns) d'.

(** The statements among a sequence of actions *)
Fixpoint statements (l : list (action A)) : list A :=
  match l with [] => [] | Execute a :: l => a :: statements l | _ :: l => statements l end.

Definition sum (l : list Z) : Z := fold_right Z.add 0 l.

(** What the state of the database is if everything stops after the actions [l]: [crash l] *)
Definition crash (deferred : D -> bool) (auto : bool) (d : D) (l : list (action A)) : D :=
  committed (replay exec deferred (mkconn d d auto false) l).

Definition prefix (p l : list (action A)) : Prop := exists r, l = p ++ r.
End Spec.

(** Documentation (HELP, 43-50): if arguments are given after the statement, they are bound; otherwise the components of the
    input. *)
Definition documented {A : Type} (args : list A) (x : option (list A)) : list A :=
  match args, x with
  | [], Some t => t
  | _, _ => args
  end.
