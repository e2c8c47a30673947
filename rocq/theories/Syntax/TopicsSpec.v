(** What help and the tab key on its topics are meant to guarantee (C88). *)
From Coq Require Import Ascii String List Bool Arith.
From Verif.Syntax Require Import Lexer Topics.
From Verif.Syntax Require Tab.
From Verif.Sys Require Import Csv.
Import ListNotations.
Local Open Scope char_scope.
Local Open Scope list_scope.

(** A word in which every character stands for itself *)
Definition plain (w : text) : Prop := forall c, In c w -> c <> bslash /\ is_quote c = false.

(** help n has something to show *)
Definition has_page (n : text) : Prop := exists p, help (Some n) = Sends (Some p).

(** A file of users such as /etc/passwd: a line for each of the names *)
Inductive passwd_of : list text -> text -> Prop :=
| passwd_none : passwd_of [] []
| passwd_user : forall n ns rest f, (forall c, In c n -> c <> ":" /\ c <> LF) -> (forall c, In c rest -> c <> LF) -> passwd_of ns f ->
    passwd_of (n :: ns) ((n ++ ":" :: rest ++ [LF]) ++ f).
