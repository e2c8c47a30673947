(* What the history of commands is meant to guarantee (C39). *)
From Coq Require Import Ascii String List Bool Arith ZArith.
From Verif.Sys Require Import Csv History.
Import ListNotations.

(* A file of history that holds the given commands, the oldest first *)
Inductive holds : list text -> text -> Prop :=
| holds_none : holds [] []
| holds_more : forall cs f time c, holds cs f -> ~ In LF time -> holds (cs ++ [c]) (f ++ entry time c).

(* Times have no line ends *)
Definition fine (e : event) : Prop :=
  match e with Enter time _ | Other time _ => ~ In LF time | Look => True end.

(* A numeral: decimal digits, with the value n *)
Inductive numeral : text -> Z -> Prop :=
| numeral_1 : forall c, isdigit c = true -> numeral [c] (digit_value c)
| numeral_more : forall t n c, isdigit c = true -> numeral t n -> numeral (t ++ [c]) (n * 10 + digit_value c).

(* p occurs in c *)
Definition occurs (p c : text) : Prop := exists a b, c = a ++ p ++ b.

(* The last k elements of a list *)
Definition last_k {A} (k : nat) (l : list A) : list A := skipn (length l - k) l.

(* The commands with their numbers *)
Definition numbered (cs : list text) : list (nat * text) := combine (seq 0 (length cs)) cs.
