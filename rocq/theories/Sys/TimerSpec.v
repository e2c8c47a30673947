(** What timer outputs. *)
From Verif.Sys Require Export Timer.

(** Each is at least [interval] later than those before *)
Definition spaced (interval : nat) (l : list nat) : Prop := forall a x b y c, l = a ++ x :: b ++ y :: c -> x + interval <= y.
(** Some of [l], in order *)
Inductive subsequence {A} : list A -> list A -> Prop :=
| sub_nil : forall l, subsequence [] l
| sub_keep : forall x k l, subsequence k l -> subsequence (x :: k) (x :: l)
| sub_skip : forall x k l, subsequence k l -> subsequence k (x :: l).
(** One run only *)
Definition once (h : list event) : Prop := ~ In Again h.
(** Whenever there is a tick, the previous one has been taken: what is downstream keeps up. *)
Definition keeps_up (interval : nat) (h : list event) (s : state) : Prop :=
  forall h1 h2, h = h1 ++ h2 -> match now (run interval h1 s), hd_error h2 with
    | Some _, Some (M i) => nth_error (metronomes (run interval h1 s)) i <> Some MSet
    | _, _ => True end.
(** What has been taken: sent, or about to be sent *)
Definition taken (s : state) : list nat := out s ++ match runner s with RRelease t | RSend t => [t] | _ => [] end.
Definition waiting (s : state) : list nat := match now s with Some t => [t] | None => [] end.
