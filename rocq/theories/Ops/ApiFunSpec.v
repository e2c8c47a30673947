(** What a user expects of a pipeline given as a function: each call of the function gives a pipeline, which is run by itself. *)
From Verif.Ops Require Export ApiFun.
Local Open Scope list_scope.

(** An operator sends something for each tuple, then something at the end *)
Fixpoint answers (b : behaviour) (before xs : list val) : list val :=
  match xs with [] => [] | x :: xs => on_receive b before x ++ answers b (before ++ [x]) xs end.
Definition stage (b : behaviour) (xs : list val) : list val := answers b [] xs ++ on_flush b xs.
(** A pipeline, run by itself *)
Definition alone (b : behaviour) (bs : list behaviour) : list val := fold_left (fun xs b => stage b xs) bs (on_run b ++ on_flush b []).
Definition call_alone (f : fn) (args : list val) : list val := match f_call f args with New b bs => alone b bs | Old _ => [] end.

(** Groups of [n] arguments; None stands for the missing ones *)
Inductive groups (n : nat) : list val -> list (list val) -> Prop :=
| g_none : groups n [] []
| g_full : forall g xs gs, length g = n -> groups n xs gs -> groups n (g ++ xs) (g :: gs)
| g_last : forall g, 0 < length g < n -> groups n g [g ++ repeat VNone (n - length g)].

(** The function makes a new pipeline each time, whose operators can be set up, and has no local variables.  [size]: a bound for the number
    of operators *)
Record fresh_function (f : fn) (size : nat) : Prop := {
  ff_new : forall args, length args = f_params f -> exists b bs, f_call f args = New b bs /\ length bs <= size /\ forallb (fun b => negb (bad_setup b)) (b :: bs) = true;
  ff_params : 0 < f_params f;
  ff_locals : f_locals f = 0 }.

(** case: each tuple goes to the first branch whose condition holds *)
Fixpoint route (bs : list branch) (x : val) : option nat :=
  match bs with [] => None | (q, _) :: bs => if q x then Some 0 else option_map S (route bs x) end.
Definition went (bs : list branch) (xs : list val) (k : nat) : list val :=
  filter (fun x => match route bs x with Some j => Nat.eqb j k | None => false end) xs.
Definition first_op (bs : list branch) (k : nat) : option behaviour := option_map (fun b => fst (snd b)) (nth_error bs k).
Fixpoint case_answers (bs : list branch) (before xs : list val) : list val :=
  match xs with
  | [] => []
  | x :: xs => match route bs x with
               | Some k => match first_op bs k with Some b => on_receive b (went bs before k) x | None => [] end
               | None => []
               end ++ case_answers bs (before ++ [x]) xs
  end.
Definition case_end (bs : list branch) (xs : list val) : list val :=
  flat_map (fun k => match first_op bs k with Some b => on_flush b (went bs xs k) | None => [] end) (seq 0 (length bs)).
