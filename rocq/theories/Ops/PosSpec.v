(** What pos() should be. *)
From Verif.Ops Require Export Pos.
Local Open Scope Z_scope.
Local Open Scope list_scope.

(** How many tuples operator i has received, since it was set up, and in all *)
Definition since_setup (i : nat) (t : list event) : Z :=
  fold_left (fun n e => match e with
                        | Setup j => if Nat.eqb j i then 0 else n
                        | Input j _ => if Nat.eqb j i then n + 1 else n
                        | _ => n
                        end) t 0.
Definition in_all (i : nat) (t : list event) : Z :=
  fold_left (fun n e => match e with Input j _ => if Nat.eqb j i then n + 1 else n | _ => n end) t 0.

(** Whenever a function is called, pos() is the number of tuples that its operator has received before the one it is working on, during
    the present run of its pipeline *)
Definition tells_position (t : list event) : Prop :=
  forall before i p after, t = before ++ Called i p :: after -> p = Some (since_setup i before - 1).
(** ... or ever since the operator was made *)
Definition tells_total (t : list event) : Prop :=
  forall before i p after, t = before ++ Called i p :: after -> p = Some (in_all i before - 1).

(** Operators that call their functions when they receive something, before they send anything.  Not sort, and not expand if it is given
    a generator. *)
Inductive usual (a : bool) : op -> Prop :=
| u_map : forall i f, usual a (Prim i (map_b f))
| u_select : forall i f, usual a (Prim i (select_b f))
| u_squish : forall i f, usual a (Prim i (squish_b f))
| u_window : forall i f, usual a (Prim i (window_b f))
| u_red : forall i inc fs, usual a (Prim i (red_b inc fs))
| u_plain : forall i start on at_end, usual a (Prim i (plain_b start on at_end))
| u_case : forall i bs, usual_branches a bs -> usual a (Case i bs)
(** args too, if a is true *)
| u_args : forall i first p, a = true -> usual_pipeline a p -> usual a (Args i first p)
with usual_branches (a : bool) : branches -> Prop :=
| u_none : usual_branches a NoDefault
| u_default : forall p, usual_pipeline a p -> usual_branches a (Default p)
| u_branch : forall f p bs, usual_pipeline a p -> usual_branches a bs -> usual_branches a (Branch f p bs)
with usual_pipeline (a : bool) : pipeline -> Prop :=
| u_nil : usual_pipeline a Nil
| u_cons : forall o p, usual a o -> usual_pipeline a p -> usual_pipeline a (Cons o p).

(** Pipelines are run one after the other, the same ones too *)
Fixpoint session (l : list (list val * pipeline)) (w : world) : world :=
  match l with
  | [] => w
  | (xs, p) :: l => session l (run xs p w)
  end.

(** ** What a pipeline puts out *)
Inductive item := D (x : val) | E.
Definition seen (t : list event) : list item :=
  flat_map (fun e => match e with Output x => [D x] | Failed _ => [E] | _ => [] end) t.

Inductive stage :=
| SMap (f : pfunc)
| SSelect (f : pfunc)
| SSquish (f : pfunc)
| SWindow (f : pfunc)
| SRed (incremental : bool) (fs : list pfunc).

Definition behaves (s : stage) : behaviour :=
  match s with
  | SMap f => map_b f
  | SSelect f => select_b f
  | SSquish f => squish_b f
  | SWindow f => window_b f
  | SRed inc fs => red_b inc (map (fun f => (f, false)) fs)
  end.
Fixpoint made (l : list (nat * stage)) : pipeline :=
  match l with
  | [] => Nil
  | (i, s) :: l => Cons (Prim i (behaves s)) (made l)
  end.

(** The tuples of a stream, numbered from n; errors pass, and are not numbered.  [f n x]: what becomes of the tuple x, with number n *)
Fixpoint each (f : Z -> val -> list item) (n : Z) (l : list item) : list item :=
  match l with
  | [] => []
  | E :: l => E :: each f n l
  | D x :: l => f n (wrap x) ++ each f (n + 1) l
  end.

Definition result (r : option val) : list item := match r with Some v => [D v] | None => [E] end.

(** A fold from the left, that a function may end by failing *)
Fixpoint fold (f : val -> val -> option val) (acc : val) (xs : list val) : option val :=
  match xs with
  | [] => Some acc
  | x :: xs => match f acc x with Some acc => fold f acc xs | None => None end
  end.

(** window: w is the window so far *)
Fixpoint windows (f : pfunc) (w : list val) (n : Z) (l : list item) : list item :=
  match l with
  | [] => match w with [] => [] | _ => [D (VTuple w)] end
  | E :: l => E :: windows f w n l
  | D x :: l =>
    match f (Some n) (components (wrap x)) with
    | None => E :: windows f w (n + 1) l
    | Some v =>
      if truthy v then (match w with [] => [] | _ => [D (VTuple w)] end) ++ windows f [unwrap_op_output (wrap x)] (n + 1) l
      else windows f (w ++ [unwrap_op_output (wrap x)]) (n + 1) l
    end
  end.

(** red: the columns before one that fails are changed (refuted in C12) *)
Fixpoint totals (fs : list pfunc) (p : option Z) (acc xs : list val) : list val * bool :=
  match fs, acc, xs with
  | f :: fs, a :: acc, x :: xs =>
    match f p [a; x] with
    | Some v => let (acc', ok) := totals fs p acc xs in (v :: acc', ok)
    | None => (a :: acc, false)
    end
  | _, _, _ => ([], true)
  end.
Fixpoint reduced (inc : bool) (fs : list pfunc) (acc : list val) (n : Z) (l : list item) : list item :=
  match l with
  | [] => if inc then [] else [D (VTuple acc)]
  | E :: l => E :: reduced inc fs acc n l
  | D x :: l =>
    if (length (components (wrap x)) <? length fs)%nat then E :: reduced inc fs acc (n + 1) l
    else match totals fs (Some n) acc (components (wrap x)) with
         | (acc, false) => E :: reduced inc fs acc (n + 1) l
         | (acc, true) => (if inc then [D (VTuple (components (wrap x) ++ acc))] else []) ++ reduced inc fs acc (n + 1) l
         end
  end.

Definition means (s : stage) (l : list item) : list item :=
  match s with
  | SMap f => each (fun n x => result (f (Some n) (components x))) 0 l
  | SSelect f => each (fun n x => match f (Some n) (components x) with Some v => if truthy v then [D x] else [] | None => [E] end) 0 l
  | SSquish f => each (fun n x => result (fold (fun a y => f (Some n) [a; y]) VNone (components x))) 0 l
  | SWindow f => windows f [] 0 l
  | SRed inc fs => reduced inc fs (map (fun _ => VNone) fs) 0 l
  end.
