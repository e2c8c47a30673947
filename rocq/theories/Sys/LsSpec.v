(* What ls is meant to do (C38). *)
From Coq Require Import List Bool Arith.
From Verif.Sys Require Import Ls.
Import ListNotations.

(* A file system: names are unique in a directory, there are finitely many directories
   (their identities are below n), and these form a tree (the depth of what is below a
   directory is bounded by rank). *)
Record well_formed (s : fs) (n : nat) (rank : ident -> nat) : Prop := {
  wf_names : forall d, NoDup (map fst (entries s d));
  wf_finite : forall d r es, node_of s d = Dir r es -> d < n;
  wf_tree : forall d m i r es, In (m, i) (entries s d) -> node_of s i = Dir r es -> rank i < rank d
}.

(* q designates an existing file below root, k levels down *)
Definition below (s : fs) (root : path) (k : nat) (q : path) : Prop :=
  exists names, q = root ++ names /\ length names = k /\ lookup s q <> None.

(* The file i can be reached from j through the given names, by directories only (no symbolic
   link is followed), all of which can be read *)
Inductive real_walk (s : fs) : ident -> list name -> ident -> Prop :=
| real_here : forall i, real_walk s i [] i
| real_down : forall d r es n i names j, node_of s d = Dir r es -> r = true -> find_entry n es = Some i ->
    real_walk s i names j -> real_walk s d (n :: names) j.

Definition listed (os : list out) (p : path) : Prop := In (Listed p) os.
Definition paths (os : list out) : list path :=
  flat_map (fun o => match o with Listed p => [p] | Denied _ => [] end) os.
