(* What filename arguments designate (C51). *)
From Coq Require Import Ascii String List Bool Arith.
From Verif.Syntax Require Import Lexer.
From Verif.Sys Require Import Glob.
Import ListNotations.
Local Open Scope char_scope.
Local Open Scope list_scope.

(* ---- patterns ---- *)

(* How a pattern reads: * ? [abc] [a-z] [!abc], everything else stands for itself.  A closing bracket is a member if it
   comes first. *)
Definition body (t : text) : Prop := exists c r, t = c :: r /\ ~ In "]" r.
Inductive reads : text -> list gitem -> Prop :=
| reads_nil : reads [] []
| reads_star : forall t g, reads t g -> reads ("*" :: t) (GStar :: g)
| reads_any : forall t g, reads t g -> reads ("?" :: t) (GAny :: g)
| reads_class : forall b rs t g, body b -> hd_error b <> Some "!" -> members b rs -> reads t g ->
    reads ("[" :: b ++ "]" :: t) (GClass false rs :: g)
| reads_not_class : forall b rs t g, body b -> members b rs -> reads t g ->
    reads ("[" :: "!" :: b ++ "]" :: t) (GClass true rs :: g)
| reads_bracket : forall t g, (forall b r, body b -> hd_error b <> Some "!" -> t <> b ++ "]" :: r) ->
    (forall b r, body b -> t <> "!" :: b ++ "]" :: r) -> reads t g -> reads ("[" :: t) (GChar "[" :: g)
| reads_char : forall c t g, c <> "*" -> c <> "?" -> c <> "[" -> reads t g -> reads (c :: t) (GChar c :: g)
with members : text -> list (ascii * ascii) -> Prop :=
| members_nil : members [] []
| members_range : forall a b t rs, members t rs -> members (a :: "-" :: b :: t) ((a, b) :: rs)
| members_one : forall a t rs, (forall b r, t <> "-" :: b :: r) -> members t rs -> members (a :: t) ((a, a) :: rs).

Definition item_matches (i : gitem) (s : text) : Prop :=
  match i with
  | GChar c => s = [c]
  | GAny => exists c, s = [c]
  | GStar => True
  | GClass neg rs => exists c, s = [c] /\
      (neg = false <-> exists r, In r rs /\ nat_of_ascii (fst r) <= nat_of_ascii c <= nat_of_ascii (snd r))
  end.
(* The name is made of pieces, one for each item of the pattern *)
Definition matches (pat name : text) : Prop :=
  exists g pieces, reads pat g /\ Forall2 item_matches g pieces /\ concat pieces = name.

(* ---- files ---- *)

(* d is b or a directory below it, n levels down, without symbolic links *)
Inductive tree (s : fsys) : path -> nat -> path -> Prop :=
| tree_here : forall b, tree s b 0 b
| tree_down : forall b m n d, In m (listdir s b) -> subdir s (b ++ [m]) = true -> tree s (b ++ [m]) n d -> tree s b (S n) d.
(* No more than n levels *)
Definition depth (s : fsys) (n : nat) : Prop := forall b m d, tree s b m d -> m <= n.

Definition wild (c : text) : Prop := In "*" c \/ In "?" c \/ In "[" c.

(* The pattern with components cs, taken from directory b, designates q *)
Inductive designates (s : fsys) : path -> list text -> path -> Prop :=
| des_here : forall b, designates s b [] b
| des_tree : forall b n d cs q, tree s b n d -> designates s d cs q -> designates s b (STARSTAR :: cs) q
| des_wild : forall b c m cs q, c <> STARSTAR -> wild c -> In m (listdir s b) -> matches c m ->
    (cs <> [] -> is_dir s (b ++ [m]) = true) -> designates s (b ++ [m]) cs q -> designates s b (c :: cs) q
| des_name : forall b c cs q, ~ wild c ->
    (cs <> [] -> is_dir s (b ++ [c]) = true) -> (cs = [] -> exists_ s (b ++ [c]) = true) ->
    designates s (b ++ [c]) cs q -> designates s b (c :: cs) q.

(* What an argument finds: the root directory written as such (None), or files *)
Definition finds (s : fsys) (cs : list text) (l : list (option path)) : Prop :=
  (cs = [] /\ l = [None]) \/
  (cs <> [] /\ exists ps, l = map Some ps /\ forall p, In p ps <-> designates s [] cs p).
(* The first occurrences, in order; and the root directory each time it is written as such *)
Inductive firsts : list path -> list (option path) -> list path -> Prop :=
| firsts_nil : forall seen, firsts seen [] []
| firsts_root : forall seen l r, firsts seen l r -> firsts seen (None :: l) ([] :: r)
| firsts_old : forall seen p l r, In p seen -> firsts seen l r -> firsts seen (Some p :: l) r
| firsts_new : forall seen p l r, ~ In p seen -> firsts (p :: seen) l r -> firsts seen (Some p :: l) (p :: r).

(* ---- names ---- *)

(* A component as one writes it: not empty, not . or .., without slash *)
Definition ordinary (c : text) : Prop := c <> [] /\ c <> DOT /\ c <> DOTDOT /\ ~ In SLASH c.
(* A component that is nothing but a name: no backslash, no wildcard *)
Definition simple (c : text) : Prop := ordinary c /\ ~ In bslash c /\ ~ wild c.

(* The text of a relative path *)
Definition relative (p : path) : text := tl (posix p).

(* Directories contain what is in them *)
Definition consistent (s : fsys) : Prop := forall p n, exists_ s (p ++ [n]) = true -> is_dir s p = true.
Definition dirs_exist (s : fsys) : Prop := forall p, is_dir s p = true -> exists_ s p = true.
