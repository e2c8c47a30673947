(** What the files of workspaces should be.  A small specification: paths, and what is there, only. *)
From Verif.Sys Require Export Workspaces.
Local Open Scope string_scope.
Local Open Scope list_scope.

(** The directories of workspace [n], those of the default workspace being called __DEFAULT__ *)
Inductive side : Type := Config | Data.
Definition root (b : side) : name := match b with Config => Nm "config" | Data => Nm "data" end.
Definition place (b : side) (n : string) : path := [root b; Nm "workspace"; Nm n].
(** where the directories of damaged workspaces are kept: those found at time [t] *)
Definition aside (b : side) (t n : string) : path := [root b; Nm "broken"; Nm t; Nm n; Nm n].

(** Names with which a workspace has one directory *)
Definition proper (n : string) : Prop :=
  n <> "" /\ n <> "." /\ forall a b, n <> (a ++ String slash b)%string.
(** and which aren't that of the default workspace *)
Definition usable (n : string) : Prop := proper n /\ n <> DEF.

Definition there (p : path) (w : fs) : Prop := look p w <> None.
Definition file (p : path) (w : fs) : Prop := exists t, look p w = Some (F t).

(** A file system in which nobody has put anything odd where workspaces are kept *)
Record tidy (w : fs) : Prop := {
  tree : forall p x, there (p ++ [x]) w -> look p w = Some D;
  named_dirs : forall b x, there [root b; Nm "workspace"; x] w ->
                 exists n, x = Nm n /\ proper n /\ look (place b n) w = Some D;
  marker_files : forall n m, there (place Config n ++ [Mark m]) w -> file (place Config n ++ [Mark m]) w;
  base_dirs : forall b, look [root b; Nm "workspace"] w = Some D
}.

(** The marker of a process that has ended does not count *)
Definition live (alive : nat -> bool) (m : option nat) : Prop := match m with None => True | Some q => alive q = true end.

(** Everything that belongs to a workspace is there, and nothing else *)
Record whole (alive : nat -> bool) (n : string) (w : fs) : Prop := {
  has_startup : there (place Config n ++ [Nm "startup.py"]) w;
  config_only : forall x, there (place Config n ++ [x]) w -> x = Nm "startup.py" \/ exists m, x = Mark m;
  one_marker : forall m m', live alive m -> live alive m' ->
                 there (place Config n ++ [Mark m]) w -> there (place Config n ++ [Mark m']) w -> m = m';
  has_data : there (place Data n) w;
  has_state : n <> DEF -> there (place Data n ++ [Nm "env.pickle"]) w /\ there (place Data n ++ [Nm "properties.pickle"]) w;
  has_history : there (place Data n ++ [Nm "history"]) w;
  has_reservoirs : look (place Data n ++ [Nm "reservoirs"]) w = Some D;
  data_only : forall x, there (place Data n ++ [x]) w ->
                In x [Nm "properties.pickle"; Nm "env.pickle"; Nm "history"; Nm "reservoirs"] \/ exists q, x = EnvOf q
}.

(** There is something of it, but it isn't whole *)
Definition damaged (alive : nat -> bool) (n : string) (w : fs) : Prop :=
  (exists b, there (place b n) w) /\ ~ whole alive n w.
(** There is nothing of it *)
Definition absent (n : string) (w : fs) : Prop := forall b r, look (place b n ++ r) w = None.

(** A path is a marker file *)
Definition marker_path (p : path) : Prop := exists n m, p = place Config n ++ [Mark m].
(** Nothing but marker files differs *)
Definition same_but_markers (w w' : fs) : Prop := forall p, ~ marker_path p -> look p w' = look p w.
(** Nothing of other workspaces, or elsewhere, differs *)
Definition same_outside (n : string) (w w' : fs) : Prop :=
  forall p, (forall b r, p <> place b n ++ r) -> look p w' = look p w.

(** Who has the workspace open: which marker files there are *)
Definition nobody (m : option nat) : bool := match m with None => true | Some _ => false end.
Definition held (pid : nat) (m : option nat) : bool := match m with None => false | Some q => Nat.eqb pid q end.
Definition unmarked (m : option nat) : bool := false.

(** Exactly the files of a workspace: [marks] are there, [reservoirs] gives the contents of the files in directory reservoirs *)
Definition config_files (marks : option nat -> bool) (startup : string) (r : path) : option entry :=
  match r with
  | [] => Some D
  | [Nm x] => if String.eqb x "startup.py" then Some (F startup) else None
  | [Mark m] => if marks m then Some (F "") else None
  | _ => None
  end.
Definition data_files (env props history : string) (reservoirs : name -> option string) (r : path) : option entry :=
  match r with
  | [] => Some D
  | [Nm x] => if String.eqb x "env.pickle" then Some (F env)
              else if String.eqb x "properties.pickle" then Some (F props)
              else if String.eqb x "history" then Some (F history)
              else if String.eqb x "reservoirs" then Some D else None
  | [Nm x; y] => if String.eqb x "reservoirs" then option_map F (reservoirs y) else None
  | _ => None
  end.
Record contents (n : string) (marks : option nat -> bool) (startup env props history : string) (reservoirs : name -> option string) (w : fs) : Prop := {
  in_config : forall r, look (place Config n ++ r) w = config_files marks startup r;
  in_data : forall r, look (place Data n ++ r) w = data_files env props history reservoirs r
}.
Definition no_reservoirs (x : name) : option string := None.
