(* The layouts of marcel's files, and the migrations between them (C41): persistence/storagelayout.py.

   The file system is a list of paths with what is there.  Three directories matter: the home directory,
   and the directories marcel of the bases for configuration and data, which are called home, config and
   data here.  They are taken to be apart from each other (with XDG_CONFIG_HOME = XDG_DATA_HOME they would
   coincide), and the two bases to exist.  Symbolic links, permissions and failures of the operating
   system are not modelled; files can be decoded. *)
From Coq Require Import Ascii String List Bool Arith.
From Verif.Sys Require Import Csv.
Import ListNotations.
Open Scope list_scope.

(* ---- a file system (the parts of pathlib, os and shutil that are used) ---- *)

Definition path := list string.
Inductive entry := D | F (t : text).
Definition fs := list (path * entry).

Definition path_dec : forall p q : path, {p = q} + {p <> q} := list_eq_dec string_dec.

Fixpoint lookup (p : path) (w : fs) : option entry :=
  match w with
  | [] => None
  | (q, e) :: w' => if path_dec p q then Some e else lookup p w'
  end.

(* The root exists always *)
Definition look (p : path) (w : fs) : option entry :=
  match p with [] => Some D | _ => lookup p w end.

Definition exists_ (w : fs) (p : path) : bool := match look p w with Some _ => true | None => false end.
Definition is_dir (w : fs) (p : path) : bool := match look p w with Some D => true | _ => false end.

(* rest of a path after a prefix *)
Fixpoint after (p q : path) : option path :=
  match p, q with
  | [], _ => Some q
  | a :: p', b :: q' => if string_dec a b then after p' q' else None
  | _ :: _, [] => None
  end.

Definition parent (p : path) : path := removelast p.
Definition name (p : path) : string := last p EmptyString.

(* The names in a directory, in the order of the list *)
Definition iterdir (w : fs) (p : path) : list string :=
  nodup string_dec (flat_map (fun x => match after p (fst x) with Some [n] => [n] | _ => [] end) w).

Inductive exn := FileNotFound | FileExists | OtherOSError | ShutilError | IndexError | AssertionFails | KillShell.
Inductive res (A : Type) := Ok (a : A) | Raise (e : exn) (w : fs).   (* an exception leaves the files so *)
Arguments Ok {A}. Arguments Raise {A}.

Definition bind {A B} (r : res A) (f : A -> res B) : res B :=
  match r with Ok a => f a | Raise e w => Raise e w end.
Notation "'do' x <- r ; k" := (bind r (fun x => k)) (at level 200, x name, r at level 100, k at level 200).

Definition remove (p : path) (w : fs) : fs := filter (fun x => if path_dec p (fst x) then false else true) w.
Definition add (p : path) (e : entry) (w : fs) : fs := w ++ [(p, e)].

(* path.mkdir(exist_ok=...) *)
Definition mkdir (exist_ok : bool) (p : path) (w : fs) : res fs :=
  match look p w with
  | Some D => if exist_ok then Ok w else Raise FileExists w
  | Some (F _) => Raise FileExists w
  | None => if is_dir w (parent p) then Ok (add p D w) else Raise FileNotFound w
  end.

(* path.mkdir(parents=True, exist_ok=True), where at most the last two directories are missing *)
Definition mkdir_parents (p : path) (w : fs) : res fs :=
  do w <- (if exists_ w (parent p) then Ok w else mkdir true (parent p) w); mkdir true p w.

(* path.touch() *)
Definition touch (p : path) (w : fs) : res fs :=
  match look p w with
  | Some _ => Ok w
  | None => if is_dir w (parent p) then Ok (add p (F []) w) else Raise FileNotFound w
  end.

(* open(path, 'w') and writing t *)
Definition write (p : path) (t : text) (w : fs) : res fs :=
  match look p w with
  | Some D => Raise OtherOSError w
  | Some (F _) => Ok (add p (F t) (remove p w))
  | None => if is_dir w (parent p) then Ok (add p (F t) w) else Raise FileNotFound w
  end.

(* path.unlink() *)
Definition unlink (p : path) (w : fs) : res fs :=
  match look p w with
  | Some (F _) => Ok (remove p w)
  | Some D => Raise OtherOSError w
  | None => Raise FileNotFound w
  end.

(* Renaming a path and all below it *)
Definition relocate (src dst : path) (w : fs) : fs :=
  map (fun x => match after src (fst x) with Some r => (dst ++ r, snd x) | None => x end) w.

Definition below (p : path) (w : fs) : bool :=
  existsb (fun x => match after p (fst x) with Some (_ :: _) => true | _ => false end) w.

(* os.rename: a file replaces a file, a directory an empty directory *)
Definition rename (src dst : path) (w : fs) : res fs :=
  match look src w with
  | None => Raise FileNotFound w
  | Some s =>
    if is_dir w (parent dst) then
      match after src dst with
      | Some _ => Raise OtherOSError w
      | None =>
        match look dst w with
        | None => Ok (relocate src dst w)
        | Some d =>
          match s, d with
          | F _, F _ => Ok (relocate src dst (remove dst w))
          | D, D => if below dst w then Raise OtherOSError w else Ok (relocate src dst (remove dst w))
          | _, _ => Raise OtherOSError w
          end
        end
      end
    else Raise FileNotFound w
  end.

(* shutil.move: into dst if that is a directory, else to dst.  Gives the path of the moved thing too. *)
Definition move (src dst : path) (w : fs) : res (path * fs) :=
  let real := if is_dir w dst then dst ++ [name src] else dst in
  if is_dir w dst && exists_ w real then Raise ShutilError w
  else do w' <- rename src real w; Ok (real, w').

(* ---- names ---- *)

Definition home : path := ["home"%string].
Definition config : path := ["config"%string].
Definition data : path := ["data"%string].
Definition DEF2 : string := "__DEFAULT_WORKSPACE__".
Definition DEF3 : string := "__DEFAULT__".
Definition WS : string := "workspace".        (* Locations.WORKSPACE_DIR_NAME (locations.py:57) *)
Definition MARKER : string := ".WORKSPACE".

(* "p / q" *)
Definition sub (p : path) (n : string) : path := p ++ [n].

(* ---- storage_layout (storagelayout.py:32-44) and the match methods ---- *)

Inductive layout := Original | XDG | WS1 | WS2 | WS3 | PT.

Definition layout_eqb (a b : layout) : bool :=
  match a, b with
  | Original, Original | XDG, XDG | WS1, WS1 | WS2, WS2 | WS3, WS3 | PT, PT => true
  | _, _ => false
  end.

(* readline().strip() twice (storagelayout.py:300-301) *)
Definition line (k : nat) (t : text) : text :=
  match nth_error (readlines (universal t)) k with Some l => strip l | None => [] end.

(* l2[i] == c: None says that the index is out of range *)
Definition at_ (l : text) (i : nat) (c : ascii) : option bool :=
  match nth_error l i with Some d => Some (is d c) | None => None end.

(* a and b, where b may raise *)
Definition and_then (a : option bool) (b : option bool) : option bool :=
  match a with Some true => b | _ => a end.

(* storagelayout.py:300-309: None says IndexError *)
Definition history_is_current (t : text) : option bool :=
  let l1 := line 0 t in
  let l2 := line 1 t in
  if negb (Nat.eqb (length l1) 0) then Some false else
  if Nat.eqb (length l2) 0 then Some false else
  if negb (if list_eq_dec ascii_dec (firstn 3 l2) (txt "# 2") then true else false) then Some false else
  and_then (at_ l2 6 "-") (and_then (at_ l2 9 "-") (and_then (at_ l2 12 " ") (and_then (at_ l2 15 ":")
    (and_then (at_ l2 18 ":") (at_ l2 21 "."))))).

Definition has_default_ws3 (w : fs) : bool :=
  exists_ w config && exists_ w (sub config WS) && exists_ w (sub (sub config WS) DEF3).

Definition default_history : path := sub (sub (sub data WS) DEF3) "history".

(* match, for each class (storagelayout.py:154-156, 173-175, 199-201, 243-245, 271-274, 285-311) *)
Definition matches (l : layout) (w : fs) : res bool :=
  match l with
  | Original => Ok (exists_ w (sub home ".marcel.py") && exists_ w (sub home ".marcel_history"))
  | XDG => Ok (exists_ w config && exists_ w data)
  | WS1 => Ok (exists_ w config && exists_ w (sub config MARKER))
  | WS2 => Ok (exists_ w config && exists_ w (sub config DEF2))
  | WS3 => Ok (has_default_ws3 w)
  | PT =>
    if has_default_ws3 w then
      match look default_history w with
      | None => Ok false
      | Some D => Raise OtherOSError w
      | Some (F t) => match history_is_current t with Some b => Ok b | None => Raise IndexError w end
      end
    else Ok false
  end.

Fixpoint first_match (ls : list layout) (w : fs) : res (option layout) :=
  match ls with
  | [] => Ok None
  | l :: ls' => do b <- matches l w; if b : bool then Ok (Some l) else first_match ls' w
  end.

Definition storage_layout (w : fs) : res (option layout) := first_match [PT; WS3; WS2; WS1; XDG; Original] w.

(* ---- the migrations ---- *)

(* layout = storage_layout(); assert layout; assert layout.layout() == expected; return layout *)
Definition check (expected : layout) (w : fs) : res (option layout * fs) :=
  do l <- storage_layout w;
  match l with
  | Some l => if layout_eqb l expected then Ok (Some l, w) else Raise AssertionFails w
  | None => Raise AssertionFails w
  end.

(* StorageLayout.subdirs (storagelayout.py:126-132) *)
Definition subdirs (w : fs) (p : path) : res (list path) :=
  match look p w with
  | Some D => Ok (filter (is_dir w) (map (sub p) (iterdir w p)))
  | Some (F _) => Raise OtherOSError w
  | None => Raise FileNotFound w
  end.

(* storagelayout.py:144-152.  The base directories exist, so parents=True has nothing to do. *)
Definition migrate_original (w : fs) : res (option layout * fs) :=
  do w <- mkdir true config w;
  do w <- mkdir true data w;
  do r <- move (sub home ".marcel.py") (sub config "startup.py") w;
  do r <- move (sub home ".marcel_history") (sub data "history") (snd r);
  check XDG (snd r).

(* storagelayout.py:165-171 *)
Definition migrate_xdg (w : fs) : res (option layout * fs) :=
  do w <- touch (sub config MARKER) w;
  do w <- mkdir true (sub data "reservoirs") w;
  check WS1 w.

(* fix_default_workspace (storagelayout.py:185-189) *)
Definition fix_default_workspace (base : path) (f1 f2 : string) (w : fs) : res fs :=
  let new := sub base DEF2 in
  do w <- mkdir_parents new w;
  do r <- move (sub base f1) new w;
  do r <- move (sub base f2) new (snd r);
  Ok (snd r).

(* storagelayout.py:191-197 *)
Definition migrate_ws1 (w : fs) : res (option layout * fs) :=
  do w <- fix_default_workspace config MARKER "startup.py" w;
  do w <- fix_default_workspace data "history" "reservoirs" w;
  check WS2 w.

(* move_workspace_dirs (storagelayout.py:211-220) *)
Fixpoint move_workspace_dirs (dirs : list path) (base : path) (w : fs) : res fs :=
  match dirs with
  | [] => Ok w
  | d :: dirs' =>
    if string_dec (name d) WS then move_workspace_dirs dirs' base w
    else
      do r <- move d base w;
      if negb (exists_ (snd r) (fst r)) then Raise KillShell (snd r) else
      if exists_ (snd r) d then Raise KillShell (snd r) else
      move_workspace_dirs dirs' base (snd r)
  end.

(* fix_dirs (storagelayout.py:222-234) *)
Definition fix_dirs (base : path) (w : fs) : res fs :=
  let new := sub base WS in
  do w <- mkdir_parents new w;
  do dirs <- subdirs w base;
  do w <- move_workspace_dirs dirs new w;
  do w <- rename (sub new DEF2) (sub new DEF3) w;
  mkdir false (sub base "broken") w.

(* storagelayout.py:236-241 *)
Definition migrate_ws2 (w : fs) : res (option layout * fs) :=
  do w <- fix_dirs config w;
  do w <- fix_dirs data w;
  check WS3 w.

(* The file that replaces a history (storagelayout.py:260-265).  [stamp] is the line with the time. *)
Definition notice (stamp : text) : text :=
  LF :: stamp ++ LF :: txt "+(" ++ QUOTE :: txt "History from before marcel version 0.32.0 has been deleted, due to a change in history file format." ++ QUOTE :: txt ")" ++ [LF].

Fixpoint reset_histories (stamp : text) (dirs : list path) (w : fs) : res fs :=
  match dirs with
  | [] => Ok w
  | d :: dirs' =>
    do w <- unlink (sub d "history") w;
    do w <- write (sub d "history") (notice stamp) w;
    reset_histories stamp dirs' w
  end.

(* storagelayout.py:254-269.  All times are the same here. *)
Definition migrate_ws3 (stamp : text) (w : fs) : res (option layout * fs) :=
  do dirs <- subdirs w (sub data WS);
  do w <- reset_histories stamp dirs w;
  check PT w.

Definition migrate (stamp : text) (l : layout) (w : fs) : res (option layout * fs) :=
  match l with
  | Original => migrate_original w
  | XDG => migrate_xdg w
  | WS1 => migrate_ws1 w
  | WS2 => migrate_ws2 w
  | WS3 => migrate_ws3 stamp w
  | PT => Ok (None, w)
  end.

(* ---- ensure_current (storagelayout.py:47-93) ---- *)

(* The loop (storagelayout.py:84-90); the number bounds its rounds, and None says it has been exceeded *)
Fixpoint migrations (n : nat) (stamp : text) (l : option layout) (w : fs) : option (res fs) :=
  match l with
  | None => Some (Ok w)
  | Some b =>
    match n with
    | O => None
    | S n' =>
      match migrate stamp b w with
      | Raise e w => Some (Raise e w)
      | Ok (a, w) =>
        match a with
        | Some a' => if layout_eqb a' b then Some (Raise KillShell w) else migrations n' stamp a w
        | None => migrations n' stamp a w
        end
      end
    end
  end.

(* a < b on Python strings *)
Fixpoint str_lt (a b : text) : bool :=
  match a, b with
  | _, [] => false
  | [], _ :: _ => true
  | x :: a', y :: b' =>
    if Nat.ltb (nat_of_ascii x) (nat_of_ascii y) then true
    else if is x y then str_lt a' b' else false
  end.

Definition version_file : path := sub config "VERSION".

(* installed_version (storagelayout.py:55-62) *)
Definition installed_version (w : fs) : text :=
  match look version_file w with Some (F t) => line 0 t | _ => txt "0.0.0" end.

(* initialize_persistent_config_and_data (storagelayout.py:64-75), with the parts of
   Workspace.create_on_disk (object/workspace.py:353-370) that make files: [startup] is the initial
   configuration, [env] the name of the file for the environment and [pickle] its contents. *)
Definition initialize (version startup : text) (env : string) (pickle : text) (w : fs) : res fs :=
  do w <- mkdir true config w;
  do w <- mkdir true (sub config WS) w;
  do w <- mkdir true (sub config "broken") w;
  do w <- mkdir true data w;
  do w <- mkdir true (sub data WS) w;
  do w <- mkdir true (sub data "broken") w;
  do w <- write version_file version w;
  do w <- mkdir true (sub (sub config WS) DEF3) w;
  do w <- write (sub (sub (sub config WS) DEF3) "startup.py") startup w;
  do w <- touch (sub (sub (sub config WS) DEF3) MARKER) w;
  do w <- mkdir true (sub (sub data WS) DEF3) w;
  do w <- mkdir true (sub (sub (sub data WS) DEF3) "reservoirs") w;
  do w <- write (sub (sub (sub data WS) DEF3) env) pickle w;
  touch default_history w.

(* The end of ensure_current: the version file (storagelayout.py:91-93).  config() makes sure that the
   directory exists (locations.py:82-84). *)
Definition record_version (version : text) (w : fs) : res fs :=
  do w <- mkdir true config w;
  if str_lt (installed_version w) version then write version_file version w else Ok w.

(* ensure_current, as main calls it (main.py:368) *)
Definition ensure_current (version startup : text) (env : string) (pickle stamp : text) (w : fs)
  : option (res fs) :=
  match storage_layout w with
  | Raise e w => Some (Raise e w)
  | Ok None => Some (do w <- initialize version startup env pickle w; record_version version w)
  | Ok (Some l) =>
    match migrations 7 stamp (Some l) w with
    | Some (Ok w) => Some (record_version version w)
    | x => x
    end
  end.
