(** How a file is shown in a listing, and what a File object knows about its file (C67). Model only; see FileLineSpec.v.

    marcel/object/file.py, and the parts of marcel/op/filenamesop.py and marcel/op/ls.py that make File objects and choose the
    directory that paths are shown relative to.

    Simplifications: a path is the list of its parts, without the root; lower() is for ASCII letters; strftime is a parameter; only
    a file's being absent makes lstat fail; the cached names of users and groups are those of the database. *)
From Coq Require Export Ascii String List Bool Arith NArith Lia.
From Coq Require Import DecimalString DecimalN.
Export ListNotations.
Local Open Scope list_scope.

Definition text := list ascii.
Definition tx (s : string) : text := list_ascii_of_string s.
Definition blank : ascii := " "%char.

(** ** The line *)

(** os.stat_result, as far as it is shown or filtered by (file.py:162-171) *)
Record stat := mkstat { st_mode : N; st_uid : N; st_gid : N; st_size : N; st_mtime : N }.

(** file.py:25-28 *)
Definition DIR_MASK : N := 16384.   (* 0o040000 *)
Definition LINK_MASK : N := 40960.  (* 0o120000 *)

(** file.py:283-287 [_rwx] *)
Definition rwx (m : N) : text :=
  [if N.eqb (N.land m 4) 0 then "-"%char else "r"%char;
   if N.eqb (N.land m 2) 0 then "-"%char else "w"%char;
   if N.eqb (N.land m 1) 0 then "-"%char else "x"%char].
(** file.py:231-242 [_mode_string]; 0o700 = 448, 0o70 = 56 *)
Definition mode_string (mode : N) : text :=
  (if N.eqb (N.land mode LINK_MASK) LINK_MASK then "l"%char
   else if N.eqb (N.land mode DIR_MASK) DIR_MASK then "d"%char else "-"%char) ::
  rwx (N.shiftr (N.land mode 448) 6) ++ rwx (N.shiftr (N.land mode 56) 3) ++ rwx (N.land mode 7).

(** str(n) *)
Definition decimal (n : N) : text := tx (NilZero.string_of_uint (N.to_uint n)).
(** The databases of users and groups *)
Record names := mknames { user_name : N -> option text; group_name : N -> option text }.
(** util.py:43-47, 57-61 [username], [groupname] *)
Definition username (db : names) (uid : N) : text := match user_name db uid with Some n => n | None => decimal uid end.
Definition groupname (db : names) (gid : N) : text := match group_name db gid with Some n => n | None => decimal gid end.

(** file.py:47-67 [FileFormatting]; the width of [format_groupname] is that of user names (62) *)
Record formatting := mkformatting { username_width : nat; groupname_width : nat; size_width : nat }.
Definition default_formatting : formatting := mkformatting 6 6 6.
Definition right_aligned (width : nat) (s : text) : text := repeat blank (width - length s) ++ s.
Definition format_username (f : formatting) (s : text) : text := right_aligned (username_width f) s.
Definition format_groupname (f : formatting) (s : text) : text := right_aligned (username_width f) s.
Definition format_size (f : formatting) (n : N) : text := right_aligned (size_width f) (decimal n).

(** file.py:150-156 [adjust_formatting] *)
Definition adjust_formatting (db : names) (s : stat) (f : formatting) : formatting :=
  mkformatting (max (username_width f) (length (username db (st_uid s))))
               (max (groupname_width f) (length (groupname db (st_gid s))))
               (max (size_width f) (length (decimal (st_size s)))).

(** file.py:204-215 [_formatted_metadata]; [shown] is the compact path; [date] is strftime('%Y %b %d %H:%M:%S') of the local time *)
Definition formatted_metadata (db : names) (date : N -> text) (f : formatting) (s : stat) (shown : text) : list text :=
  [mode_string (st_mode s); format_username f (username db (st_uid s)); format_groupname f (groupname db (st_gid s));
   format_size f (st_size s); date (st_mtime s); shown].

(** ''.join with a separator *)
Fixpoint join (sep : text) (l : list text) : text :=
  match l with
  | [] => []
  | [x] => x
  | x :: r => x ++ sep ++ join sep r
  end.

(** util.py:145-154 [colorize]; a color has a code and a style (object/color.py) *)
Record color := mkcolor { code : N; bold : bool; italic : bool }.
Definition ESC : ascii := "027"%char.
Definition colorize (s : text) (c : option color) : text :=
  match c with
  | None => s
  | Some c =>
      let style := match bold c, italic c with
                   | true, true => ESC :: tx "[1m" ++ ESC :: tx "[3m"
                   | true, false => ESC :: tx "[1m"
                   | false, true => ESC :: tx "[3m"
                   | false, false => ESC :: tx "[0m"
                   end in
      style ++ ESC :: tx "[38;5;" ++ decimal (code c) ++ tx "m" ++ s ++ ESC :: tx "[0m"
  end.

(** stat.S_ISLNK, S_ISDIR, S_ISREG: the type is in the bits 0o170000 = 61440 *)
Definition S_ISLNK (mode : N) : bool := N.eqb (N.land mode 61440) 40960.
Definition S_ISDIR (mode : N) : bool := N.eqb (N.land mode 61440) 16384.
Definition S_ISREG (mode : N) : bool := N.eqb (N.land mode 61440) 32768.

(** file.py:134-148 [render_full]; [target] is os.readlink; [c], [c'] are the colors of file and target *)
Definition render_full (db : names) (date : N -> text) (f : formatting) (s : stat) (shown target : text) (c c' : option color) : text :=
  let line := formatted_metadata db date f s shown in
  let line := removelast line ++ [colorize (last line []) c] in
  join (tx "  ") (if S_ISLNK (st_mode s) then line ++ [tx "->"; colorize target c'] else line).

(** ** The color: file.py:249-268 [_highlight_color] *)
Record scheme := mkscheme {
  file_extension : option (text -> option color);   (* None: not a dict *)
  file_link : option color; file_link_broken : option color; file_executable : option color; file_dir : option color; file_file : option color }.
Definition to_lower (c : ascii) : ascii := let n := nat_of_ascii c in if (65 <=? n) && (n <=? 90) then ascii_of_nat (n + 32) else c.
(** pathlib's suffix: i = name.rfind('.'); name[i:] if 0 < i < len(name) - 1 else '' *)
Fixpoint rfind (c : ascii) (s : text) : option nat :=
  match s with
  | [] => None
  | a :: s => match rfind c s with Some i => Some (S i) | None => if Ascii.eqb a c then Some 0 else None end
  end.
Definition suffix (name : text) : text :=
  match rfind "."%char name with
  | Some i => if (0 <? i) && (i <? length name - 1) then skipn i name else []
  | None => []
  end.
Definition path := list text.
Definition final (p : path) : text := last p [].
(** What is asked of the file system: exists (of an absolute path), and shutil.which of the resolved path *)
Record disk := mkdisk { exists_ : path -> bool; executable : path -> bool }.
(** What a symbolic link says: an absolute path, or one relative to some directory *)
Inductive target : Type := Absolute (p : path) | Relative (p : path).
Definition from (dir : path) (t : target) : path := match t with Absolute p => p | Relative p => dir ++ p end.
Definition target_parts (t : target) : path := match t with Absolute p | Relative p => p end.
(** [cwd] is the current directory; [colored] is the path whose name decides (the file's or the target's). *)
Definition highlight (sc : option scheme) (d : disk) (cwd p : path) (mode : N) (link : target) (colored : path) : option color :=
  match sc with
  | None => None
  | Some sc =>
      let extension := skipn 1 (map to_lower (suffix (final colored))) in
      match (match file_extension sc with Some e => e extension | None => None end) with
      | Some c => Some c
      | None =>
          if S_ISLNK mode then if exists_ d (from cwd link) then file_link sc else file_link_broken sc
          else if executable d p then file_executable sc
          else if S_ISDIR mode then file_dir sc
          else file_file sc
      end
  end.

(** ** The path shown *)

(** filenamesop.py:149-162 [determine_base], the loop: the number of parts that agree *)
Fixpoint agree (p q : path) : nat :=
  match p, q with
  | a :: p, b :: q => if list_eq_dec ascii_dec a b then S (agree p q) else 0
  | _, _ => 0
  end.
Fixpoint nca (parts : path) (n : nat) (roots : list path) : nat :=
  match roots with
  | [] => n
  | r :: roots => nca parts (agree (firstn n parts) r) roots
  end.
Definition parent (p : path) : path := removelast p.
Definition determine_base (is_file : path -> bool) (roots : list path) : path :=
  match roots with
  | [] => []
  | r :: roots => let base := firstn (nca r (length r) roots) r in if is_file base then parent base else base
  end.
(** Path.relative_to; None: ValueError *)
Fixpoint relative_to (base p : path) : option path :=
  match base, p with
  | [], _ => Some p
  | a :: base, b :: p => if list_eq_dec ascii_dec a b then relative_to base p else None
  | _ :: _, [] => None
  end.
(** file.py:225-228, 214 [_compact_path], as_posix of it: '.' if there are no parts *)
Definition compact (base p : path) : option text :=
  match relative_to base p with
  | Some [] => Some (tx ".")
  | Some r => Some (join (tx "/") r)
  | None => None
  end.

(** ** What a File object knows *)

(** file.py:73-87; [None]: not looked up yet *)
Record file := mkfile { lstat : option stat; can_execute : option bool }.
Definition new_file : file := mkfile None None.
(** The file system at some moment, as far as the file is concerned: lstat (None: there is no such file), and whether it can be executed *)
Record moment := mkmoment { now_stat : option stat; now_executable : bool }.

(** file.py:217-223 [_lstat]: None: KillAndResumeException *)
Definition examine (m : moment) (f : file) : file * option stat :=
  match lstat f with
  | Some s => (f, Some s)
  | None => match now_stat m with Some s => (mkfile (Some s) (can_execute f), Some s) | None => (f, None) end
  end.
(** file.py:197-202 [_is_executable] *)
Definition check_executable (m : moment) (f : file) : file * bool :=
  match can_execute f with
  | Some b => (f, b)
  | None => (mkfile (lstat f) (Some (now_executable m)), now_executable m)
  end.
(** file.py:92-116 [__getstate__], [__setstate__]: sending to another process; the file there; None: an exception *)
Definition send (m : moment) (f : file) : file * option file :=
  let '(f, _) := check_executable m f in
  let '(f, s) := examine m f in
  (f, match s with Some _ => Some f | None => None end).

(** ls.py:114-125 [send_path], after filenamesop.py:117-120: the File is made and examined in one moment, the type is checked in another.
    The options -f, -d, -s. None: not sent on. *)
Record options := mkoptions { o_file : bool; o_dir : bool; o_symlink : bool }.
Definition ls_one (o : options) (m1 m2 : moment) : option file :=
  match examine m1 new_file with
  | (f, Some _) =>
      match now_stat m2 with
      | Some s =>
          let mode := st_mode s in
          let s := S_ISLNK mode in
          let r := S_ISREG mode && negb s in
          let d := S_ISDIR mode && negb s in
          if (o_file o && r) || (o_dir o && d) || (o_symlink o && s) then Some f else None
      | None => None
      end
  | (_, None) => None
  end.
