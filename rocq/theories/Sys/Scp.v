(** upload and download: the scp commands they run on each host: Upload.scp_command (marcel/op/upload.py:109-122),
    Download.scp_command (op/download.py:113-126), quote_files (util.py:105-110) and Python's shlex.quote; the command
    goes to bash as the only argument of the operator bash (upload.py:124-128, download.py:128-132; bash.py:103-104).

    Simplification: a path is its text; the operators that resolve the paths (Filenames, Glob.v) are not part of this file. *)
From Verif.Py Require Import Dec.
From Verif.Syntax Require Export Lexer.
From Verif.Syntax Require Import Scripts.
Local Open Scope char_scope.
Local Open Scope list_scope.

(** shlex._find_unsafe: the characters that need no quotes *)
Definition safe (c : ascii) : bool :=
  let n := nat_of_ascii c in
  ((((48 <=? n) && (n <=? 57)) || ((65 <=? n) && (n <=? 90)) || ((97 <=? n) && (n <=? 122)))%nat
   || existsb (Ascii.eqb c) ["_"; "@"; "%"; "+"; "="; ":"; ","; "."; "/"; "-"]).

(** s.replace("'", "'\"'\"'") *)
Definition escape_quotes (s : text) : text :=
  flat_map (fun c => if c =? squote then [squote; dquote; squote; dquote; squote] else [c]) s.

(** shlex.quote *)
Definition quote (s : text) : text :=
  match s with
  | [] => [squote; squote]
  | _ => if forallb safe s then s else squote :: escape_quotes s ++ [squote]
  end.

Fixpoint join_blank (l : list text) : text :=
  match l with [] => [] | [x] => x | x :: l => x ++ " " :: join_blank l end.

(** util.py:105-110 *)
Definition quote_files (l : list text) : text := join_blank (map quote l).

(** object/cluster.py: what the commands use of a host and its cluster *)
Record host := mkhost { user : text; identity : text; addr : text; name : text; port : option nat }.

Definition str_of_nat (n : nat) : text := txt (dec (Z.of_nat n)).

(** upload.py:109-122 *)
Definition upload_command (h : host) (sources : list text) (dest : text) : text :=
  join_blank
    ([txt "scp -Cpqr"]
     ++ match identity h with [] => [] | i => [txt "-i"; i] end
     ++ match port h with Some p => [txt "-P"; str_of_nat p] | None => [] end
     ++ [quote_files sources; user h ++ "@" :: addr h ++ ":" :: dest]).

(** pathlib: dest / name, for a name that does not start with a slash *)
Definition path_join (dest n : text) : text :=
  if match dest with ["/"] => true | _ => false end then dest ++ n else dest ++ "/" :: n.

(** download.py:113-126 *)
Definition download_command (h : host) (sources : list text) (dest : text) : text :=
  join_blank
    ([txt "scp -Cpqr"]
     ++ match identity h with [] => [] | i => [txt "-i"; i] end
     ++ map (fun s => user h ++ "@" :: addr h ++ ":" :: quote_files [s]) sources
     ++ [path_join dest (name h)]).

(** bash.py:103-104: the operator bash hands its only argument on, stripped *)
Definition bash_line (command : text) : text := strip command.

(** upload.py:86-98: the target directory must be absolute; there must be something to upload *)
Definition absolute (p : text) : bool := match p with c :: _ => c =? "/" | [] => false end.
Definition upload (h : host) (sources : list text) (dest : text) : option text :=
  if negb (absolute dest) then None
  else match sources with [] => None | _ => Some (bash_line (upload_command h sources dest)) end.

(** download.py:91-101: remote filenames must be absolute; there must be at least one *)
Definition download (h : host) (sources : list text) (dest : text) : option text :=
  match sources with
  | [] => None
  | _ => if forallb absolute sources then Some (bash_line (download_command h sources dest)) else None
  end.
