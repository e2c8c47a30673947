(* Filename arguments: marcel/op/filenames.py:35-86 (Filenames.normalize), which ls, read, cd, pushd, upload,
   download and rm-like operators use to turn their arguments into paths; with util.unescape
   (marcel/util.py:226-245) and the parts of Python's library that it calls: os.path.normpath,
   pathlib.Path (parsing, expanduser, joining, glob: Lib/pathlib.py 3.11), and fnmatch.translate.

   Simplifications: characters have 8 bits; the file system does not change meanwhile; the root directory can be
   searched.  What the regular expression made by fnmatch accepts is modelled directly
   (the items of the pattern, one after the other). *)
From Coq Require Import Ascii String List Bool Arith.
From Verif.Syntax Require Import Lexer.
Import ListNotations.
Local Open Scope list_scope.

Definition SLASH : ascii := "/"%char.
Definition text_eqb (a b : text) : bool := if list_eq_dec ascii_dec a b then true else false.

(* util.unescape, util.py:226-245: a backslash at the end is dropped *)
Fixpoint unesc (t : text) : text :=
  match t with
  | [] => []
  | c :: r =>
      if (c =? bslash)%char then match r with [] => [] | d :: r' => d :: unesc r' end
      else c :: unesc r
  end.

(* str.split('/') *)
Fixpoint split_slash (t : text) : list text :=
  match t with
  | [] => [[]]
  | c :: r =>
      if (c =? SLASH)%char then [] :: split_slash r
      else match split_slash r with w :: ws => (c :: w) :: ws | [] => [[c]] end
  end.

Definition DOT : text := txt ".".
Definition DOTDOT : text := txt "..".

(* os.path.normpath: the number of leading slashes kept (0, 1 or 2), and the components.  A component .. removes the
   one before it, unless there is none or it is itself .. *)
Definition initial_slashes (t : text) : nat :=
  if starts [SLASH] t then (if starts [SLASH; SLASH] t && negb (starts [SLASH; SLASH; SLASH] t) then 2 else 1) else 0.
Fixpoint norm_comps (slashes : nat) (acc : list text) (cs : list text) : list text :=   (* acc: newest first *)
  match cs with
  | [] => rev acc
  | c :: cs =>
      if text_eqb c [] || text_eqb c DOT then norm_comps slashes acc cs
      else if negb (text_eqb c DOTDOT)
              || ((slashes =? 0) && match acc with [] => true | _ => false end)
              || match acc with l :: _ => text_eqb l DOTDOT | [] => false end
      then norm_comps slashes (c :: acc) cs
      else norm_comps slashes (tl acc) cs
  end.
Definition normpath (t : text) : nat * list text :=
  let n := initial_slashes t in (n, norm_comps n [] (split_slash t)).

Definition path := list text.      (* an absolute path: its components *)

(* What the operating system says.  exists and is_dir follow symbolic links; listdir is what can be
   read of a directory (nothing if it cannot), in the order of scandir; subdir: a directory that is not a symbolic link;
   home: the home directory of a user (the current one for the empty name). *)
Record fsys := mkfsys {
  exists_ : path -> bool;
  is_dir : path -> bool;
  subdir : path -> bool;
  listdir : path -> list text;
  home : text -> option path
}.

(* An argument: a string, or a File or Path, with its text *)
Inductive filename := FnStr (t : text) | FnFile (p : path).
Fixpoint join_slash (p : path) : text := match p with [] => [] | c :: p => SLASH :: c ++ join_slash p end.
(* as_posix of an absolute path *)
Definition posix (p : path) : text := match p with [] => [SLASH] | _ => join_slash p end.
Definition filename_text (f : filename) : text := match f with FnStr t => t | FnFile p => posix p end.

Inductive result (A : Type) := Done (a : A) | Raises.
Arguments Done {A}. Arguments Raises {A}.

(* expanduser of pathlib, on a normalised path; and then line 81-83: made absolute.  The boolean
   tells that two slashes are in front. *)
Definition TILDE : ascii := "~"%char.
Definition normalized (s : fsys) (cwd : path) (f : filename) : result (bool * path) :=
  let '(n, cs) := normpath (unesc (filename_text f)) in
  match n with
  | 0 =>
      match cs with
      | (c :: user) :: cs' =>
          if (c =? TILDE)%char then
            match home s user with
            | Some h => Done (false, h ++ cs')
            | None => Raises                     (* RuntimeError: can't determine home directory *)
            end
          else Done (false, cwd ++ cs)
      | _ => Done (false, cwd ++ cs)
      end
  | 1 => Done (false, cs)
  | _ => Done (true, cs)
  end.

(* ---- fnmatch.translate ---- *)

Definition between (lo hi c : ascii) : bool := (nat_of_ascii lo <=? nat_of_ascii c) && (nat_of_ascii c <=? nat_of_ascii hi).

Inductive gitem :=
| GChar (c : ascii)
| GAny
| GStar
| GClass (neg : bool) (ranges : list (ascii * ascii)).

(* what is between the brackets: a, or a-b *)
Fixpoint ranges (t : text) : list (ascii * ascii) :=
  match t with
  | [] => []
  | a :: t1 =>
      match t1 with
      | d :: b :: t2 => if (d =? "-")%char then (a, b) :: ranges t2 else (a, a) :: ranges t1
      | _ => (a, a) :: ranges t1
      end
  end.

(* the text up to the next closing bracket, and the rest after it *)
Fixpoint to_bracket (t : text) : option (text * text) :=
  match t with
  | [] => None
  | c :: r => if (c =? "]")%char then Some ([], r)
              else match to_bracket r with Some (a, b) => Some (c :: a, b) | None => None end
  end.
(* after an opening bracket: a closing bracket that comes first, or after !, belongs to the class *)
Definition class_body (t : text) : option (text * text) :=
  match t with
  | c :: r => if (c =? "]")%char then match to_bracket r with Some (a, b) => Some (c :: a, b) | None => None end
              else to_bracket t
  | [] => None
  end.
Definition bracket (t : text) : option (bool * text * text) :=
  match t with
  | c :: r => if (c =? "!")%char then match class_body r with Some (a, b) => Some (true, a, b) | None => None end
              else match class_body t with Some (a, b) => Some (false, a, b) | None => None end
  | [] => None
  end.

Fixpoint translate (fuel : nat) (t : text) : list gitem :=
  match fuel, t with
  | S fuel, c :: r =>
      if (c =? "*")%char then GStar :: translate fuel r
      else if (c =? "?")%char then GAny :: translate fuel r
      else if (c =? "[")%char then
        match bracket r with
        | Some (neg, body, r') => GClass neg (ranges body) :: translate fuel r'
        | None => GChar c :: translate fuel r
        end
      else GChar c :: translate fuel r
  | _, _ => []
  end.
Definition pattern (t : text) : list gitem := translate (length t) t.

Definition in_ranges (rs : list (ascii * ascii)) (c : ascii) : bool := existsb (fun r => between (fst r) (snd r) c) rs.

(* fullmatch *)
Fixpoint gmatch (g : list gitem) (t : text) : bool :=
  match g with
  | [] => match t with [] => true | _ => false end
  | GStar :: g =>
      (fix star (t : text) : bool :=
         gmatch g t || match t with [] => false | _ :: r => star r end) t
  | i :: g =>
      match t with
      | [] => false
      | c :: r =>
          match i with
          | GChar d => (c =? d)%char
          | GAny => true
          | GClass neg rs => xorb neg (in_ranges rs c)
          | GStar => true
          end && gmatch g r
      end
  end.

(* ---- Path.glob ---- *)

Definition STARSTAR : text := txt "**".
Definition wildcard (c : text) : bool := existsb (fun x => (x =? "*") || (x =? "?") || (x =? "["))%char c.
Fixpoint has_starstar (c : text) : bool :=
  match c with
  | a :: (b :: _) as r => ((a =? "*") && (b =? "*"))%char || has_starstar r
  | _ => false
  end.

(* _iterate_directories: the directory and those below it, symbolic links not followed; fuel bounds the depth *)
Fixpoint directories (s : fsys) (fuel : nat) (b : path) : list path :=
  b :: match fuel with
       | 0 => []
       | S fuel => flat_map (fun n => if subdir s (b ++ [n]) then directories s fuel (b ++ [n]) else []) (listdir s b)
       end.

Definition path_eq_dec : forall p q : path, {p = q} + {p <> q} := list_eq_dec (list_eq_dec ascii_dec).
Definition path_in (p : path) (l : list path) : bool := if in_dec path_eq_dec p l then true else false.
(* keep the first of equal paths *)
Fixpoint once (seen l : list path) : list path :=
  match l with
  | [] => []
  | p :: l => if path_in p seen then once seen l else p :: once (p :: seen) l
  end.

(* the selectors, from directory b *)
Fixpoint select (s : fsys) (fuel : nat) (b : path) (cs : list text) : list path :=
  match cs with
  | [] => [b]
  | c :: cs =>
      let dironly := match cs with [] => false | _ => true end in
      if text_eqb c STARSTAR then once [] (flat_map (fun d => select s fuel d cs) (directories s fuel b))
      else if wildcard c then
        flat_map (fun n => if (dironly && negb (is_dir s (b ++ [n]))) || negb (gmatch (pattern c) n) then []
                           else select s fuel (b ++ [n]) cs) (listdir s b)
      else if (if dironly then is_dir s (b ++ [c]) else exists_ s (b ++ [c])) then select s fuel (b ++ [c]) cs
      else []
  end.
Definition glob (s : fsys) (fuel : nat) (cs : list text) : result (list path) :=
  if existsb (fun c => negb (text_eqb c STARSTAR) && has_starstar c) cs then Raises   (* ValueError *)
  else Done (select s fuel [] cs).

(* ---- Filenames ---- *)

(* _normalize_paths, 66-86 *)
Fixpoint normalize_paths (s : fsys) (cwd : path) (fs : list filename) : result (list (bool * path)) :=
  match fs with
  | [] => Done []
  | f :: fs =>
      match normalized s cwd f, normalize_paths s cwd fs with
      | Done p, Done ps => Done (p :: ps)
      | _, _ => Raises
      end
  end.

(* normalize, 46-64: [seen] is roots_set. The root directory is added without looking.  A path with two
   slashes in front makes a pattern with one: NotImplementedError; // itself too. *)
Fixpoint add_roots (seen : list path) (found : list path) : list path * list path :=
  match found with
  | [] => (seen, [])
  | p :: found => if path_in p seen then add_roots seen found
                  else let '(seen, roots) := add_roots (p :: seen) found in (seen, p :: roots)
  end.
Fixpoint normalize_loop (s : fsys) (fuel : nat) (seen : list path) (ps : list (bool * path)) : result (list path) :=
  match ps with
  | [] => Done []
  | (true, _) :: _ => Raises
  | (false, []) :: ps =>
      match normalize_loop s fuel seen ps with Done roots => Done ([] :: roots) | Raises => Raises end
  | (false, cs) :: ps =>
      match glob s fuel cs with
      | Raises => Raises
      | Done found =>
          let '(seen, roots1) := add_roots seen found in
          match normalize_loop s fuel seen ps with Done roots => Done (roots1 ++ roots) | Raises => Raises end
      end
  end.
Definition normalize (s : fsys) (fuel : nat) (cwd : path) (fs : list filename) : result (list path) :=
  match normalize_paths s cwd fs with
  | Done ps => normalize_loop s fuel [] ps
  | Raises => Raises
  end.
