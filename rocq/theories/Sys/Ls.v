(* ls, and the traversal shared by the operators that take filenames:
   marcel/op/filenamesop.py:41-171 and marcel/op/ls.py:85-132.

   Simplifications:
   - The file system does not change while ls runs, and files can be examined (lstat, stat)
     if they exist.  A directory may be unreadable.
   - A file is designated by its identity (device and inode), a number.  The file system
     gives for a symbolic link the identity of the file or directory it finally leads to, or
     none if it is broken or circular: this is what stat, is_dir and resolve depend on.
   - The entries of a directory are listed by name in the order of sorted(root.iterdir()).
   - The roots are the result of globbing (op/filenames.py), distinct and sorted; a root is
     an absolute path of an existing file.
   - Nothing downstream raises (ls.py:126-132). *)
From Coq Require Import List Bool Arith.
Import ListNotations.

Definition name := nat.
Definition path := list name.         (* from the root of the file system *)
Definition ident := nat.

Inductive node :=
| File                                             (* a regular file *)
| Dir (readable : bool) (entries : list (name * ident))
| Link (target : option ident)                     (* where it finally leads *)
| Special.                                         (* a device, a socket, a named pipe *)

Record fs := mkfs { node_of : ident -> node; top : ident }.

Definition path_eqb (p q : path) : bool := if list_eq_dec Nat.eq_dec p q then true else false.

Definition is_link (s : fs) (i : ident) : bool := match node_of s i with Link _ => true | _ => false end.

(* The directory reached by following i, if any (stat) *)
Definition follow (s : fs) (i : ident) : option ident :=
  match node_of s i with
  | Dir _ _ => Some i
  | Link (Some j) => match node_of s j with Dir _ _ => Some j | _ => None end
  | _ => None
  end.
Definition entries (s : fs) (d : ident) : list (name * ident) :=
  match node_of s d with Dir _ es => es | _ => [] end.
Definition readable (s : fs) (d : ident) : bool :=
  match node_of s d with Dir r _ => r | _ => false end.
Fixpoint find_entry (n : name) (es : list (name * ident)) : option ident :=
  match es with
  | [] => None
  | (m, i) :: es => if m =? n then Some i else find_entry n es
  end.
(* The file that path p, taken from file i, designates (lstat): links are followed,
   except the last one *)
Fixpoint walk (s : fs) (i : ident) (p : path) : option ident :=
  match p with
  | [] => Some i
  | n :: p =>
      match follow s i with
      | Some d => match find_entry n (entries s d) with Some j => walk s j p | None => None end
      | None => None
      end
  end.
Definition lookup (s : fs) (p : path) : option ident := walk s (top s) p.

(* The flags, filenamesop.py:51-56, after setup (85-90) *)
Inductive depth := D0 | D1 | DR.
Record flags := mkflags { dep : depth; f_file : bool; f_dir : bool; f_link : bool }.
(* setup, filenamesop.py:85-90, given the flags of the command line *)
Definition default_flags (d : option depth) (f di l : bool) : flags :=
  let d := match d with Some d => d | None => D1 end in
  if f || di || l then mkflags d f di l else mkflags d true true true.

Inductive out := Listed (p : path) | Denied (p : path).

Record state := mkstate {
  emitted : list path;        (* emitted_paths *)
  visited : list ident;       (* visited_dirs *)
  outs : list out             (* sent downstream, the latest last *)
}.

Definition inb_path (p : path) (l : list path) : bool := existsb (path_eqb p) l.
Definition inb (i : ident) (l : list ident) : bool := existsb (Nat.eqb i) l.

(* send_path, ls.py:114-125 *)
Definition selected (fl : flags) (s : fs) (i : ident) : bool :=
  match node_of s i with
  | File => f_file fl
  | Dir _ _ => f_dir fl
  | Link _ => f_link fl
  | Special => false
  end.
Definition send_path (fl : flags) (s : fs) (p : path) (i : ident) (st : state) : state :=
  if selected fl s i && negb (inb_path p (emitted st))
  then mkstate (p :: emitted st) (visited st) (outs st ++ [Listed p])
  else st.

(* The test of filenamesop.py:121, on the depth *)
Definition descends (fl : flags) (level : nat) : bool :=
  match dep fl with D0 => false | D1 => level =? 0 | DR => true end.

(* dir_already_visited, filenamesop.py:161-171 *)
Definition already (s : fs) (i d : ident) (st : state) : bool :=
  is_link s i && inb d (visited st).

(* visit, filenamesop.py:117-140.  The argument fuel bounds the depth of the recursion
   (Python has no such bound, but its recursion limit): None if it is exhausted. *)
Fixpoint visit (fl : flags) (s : fs) (fuel : nat) (st : state) (p : path) (level : nat) : option state :=
  match fuel with
  | 0 => None
  | S fuel =>
      match lookup s p with
      | None => Some (mkstate (emitted st) (visited st) (outs st ++ [Denied p]))    (* FileNotFoundError *)
      | Some i =>
          let st1 := send_path fl s p i st in
          match follow s i with
          | None => Some st1
          | Some d =>
              if descends fl level && negb (already s i d st1) then
                let st2 := mkstate (emitted st1) (d :: visited st1) (outs st1) in
                if readable s d then
                  (fix each (es : list (name * ident)) (st : state) : option state :=
                     match es with
                     | [] => Some st
                     | (n, _) :: es =>
                         match visit fl s fuel st (p ++ [n]) (S level) with
                         | Some st' => each es st'
                         | None => None
                         end
                     end) (entries s d) st2
                else Some (mkstate (emitted st2) (visited st2) (outs st2 ++ [Denied p]))   (* PermissionError *)
              else Some st1
          end
      end
  end.

(* run, filenamesop.py:104-109, in the state made by setup (81-82) *)
Fixpoint visit_all (fl : flags) (s : fs) (fuel : nat) (st : state) (roots : list path) : option state :=
  match roots with
  | [] => Some st
  | r :: roots =>
      match visit fl s fuel st r 0 with
      | Some st' => visit_all fl s fuel st' roots
      | None => None
      end
  end.
Definition ls (fl : flags) (s : fs) (fuel : nat) (roots : list path) : option (list out) :=
  option_map outs (visit_all fl s fuel (mkstate [] [] []) roots).
