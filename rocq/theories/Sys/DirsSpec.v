(** What the directory commands should do (op/{cd,pushd,popd,dirs,pwd}.py HELP): there is a stack of
    directories, the current directory is at its top. *)
From Verif.Sys Require Export Dirs.
Local Open Scope list_scope.

(** Paths and links: following links leads to a path without links, the same file. *)
Record fs_ok (f : fsys) : Prop := {
  res_idem : forall p, f_resolve f (f_resolve f p) = f_resolve f p;
  res_exists : forall p, f_exists f (f_resolve f p) = f_exists f p;
  res_isdir : forall p, f_isdir f (f_resolve f p) = f_isdir f p;
  res_access : forall p, f_access f (f_resolve f p) = f_access f p;
  isdir_exists : forall p, f_isdir f p = true -> f_exists f p = true
}.
(** A directory one can go to. *)
Definition reachable (f : fsys) (p : path) : Prop := f_isdir f p = true /\ f_access f p = true.
(** No links on the way to it. *)
Definition resolved (f : fsys) (p : path) : Prop := f_resolve f p = p.

(** The stack, top first. *)
Definition stack (s : dstate) : list path := rev (map epath (dirs s)).
(** PWD is the process's directory and the top of the stack. *)
Definition consistent (s : dstate) : Prop := pwd s = cwd s /\ exists r, stack s = cwd s :: r.

(** Entries that can still be used, in order. *)
Definition kept (f : fsys) (l : list path) : list path := filter (fun p => f_exists f p && f_access f p) l.

(** The effect of a command on the stack (top first), None when it fails. *)
Definition effect (f : fsys) (c : dcmd) (l : list path) : option (list path) :=
  let go p r := if f_isdir f p && f_access f p then Some (f_resolve f p :: r) else None in
  match c with
  | CCd [p] => go p (tl l)
  | CCd _ => None
  | CPushd (Some [p]) => go p l
  | CPushd (Some _) => None
  | CPushd None => match l with a :: b :: r => Some (b :: a :: r) | _ => Some l end
  | CPopd => match l with _ :: b :: r => Some (b :: r) | _ => Some l end
  | CDirs true => Some (firstn 1 l)
  | CDirs false | CPwd => Some l
  end.
