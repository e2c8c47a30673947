(** Workspace ownership: marcel/object/workspace.py:34-57 (marker files), 382-422 (lock, unlock), 451-469 (owner),
    486-491 (abandoned markers), 580-592 (validation at startup), marcel/util.py:203-212 (process_exists).
    The processes are interleaved between any two accesses to the directory of the workspace, and may die at
    any point. A listing of the directory is one access. Process ids are not reused. *)
From Coq Require Export List Bool Arith Lia.
Export ListNotations.

(** The files .WORKSPACE and .WORKSPACE.pid *)
Inductive marker : Type := Unowned | Owned (pid : nat).
Definition marker_eqb (a b : marker) : bool :=
  match a, b with
  | Unowned, Unowned => true
  | Owned p, Owned q => Nat.eqb p q
  | _, _ => false
  end.
Definition has (m : marker) (l : list marker) : bool := existsb (marker_eqb m) l.
Definition remove (m : marker) (l : list marker) : list marker := filter (fun x => negb (marker_eqb m x)) l.
(** Path.rename; None: FileNotFoundError. *)
Definition rename (a b : marker) (l : list marker) : option (list marker) :=
  if has a l then Some (b :: remove b (remove a l)) else None.
Definition touch (m : marker) (l : list marker) : list marker := if has m l then l else m :: l.
Definition owners (l : list marker) : list nat := flat_map (fun m => match m with Owned p => [p] | Unowned => [] end) l.

(** Where a process is. [holding] says whether the process being in owner() is in unlock_workspace. *)
Inductive pc : Type :=
| VList                             (* validate, 588: delete_abandoned_markers, the listing *)
| VDel (todo : list nat)            (* 487-490 *)
| VUnlink (q : nat) (todo : list nat)  (* 491 *)
| VCheck                            (* 589: marker.exists *)
| VTouch                            (* 592: ensure_exists *)
| Ready                             (* not using the workspace *)
| OExists (unlock : bool)           (* 454: unowned().exists() *)
| ORename                           (* 389 *)
| OList (unlock : bool)             (* 459: delete_abandoned_markers, the listing *)
| ODel (unlock : bool) (todo : list nat)
| OUnlink (unlock : bool) (q : nat) (todo : list nat)
| OOwner (unlock : bool)            (* 461-469: listing the markers *)
| OTest (q : nat)                   (* 391-400 *)
| OTake (q : nat)                   (* 403-405 *)
| Holding                           (* lock_workspace has returned True *)
| ORelease.                         (* 417-418: rename to unowned *)

Inductive status : Type := NotStarted | Alive (c : pc) | Dead.
Record sys : Type := Sys { markers : list marker; procs : nat -> status }.
Definition set (s : sys) (p : nat) (st : status) : sys := Sys (markers s) (fun x => if Nat.eqb x p then st else procs s x).
Definition exists_process (s : sys) (p : nat) : bool := match procs s p with Alive _ => true | _ => false end.

(** What the process does after owner() has failed with an exception: the command is given up. In unlock_workspace, the
    workspace is still owned. *)
Definition give_up (unlock : bool) : status := Alive (if unlock then Holding else Ready).

(** One step of process [p]; [ppid] is the parent process. *)
Definition act (ppid : nat -> nat) (p : nat) (s : sys) : sys :=
  let ms := markers s in
  match procs s p with
  | Alive c =>
    match c with
    | VList => set s p (Alive (VDel (owners ms)))
    | VDel [] => set s p (Alive VCheck)
    | VDel (q :: r) => set s p (Alive (if exists_process s q then VDel r else VUnlink q r))
    | VUnlink q r =>
      if has (Owned q) ms then set (Sys (remove (Owned q) ms) (procs s)) p (Alive (VDel r))
      else set s p Dead                    (* FileNotFoundError: marcel does not start *)
    | VCheck => set s p (Alive (match ms with [] => VTouch | _ => Ready end))
    | VTouch => set (Sys (touch Unowned ms) (procs s)) p (Alive Ready)
    | Ready | Holding => s
    | OExists u => set s p (Alive (if has Unowned ms then (if u then Ready (* 412-414: nothing to do *) else ORename) else OList u))
    | ORename =>
      match rename Unowned (Owned p) ms with
      | Some ms' => set (Sys ms' (procs s)) p (Alive Holding)
      | None => set s p (give_up false)
      end
    | OList u => set s p (Alive (ODel u (owners ms)))
    | ODel u [] => set s p (Alive (OOwner u))
    | ODel u (q :: r) => set s p (Alive (if exists_process s q then ODel u r else OUnlink u q r))
    | OUnlink u q r =>
      if has (Owned q) ms then set (Sys (remove (Owned q) ms) (procs s)) p (Alive (ODel u r))
      else set s p (give_up u)
    | OOwner u =>
      match ms with
      | [Owned q] =>
        if u then set s p (if Nat.eqb q p then Alive ORelease else give_up true)  (* 415, 420-422 *)
        else set s p (Alive (OTest q))
      | _ => set s p (give_up u)  (* assertions; int('WORKSPACE') *)
      end
    | OTest q =>
      set s p (Alive (if Nat.eqb q p then Holding
                      else if Nat.eqb q (ppid p) then Holding
                      else if exists_process s q then Ready  (* refused *)
                      else OTake q))
    | OTake q =>
      match rename (Owned q) (Owned p) ms with
      | Some ms' => set (Sys ms' (procs s)) p (Alive Holding)
      | None => set s p (give_up false)
      end
    | ORelease =>
      match rename (Owned p) Unowned ms with
      | Some ms' => set (Sys ms' (procs s)) p (Alive Ready)
      | None => set s p (give_up true)
      end
    end
  | _ => s
  end.

(** What can happen. *)
Inductive event : Type :=
| EStart (p : nat)     (* a marcel process starts *)
| EOpen (p : nat)      (* it opens the workspace: lock_workspace is called if a marker exists (243-244) *)
| EClose (p : nat)     (* it closes the workspace *)
| EAct (p : nat)       (* it takes a step *)
| EDie (p : nat).      (* it ends, or is killed *)

Definition happen (ppid : nat -> nat) (s : sys) (e : event) : sys :=
  match e with
  | EStart p => match procs s p with NotStarted => set s p (Alive VList) | _ => s end
  | EOpen p =>
    match procs s p with
    | Alive Ready => match markers s with [] => s | _ => set s p (Alive (OExists false)) end
    | _ => s
    end
  | EClose p => match procs s p with Alive Holding => set s p (Alive (OExists true)) | _ => s end
  | EAct p => act ppid p s
  | EDie p => match procs s p with Alive _ => set s p Dead | _ => s end
  end.
Definition run (ppid : nat -> nat) (s : sys) (l : list event) : sys := fold_left (happen ppid) l s.
