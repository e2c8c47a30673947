(* What startup is meant to guarantee about marcel's files (C41). *)
From Coq Require Import Ascii String List Bool Arith.
From Verif.Sys Require Import Csv Layout.
Import ListNotations.
Open Scope list_scope.

(* Whatever exists is in a directory *)
Definition closed (w : fs) : Prop :=
  forall p n, look (p ++ [n]) w <> None -> look p w = Some D.

Definition is_file (w : fs) (p : path) : Prop := exists t, look p w = Some (F t).
Definition is_directory (w : fs) (p : path) : Prop := look p w = Some D.
Definition nothing (w : fs) (p : path) : Prop := look p w = None.

(* A time as strftime writes it, in this millennium: # 2yyy-mm-dd hh:mm:ss.ffffff *)
Definition digits (n : nat) (t : text) : Prop := length t = n /\ Forall (fun c => isdigit c = true) t.
Definition is_stamp (t : text) : Prop :=
  exists y mo d h mi s us,
    digits 3 y /\ digits 2 mo /\ digits 2 d /\ digits 2 h /\ digits 2 mi /\ digits 2 s /\ digits 6 us /\
    t = txt "# 2" ++ y ++ txt "-" ++ mo ++ txt "-" ++ d ++ txt " " ++ h ++ txt ":" ++ mi ++ txt ":" ++ s ++ txt "." ++ us.

(* A history that the version of prompt_toolkit's format would not be mistaken for *)
Definition old_history (w : fs) (p : path) : Prop :=
  exists t, look p w = Some (F t) /\ history_is_current t = Some false.

(* The names that marcel reserves are free in a directory *)
Definition unreserved (w : fs) (base : path) : Prop :=
  nothing w (base ++ [DEF3]) /\ nothing w (base ++ [WS]) /\ ~ is_file w (base ++ ["broken"%string]).

(* All directories in [base], but the named one, have a history *)
Definition histories (w : fs) (base : path) (but : string) : Prop :=
  forall n, is_directory w (base ++ [n]) -> n <> but -> is_file w (base ++ [n; "history"%string]).

(* ---- the files as each version of marcel left them ---- *)

(* before 0.13.6 *)
Definition laid_original (w : fs) : Prop :=
  is_file w ["home"; ".marcel.py"]%string /\ old_history w ["home"; ".marcel_history"]%string /\
  is_directory w ["home"%string] /\ nothing w config /\ nothing w data.

(* from 0.13.6 *)
Definition laid_xdg (w : fs) : Prop :=
  is_file w ["config"; "startup.py"]%string /\ old_history w ["data"; "history"]%string /\
  unreserved w config /\ unreserved w data /\
  nothing w (config ++ [DEF2]) /\ nothing w (data ++ [DEF2]) /\
  nothing w (config ++ [MARKER]) /\
  ~ is_file w (data ++ ["reservoirs"%string]) /\
  histories w data "reservoirs".

(* from 0.20.0: a directory for each named workspace *)
Definition laid_ws1 (w : fs) : Prop :=
  is_file w ["config"; "startup.py"]%string /\ old_history w ["data"; "history"]%string /\
  unreserved w config /\ unreserved w data /\
  nothing w (config ++ [DEF2]) /\ nothing w (data ++ [DEF2]) /\
  is_file w (config ++ [MARKER]) /\
  is_directory w (data ++ ["reservoirs"%string]) /\
  histories w data "reservoirs".

(* from 0.24.0: one for the default workspace too *)
Definition laid_ws2 (w : fs) : Prop :=
  is_directory w (config ++ [DEF2]) /\ is_directory w (data ++ [DEF2]) /\
  unreserved w config /\ unreserved w data /\
  old_history w (data ++ [DEF2; "history"%string]) /\
  histories w data DEF2.

(* from 0.28.0 *)
Definition laid_ws3 (w : fs) : Prop :=
  is_directory w (config ++ [WS; DEF3]) /\ is_directory w (data ++ [WS; DEF3]) /\
  old_history w (data ++ [WS; DEF3; "history"%string]) /\
  histories w (data ++ [WS]) DEF3.

(* from 0.32.0 *)
Definition laid_pt (w : fs) : Prop :=
  is_directory w (config ++ [WS; DEF3]) /\
  exists t, look (data ++ [WS; DEF3; "history"%string]) w = Some (F t) /\ history_is_current t = Some true.

Definition laid (l : layout) (w : fs) : Prop :=
  match l with
  | Original => laid_original w | XDG => laid_xdg w | WS1 => laid_ws1 w
  | WS2 => laid_ws2 w | WS3 => laid_ws3 w | PT => laid_pt w
  end.

(* ---- where the user's things are ---- *)

Inductive item :=
| Startup                       (* the configuration *)
| Reservoirs                    (* the reservoirs of the default workspace *)
| Config (workspace : string)   (* the directories of a named workspace *)
| Data (workspace : string).

Definition place (l : layout) (i : item) : option path :=
  match l, i with
  | Original, Startup => Some ["home"; ".marcel.py"]%string
  | Original, _ => None
  | (XDG | WS1), Startup => Some (config ++ ["startup.py"%string])
  | (XDG | WS1), Reservoirs => Some (data ++ ["reservoirs"%string])
  | WS2, Startup => Some (config ++ [DEF2; "startup.py"%string])
  | WS2, Reservoirs => Some (data ++ [DEF2; "reservoirs"%string])
  | (XDG | WS1 | WS2), Config n => Some (config ++ [n])
  | (XDG | WS1 | WS2), Data n => Some (data ++ [n])
  | (WS3 | PT), Startup => Some (config ++ [WS; DEF3; "startup.py"%string])
  | (WS3 | PT), Reservoirs => Some (data ++ [WS; DEF3; "reservoirs"%string])
  | (WS3 | PT), Config n => Some (config ++ [WS; n])
  | (WS3 | PT), Data n => Some (data ++ [WS; n])
  end.

(* The item is there: names of workspaces are those of directories that are not marcel's own *)
Definition owned (l : layout) (i : item) (w : fs) : Prop :=
  match i with
  | Startup | Reservoirs => True
  | Config n | Data n =>
    n <> DEF2 /\ n <> DEF3 /\ n <> "reservoirs"%string /\
    exists p, place l i = Some p /\ is_directory w p
  end.

(* Histories are the exception: their format has changed *)
Definition kept (i : item) (r : path) : Prop :=
  match i with Data _ => r <> ["history"%string] | _ => True end.

(* Nothing of the user's is lost or changed on the way from w, in layout l, to w' *)
Definition preserved (l : layout) (w w' : fs) : Prop :=
  forall i p r, place l i = Some p -> owned l i w -> kept i r -> look (p ++ r) w <> None ->
  exists p', place PT i = Some p' /\ look (p' ++ r) w' = look (p ++ r) w.
