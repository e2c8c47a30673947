(* What editing is meant to guarantee (C87). *)
From Coq Require Import Ascii String List Bool Arith ZArith.
From Verif.Sys Require Import Csv History EditOp.
Import ListNotations.
Open Scope list_scope.

(* The editor: marcel's variable EDITOR, or else the one of the environment of the process *)
Definition the_editor (s : site) (e : text) : Prop :=
  var_editor s = Some e \/ (var_editor s = None /\ os_editor s = Some e).
Definition no_editor (s : site) : Prop := var_editor s = None /\ os_editor s = None.

(* The startup script of a workspace (the layout described in locations.py:22-52) *)
Definition script_of (config ws : text) : text := config ++ txt "/marcel/workspace/" ++ ws ++ txt "/startup.py".
(* The name of the directory of a workspace *)
Definition dir_of (ws : option text) (d : text) : Prop :=
  (ws = None /\ d = txt "__DEFAULT__") \/ ws = Some d.

(* White space; a word *)
Definition blank (t : text) : Prop := forallb isspace t = true.
Definition a_word (t : text) : Prop := t <> [] /\ Forall (fun c => isspace c = false) t.
