(** What a user expects of the shell: the lines typed are commands; they are carried out one after the other, in the
    workspace chosen last; a command that fails does not end the session. No shell states, no phases. *)
From Verif.Sys Require Export Shell.
Set Implicit Arguments.
Local Open Scope list_scope.

(** The lines among what happens at the prompt. *)
Fixpoint typed (W : Type) (es : list (entry W)) : list text :=
  match es with
  | [] => []
  | Typed _ c :: r => c :: typed r
  | _ :: r => typed r
  end.

(** A line that is not empty is a command. *)
Definition commands (ls : list text) : list text := filter (fun c => match c with [] => false | _ => true end) ls.

(** The commands, of those the user typed, that were run: with the workspace, or without. *)
Fixpoint ran_in (l : list event) : list (text * text) :=
  match l with
  | [] => []
  | Ran ws c FromUser :: r => (ws, c) :: ran_in r
  | _ :: r => ran_in r
  end.
Definition ran (l : list event) : list text := map snd (ran_in l).

(** All executions: commands typed, recalled from the history, and of startup scripts. *)
Fixpoint executions (l : list event) : list (text * text) :=
  match l with
  | [] => []
  | Ran ws c _ :: r => (ws, c) :: executions r
  | _ :: r => executions r
  end.

(** [sub l m]: l is m with some elements left out. *)
Inductive sub (A : Type) : list A -> list A -> Prop :=
| sub_nil : sub [] []
| sub_keep x l m : sub l m -> sub (x :: l) (x :: m)
| sub_drop x l m : sub l m -> sub l (x :: m).

(** The endings after which the user gets the prompt again: success, a command that says nothing, failure, ctrl-C. *)
Definition stays (e : ending) : Prop :=
  e = Done \/ e = Empty \/ e = Killed \/ e = Resumed \/ e = Interrupt.

(** A command of a startup script must not be interrupted. *)
Definition stays_at_startup (e : ending) : Prop :=
  e = Done \/ e = Empty \/ e = Killed \/ e = Resumed.

Section Session.
Variable W : Type.
Variable B : behaviour W.

(** Commands run one after the other in one workspace, in the order given, with the recalled command left at the end. *)
Inductive in_turn (ws : text) : W -> option text -> list text -> W -> option text -> Prop :=
| turn_none w nx : in_turn ws w nx [] w nx
| turn_one w nx c cs w1 e nx1 w2 nx2 :
    run_cmd B ws w c = (w1, e, nx1) -> stays_at_startup e ->
    in_turn ws w1 (match nx1 with Some _ => nx1 | None => nx end) cs w2 nx2 ->
    in_turn ws w nx (c :: cs) w2 nx2.

(** A workspace is entered: it opens, is not damaged, and its startup scripts, all strings, are run. *)
Definition enters (ws : text) (w w' : W) (cs : list text) (nx : option text) : Prop :=
  exists w1 scripts,
    open_ws B ws w = (w1, Opened false (map Some scripts)) /\
    cs = concat (map commands_in_script scripts) /\
    in_turn ws w1 None cs w' nx.

(** What comes next: the recalled command, else the next line typed. *)
Inductive upcoming : option text -> list (entry W) -> text -> list (entry W) -> Prop :=
| up_next c es : upcoming (Some c) es c es
| up_line c es : upcoming None (Typed W c :: es) c es.

(** [session ws w nx es l w']: from the prompt in workspace [ws], all of [es] is dealt with; [l] are the executions, in order. *)
Inductive session : text -> W -> option text -> list (entry W) -> list (text * text) -> W -> Prop :=
| session_end ws w : session ws w None [] [] w
| session_ctrl_c ws w es l w' : session ws w None es l w' -> session ws w None (CtrlC W :: es) l w'
| session_outside ws w f es l w' : session ws (f w) None es l w' -> session ws w None (Outside f :: es) l w'
| session_blank ws w nx es es' l w' : upcoming nx es [] es' -> changed B ws w = false ->
    session ws w None es' l w' -> session ws w nx es l w'
| session_run ws w nx es c es' w1 e nx1 l w' :
    upcoming nx es c es' -> c <> [] -> changed B ws w = false ->
    run_cmd B ws w c = (w1, e, nx1) -> stays e ->
    session ws w1 nx1 es' l w' -> session ws w nx es ((ws, c) :: l) w'
| session_switch ws w nx es c es' w1 nx1 ws' w2 cs nx2 l w' :
    upcoming nx es c es' -> c <> [] -> changed B ws w = false ->
    run_cmd B ws w c = (w1, Reconfigure (Some ws'), nx1) ->
    enters ws' (close_ws B ws w1) w2 cs nx2 ->
    session ws' w2 nx2 es' l w' ->
    session ws w nx es ((ws, c) :: map (pair ws') cs ++ l) w'.

(** A well-behaved world: startup scripts are not modified during the session; commands end in one of the ways above or
    switch to another workspace, and recall nothing; workspaces open, and are not damaged; commands of startup scripts do
    not switch. *)
Definition well_behaved : Prop :=
  (forall ws w, changed B ws w = false) /\
  (forall ws w c, exists w' e, run_cmd B ws w c = (w', e, None) /\ (stays e \/ exists ws', e = Reconfigure (Some ws'))) /\
  (forall ws w, exists w' scripts, open_ws B ws w = (w', Opened false (map Some scripts)) /\
     forall c w1, In c (concat (map commands_in_script scripts)) ->
       exists w2 e, run_cmd B ws w1 c = (w2, e, None) /\ stays_at_startup e).

End Session.

(** ** Scripts: the commands of the script in order, in the workspace chosen last. *)
Inductive script_run (W : Type) (B : behaviour W) : text -> W -> list text -> list (text * text) -> W -> Prop :=
| script_end ws w : script_run B ws w [] [] w
| script_cmd ws w c cs w1 e nx l w' :
    run_cmd B ws w c = (w1, e, nx) -> stays_at_startup e ->
    script_run B ws w1 cs l w' -> script_run B ws w (c :: cs) ((ws, c) :: l) w'
| script_switch ws w c cs w1 nx ws' w2 d sc l w' :
    run_cmd B ws w c = (w1, Reconfigure (Some ws'), nx) ->
    open_ws B ws' (close_ws B ws w1) = (w2, Opened d sc) ->
    script_run B ws' w2 cs l w' -> script_run B ws w (c :: cs) ((ws, c) :: l) w'.
