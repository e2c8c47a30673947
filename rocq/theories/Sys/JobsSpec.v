(* What the job control of marcel is meant to guarantee (C35), in terms of
   the labels shown by the command jobs, and of what the operating system does with
   the processes. *)
From Coq Require Import List Bool Arith.
From Verif.Sys Require Import Jobs.
Import ListNotations.

(* w can be reached from w0, every event being accepted by ok *)
Inductive reach (ok : W -> ev -> Prop) (w0 : W) : W -> Prop :=
| reach_start : reach ok w0 w0
| reach_step : forall w e w', reach ok w0 w -> ok w e -> step w e = Some w' -> reach ok w0 w'.

(* Every schedule: processes end, and signals arrive, between any two instructions *)
Definition anytime (w : W) (e : ev) : Prop := True.

(* The main process is blocked: at the prompt, or waiting for the job in the
   foreground.  It is there nearly all of the time. *)
Definition blocked (w : W) : Prop :=
  stk w = [] \/ exists j r, stk w = CJoined j :: r.

(* Signals are handled while the main process is blocked.  Processes end, and
   ctrl-Z is typed, at any time. *)
Definition when_blocked (w : W) (e : ev) : Prop :=
  match e with
  | EZHandle | ECHandle => blocked w
  | _ => True
  end.

Definition state (w : W) (j : nat) : jstate := lab (rec w j).
Definition exists_job (w : W) (j : nat) : Prop := j < nxt w.

Definition one_foreground (w : W) : Prop :=
  forall i j, exists_job w i -> exists_job w j ->
    state w i = FOREGROUND -> state w j = FOREGROUND -> i = j.
Definition no_foreground (w : W) : Prop :=
  forall j, exists_job w j -> state w j <> FOREGROUND.

(* The documented transitions *)
Inductive documented : jstate -> jstate -> Prop :=
| d_same s : documented s s
| d_fg_paused : documented FOREGROUND PAUSED      (* ctrl-Z *)
| d_fg_dead : documented FOREGROUND DEAD          (* ctrl-C, or it ends *)
| d_paused_bg : documented PAUSED BACKGROUND      (* bg *)
| d_paused_fg : documented PAUSED FOREGROUND      (* fg *)
| d_bg_fg : documented BACKGROUND FOREGROUND      (* fg *)
| d_bg_dead : documented BACKGROUND DEAD          (* it ends *)
| d_paused_dead : documented PAUSED DEAD.

(* A process that has ended, or that has been sent SIGKILL *)
Definition ended (p : pstate) : Prop := p = PZombie \/ p = PReaped.

(* The label of a job agrees with what its process does *)
Definition agrees (w : W) (j : nat) : Prop :=
  match state w j with
  | PAUSED => ps (rec w j) <> PRun
  | FOREGROUND | BACKGROUND => ps (rec w j) <> PStop
  | DEAD => True
  end.
