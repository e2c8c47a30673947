(* Which job bg and fg mean, and how jobs shows the jobs: marcel/op/jobop.py:24-53, bg.py, fg.py, jobs.py:57-63,
   job.py:270-283 and 322-327.  What becomes of the job is C35. *)
From Coq Require Import Ascii String List Bool Arith ZArith.
From Verif.Py Require Dec.
From Verif.Sys Require Import Csv History.
From Verif.Syntax Require Args ArgsTable.
Import ListNotations.
Open Scope list_scope.

(* job.py:99-104.  process: the number of the process, None if the field is None; alive: Process.is_alive();
   symbol: state_symbol(), 163-164; source: the text of the command *)
Record job := mkjob { process : option Z; alive : bool; symbol : ascii; source : text }.

(* JobControl.remove_completed, job.py:322-327; JobControl.jobs, 270-272 *)
Definition present (j : job) : bool := match process j with Some _ => alive j | None => false end.
Definition remove_completed (l : list job) : list job := filter present l.

(* Jobs.run, jobs.py:57-63: what it sends.  (process is not None, after remove_completed) *)
Definition describe (k : nat) (j : job) : text :=
  txt (Dec.dec (Z.of_nat k)) ++ txt "(" ++ [symbol j] ++ txt "): " ++
  txt (match process j with Some p => Dec.dec p | None => ""%string end) ++ txt "  " ++ source j.
Fixpoint number (k : nat) (l : list job) : list text :=
  match l with [] => [] | j :: l => describe k j :: number (S k) l end.
Definition jobs_run (l : list job) : list job * list text := let l := remove_completed l in (l, number 0 l).

(* str_to_int, argsparser.py:176-184: what is callable is kept *)
Definition conv_job (name : text) (o : Args.obj) : option Args.obj :=
  match o with
  | Args.OStr t => option_map Args.OInt (parse_int t)
  | Args.OInt n => Some (Args.OInt n)
  | Args.OFun f => Some (Args.OFun f)
  | _ => None
  end.

Inductive outcome :=
| Told             (* a message, and nothing is done: ArgsError, KillCommandException *)
| Fails            (* an exception that nothing handles *)
| Acts (j : job).  (* bg or fg of that job *)

(* self._jobs[jid], job.py:276 *)
Definition index (l : list job) (n : Z) : outcome :=
  let k := if (n <? 0)%Z then (Z.of_nat (length l) + n)%Z else n in
  if (k <? 0)%Z then Fails else match nth_error l (Z.to_nat k) with Some j => Acts j | None => Fails end.
(* JobControl.job, job.py:277-281, and then the action (jobop.py:53): job.process.pid of None, and an action of None, are
   AttributeErrors *)
Fixpoint by_process (l : list job) (n : Z) : outcome :=
  match l with
  | [] => Fails
  | j :: l => match process j with
              | None => Fails
              | Some p => if (p =? n)%Z then Acts j else by_process l n
              end
  end.

(* JobOp.setup, jobop.py:44-50, and run.  The comparison of a function with a number is a TypeError. *)
Definition pick (d : Args.decl) (args : list Args.obj) (l : list job) : list job * outcome :=
  match Args.parse conv_job d args with
  | None => (l, Told)
  | Some m =>
      match (match Args.dget (txt "job_id") m with Some v => Some v | None => Args.dget (txt "jid") m end) with
      | Some (Args.OInt n) =>
          let l := remove_completed l in
          if (Z.of_nat (length l) <=? n)%Z then (l, Told) else (l, index l n)
      | Some _ => (remove_completed l, Fails)
      | None => match Args.dget (txt "pid") m with
                | Some (Args.OInt n) => (l, by_process l n)
                | _ => (l, Fails)
                end
      end
  end.
