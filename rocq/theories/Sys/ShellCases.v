(** The shell: a world that meets the hypotheses of the theorems, and what is not true (C58). *)
From Coq Require Import Lia Ascii String.
From Verif.Sys Require Import ShellProps.
Local Open Scope list_scope.

Definition t (s : string) : text := list_ascii_of_string s.

(** Commands: "bad" fails; "ws W" opens the workspace w (with a startup script of one command); all others succeed. *)
Definition answer (c : text) : ending :=
  if list_eq_dec ascii_dec c (t "bad") then Killed
  else if list_eq_dec ascii_dec c (t "ws w") then Reconfigure (Some (t "w"))
  else if list_eq_dec ascii_dec c (t "ws default") then Reconfigure (Some default)
  else Done.

Definition scripts_of (ws : text) : list (option text) :=
  if list_eq_dec ascii_dec ws (t "w") then [Some (t "hello")] else [].

(** The world counts the commands run. *)
Definition counting : behaviour nat :=
  mkbehaviour (fun ws w c => (S w, answer c, None)) (fun ws w => (w, Opened false (scripts_of ws)))
    (fun ws w => w) (fun ws w => false).

Lemma counting_well_behaved : well_behaved counting.
Proof.
  split; [reflexivity|]. split.
  - intros ws w c. exists (S w), (answer c). split; [reflexivity|]. unfold answer, stays.
    repeat destruct list_eq_dec; eauto 10.
  - intros ws w. exists w. simpl. unfold scripts_of. destruct list_eq_dec.
    + exists [t "hello"]. split; [reflexivity|]. intros c w1 I. destruct I as [<-|[]]. exists (S w1), Done. split; [reflexivity|]. now left.
    + exists []. split; [reflexivity|]. intros c w1 [].
Qed.

Definition say_ (s : string) {W} : entry W := Typed W (t s).

(** A session with a failing command, ctrl-C, an empty line, and a change of workspace. *)
Example c58_example :
  let es := [say_ "a"; say_ "bad"; CtrlC nat; say_ ""; say_ "ws w"; say_ "b"; Outside (fun w => w + 10); say_ "ws default"; say_ "c"] in
  let s := steps counting 30 (start 0 es) in
  where_ s = Ended AtEnd /\ world s = 17 /\
  executions (log s) = [([], t "a"); ([], t "bad"); ([], t "ws w"); (t "w", t "hello"); (t "w", t "b"); (t "w", t "ws default"); ([], t "c")].
Proof. vm_compute. auto. Qed.

(** Typing a line, and the commands of a script, as a script. *)
Example c58_script_example :
  let s := ssteps counting 30 (t "a" ++ [newline] ++ t "bad" ++ [newline] ++ t "b") (sstart 0) in
  swhere s = SEnded AtEnd /\ executions (slog s) = [([], t "a"); ([], t "bad"); ([], t "b")].
Proof. vm_compute. auto. Qed.

(** ** Refuted: a line typed after the startup script has been modified is not run, although the comment (main.py:205-208)
    says that the new main takes it over. *)
Definition edited : behaviour bool :=
  mkbehaviour (fun ws w c => (w, answer c, None)) (fun ws w => (false, Opened false [])) (fun ws w => w) (fun ws w => w).

Theorem c58_after_edit_refuted :
  ~ (forall W (B : behaviour W) w es n, let s := steps B n (start w es) in
       where_ s = Ended AtEnd -> input s = [] -> ran (log s) = commands (typed es)) /\
  let s := steps edited 20 (start false [say_ "a"; Outside (fun _ => true); say_ "b"; say_ "c"]) in
  where_ s = Ended AtEnd /\ input s = [] /\ executions (log s) = [([], t "a"); ([], t "c")].
Proof.
  assert (X : let s := steps edited 20 (start false [say_ "a"; Outside (fun _ => true); say_ "b"; say_ "c"]) in
    where_ s = Ended AtEnd /\ input s = [] /\ executions (log s) = [([], t "a"); ([], t "c")]) by (vm_compute; auto).
  split; [| exact X]. intros H.
  specialize (H bool edited false [say_ "a"; Outside (fun _ => true); say_ "b"; say_ "c"] 20 (proj1 X) (proj1 (proj2 X))).
  vm_compute in H. discriminate H.
Qed.

(** ** Refuted: with an error in the default workspace's startup script, the shell does not end (main.py:300-303 would have it
    exit), and runs nothing. *)
Definition broken_startup : behaviour unit :=
  mkbehaviour (fun ws w c => (w, Done, None)) (fun ws w => (w, StartupError)) (fun ws w => w) (fun ws w => false).

Theorem c58_startup_error_refuted : forall es n,
  let s := steps broken_startup n (start tt es) in
  where_ s = Opening default /\ input s = es /\ log s = repeat Reported n.
Proof.
  intros es n.
  assert (G : forall n l, let s := steps broken_startup n (mkshell (Opening default) tt None None es l) in
    where_ s = Opening default /\ input s = es /\ log s = l ++ repeat Reported n).
  { induction n0 as [| m IH]; intros l; [simpl; now rewrite app_nil_r|]. destruct (IH (l ++ [Reported])) as (A & C & D).
    cbv zeta. split; [exact A|]. split; [exact C|].
    change (steps broken_startup (S m) (mkshell (Opening default) tt None None es l)) with
      (steps broken_startup m (mkshell (Opening default) tt None None es (l ++ [Reported]))).
    rewrite D, <- app_assoc. reflexivity. }
  apply (G n []).
Qed.

(** ** Refuted: a failing command does not end the session. EOFError (ws --list when a workspace's properties are damaged) is
    taken for ctrl-D; other exceptions end the shell with a stack trace (edit --startup W: Workspace.exists is called with
    an argument it does not have); so does a workspace that is in use by another process. *)
Definition failing (e : ending) (o : opening) : behaviour unit :=
  mkbehaviour (fun ws w c => (w, if list_eq_dec ascii_dec c (t "fails") then e else answer c, None))
    (fun ws w => (w, if list_eq_dec ascii_dec ws (t "w") then o else Opened false [])) (fun ws w => w) (fun ws w => false).

Theorem c58_failure_refuted :
  let es := [say_ "a"; say_ "fails"; say_ "b"] in
  let es' := [say_ "a"; say_ "ws w"; say_ "b"] in
  let s1 := steps (failing EndOfFile Refused) 20 (start tt es) in
  let s2 := steps (failing Crash Refused) 20 (start tt es) in
  let s3 := steps (failing Done Refused) 20 (start tt es') in
  where_ s1 = Ended AtEnd /\ input s1 = [say_ "b"] /\
  where_ s2 = Ended ByCrash /\ input s2 = [say_ "b"] /\
  where_ s3 = Ended ByMessage /\ input s3 = [say_ "b"].
Proof. vm_compute. repeat split; reflexivity. Qed.

(** ** Refuted: the shell starts whatever commands are run on startup. One that opens a workspace ends it. *)
Definition switch_at_startup : behaviour unit :=
  mkbehaviour (fun ws w c => (w, answer c, None)) (fun ws w => (w, Opened false [Some (t "ws w")])) (fun ws w => w) (fun ws w => false).

Theorem c58_switch_at_startup_refuted : forall es,
  let s := steps switch_at_startup 2 (start tt es) in where_ s = Ended ByCrash /\ input s = es.
Proof. intros. split; reflexivity. Qed.

(** ** Refuted: every command typed is run in the end. If run recalls a command that is itself, nothing more is read. *)
Definition recall : behaviour nat :=
  mkbehaviour (fun ws w c => (S w, Done, if list_eq_dec ascii_dec c (t "run 0") then Some (t "run 0") else None))
    (fun ws w => (w, Opened false [])) (fun ws w => w) (fun ws w => false).

Theorem c58_recall_refuted : forall es n,
  let s := steps recall (3 + n) (start 0 (say_ "run 0" :: es)) in
  where_ s = Prompt default /\ input s = es /\ world s = S n.
Proof.
  intros es n.
  assert (G : forall n w k l, let s := steps recall n (mkshell (Prompt default) w (Some (t "run 0")) k es l) in
    where_ s = Prompt default /\ input s = es /\ world s = w + n).
  { induction n0 as [| m IH]; intros w k l; [simpl; repeat split; lia|].
    destruct (IH (S w) None (l ++ [Ran default (t "run 0") FromHistory])) as (A & C & D). repeat split; auto.
    change (steps recall (S m) (mkshell (Prompt default) w (Some (t "run 0")) k es l)) with
      (steps recall m (mkshell (Prompt default) (S w) (Some (t "run 0")) None es (l ++ [Ran default (t "run 0") FromHistory]))).
    rewrite D. lia. }
  apply (G n 1).
Qed.

(** ** Refuted: each command of a script is run once. If it opens a workspace whose startup script fails, the whole script is run
    again, and again. *)
Theorem c58_script_again_refuted : forall n,
  let s := ssteps (failing Done StartupError) (5 * n) (t "a" ++ [newline] ++ t "ws w") (sstart tt) in
  ran (slog s) = concat (repeat [t "a"; t "ws w"] n).
Proof.
  intros n. cbv zeta. unfold sstart.
  set (script := t "a" ++ [newline] ++ t "ws w").
  set (B := failing Done StartupError).
  set (turn := [OpenedWs default; Ran default (t "a") FromUser; Ran default (t "ws w") FromUser; ClosedWs default; Reported]).
  assert (G : forall n l, ssteps B (5 * n) script (mksrun SOpening tt l) = mksrun SOpening tt (l ++ concat (repeat turn n))).
  { induction n0 as [| m IH]; intros l; [simpl; now rewrite app_nil_r|].
    replace (5 * S m) with (5 + 5 * m) by lia. rewrite ssteps_add.
    replace (ssteps B 5 script (mksrun SOpening tt l)) with (mksrun SOpening tt (l ++ turn)).
    - rewrite IH. cbn [repeat concat]. now rewrite app_assoc.
    - unfold turn. change (l ++ [OpenedWs default; Ran default (t "a") FromUser; Ran default (t "ws w") FromUser; ClosedWs default; Reported])
        with (l ++ [OpenedWs default] ++ [Ran default (t "a") FromUser] ++ [Ran default (t "ws w") FromUser] ++ [ClosedWs default] ++ [Reported]).
      rewrite !app_assoc. reflexivity. }
  rewrite G. simpl slog. clear G. induction n as [| n IH]; [reflexivity|]. cbn [repeat concat app]. cbn [app] in IH. rewrite ran_app, IH. reflexivity.
Qed.

(** ** Refuted: a script does what typing its commands does. On a change of workspace, a script does not run the new
    workspace's startup commands. *)
Theorem c58_script_startup_refuted :
  executions (log (steps counting 20 (start 0 [say_ "ws w"; say_ "b"]))) = [([], t "ws w"); (t "w", t "hello"); (t "w", t "b")] /\
  executions (slog (ssteps counting 20 (t "ws w" ++ [newline] ++ t "b") (sstart 0))) = [([], t "ws w"); (t "w", t "b")].
Proof. vm_compute. auto. Qed.

Print Assumptions c58_at_most_once.
Print Assumptions c58_each_once.
Print Assumptions c58_session.
Print Assumptions c58_well_behaved.
Print Assumptions c58_why_it_ends.
Print Assumptions c58_script.
Print Assumptions c58_script_prefix_partial.
Print Assumptions c58_after_edit_refuted.
Print Assumptions c58_startup_error_refuted.
Print Assumptions c58_failure_refuted.
Print Assumptions c58_switch_at_startup_refuted.
Print Assumptions c58_recall_refuted.
Print Assumptions c58_script_again_refuted.
Print Assumptions c58_script_startup_refuted.
