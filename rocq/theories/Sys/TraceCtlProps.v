(** C73: where trace output goes *)
From Verif.Sys Require Import TraceCtlSpec.
Set Implicit Arguments.
Local Open Scope string_scope.
Local Open Scope list_scope.

Lemma runs_app w h1 h2 s : runs w (h1 ++ h2) s = runs w h2 (runs w h1 s).
Proof. revert s. induction h1 as [|c h1 IH]; intros s; [reflexivity|]. apply IH. Qed.

Definition dir_after (h : list command) (d : path) : path := fold_left (fun d c => match c with C_cd d' => d' | _ => d end) h d.
Lemma runs_dir w h : forall t d, snd (runs w h (t, d)) = dir_after h d.
Proof.
  induction h as [|c h IH]; intros t d; [reflexivity|]. cbn [runs]. unfold dir_after; cbn [fold_left].
  destruct c; cbn [run fst]; try apply IH. destruct (w (resolve d f)); apply IH.
Qed.
Lemma asked_app w h1 h2 : forall d a, asked w (h1 ++ h2) d a = asked w h2 (dir_after h1 d) (asked w h1 d a).
Proof.
  induction h1 as [|c h1 IH]; intros d a; [reflexivity|]. unfold dir_after; cbn [fold_left app asked]. destruct c; apply IH.
Qed.

(** The tracer's target against what was asked *)
Definition target_ok (w : path -> bool) (tgt : option target) (a : option sink) : Prop :=
  match tgt, a with
  | None, None => True
  | Some To_stdout, Some Stdout => True
  | Some (To_file f), Some (File p) => match f with Absolute q => q = p /\ w q = true | Relative _ => True end
  | _, _ => False
  end.
Lemma runs_target w h : forall t d a, target_ok w (t_target t) a -> target_ok w (t_target (fst (runs w h (t, d)))) (asked w h d a).
Proof.
  induction h as [|c h IH]; intros t d a H; [exact H|]. cbn [runs asked].
  destruct c; cbn [run fst]; try (apply IH; exact H).
  - apply IH. exact I.
  - apply IH. exact I.
  - destruct (w (resolve d f)) eqn:E; cbn [fst]; apply IH; [|exact H]. cbn. destruct f; [split; [reflexivity|exact E]|exact I].
Qed.
Definition absolute_target (tgt : option target) : Prop := match tgt with Some (To_file (Relative _)) => False | _ => True end.
Lemma runs_absolute w h : forallb absolute h = true -> forall t d, absolute_target (t_target t) -> absolute_target (t_target (fst (runs w h (t, d)))).
Proof.
  induction h as [|c h IH]; intros H t d K; [exact K|]. cbn [forallb] in H. apply andb_true_iff in H as [H1 H2]. cbn [runs].
  destruct c; cbn [run fst]; try (apply IH; [exact H2|exact K]).
  - apply IH; [exact H2|exact I].
  - apply IH; [exact H2|exact I].
  - destruct (w (resolve d f)); cbn [fst]; apply IH; auto. destruct f; [exact I|discriminate].
Qed.

Lemma run_not_job w c t d a : is_job c = false -> t_file t = a ->
  t_file (fst (fst (run w c (t, d)))) = asked w [c] d a.
Proof.
  intros H <-. destruct c; try discriminate H; cbn [run fst asked]; try reflexivity. destruct (w (resolve d f)); reflexivity.
Qed.
Lemma runs_no_job w h : forallb (fun c => negb (is_job c)) h = true -> forall t d a, t_file t = a -> t_file (fst (runs w h (t, d))) = asked w h d a.
Proof.
  induction h as [|c h IH]; intros H t d a E; [exact E|]. cbn [forallb] in H. apply andb_true_iff in H as [H1 H2].
  apply negb_true_iff in H1. pose proof (run_not_job w c t d H1 E) as K.
  cbn [runs]. destruct (run w c (t, d)) as [[t' d'] e] eqn:R. cbn [fst] in *. rewrite (IH H2 _ _ _ K).
  change (c :: h) with ([c] ++ h). rewrite asked_app. f_equal.
  destruct c; cbn [run] in R; try (injection R as <- <- <-; reflexivity). destruct (w (resolve d f)); injection R as <- <- <-; reflexivity.
Qed.

(** ** Commands that marcel runs itself *)
Lemma file_no_job w d h : no_job_since w d h -> t_file (fst (runs w h (new_tracer, d))) = asked w h d None.
Proof.
  intros (h1 & h2 & -> & N & C). rewrite runs_app, asked_app.
  destruct (runs w h1 (new_tracer, d)) as [t d'] eqn:R.
  assert (d' = dir_after h1 d) as -> by (rewrite <- (runs_dir w h1 new_tracer d), R; reflexivity).
  apply runs_no_job; [exact N|]. destruct C as [->|(h0 & c & -> & Hc)]; [inversion R; reflexivity|].
  rewrite runs_app in R. rewrite asked_app.
  destruct Hc as [->|[->|(f & -> & Hc)]]; [destruct (runs w h0 (new_tracer, d)) as [t0 d0]; cbn in R; inversion R; reflexivity..|].
  unfold after in Hc. destruct (runs w h0 (new_tracer, d)) as [t0 d0] eqn:R0. cbn [snd run] in Hc.
  assert (d0 = dir_after h0 d) as D by (rewrite <- (runs_dir w h0 new_tracer d), R0; reflexivity).
  cbn in R |- *. rewrite <- D. destruct (w (resolve d0 f)); [inversion R; reflexivity|destruct Hc; reflexivity].
Qed.
Theorem c73_own_commands_partial : forall w d h c, no_job_since w d h -> own_process c = true ->
  after w d h c = Traced (asked w h d None).
Proof.
  intros w d h c N Hc. rewrite <- (file_no_job N). unfold after. destruct (runs w h (new_tracer, d)) as [t d'].
  destruct c; try discriminate Hc; reflexivity.
Qed.
(** As soon as one job has been run, the commands that marcel runs itself are no longer traced, and trace says that
    tracing is off, whatever was asked. *)
Theorem c73_own_commands_refuted : forall w d h h', forallb (fun c => negb (is_setting c)) h' = true ->
  (forall c, own_process c = true -> after w d (h ++ C_job :: h') c = Traced None) /\
  after w d (h ++ C_job :: h') C_status = Says (Some Tracing_is_off).
Proof.
  intros w d h h' N.
  assert (t_file (fst (runs w (h ++ C_job :: h') (new_tracer, d))) = None) as E.
  { rewrite runs_app. destruct (runs w h (new_tracer, d)) as [t d0]. cbn [runs run fst].
    assert (t_file (mktracer (t_target t) None) = None) as K by reflexivity. revert K.
    generalize (mktracer (t_target t) None). revert d0. induction h' as [|c h' IH]; intros d0 t0 K; [exact K|].
    cbn [forallb] in N. apply andb_true_iff in N as [N1 N2]. cbn [runs].
    destruct c; try discriminate N1; cbn [run fst]; apply IH; auto. }
  unfold after. destruct (runs w (h ++ C_job :: h') (new_tracer, d)) as [t d']. cbn [fst] in E. split.
  - intros c Hc. destruct c; try discriminate Hc; cbn; now rewrite E.
  - cbn. unfold print_status. now rewrite E.
Qed.

(** ** Jobs *)
Theorem c73_jobs_partial : forall w d h, forallb absolute h = true -> after w d h C_job = Traced (asked w h d None).
Proof.
  intros w d h A. unfold after.
  pose proof (runs_target w h new_tracer d None I) as T. pose proof (runs_absolute w h A new_tracer d I) as B.
  destruct (runs w h (new_tracer, d)) as [t d']. cbn [fst snd run] in *. unfold set_state.
  destruct (t_target t) as [[|[q|q]]|]; cbn in T, B; destruct (asked w h d None) as [[|p]|]; try contradiction; try reflexivity.
  destruct T as [-> T]. cbn. now rewrite T.
Qed.
(** A relative filename is looked up again, by every job, in the directory that is then current. *)
Theorem c73_relative_file_refuted : forall w d d' p, w (d ++ p) = true -> d' <> d -> forall h, h = [C_file (Relative p); C_cd d'] ->
  asked w h d None = Some (File (d ++ p)) /\
  after w d h C_job = (if w (d' ++ p) then Traced (Some (File (d' ++ p))) else Child_died) /\
  after w d h C_job <> Traced (asked w h d None).
Proof.
  intros w d d' p W N h ->. assert (asked w [C_file (Relative p); C_cd d'] d None = Some (File (d ++ p))) as A by (cbn; rewrite W; reflexivity).
  assert (after w d [C_file (Relative p); C_cd d'] C_job = (if w (d' ++ p) then Traced (Some (File (d' ++ p))) else Child_died)) as J.
  { unfold after. cbn [runs run fst resolve]. rewrite W. cbn. destruct (w (d' ++ p)); reflexivity. }
  split; [exact A|]. split; [exact J|]. rewrite A, J. destruct (w (d' ++ p)); [|discriminate].
  intros K. injection K as K. apply app_inv_tail in K. congruence.
Qed.
Theorem c73_relative_case : forall w, w ["tmp"; "t.log"] = true -> w ["etc"; "t.log"] = false ->
  after w ["tmp"] [C_file (Relative ["t.log"]); C_cd ["etc"]] C_job = Child_died.
Proof. intros w W1 W2. unfold after. cbn [runs run fst snd resolve app]. rewrite W1. cbn. now rewrite W2. Qed.

(** Once switched off, nothing is traced until it is switched on again: neither jobs nor other commands. *)
Theorem c73_off_is_off : forall w d h h', forallb (fun c => negb (is_setting c)) h' = true ->
  after w d (h ++ C_off :: h') C_job = Traced None /\
  (forall c, own_process c = true -> after w d (h ++ C_off :: h') c = Traced None) /\
  after w d (h ++ C_off :: h') C_status = Says (Some Tracing_is_off).
Proof.
  intros w d h h' N.
  assert (fst (runs w (h ++ C_off :: h') (new_tracer, d)) = mktracer None None) as E.
  { rewrite runs_app. destruct (runs w h (new_tracer, d)) as [t d0]. cbn [runs run fst]. revert d0.
    induction h' as [|c h' IH]; intros d0; [reflexivity|].
    cbn [forallb] in N. apply andb_true_iff in N as [N1 N2]. cbn [runs]. destruct c; try discriminate N1; cbn [run fst t_target]; apply IH; auto. }
  unfold after. destruct (runs w (h ++ C_off :: h') (new_tracer, d)) as [t d']. cbn [fst] in E. subst t.
  split; [reflexivity|]. split; [|reflexivity]. intros c Hc. destruct c; try discriminate Hc; reflexivity.
Qed.

(** ** What trace says *)
Theorem c73_status_partial : forall w d h, no_job_since w d h ->
  after w d h C_status =
  Says (match asked w h d None with None => Some Tracing_is_off | Some Stdout => Some Tracing_to_stdout | Some (File _) => None end).
Proof.
  intros w d h N. rewrite <- (file_no_job N). unfold after. destruct (runs w h (new_tracer, d)) as [t d']. reflexivity.
Qed.
(** When the trace goes to a file, trace prints nothing at all. *)
Theorem c73_status_refuted : forall w, w ["t"] = true -> after w [] [C_file (Absolute ["t"])] C_status = Says None.
Proof. intros w W. unfold after. cbn [runs run fst snd resolve app]. now rewrite W. Qed.
(** A trace -f that fails changes nothing. *)
Theorem c73_failed_file : forall w d h f, after w d h (C_file f) = Refused ->
  forall h' c, after w d (h ++ C_file f :: h') c = after w d (h ++ h') c.
Proof.
  intros w d h f R h' c. unfold after in *. rewrite !runs_app. destruct (runs w h (new_tracer, d)) as [t d'].
  cbn [runs]. cbn [run] in R |- *. destruct (w (resolve d' f)); [discriminate R|]. reflexivity.
Qed.
Theorem c73_history : forall w, w ["t"] = true ->
  after w ["home"] [C_on; C_main; C_file (Absolute ["t"]); C_job; C_cd ["etc"]; C_workspace] C_job = Traced (Some (File ["t"])) /\
  after w ["home"] [C_on; C_main; C_file (Absolute ["t"]); C_job; C_cd ["etc"]; C_workspace] C_main = Traced None.
Proof. intros w W. unfold after. cbn [runs run fst snd resolve app]. rewrite W; cbn; rewrite W; auto. Qed.
