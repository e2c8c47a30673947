(** C80: what is false of the code, and runs that meet the hypotheses of the theorems. *)
From Verif.Sys Require Export ListenerSession.
Local Open Scope list_scope.
Local Open Scope string_scope.

Definition any : settable_t := fun _ _ => true.
Definition empty : vars := fun _ => None.
Definition set_x (z : Z) : vars -> option message := fun _ => Some (Good [("x", VInt z)]).

Ltac go R tac := let R' := fresh "R" in eassert (R' : runs _ _ _ _) by (eapply (r_step _ _ _ _ _ _ _ R); tac; first [reflexivity | discriminate | assumption]);
  cbn in R'; clear R; rename R' into R.
Tactic Notation "main_does" hyp(R) uconstr(H) := go R ltac:(eapply s_main; eapply H).
Tactic Notation "listener_does" hyp(R) uconstr(H) := go R ltac:(eapply s_listener; eapply H).
Tactic Notation "job_does" hyp(R) constr(j) uconstr(H) := go R ltac:(eapply (s_job _ _ j); eapply H).
(** A command is entered, and its job is started *)
Tactic Notation "starts" hyp(R) constr(f) :=
  main_does R (m_job _ f); main_does R m_acquire; main_does R m_append;
  main_does R m_release; main_does R m_start.
Tactic Notation "ends" hyp(R) constr(j) := job_does R j j_close; job_does R j j_exit.

(** A command assigns x in a job.  The job is over, and the shell is ready for the next command, which does not see x. *)
Theorem c80_next_command_refuted : exists tr s, runs any empty tr s /\ main s = Prompt /\ (forall j, ph (jobs s j) = Gone) /\ lst s <> Dead /\
  values (expected tr empty) "x" = Some (VInt 1) /\ env s "x" = None.
Proof.
  pose proof (r_start any empty) as R. starts R (set_x 1). job_does R 0 j_begin. job_does R 0 j_written. ends R 0.
  main_does R m_idle. do 2 eexists. split; [exact R | ]. split; [reflexivity | ]. split; [ | now repeat split].
  intros j. cbn. unfold set_job. now destruct (Nat.eqb j 0).
Qed.

(** ... and if the shell is left now, x is lost *)
Theorem c80_exit_refuted : exists tr s sv, runs any empty tr s /\ main s = Exited /\ saved s = Some sv /\ In (Written 0) tr /\
  values (expected tr empty) "x" = Some (VInt 1) /\ sv "x" = None.
Proof.
  pose proof (r_start any empty) as R. starts R (set_x 1). job_does R 0 j_begin. job_does R 0 j_written. ends R 0.
  main_does R m_idle. main_does R m_exit. do 3 eexists. split; [exact R | ]. split; [reflexivity | ]. split; [reflexivity | ].
  cbn. repeat split. tauto.
Qed.

(** Two jobs assign x; the one that is done last does not win *)
Theorem c80_order_refuted : exists a b c s, runs any empty (a ++ Written 1 :: b ++ Written 0 :: c) s /\
  In (Forked 0 (Some (Good [("x", VInt 0)]))) a /\ In (Forked 1 (Some (Good [("x", VInt 1)]))) a /\
  handled (a ++ Written 1 :: b ++ Written 0 :: c) = [0; 1] /\ env s "x" = Some (VInt 1).
Proof.
  pose proof (r_start any empty) as R. starts R (set_x 0). main_does R m_ctrl_z. starts R (set_x 1).
  job_does R 1 j_begin. job_does R 1 j_written. job_does R 0 j_begin. job_does R 0 j_written.
  listener_does R l_acquire. listener_does R l_prune.
  listener_does R l_look.
  listener_does R l_unlock.
  match type of R with runs _ _ _ ?s => assert (P : forall j, In j [0; 1] <-> In j [0; 1] /\ ready (jobs s j) = true) by (intros j; cbn; split; [intros [<- | [<- | []]]; auto | tauto]) end.
  assert (ND : NoDup [0; 1]) by (repeat constructor; cbn; intuition discriminate).
  listener_does R (l_poll _ _ _ [0; 1]). clear P.
  listener_does R l_good. listener_does R l_set. listener_does R Listener.l_handled.
  listener_does R l_good. listener_does R l_set. listener_does R Listener.l_handled.
  match type of R with runs _ _ (?e1 :: ?e2 :: ?e3 :: ?e4 :: ?e5 :: ?e6 :: ?e7 :: ?e8 :: ?e9 :: ?e10 :: ?e11 :: ?e12 :: _ :: ?e13 :: _ :: ?t) ?s =>
    exists [e1; e2; e3; e4; e5; e6; e7; e8; e9; e10; e11; e12], [e13], t, s end.
  split; [exact R | ]. cbn. repeat split; tauto.
Qed.

Lemma dead_stays : forall settable s tr s', later settable s tr s' -> lst s = Dead -> lst s' = Dead /\ forall j, ~ In (Handled j) tr.
Proof.
  intros settable s tr s' L D. induction L as [ | tr s' w ev s'' L IH ST]; [split; auto | ]. destruct IH as [E N].
  assert (K : lst s'' = Dead /\ forall j, ev <> Handled j).
  { destruct ST as [s' ev s'' ST | s' i ev s'' ST | s' ev s'' ST]; destruct ST; cbn; try congruence; split; congruence. }
  split; [apply K | ]. intros j I. apply in_app_or in I. destruct I as [I | [I | []]]; [now apply (N j) | now apply (proj2 K j)].
Qed.

(** A job whose changes cannot be loaded ends the listener: the changes of another job, written completely, are never applied *)
Theorem c80_unloadable_refuted : exists tr s, runs any empty tr s /\ In (Forked 0 (Some Unloadable)) tr /\ In (Forked 1 (Some (Good [("x", VInt 1)]))) tr /\
  In (Written 1) tr /\ main s = Prompt /\ forall tr' s', later any s tr' s' -> ~ In (Handled 1) (tr ++ tr').
Proof.
  pose proof (r_start any empty) as R. starts R (fun _ : vars => Some Unloadable). job_does R 0 j_begin. job_does R 0 j_written. ends R 0.
  main_does R m_idle. starts R (set_x 1). job_does R 1 j_begin. job_does R 1 j_written. ends R 1.
  main_does R m_idle.
  listener_does R l_acquire. listener_does R l_prune.
  listener_does R l_look.
  listener_does R l_unlock.
  match type of R with runs _ _ _ ?s => assert (P : forall j, In j [0; 1] <-> In j [0; 1] /\ ready (jobs s j) = true) by (intros j; cbn; split; [intros [<- | [<- | []]]; auto | tauto]) end.
  assert (ND : NoDup [0; 1]) by (repeat constructor; cbn; intuition discriminate).
  listener_does R (l_poll _ _ _ [0; 1]). clear P. listener_does R l_unloadable.
  do 2 eexists. split; [exact R | ]. split; [cbn; tauto | ]. split; [cbn; tauto | ]. split; [cbn; tauto | ]. split; [reflexivity | ].
  intros tr' s' L I. apply in_app_or in I. destruct I as [I | I]; [cbn in I; repeat destruct I as [I | I]; try discriminate; exact I | ].
  now apply (dead_stays _ _ _ _ L) in I.
Qed.

(** ... and so does a variable that cannot be assigned *)
Theorem c80_unsettable_refuted : exists settable tr s, runs settable empty tr s /\ In (Forked 0 (Some (Good [("y", VInt 0)]))) tr /\ settable "y" (VInt 0) = false /\
  In (Forked 1 (Some (Good [("x", VInt 1)]))) tr /\ settable "x" (VInt 1) = true /\
  In (Written 1) tr /\ main s = Prompt /\ forall tr' s', later settable s tr' s' -> ~ In (Handled 1) (tr ++ tr').
Proof.
  set (st := (fun v _ => negb (String.eqb v "y")) : settable_t). exists st.
  pose proof (r_start st empty) as R. starts R (fun _ : vars => Some (Good [("y", VInt 0)])). job_does R 0 j_begin. job_does R 0 j_written. ends R 0.
  main_does R m_idle. starts R (set_x 1). job_does R 1 j_begin. job_does R 1 j_written. ends R 1.
  main_does R m_idle.
  listener_does R l_acquire. listener_does R l_prune.
  listener_does R l_look.
  listener_does R l_unlock.
  match type of R with runs _ _ _ ?s => assert (P : forall j, In j [0; 1] <-> In j [0; 1] /\ ready (jobs s j) = true) by (intros j; cbn; split; [intros [<- | [<- | []]]; auto | tauto]) end.
  assert (ND : NoDup [0; 1]) by (repeat constructor; cbn; intuition discriminate).
  listener_does R (l_poll _ _ _ [0; 1]). clear P. listener_does R l_good. listener_does R l_set_fails.
  do 2 eexists. split; [exact R | ]. split; [cbn; tauto | ]. split; [reflexivity | ]. split; [cbn; tauto | ]. split; [reflexivity | ]. split; [cbn; tauto | ]. split; [reflexivity | ].
  intros tr' s' L I. apply in_app_or in I. destruct I as [I | I]; [cbn in I; repeat destruct I as [I | I]; try discriminate; exact I | ].
  now apply (dead_stays _ _ _ _ L) in I.
Qed.

(** All changes can be loaded and assigned, but a job is killed by ctrl-C while it writes them: the changes of the commands that follow are
    never applied *)
Theorem c80_ctrl_c_refuted : exists tr s, runs any empty tr s /\ (forall j r, In (Forked j r) tr -> exists c, r = Some (Good c)) /\
  In (Written 1) tr /\ main s = Prompt /\ forall tr' s', later any s tr' s' -> ~ In (Handled 1) (tr ++ tr').
Proof.
  pose proof (r_start any empty) as R. starts R (set_x 0). job_does R 0 j_begin. main_does R m_ctrl_c.
  main_does R m_idle. starts R (set_x 1). job_does R 1 j_begin. job_does R 1 j_written. ends R 1.
  main_does R m_idle.
  listener_does R l_acquire. listener_does R l_prune.
  listener_does R l_look.
  listener_does R l_unlock.
  match type of R with runs _ _ _ ?s => assert (P : forall j, In j [0; 1] <-> In j [0; 1] /\ ready (jobs s j) = true) by (intros j; cbn; split; [intros [<- | [<- | []]]; auto | tauto]) end.
  assert (ND : NoDup [0; 1]) by (repeat constructor; cbn; intuition discriminate).
  listener_does R (l_poll _ _ _ [0; 1]). clear P. listener_does R l_torn.
  do 2 eexists. split; [exact R | ]. split; [intros j r I; cbn in I; repeat destruct I as [I | I]; try discriminate; try contradiction; injection I as <- <-; eexists; reflexivity | ].
  split; [cbn; tauto | ]. split; [reflexivity | ].
  intros tr' s' L I. apply in_app_or in I. destruct I as [I | I]; [cbn in I; repeat destruct I as [I | I]; try discriminate; exact I | ].
  now apply (dead_stays _ _ _ _ L) in I.
Qed.

(** A job that stops in the middle of its message (ctrl-Z) holds up the others, whose changes are complete, until it goes on *)
Definition stuck (x : job) : Prop := x = mkj Gone Torn \/ exists m, x = mkj (Busy (Some m)) (Part m).
Definition held (s : state) : Prop := lst s = Dead \/ (lst s = Each [0; 1] [] /\ stuck (jobs s 0) /\ 0 < next s).
Lemma stuck_killed : forall x, stuck x -> stuck (killed x).
Proof. intros x [-> | (m & ->)]; left; reflexivity. Qed.
Lemma held_stays : forall s w ev s', good s -> step any s w ev s' -> held s -> ev = Written 0 \/ (held s' /\ ev <> Handled 1).
Proof.
  intros s w ev s' G ST [D | (E & P & L)].
  { right. destruct ST as [s ev s' ST | s i ev s' ST | s ev s' ST]; destruct ST; cbn; try congruence; split; try (left; cbn; congruence); congruence. }
  assert (K : forall j x, (j = 0 -> stuck x) -> stuck (set_job (jobs s) j x 0)) by (intros j x H; unfold set_job; destruct j; cbn; auto).
  destruct ST as [s ev s' ST | s i ev s' ST | s ev s' ST].
  - right. split; [ | destruct ST; discriminate]. right. destruct ST as [s f M | s v x c M | s M | s f M | s j f M Q | s j f M | s j f M | s j f M | s j M Q | s j M | s j M | s M]; cbn; auto using stuck_killed.
    + split; [exact E | split; [ | lia]]. apply K. lia.
    + split; [exact E | split; [ | lia]]. apply K. intros ->. destruct (g_start _ G 0) as [_ F]; [now rewrite M | ]. rewrite F in P. destruct P as [P | (m & P)]; discriminate.
    + split; [exact E | split; [ | lia]]. apply K. intros ->. now apply stuck_killed.
  - assert (KK : i = 0 -> forall p c, jobs s i = mkj p c -> (p = Gone /\ c = Torn) \/ exists m, p = Busy (Some m) /\ c = Part m).
    { intros -> p c Q. rewrite Q in P. destruct P as [P | (m & P)]; injection P as -> ->; eauto. }
    destruct ST as [s m Q | s m Q | s Q | s p Q | s p Q | s].
    + right. split; [ | discriminate]. right. cbn. split; [exact E | split; [ | lia]]. apply K. intros Z. destruct (KK Z _ _ Q) as [[? ?] | (m' & ? & ?)]; discriminate.
    + destruct i; [now left | ]. right. split; [ | discriminate]. right. cbn. split; [exact E | split; [ | lia]]. exact P.
    + right. split; [ | discriminate]. right. cbn. split; [exact E | split; [ | lia]]. apply K. intros Z. destruct (KK Z _ _ Q) as [[? ?] | (m' & ? & ?)]; discriminate.
    + right. split; [ | discriminate]. right. cbn. split; [exact E | split; [ | lia]]. apply K. intros Z. destruct (KK Z _ _ Q) as [[? ?] | (m' & ? & ?)]; discriminate.
    + right. split; [ | discriminate]. right. cbn. split; [exact E | split; [ | lia]]. apply K. intros Z. destruct (KK Z _ _ Q) as [[? ?] | (m' & ? & ?)]; discriminate.
    + right. split; [ | discriminate]. right. cbn. split; [exact E | split; [ | lia]]. apply K. intros ->. now apply stuck_killed.
  - assert (PP : pipe (jobs s 0) = Torn \/ exists m, pipe (jobs s 0) = Part m) by (destruct P as [P | (m & P)]; rewrite P; cbn; eauto).
    destruct ST as [s gone Q | s gone Q | s Q | s Q | s Q | s Q | s seen Q | s seen todo Q R N | s j c todo gone Q R | s j todo gone Q R
    | s j todo gone Q R | s j todo gone Q R C | s j v x c todo gone Q R | s j v x c todo gone Q R | s j todo gone Q | s gone Q];
      rewrite E in Q; try discriminate; injection Q as <- <- <-; rewrite R in PP; destruct PP as [PP | (m & PP)]; try discriminate.
    right. split; [left; reflexivity | discriminate].
Qed.

Theorem c80_blocked_refuted : exists tr s, runs any empty tr s /\ (forall j r, In (Forked j r) tr -> exists c, r = Some (Good c)) /\
  In (Written 1) tr /\ main s = Prompt /\ forall tr' s', later any s tr' s' -> ~ In (Written 0) tr' -> ~ In (Handled 1) (tr ++ tr').
Proof.
  pose proof (r_start any empty) as R. starts R (set_x 0). job_does R 0 j_begin. main_does R m_ctrl_z. starts R (set_x 1).
  job_does R 1 j_begin. job_does R 1 j_written. ends R 1. main_does R m_idle.
  listener_does R l_acquire. listener_does R l_prune. listener_does R l_look. listener_does R l_unlock.
  match type of R with runs _ _ _ ?s => assert (P : forall j, In j [0; 1] <-> In j [0; 1] /\ ready (jobs s j) = true) by (intros j; cbn; split; [intros [<- | [<- | []]]; auto | tauto]) end.
  assert (ND : NoDup [0; 1]) by (repeat constructor; cbn; intuition discriminate).
  listener_does R (l_poll _ _ _ [0; 1]). clear P.
  match type of R with runs _ _ ?t ?s => exists t, s; assert (H : held s) by (right; cbn; unfold stuck, set_job; cbn; split; [reflexivity | split; [right; eexists; reflexivity | lia]]) end.
  split; [exact R | ]. split; [intros j r I; cbn in I; repeat destruct I as [I | I]; try discriminate; try contradiction; injection I as <- <-; eexists; reflexivity | ].
  split; [cbn; tauto | ]. split; [reflexivity | ].
  intros tr' s' L NW I. apply in_app_or in I. destruct I as [I | I]; [cbn in I; repeat destruct I as [I | I]; try discriminate; exact I | ]. revert I.
  match type of R with runs _ _ ?t ?s => cut (held s' /\ ~ In (Handled 1) tr' /\ runs any empty (t ++ tr') s') end; [tauto | ].
  induction L as [ | tr' s' w ev s'' L IH ST]; [split; [exact H | split; [exact (fun x => x) | ]]; rewrite app_nil_r; exact R | ].
  destruct IH as (H' & N & R'); [intros I; apply NW, in_or_app; now left | ]. destruct (runs_told _ _ _ _ R') as (G & _).
  destruct (held_stays _ _ _ _ G ST H') as [-> | [H'' NE]]; [destruct NW; apply in_or_app; right; now left | ]. split; [exact H'' | ]. split.
  - intros I. apply in_app_or in I. destruct I as [I | [I | []]]; [now apply N | now apply NE].
  - rewrite app_assoc. econstructor; eauto.
Qed.

(** ** Runs that meet the hypotheses *)
(** A patient user: x is assigned in a job, all settles, and x + 1 is assigned in the main process *)
Ltac go_patient R tac := let R' := fresh "R" in eassert (R' : patient _ _ _ _) by (eapply (p_step _ _ _ _ _ _ _ R); [tac; first [reflexivity | discriminate | assumption | right; reflexivity] | ];
    cbn; first [discriminate | intros _; split; [intros [ | ?]; reflexivity | discriminate] ]);
  cbn in R'; clear R; rename R' into R.
Tactic Notation "main_" hyp(R) uconstr(H) := go_patient R ltac:(eapply s_main; eapply H).
Tactic Notation "listener_" hyp(R) uconstr(H) := go_patient R ltac:(eapply s_listener; eapply H).
Tactic Notation "job_" hyp(R) constr(j) uconstr(H) := go_patient R ltac:(eapply (s_job _ _ j); eapply H).
Definition inc_x : vars -> changes := fun e => match e "x" with Some (VInt z) => [("x", VInt (z + 1))] | _ => [] end.
Example c80_patient : exists tr s, patient any empty tr s /\ lst s <> Dead /\ settled s /\ main s = Prompt /\ listeners s = [] /\ handled tr = [0] /\
  assigned tr = [("x", VInt 1)] /\ env s "x" = Some (VInt 2).
Proof.
  pose proof (p_start any empty) as R. main_ R (m_job _ (set_x 1)). main_ R m_acquire. main_ R m_append. main_ R m_release. main_ R m_start.
  job_ R 0 j_begin. job_ R 0 j_written. job_ R 0 j_close. job_ R 0 j_exit. main_ R m_idle.
  listener_ R l_acquire. listener_ R l_prune. listener_ R l_look. listener_ R l_unlock.
  match type of R with patient _ _ _ ?s => assert (P : forall j, In j [0] <-> In j [0] /\ ready (jobs s j) = true) by (intros j; cbn; split; [intros [<- | []]; auto | tauto]) end.
  assert (ND : NoDup [0]) by (repeat constructor; cbn; intuition discriminate).
  listener_ R (l_poll _ _ _ [0]). clear P. listener_ R l_good. listener_ R l_set. listener_ R Listener.l_handled. main_ R (m_enter _ inc_x). main_ R m_set. main_ R m_set_done.
  listener_ R l_again. listener_ R l_acquire. listener_ R l_prune. listener_ R l_look. listener_ R l_unlock.
  match type of R with patient _ _ _ ?s => assert (P : forall j, In j [0] <-> In j [0] /\ ready (jobs s j) = true) by (intros j; cbn; split; [intros [<- | []]; auto | tauto]) end.
  listener_ R (l_poll _ _ _ [0]). clear P. listener_ R l_eof. listener_ R l_again. listener_ R l_acquire. listener_ R l_prune. listener_ R l_sleep.
  do 2 eexists. split; [exact R | ]. split; [discriminate | ]. split; [ | now repeat split]. split; [ | discriminate]. intros [ | j]; reflexivity.
Qed.

(** A run that goes on for ever: after 28 steps the listener sleeps and wakes up again and again *)
Definition t0 := start empty.
Definition t1 := mks empty None [] (set_job (jobs t0) 0 (mkj Fresh Void)) 1 (Acquire 0 (set_x 1)) (Top []) false None.
Definition t2 := upd_lock (upd_main t1 (Append 0 (set_x 1))) (Some MainThread).
Definition t3 := upd_listeners (upd_main t2 (Release 0 (set_x 1))) [0].
Definition t4 := upd_lock (upd_main t3 (Start 0 (set_x 1))) None.
Definition t5 := upd_job (upd_main t4 (Waiting 0)) 0 (mkj (Busy (set_x 1 empty)) Void).
Definition t6 := upd_job t5 0 (mkj (Busy (set_x 1 empty)) (Part (Good [("x", VInt 1)]))).
Definition t7 := upd_job t6 0 (mkj Wrote (Whole (Good [("x", VInt 1)]))).
Definition t8 := upd_job t7 0 (mkj Closed (Whole (Good [("x", VInt 1)]))).
Definition t9 := upd_job t8 0 (mkj Gone (Whole (Good [("x", VInt 1)]))).
Definition t10 := upd_main t9 Prompt.
Definition t11 := upd_lock (upd_lst t10 (Prune [])) (Some ListenerThread).
Definition t12 := upd_listeners (upd_lst t11 Look) [0].
Definition t13 := upd_lst t12 (Unlock [0]).
Definition t14 := upd_lock (upd_lst t13 (Poll [0])) None.
Definition t15 := upd_lst t14 (Each [0] []).
Definition t16 := upd_job (upd_lst t15 (Apply 0 [("x", VInt 1)] [] [])) 0 (mkj Gone Void).
Definition t17 := upd_env (upd_lst t16 (Apply 0 [] [] [])) (assign "x" (VInt 1) empty).
Definition t18 := upd_lst t17 (Each [] []).
Definition t19 := upd_lst t18 (Top []).
Definition t20 := upd_lock (upd_lst t19 (Prune [])) (Some ListenerThread).
Definition t21 := upd_listeners (upd_lst t20 Look) [0].
Definition t22 := upd_lst t21 (Unlock [0]).
Definition t23 := upd_lock (upd_lst t22 (Poll [0])) None.
Definition t24 := upd_lst t23 (Each [0] []).
Definition t25 := upd_lst t24 (Each [] [0]).
Definition t26 := upd_lst t25 (Top [0]).
Definition t27 := upd_lock (upd_lst t26 (Prune [0])) (Some ListenerThread).
Definition t28 := upd_listeners (upd_lst t27 Look) [].
Definition t29 := upd_lock (upd_lst t28 Asleep) None.
Definition path := [t0; t1; t2; t3; t4; t5; t6; t7; t8; t9; t10; t11; t12; t13; t14; t15; t16; t17; t18; t19; t20; t21; t22; t23; t24; t25; t26; t27].
Definition path_events := [EnteredJob 0 (set_x 1); Tau; Tau; Tau; Forked 0 (set_x 1 empty); Tau; Written 0; Tau; Tau; Ready; Tau; Tau; Tau; Tau; Tau; Tau; SetVar "x" (VInt 1); Handled 0].
Definition at_time (n : nat) : state := nth n path (if Nat.even n then t28 else t29).
Definition at_event (n : nat) : event := nth n path_events Tau.

Lemma sleeps : forall n, 28 <= n -> step any (at_time n) ListenerThread (at_event n) (at_time (S n)).
Proof.
  intros n L. unfold at_time, at_event. rewrite !nth_overflow by (cbn; lia). rewrite Nat.even_succ, <- Nat.negb_even. destruct (Nat.even n); cbn [negb]; apply s_listener.
  - exact (l_sleep any t28 eq_refl eq_refl eq_refl).
  - exact (l_wake any t29 eq_refl eq_refl).
Qed.
Example c80_forever : forever any empty at_time at_event /\ at_event 6 = Written 0 /\ at_event 17 = Handled 0.
Proof.
  split; [ | now split]. constructor; [reflexivity | | ].
  - intros n. destruct (le_lt_dec 28 n) as [L | L]; [left; eexists; apply sleeps; exact L | ]. left.
    assert (N1 : NoDup [0]) by (repeat constructor; cbn; intuition discriminate).
    do 28 (try (destruct n as [ | n])); try lia.
    + eexists; apply s_main. apply (m_job t0). reflexivity.
    + eexists; apply s_main. apply (m_acquire t1); reflexivity.
    + eexists; apply s_main. apply (m_append t2); reflexivity.
    + eexists; apply s_main. apply (m_release t3); reflexivity.
    + eexists; apply s_main. apply (m_start t4); reflexivity.
    + eexists; apply (s_job _ _ 0). apply (j_begin 0 t5); reflexivity.
    + eexists; apply (s_job _ _ 0). apply (j_written 0 t6); reflexivity.
    + eexists; apply (s_job _ _ 0). apply (j_close 0 t7); reflexivity.
    + eexists; apply (s_job _ _ 0). apply (j_exit 0 t8); reflexivity.
    + eexists; apply s_main. apply (m_idle t9 0); reflexivity.
    + eexists; apply s_listener. apply (l_acquire any t10); reflexivity.
    + eexists; apply s_listener. apply (l_prune any t11 []); reflexivity.
    + eexists; apply s_listener. apply (l_look any t12); [reflexivity | reflexivity | discriminate].
    + eexists; apply s_listener. apply (l_unlock any t13 [0]); reflexivity.
    + eexists; apply s_listener. apply (l_poll any t14 [0] [0]); [reflexivity | intros j; cbn; split; [intros [<- | []]; auto | tauto] | exact N1].
    + eexists; apply s_listener. apply (l_good any t15 0); reflexivity.
    + eexists; apply s_listener. apply (l_set any t16 0); reflexivity.
    + eexists; apply s_listener. apply (Listener.l_handled any t17 0); reflexivity.
    + eexists; apply s_listener. apply (l_again any t18); reflexivity.
    + eexists; apply s_listener. apply (l_acquire any t19); reflexivity.
    + eexists; apply s_listener. apply (l_prune any t20 []); reflexivity.
    + eexists; apply s_listener. apply (l_look any t21); [reflexivity | reflexivity | discriminate].
    + eexists; apply s_listener. apply (l_unlock any t22 [0]); reflexivity.
    + eexists; apply s_listener. apply (l_poll any t23 [0] [0]); [reflexivity | intros j; cbn; split; [intros [<- | []]; auto | tauto] | exact N1].
    + eexists; apply s_listener. apply (l_eof any t24 0 [] []); [reflexivity | reflexivity | right; reflexivity].
    + eexists; apply s_listener. apply (l_again any t25); reflexivity.
    + eexists; apply s_listener. apply (l_acquire any t26); reflexivity.
    + eexists; apply s_listener. apply (l_prune any t27 [0]); reflexivity.
  - intros n. exists (max 28 n). split; [lia | ]. apply sleeps. lia.
Qed.

Print Assumptions c80_once.
Print Assumptions c80_settled.
Print Assumptions c80_no_deadlock.
Print Assumptions c80_delivered.
Print Assumptions c80_session_partial.
Print Assumptions c80_next_command_refuted.
Print Assumptions c80_exit_refuted.
Print Assumptions c80_order_refuted.
Print Assumptions c80_unloadable_refuted.
Print Assumptions c80_unsettable_refuted.
Print Assumptions c80_ctrl_c_refuted.
Print Assumptions c80_blocked_refuted.
