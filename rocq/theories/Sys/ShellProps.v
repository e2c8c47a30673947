(** The shell: theorems (C58). *)
From Verif.Sys Require Export ShellSpec.
Set Implicit Arguments.
Local Open Scope list_scope.

Lemma ran_in_app : forall l m, ran_in (l ++ m) = ran_in l ++ ran_in m.
Proof. induction l as [| [ws c []| | |] l IH]; intros; simpl; rewrite ?IH; auto. Qed.
Lemma ran_app : forall l m, ran (l ++ m) = ran l ++ ran m.
Proof. intros. unfold ran. now rewrite ran_in_app, map_app. Qed.
Lemma executions_app : forall l m, executions (l ++ m) = executions l ++ executions m.
Proof. induction l as [| [ws c o| | |] l IH]; intros; simpl; rewrite ?IH; auto. Qed.
Lemma typed_app : forall W (l m : list (entry W)), typed (l ++ m) = typed l ++ typed m.
Proof. induction l as [| [c| |] l IH]; intros; simpl; rewrite ?IH; auto. Qed.
Lemma commands_app : forall l m, commands (l ++ m) = commands l ++ commands m.
Proof. intros. apply filter_app. Qed.

Lemma sub_refl : forall A (l : list A), sub l l.
Proof. induction l; constructor; auto. Qed.
Lemma sub_app : forall A (l m l' m' : list A), sub l m -> sub l' m' -> sub (l ++ l') (m ++ m').
Proof. induction 1; intros; simpl; try constructor; auto. Qed.
Lemma sub_nil_l : forall A (m : list A), sub [] m.
Proof. induction m; constructor; auto. Qed.

Lemma gather_nonempty : forall ls acc c, In c (gather_commands acc ls) -> c <> [].
Proof.
  induction ls as [| l r IH]; intros acc c H; simpl in H.
  - destruct acc; [easy|]. destruct H as [<-|[]]. discriminate.
  - destruct (nonblank l) eqn:N; [| eauto]. destruct (ends_bslash l); [eauto|].
    destruct H as [<-|H]; [| eauto]. destruct l; [discriminate N|]. now destruct acc.
Qed.
Lemma commands_nonempty : forall t c, In c (commands_in_script t) -> c <> [].
Proof. intros t c. apply gather_nonempty. Qed.

Section Props.
Variable W : Type.
Variable B : behaviour W.
Notation shell := (shell W).

Lemma steps_add : forall n m s, steps B (n + m) s = steps B m (steps B n s).
Proof. induction n; intros; simpl; auto. Qed.

(** One step: what is read, and what of it is run. *)
Lemma reconfigure_log : forall ws w to line es l,
  ran (log (reconfigure B ws w to line es l)) = ran l /\ input (reconfigure B ws w to line es l) = es.
Proof. intros. destruct to; simpl; rewrite ran_app; simpl; now rewrite app_nil_r. Qed.

Lemma command_step_log : forall ws c from w es l,
  let s := command_step B ws c from w es l in
  input s = es /\
  (ran (log s) = ran l \/ from = FromUser /\ c <> [] /\ ran (log s) = ran l ++ [c]) /\
  (changed B ws w = false -> from = FromUser -> ran (log s) = ran l ++ commands [c]) /\
  (from <> FromUser -> ran (log s) = ran l).
Proof.
  intros ws c from w es l. unfold command_step.
  destruct (changed B ws w) eqn:CH.
  { destruct (reconfigure_log ws w None (Some c) es l) as (R1 & R2). repeat split; auto; discriminate. }
  destruct c as [| a c].
  { simpl. repeat split; auto. now rewrite app_nil_r. }
  destruct (run_cmd B ws w (a :: c)) as [[w' e] nx].
  assert (X : ran (l ++ [Ran ws (a :: c) from]) = ran l ++ match from with FromUser => [a :: c] | _ => [] end).
  { rewrite ran_app. now destruct from. }
  assert (Y : forall s : shell, input s = es -> ran (log s) = ran l ++ match from with FromUser => [a :: c] | _ => [] end ->
    input s = es /\
  (ran (log s) = ran l \/ from = FromUser /\ a :: c <> [] /\ ran (log s) = ran l ++ [a :: c]) /\
  (false = false -> from = FromUser -> ran (log s) = ran l ++ commands [a :: c]) /\
  (from <> FromUser -> ran (log s) = ran l)).
  { intros s I R. rewrite R. destruct from; repeat split; auto; try discriminate; try (now rewrite app_nil_r).
    - right. repeat split; discriminate.
    - intros N; now destruct N.
    - left. now rewrite app_nil_r.
    - left. now rewrite app_nil_r. }
  destruct e; apply Y; cbn [input log]; auto; try (rewrite ran_app, X; simpl; rewrite app_nil_r; reflexivity).
  - apply reconfigure_log.
  - erewrite (proj1 (reconfigure_log _ _ _ _ _ _)). exact X.
Qed.

Lemma step_log : forall s : shell, exists pre,
  input s = pre ++ input (step B s) /\
  (exists new, ran (log (step B s)) = ran (log s) ++ new /\ sub new (commands (typed pre)) /\
     ((forall ws w, changed B ws w = false) -> new = commands (typed pre))).
Proof.
  intros s. unfold step. destruct (where_ s) as [ws| ws d todo | ws | h].
  - exists []. unfold open_step. destruct (open_ws B ws (world s)) as [w o].
    destruct o; simpl; (split; [reflexivity|]); exists []; unfold say; rewrite ?ran_app; simpl; rewrite ?app_nil_r; repeat split; auto; constructor.
  - exists []. unfold startup_step. destruct todo as [| [[| a c]|] r].
    + destruct d; [destruct (reconfigure_log ws (world s) (Some default) (kept s) (input s) (log s)) as (R1 & R2)|].
      * rewrite R1, R2. split; [reflexivity|]. exists []. rewrite app_nil_r. repeat split; auto; constructor.
      * simpl. split; [reflexivity|]. exists []. rewrite app_nil_r. repeat split; auto; constructor.
    + simpl. split; [reflexivity|]. exists []. rewrite app_nil_r. repeat split; auto; constructor.
    + destruct (run_cmd B ws (world s) (a :: c)) as [[w e] nx].
      destruct e; simpl; (split; [reflexivity|]); exists []; unfold say; rewrite ?ran_app; simpl; rewrite ?app_nil_r; repeat split; auto; constructor.
    + simpl. split; [reflexivity|]. exists []. unfold say. rewrite ran_app. simpl. rewrite !app_nil_r. repeat split; auto; constructor.
  - unfold prompt_step. destruct (next s) as [c|].
    + exists []. destruct (command_step_log ws c FromHistory (world s) (input s) (log s)) as (I & _ & _ & R).
      split; [now rewrite I|]. exists []. rewrite R by discriminate. rewrite app_nil_r. repeat split; auto; constructor.
    + destruct (input s) as [| [c| |f] es] eqn:I.
      * exists []. simpl. split; [reflexivity|]. exists []. rewrite app_nil_r. repeat split; auto; constructor.
      * exists [Typed W c]. destruct (command_step_log ws c FromUser (world s) es (log s)) as (I' & R & R2 & _).
        rewrite I'. split; [reflexivity|]. 
        destruct (changed B ws (world s)) eqn:CH.
        -- destruct R as [R|(_ & NE & R)]; rewrite R.
           ++ exists []. rewrite app_nil_r. split; [reflexivity|]. split; [apply sub_nil_l|]. intros C. rewrite C in CH. discriminate.
           ++ exists [c]. split; [reflexivity|]. split; [destruct c; [easy|]; apply sub_refl|]. intros C. rewrite C in CH. discriminate.
        -- rewrite R2 by auto. exists (commands [c]). split; [reflexivity|]. split; [apply sub_refl|auto].
      * exists [CtrlC W]. simpl. split; [reflexivity|]. exists []. rewrite app_nil_r. repeat split; auto; constructor.
      * exists [Outside f]. simpl. split; [reflexivity|]. exists []. rewrite app_nil_r. repeat split; auto; constructor.
  - exists []. split; [reflexivity|]. exists []. rewrite app_nil_r. repeat split; auto; constructor.
Qed.

Lemma steps_log : forall n (s : shell), exists pre,
  input s = pre ++ input (steps B n s) /\
  (exists new, ran (log (steps B n s)) = ran (log s) ++ new /\ sub new (commands (typed pre)) /\
     ((forall ws w, changed B ws w = false) -> new = commands (typed pre))).
Proof.
  induction n as [| n IH]; intros s.
  - exists []. simpl. split; [reflexivity|]. exists []. rewrite app_nil_r. repeat split; auto; constructor.
  - simpl. destruct (step_log s) as (p1 & I1 & n1 & R1 & S1 & E1). destruct (IH (step B s)) as (p2 & I2 & n2 & R2 & S2 & E2).
    exists (p1 ++ p2). split; [now rewrite I1, I2, app_assoc|]. exists (n1 ++ n2).
    rewrite R2, R1, app_assoc, typed_app, commands_app. repeat split.
    + now apply sub_app.
    + intros C. now rewrite E1, E2 by auto.
Qed.

(** ** C58: whatever the commands do, however often the shell restarts: no line typed is run twice, none is run that was not
    typed, and their order is kept. *)
Theorem c58_at_most_once : forall w es n,
  let s := steps B n (start w es) in
  exists pre, es = pre ++ input s /\ sub (ran (log s)) (commands (typed pre)).
Proof.
  intros w es n s. destruct (steps_log n (start w es)) as (pre & I & new & R & S & _).
  exists pre. split; [exact I|]. unfold s. rewrite R. exact S.
Qed.

(** C58: if nobody modifies a startup script during the session, every line read has been run. *)
Theorem c58_each_once : (forall ws w, changed B ws w = false) -> forall w es n,
  let s := steps B n (start w es) in
  exists pre, es = pre ++ input s /\ ran (log s) = commands (typed pre).
Proof.
  intros C w es n s. destruct (steps_log n (start w es)) as (pre & I & new & R & _ & E).
  exists pre. split; [exact I|]. unfold s. rewrite R, E by auto. reflexivity.
Qed.

(** ** Sessions. *)
Lemma startup_flat : forall scripts,
  startup_commands (map Some scripts) = map Some (concat (map commands_in_script scripts)).
Proof.
  induction scripts as [| t r IH]; [reflexivity|]. unfold startup_commands in *. simpl. rewrite IH. now rewrite map_app.
Qed.

Lemma in_turn_steps : forall ws cs w nx w' nx', in_turn B ws w nx cs w' nx' -> (forall c, In c cs -> c <> []) ->
  forall k es l, exists n k' l',
    steps B n (mkshell (Startup ws false (map Some cs)) w nx k es l) = mkshell (Prompt ws) w' nx' k' es l' /\
    executions l' = executions l ++ map (pair ws) cs.
Proof.
  induction 1 as [w nx | w nx c cs w1 e nx1 w2 nx2 R ST T IH]; intros NE k es l.
  - exists 1, k, l. simpl. now rewrite app_nil_r.
  - assert (N : c <> []) by (apply NE; now left).
    destruct (IH (fun c' I => NE c' (or_intror I)) k es (l ++ [Ran ws c FromStartup] ++ match e with Killed => [Reported] | _ => [] end))
      as (n & k' & l' & ST' & EX).
    exists (S n), k', l'. split.
    + rewrite <- ST'. simpl. f_equal. unfold step. simpl. unfold startup_step. destruct c as [| a c]; [easy|]. simpl. rewrite R.
      destruct ST as [->|[->|[->| ->]]]; simpl; unfold say; simpl; rewrite <- ?app_assoc; reflexivity.
    + rewrite EX, !executions_app. simpl. destruct e; simpl; rewrite <- !app_assoc; reflexivity.
Qed.

Lemma enters_steps : forall ws w w' cs nx, enters B ws w w' cs nx ->
  forall k es l, exists n k' l',
    steps B n (mkshell (Opening ws) w None k es l) = mkshell (Prompt ws) w' nx k' es l' /\
    executions l' = executions l ++ map (pair ws) cs.
Proof.
  intros ws w w' cs nx (w1 & scripts & O & -> & T) k es l.
  destruct (in_turn_steps T) with (k := k) (es := es) (l := l ++ [OpenedWs ws]) as (n & k' & l' & ST & EX).
  { intros c I. apply in_concat in I. destruct I as (x & I1 & I2). apply in_map_iff in I1. destruct I1 as (t & <- & _).
    now apply commands_nonempty in I2. }
  exists (S n), k', l'. split.
  - rewrite <- ST. simpl. f_equal. unfold step. simpl. unfold open_step. simpl. rewrite O, startup_flat. reflexivity.
  - rewrite EX, executions_app. simpl. now rewrite app_nil_r.
Qed.

Lemma upcoming_step : forall nx es c es', upcoming nx es c es' ->
  forall ws w k l, exists o, step B (mkshell (Prompt ws) w nx k es l) = command_step B ws c o w es' l.
Proof. intros nx es c es' [] ws w k l; eexists; reflexivity. Qed.

Lemma session_steps : forall ws w nx es l w', session B ws w nx es l w' ->
  forall k l0, exists n s', steps B n (mkshell (Prompt ws) w nx k es l0) = s' /\
    where_ s' = Ended AtEnd /\ world s' = w' /\ input s' = [] /\ executions (log s') = executions l0 ++ l.
Proof.
  induction 1 as [ws w | ws w es l w' S IH | ws w f es l w' S IH | ws w nx es es' l w' U CH S IH
                 | ws w nx es c es' w1 e nx1 l w' U NE CH R ST S IH
                 | ws w nx es c es' w1 nx1 ws' w2 cs nx2 l w' U NE CH R EN S IH]; intros k l0.
  - exists 1. eexists. split; [reflexivity|]. simpl. now rewrite app_nil_r.
  - destruct (IH None l0) as (n & s' & E & Q). exists (Datatypes.S n), s'. split; auto.
  - destruct (IH None l0) as (n & s' & E & Q). exists (Datatypes.S n), s'. split; auto.
  - destruct (IH None l0) as (n & s' & E & Q). exists (Datatypes.S n), s'. split; auto.
    rewrite <- E. simpl. f_equal. destruct (upcoming_step U ws w k l0) as (o & ->). unfold command_step. now rewrite CH.
  - destruct (upcoming_step U ws w k l0) as (o & UP).
    assert (X : exists k1 l1, command_step B ws c o w es' l0 = mkshell (Prompt ws) w1 nx1 k1 es' l1 /\
      executions l1 = executions l0 ++ [(ws, c)]).
    { unfold command_step. rewrite CH. destruct c as [| a c]; [easy|]. rewrite R.
      destruct ST as [->|[->|[->|[->| ->]]]]; eexists; eexists; (split; [reflexivity|]); rewrite ?executions_app; simpl; now rewrite ?app_nil_r. }
    destruct X as (k1 & l1 & X1 & X2). destruct (IH k1 l1) as (n & s' & E & A1 & A2 & A3 & A4).
    exists (Datatypes.S n), s'. split; [simpl; now rewrite UP, X1|]. repeat split; auto. rewrite A4, X2, <- app_assoc. reflexivity.
  - destruct (upcoming_step U ws w k l0) as (o & UP).
    assert (X : exists l1, command_step B ws c o w es' l0 = mkshell (Opening ws') (close_ws B ws w1) None None es' l1 /\
      executions l1 = executions l0 ++ [(ws, c)]).
    { unfold command_step. rewrite CH. destruct c as [| a c]; [easy|]. rewrite R. simpl.
      eexists; (split; [reflexivity|]); rewrite !executions_app; simpl; now rewrite ?app_nil_r. }
    destruct X as (l1 & X1 & X2).
    destruct (enters_steps EN None es' l1) as (m & k2 & l2 & E2 & X3).
    destruct (IH k2 l2) as (n & s' & E & A1 & A2 & A3 & A4).
    exists (Datatypes.S (m + n)), s'. split.
    + simpl. rewrite UP, X1, steps_add, E2. exact E.
    + repeat split; auto. rewrite A4, X3, X2, <- !app_assoc. reflexivity.
Qed.

(** C58: the shell does what the user asks for, until ctrl-D. *)
Theorem c58_session : forall w w1 cs nx es l w',
  enters B default w w1 cs nx -> session B default w1 nx es l w' ->
  exists n, let s := steps B n (start w es) in
    where_ s = Ended AtEnd /\ world s = w' /\ input s = [] /\ executions (log s) = map (pair default) cs ++ l.
Proof.
  intros w w1 cs nx es l w' EN S. destruct (enters_steps EN None es []) as (m & k & l0 & E & X).
  destruct (session_steps S k l0) as (n & s' & E2 & A1 & A2 & A3 & A4).
  exists (m + n). cbv zeta. unfold start. rewrite steps_add, E, E2. repeat split; auto. now rewrite A4, X.
Qed.

(** ** In a well-behaved world every session goes through to its end. *)
Lemma turn_behaved : forall ws cs, (forall c w1, In c cs -> exists w2 e, run_cmd B ws w1 c = (w2, e, None) /\ stays_at_startup e) ->
  forall w, exists w', in_turn B ws w None cs w' None.
Proof.
  induction cs as [| c cs IH]; intros H w; [exists w; constructor|].
  destruct (H c w (or_introl eq_refl)) as (w2 & e & R & ST).
  destruct (IH (fun c' w1 I => H c' w1 (or_intror I)) w2) as (w' & T). exists w'. econstructor; eauto.
Qed.

Lemma enters_behaved : well_behaved B -> forall ws w, exists w' cs, enters B ws w w' cs None.
Proof.
  intros (_ & _ & O) ws w. destruct (O ws w) as (w1 & scripts & E & H).
  destruct (turn_behaved _ _ H w1) as (w' & T). exists w', (concat (map commands_in_script scripts)), w1, scripts. auto.
Qed.

Lemma session_behaved : well_behaved B -> forall es ws w, exists l w', session B ws w None es l w'.
Proof.
  intros WB. pose proof WB as (CH & R & O).
  induction es as [| [c| |f] es IH]; intros ws w.
  - exists [], w. constructor.
  - destruct c as [| a c].
    { destruct (IH ws w) as (l & w' & S). exists l, w'. eapply session_blank; [constructor | auto | exact S]. }
    destruct (R ws w (a :: c)) as (w1 & e & E & [ST|(ws' & ->)]).
    + destruct (IH ws w1) as (l & w' & S). exists ((ws, a :: c) :: l), w'.
      eapply session_run; [constructor | discriminate | auto | exact E | auto | exact S].
    + destruct (enters_behaved WB ws' (close_ws B ws w1)) as (w2 & cs & EN).
      destruct (IH ws' w2) as (l & w' & S). exists ((ws, a :: c) :: map (pair ws') cs ++ l), w'.
      eapply session_switch; [constructor | discriminate | auto | exact E | exact EN | exact S].
  - destruct (IH ws w) as (l & w' & S). exists l, w'. now constructor.
  - destruct (IH ws (f w)) as (l & w' & S). exists l, w'. now constructor.
Qed.

(** C58: in a well-behaved world, whatever is typed, every command is run once, in order, and the session ends with
    ctrl-D. *)
Theorem c58_well_behaved : well_behaved B -> forall w es,
  exists n, let s := steps B n (start w es) in
    where_ s = Ended AtEnd /\ input s = [] /\ ran (log s) = commands (typed es).
Proof.
  intros WB w es. destruct (enters_behaved WB default w) as (w1 & cs & EN).
  destruct (session_behaved WB es default w1) as (l & w' & S).
  destruct (c58_session EN S) as (n & A1 & _ & A3 & _). exists n. cbv zeta. repeat split; auto.
  destruct (c58_each_once (proj1 WB) w es n) as (pre & I & R). cbv zeta in I, R. rewrite A3, app_nil_r in I. now rewrite R, I.
Qed.

(** ** Why a session ends. *)
Definition leaves (e : ending) : Prop :=
  e = Exit \/ e = KillShell \/ e = EndOfFile \/ e = Crash.

(** C58: the shell ends only at the end of the input, or because a command exits or fails in one of the ways that are not
    contained, or because a workspace cannot be opened, or because of a startup script that is not a string, or of a
    command in one that is interrupted or switches workspaces. *)
Theorem c58_why_it_ends : forall w es n h,
  let at_ m := steps B m (start w es) in
  let s := at_ n in
  where_ s = Ended h ->
  h = AtEnd /\ input s = [] \/
  (exists m l ws c from w2 e nx, (log s = l ++ [Ran ws c from] \/ log s = l ++ [Ran ws c from; Reported]) /\
     run_cmd B ws (world (at_ m)) c = (w2, e, nx) /\
     (leaves e \/ from = FromStartup /\ (e = Interrupt \/ exists to, e = Reconfigure to))) \/
  (exists m ws w2, where_ (at_ m) = Opening ws /\
     (open_ws B ws (world (at_ m)) = (w2, Refused) \/ open_ws B ws (world (at_ m)) = (w2, OpenKillShell) \/
      open_ws B ws (world (at_ m)) = (w2, InitFails))) \/
  (exists m ws w2 d sc, where_ (at_ m) = Opening ws /\ open_ws B ws (world (at_ m)) = (w2, Opened d sc) /\ In None sc).
Proof.
  intros w es n h at_.
  set (bad := exists m ws w2 d sc, where_ (at_ m) = Opening ws /\ open_ws B ws (world (at_ m)) = (w2, Opened d sc) /\ In None sc).
  set (why := fun (s : shell) h => h = AtEnd /\ input s = [] \/
  (exists m l ws c from w2 e nx, (log s = l ++ [Ran ws c from] \/ log s = l ++ [Ran ws c from; Reported]) /\
     run_cmd B ws (world (at_ m)) c = (w2, e, nx) /\
     (leaves e \/ from = FromStartup /\ (e = Interrupt \/ exists to, e = Reconfigure to))) \/
  (exists m ws w2, where_ (at_ m) = Opening ws /\
     (open_ws B ws (world (at_ m)) = (w2, Refused) \/ open_ws B ws (world (at_ m)) = (w2, OpenKillShell) \/
      open_ws B ws (world (at_ m)) = (w2, InitFails))) \/ bad).
  assert (NXT : forall m, step B (at_ m) = at_ (m + 1)) by (intros; unfold at_; now rewrite steps_add).
  assert (G : (forall ws d todo, where_ (at_ n) = Startup ws d todo -> In None todo -> bad) /\
              (forall h, where_ (at_ n) = Ended h -> why (at_ n) h)).
  2:{ intros s E. exact (proj2 G h E). }
  clear h. induction n as [| m [HS HE]].
  { split; simpl; discriminate. }
  replace (S m) with (m + 1) by lia. rewrite <- NXT. pose (s := at_ m). fold s in HS, HE |- *. split.
  - unfold step. destruct (where_ s) as [ws| ws d todo | ws | h0] eqn:WH.
    + unfold open_step. destruct (open_ws B ws (world s)) as [w1 o] eqn:O. destruct o; simpl; try discriminate.
      intros ws' d' todo' E I. injection E as <- <- <-. exists m, ws, w1, damaged, scripts. split; [exact WH|]. split; [exact O|].
      unfold startup_commands in I. apply in_concat in I. destruct I as (x & I1 & I2). apply in_map_iff in I1.
      destruct I1 as ([t|] & <- & I3); [| exact I3]. apply in_map_iff in I2. now destruct I2 as (? & ? & _).
    + intros ws' d' todo' E I. unfold startup_step in E.
      assert (X : In None todo -> bad) by (now apply (HS ws d todo)).
      destruct todo as [| [[| a c]|] r].
      * destruct d; discriminate E.
      * injection E as <- <- <-. apply X. now right.
      * destruct (run_cmd B ws (world s) (a :: c)) as [[w1 e] nx]. destruct e; simpl in E; try discriminate E;
        injection E as <- <- <-; apply X; now right.
      * apply X. now left.
    + intros ws' d' todo' E. exfalso. unfold prompt_step in E.
      assert (Q : forall c o w es l, where_ (command_step B ws c o w es l) = Startup ws' d' todo' -> False).
      { intros c o w0 es0 l Q. unfold command_step in Q. destruct (changed B ws w0); [discriminate Q|].
        destruct c; [discriminate Q|]. destruct (run_cmd B ws w0 (a :: c)) as [[w1 e] nx].
        destruct e; simpl in Q; try discriminate Q. destruct to; discriminate Q. }
      destruct (next s); [eauto|]. destruct (input s) as [| [| |] ?]; eauto; discriminate E.
    + intros ws' d' todo' E. rewrite WH in E. discriminate E.
  - unfold step. destruct (where_ s) as [ws| ws d todo | ws | h0] eqn:WH.
    + unfold open_step. destruct (open_ws B ws (world s)) as [w1 o] eqn:O. destruct o; simpl; try discriminate;
      intros h _; right; right; left; exists m, ws, w1; (split; [exact WH|]); auto.
    + unfold startup_step. destruct todo as [| [[| a c]|] r]; intros h E.
      * destruct d; discriminate E.
      * discriminate E.
      * right; left. destruct (run_cmd B ws (world s) (a :: c)) as [[w1 e] nx] eqn:R.
        destruct e; simpl in E; try discriminate E;
          exists m, (log s), ws, (a :: c), FromStartup, w1; eexists; exists nx; (split; [simpl; unfold say; rewrite <- ?app_assoc; auto|]);
          (split; [exact R|]); unfold leaves; eauto 7.
      * right; right; right. apply (HS ws d (None :: r)); [auto | now left].
    + assert (Q : forall c o es l h, where_ (command_step B ws c o (world s) es l) = Ended h ->
        why (command_step B ws c o (world s) es l) h).
      { intros c o es0 l h Q. unfold command_step in *. right; left. destruct (changed B ws (world s)); [discriminate Q|].
        destruct c; [discriminate Q|]. destruct (run_cmd B ws (world s) (a :: c)) as [[w1 e] nx] eqn:R.
        destruct e; simpl in Q; try discriminate Q; [destruct to; discriminate Q| | | |];
        exists m, l, ws, (a :: c), o, w1; eexists; exists nx; (split; [simpl; rewrite <- ?app_assoc; simpl; first [now left | now right]|]);
        (split; [exact R|]); unfold leaves; auto. }
      intros h E. unfold prompt_step in *. destruct (next s); [auto|].
      destruct (input s) as [| [c| |] ?].
      * injection E as <-. now left.
      * auto.
      * discriminate E.
      * discriminate E.
    + intros h E. apply HE. congruence.
Qed.

(** ** Scripts *)
Lemma ssteps_add : forall n m t s, ssteps B (n + m) t s = ssteps B m t (ssteps B n t s).
Proof. induction n; intros; simpl; auto. Qed.

Lemma script_in_turn : forall t ws cs w nx w' nx', in_turn B ws w nx cs w' nx' -> (forall c, In c cs -> c <> []) ->
  forall l, exists n l',
    ssteps B n t (mksrun (SStartup ws (map Some cs)) w l) = mksrun (SLoop ws (commands_in_script t)) w' l' /\
    executions l' = executions l ++ map (pair ws) cs.
Proof.
  induction 1 as [w nx | w nx c cs w1 e nx1 w2 nx2 R ST T IH]; intros NE l.
  - exists 1, l. simpl. now rewrite app_nil_r.
  - assert (N : c <> []) by (apply NE; now left).
    destruct (IH (fun c' I => NE c' (or_intror I)) (l ++ [Ran ws c FromStartup] ++ match e with Killed => [Reported] | _ => [] end))
      as (n & l' & ST' & EX).
    exists (S n), l'. split.
    + rewrite <- ST'. simpl. f_equal. unfold sstep. simpl. destruct c as [| a c]; [easy|]. simpl. rewrite R.
      destruct ST as [->|[->|[->| ->]]]; simpl; rewrite <- ?app_assoc; reflexivity.
    + rewrite EX, !executions_app. simpl. destruct e; simpl; rewrite <- !app_assoc; reflexivity.
Qed.

Lemma script_steps : forall t ws w cs l w', script_run B ws w cs l w' -> (forall c, In c cs -> c <> []) ->
  forall l0, exists n s', ssteps B n t (mksrun (SLoop ws cs) w l0) = s' /\
    swhere s' = SEnded AtEnd /\ sworld s' = w' /\ executions (slog s') = executions l0 ++ l.
Proof.
  induction 1 as [ws w | ws w c cs w1 e nx l w' R ST S IH | ws w c cs w1 nx ws' w2 d sc l w' R O S IH]; intros NE l0.
  - exists 1. eexists. split; [reflexivity|]. simpl. now rewrite app_nil_r.
  - assert (N : c <> []) by (apply NE; now left).
    assert (X : exists l1, sstep B t (mksrun (SLoop ws (c :: cs)) w l0) = mksrun (SLoop ws cs) w1 l1 /\
      executions l1 = executions l0 ++ [(ws, c)]).
    { unfold sstep. simpl. destruct c as [| a c]; [easy|]. rewrite R.
      destruct ST as [->|[->|[->| ->]]]; eexists; (split; [reflexivity|]); rewrite ?executions_app; simpl; now rewrite ?app_nil_r. }
    destruct X as (l1 & X1 & X2). destruct (IH (fun c' I => NE c' (or_intror I)) l1) as (n & s' & E & A1 & A2 & A3).
    exists (Datatypes.S n), s'. split; [simpl; now rewrite X1|]. repeat split; auto. rewrite A3, X2, <- app_assoc. reflexivity.
  - assert (N : c <> []) by (apply NE; now left).
    assert (X : exists l1, ssteps B 2 t (mksrun (SLoop ws (c :: cs)) w l0) = mksrun (SLoop ws' cs) w2 l1 /\
      executions l1 = executions l0 ++ [(ws, c)]).
    { simpl. unfold sstep at 2. simpl. destruct c as [| a c]; [easy|]. rewrite R. unfold sstep. simpl. rewrite O.
      eexists; (split; [reflexivity|]); rewrite !executions_app; simpl; now rewrite ?app_nil_r. }
    destruct X as (l1 & X1 & X2). destruct (IH (fun c' I => NE c' (or_intror I)) l1) as (n & s' & E & A1 & A2 & A3).
    exists (2 + n), s'. split; [now rewrite ssteps_add, X1|]. repeat split; auto. rewrite A3, X2, <- app_assoc. reflexivity.
Qed.

(** C58: a script: after the startup scripts, its commands in order, each once. *)
Theorem c58_script : forall script w w1 cs nx l w',
  enters B default w w1 cs nx -> script_run B default w1 (commands_in_script script) l w' ->
  exists n, let s := ssteps B n script (sstart w) in
    swhere s = SEnded AtEnd /\ sworld s = w' /\ executions (slog s) = map (pair default) cs ++ l.
Proof.
  intros script w w1 cs nx l w' (w0 & scripts & O & -> & T) S.
  destruct (script_in_turn script T) with (l := [OpenedWs default]) as (n & l' & E & X).
  { intros c I. apply in_concat in I. destruct I as (x & I1 & I2). apply in_map_iff in I1. destruct I1 as (t & <- & _).
    now apply commands_nonempty in I2. }
  destruct (script_steps script S) with (l0 := l') as (m & s' & E2 & A1 & A2 & A3).
  { apply commands_nonempty. }
  exists (1 + (n + m)). cbv zeta. rewrite !ssteps_add.
  assert (Y : ssteps B 1 script (sstart w) = mksrun (SStartup default (map Some (concat (map commands_in_script scripts)))) w0 [OpenedWs default]).
  { unfold sstart. simpl. unfold sstep. simpl. now rewrite O, startup_flat. }
  rewrite Y, E, E2. repeat split; auto. now rewrite A3, X.
Qed.

(** C58: if no startup script fails, what has been run of a script is a prefix of it, whatever happens. *)
Definition remaining (script : text) (p : sphase) : option (list text) :=
  match p with
  | SOpening | SStartup _ _ => Some (commands_in_script script)
  | SLoop _ r | SSwitch _ r => Some r
  | SEnded _ => None
  end.

Lemma sstep_prefix : (forall ws w w', open_ws B ws w <> (w', StartupError)) -> forall script s done,
  ran (slog s) = done ->
  (forall r, remaining script (swhere s) = Some r -> done ++ r = commands_in_script script) ->
  (exists r, done ++ r = commands_in_script script) ->
  exists done', ran (slog (sstep B script s)) = done' /\
  (forall r, remaining script (swhere (sstep B script s)) = Some r -> done' ++ r = commands_in_script script) /\
  (exists r, done' ++ r = commands_in_script script).
Proof.
  intros NS script s done R I X. unfold sstep. destruct (swhere s) as [| ws todo | ws todo | ws todo | h] eqn:WH; simpl in I.
  - specialize (I _ eq_refl). assert (D : done = []). { apply (app_inv_tail (commands_in_script script)). now rewrite I. }
    destruct (open_ws B default (sworld s)) as [w o] eqn:O.
    destruct o; try (now destruct (NS default (sworld s) w)); simpl; rewrite ?ran_app, R, D; simpl; eexists; (split; [reflexivity|]);
      (split; [intros r; try discriminate; intros [= <-]; reflexivity | now exists (commands_in_script script)]).
  - specialize (I _ eq_refl). assert (D : done = []). { apply (app_inv_tail (commands_in_script script)). now rewrite I. }
    destruct todo as [| [[| a c]|] r0]; simpl.
    + rewrite R, D. exists []. repeat split; [intros r [= <-]; reflexivity | now exists (commands_in_script script)].
    + rewrite R, D. exists []. repeat split; [intros r [= <-]; reflexivity | now exists (commands_in_script script)].
    + destruct (run_cmd B ws (sworld s) (a :: c)) as [[w e] nx].
      destruct e; simpl; rewrite ?ran_app, R, D; simpl; eexists; (split; [reflexivity|]);
      (split; [intros r; try discriminate; intros [= <-]; reflexivity | now exists (commands_in_script script)]).
    + rewrite ran_app, R, D. exists []. repeat split; [discriminate | now exists (commands_in_script script)].
  - specialize (I _ eq_refl). destruct todo as [| [| a c] r0]; simpl.
    + rewrite R. exists done. repeat split; [discriminate | auto].
    + exfalso. assert (In [] (commands_in_script script)) by (rewrite <- I; apply in_or_app; right; now left).
      now apply (commands_nonempty script) in H.
    + assert (I' : (done ++ [a :: c]) ++ r0 = commands_in_script script) by (rewrite <- I, <- app_assoc; reflexivity).
      destruct (run_cmd B ws (sworld s) (a :: c)) as [[w e] nx].
      exists (done ++ [a :: c]).
      destruct e; [| | | | destruct to | | | | |]; simpl; rewrite ?ran_app; simpl; rewrite ?R, ?app_nil_r; (split; [reflexivity|]);
      (split; [intros r; try discriminate; intros [= <-]; exact I' | now exists r0]).
  - specialize (I _ eq_refl). destruct (open_ws B ws (sworld s)) as [w o] eqn:O. exists done.
    destruct o; try (now destruct (NS ws (sworld s) w)); simpl; rewrite ?ran_app; simpl; rewrite ?R, ?app_nil_r; (split; [reflexivity|]);
      (split; [intros r; try discriminate; intros [= <-]; exact I | now exists todo]).
  - exists done. rewrite WH. simpl. repeat split; auto; discriminate.
Qed.

Theorem c58_script_prefix_partial : (forall ws w w', open_ws B ws w <> (w', StartupError)) -> forall script w n,
  exists r, ran (slog (ssteps B n script (sstart w))) ++ r = commands_in_script script.
Proof.
  intros NS script w n.
  assert (G : forall n s done, ran (slog s) = done ->
    (forall r, remaining script (swhere s) = Some r -> done ++ r = commands_in_script script) ->
    (exists r, done ++ r = commands_in_script script) ->
    exists r, ran (slog (ssteps B n script s)) ++ r = commands_in_script script).
  { induction n0 as [| m IH]; intros s done R I X; simpl.
    - destruct X as (r & X). exists r. now rewrite R.
    - destruct (sstep_prefix NS script s R I X) as (d' & R' & I' & X'). exact (IH _ d' R' I' X'). }
  apply (G n (sstart w) []); simpl; auto. intros r [= <-]; reflexivity. now exists (commands_in_script script).
Qed.

End Props.
