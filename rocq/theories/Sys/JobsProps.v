(* C35: job control *)
From Coq Require Import List Bool Arith Lia.
From Verif.Sys Require Import Jobs JobsSpec JobsFacts JobsFacts2.
Import ListNotations.

Lemma reach_QInv : forall w, reach when_blocked (boot 0) w -> QInv w.
Proof.
  induction 1 as [|w e w' Hr IH OK S].
  - unfold QInv; simpl. exists calm. split; [constructor; discriminate|].
    constructor; unfold L, P; simpl; intros; try congruence; try contradiction; try apply NoDup_nil.
    + destruct H0; discriminate.
  - pose proof (reach_Inv _ _ Hr) as IV.
    unfold step in S. destruct (stat w) eqn:R; try discriminate.
    unfold QInv in IH. rewrite R in IH. destruct IH as (al & SH & GG).
    destruct (IV R) as (M & U & C & Lc & O & Gf).
    assert (BL : forall k b0, blocked w -> k <> KWait -> (k = KCtrlC -> b0 = pendz w) ->
       (k = KCtrlZ -> b0 = false) ->
       QInv (push [CScan (order w) k] (setpend w b0))).
    { intros k b0 B NK E1 E2.
      assert (exists b, stk w = bstk b /\ okb w b /\ al = calm) as (b & Eb & Ob & ->).
      { destruct B as [B|(j & r & B)]; rewrite B in SH; inv SH.
        - exists BPrompt; auto.
        - exists (BJoin j); auto. }
      eapply QI; [exact R|simpl; rewrite Eb; apply s_scan|].
      - destruct k; try congruence; constructor; exact Ob.
      - exists []; split; auto; intros x [].
      - destruct GG. destruct k; try congruence.
        + rewrite E1 by auto. eapply G_weak; [constructor; eassumption|auto..]; simpl; unfold no; tauto.
        + rewrite E2 by auto. constructor; auto. simpl. intros; right; exact I. }
    destruct e.
    + destruct (stk w) as [|c r] eqn:E; inv S.
      eapply exec_QInv; eauto.
      * intros Cc j. apply (C c j); simpl; auto.
    + destruct (gone (ps (rec w j))) eqn:Gn; [discriminate|]. destruct (j <? nxt w) eqn:Lt; inv S.
      eapply QI; [exact R| |].
      * eapply shape_same; [..|exact SH]; auto; intros i; up; auto. left; auto.
      * apply G_exit; auto. apply Nat.ltb_lt; auto. unfold P; intros X; rewrite X in Gn; discriminate.
    + inv S. eapply QI; [exact R| |].
      * eapply shape_same; [..|exact SH]; auto. unfold P, ended; simpl.
        intros j [->| ->]; auto.
      * apply G_ztyped; auto.
    + destruct (pendz w) eqn:Z; inv S. apply BL; auto; try discriminate.
    + inv S. replace w with (setpend w (pendz w)) at 2 by (destruct w; auto).
      apply BL; auto; try discriminate.
    + destruct (stk w) eqn:E; inv S. inv SH.
      assert (GS : forall s, G (setstk w s) calm) by (intros; apply G_stk; auto).
      destruct i; simpl.
      * eapply QI; [exact R|simpl; apply s_create|apply GS].
      * eapply QI; [exact R|simpl; apply s_remove with (pre := []); simpl; auto; try apply NoDup_nil; intros x []|apply calm_weak, GS].
      * eapply QI; [exact R|simpl; apply s_remove with (pre := []); simpl; auto; try apply NoDup_nil; intros x []|apply calm_weak, GS].
      * eapply QI; [exact R|simpl; apply s_remove with (pre := []); simpl; auto; try apply NoDup_nil; intros x []|apply calm_weak, GS].
      * eapply QI; [exact R|simpl; apply s_end|apply calm_weak, GS].
      * eapply QI; [exact R|simpl; apply s_killall; auto; apply incl_refl|apply GS].
Qed.

Ltac fin := unfold poll in *; up; auto; try congruence.

(* Labels, one instruction at a time *)
Lemma exec_label : forall w c r al j, stat w = Running -> 
  (creator c = true -> forall j, L w j <> FOREGROUND) ->
  shape w (c :: r) al -> G w al -> j < nxt w ->
  documented (L w j) (L (exec c (setstk w r)) j) /\
  (L (exec c (setstk w r)) j = DEAD -> L w j <> DEAD ->
     ended (P w j) \/ In CHalt r \/ (c = CKillSet j /\ L w j = FOREGROUND)).
Proof.
  intros w c r al j R C S H Lt.
  assert (SAME : forall w', L w' j = L w j -> documented (L w j) (L w' j) /\
     (L w' j = DEAD -> L w j <> DEAD -> ended (P w j) \/ In CHalt r \/ (c = CKillSet j /\ L w j = FOREGROUND))).
  { intros w' E. rewrite E. split; [constructor|congruence]. }
  assert (RL : forall w0, L (raise_lookup w0) j = L w0 j) by (intros w0; unfold raise_lookup; destruct (unwind_try (stk w0)); auto).
  assert (RK : forall w0, L (raise_kill w0) j = L w0 j) by (intros w0; unfold raise_kill; destruct (unwind_cmd (stk w0)); auto).
  assert (OK : forall w0 i s k, (forall w', L (k w') j = L w' j) -> L (os_kill w0 i s k) j = L w0 j).
  { intros w0 i s k K. unfold os_kill. destruct (hasp (rec w0 i)); auto.
    assert (Q : L (k (setps w0 i (deliver s (ps (rec w0 i))))) j = L w0 j) by (rewrite K; apply setps_L).
    destruct (ps (rec w0 i)) eqn:E; auto. }
  inversion S; subst; clear S; simpl;
  repeat match goal with
  | |- context [match ?x with _ => _ end] =>
      match x with
      | lab _ => destruct x eqn:?
      | hasp _ => destruct x eqn:?
      | gone _ => destruct x eqn:?
      | is_dead _ => destruct x eqn:?
      | is_fg _ => destruct x eqn:?
      | is_bg _ => destruct x eqn:?
      | nth_error _ _ => destruct x eqn:?
      | ?v => is_var v; destruct v
      end
  end; simpl;
  try solve [apply SAME; rewrite ?RK; try rewrite OK by reflexivity; try reflexivity; unfold poll, L; simpl; unfold upd;
             repeat match goal with |- context [Nat.eqb ?a ?b] => destruct (Nat.eqb_spec a b); subst; simpl end; auto; lia].
  all: match goal with
       | |- context [setlab _ ?i ?l] =>
           destruct (Nat.eq_dec j i) as [->|Ne];
           [ match goal with |- context [L ?x i] =>
               match x with context [setlab] => replace (L x i) with l by (unfold L; simpl; unfold upd; rewrite Nat.eqb_refl; reflexivity) end end
           | apply SAME; unfold L; simpl; unfold upd;
             match goal with |- context [Nat.eqb ?a ?b] => destruct (Nat.eqb_spec a b); [congruence|reflexivity] end ]
       end.
  - destruct H4 as [-> | ->]; split; try constructor; discriminate.
  - rewrite H4. split; [constructor|discriminate].
  - rewrite H4. split; [constructor|discriminate].
  - split; [destruct (L w i); constructor|]. intros _ D. destruct H5; [congruence|auto].
  - split; [destruct (L w j0); constructor|]. intros _ D.
    destruct H4 as [E|(l & ->)]; auto. simpl. auto.
  - rewrite H3. split; [constructor|discriminate].
Qed.

Lemma step_label : forall w e w' j, reach when_blocked (boot 0) w -> when_blocked w e -> step w e = Some w' -> j < nxt w ->
  documented (L w j) (L w' j) /\
  (L w' j = DEAD -> L w j <> DEAD ->
     ended (P w j) \/ In CHalt (stk w) \/ (exists r, stk w = CKillSet j :: r /\ L w j = FOREGROUND)).
Proof.
  intros w e w' j Hr OK S Lt.
  pose proof (reach_Inv _ _ Hr) as IV. pose proof (reach_QInv _ Hr) as QV.
  unfold step in S. destruct (stat w) eqn:R; try discriminate.
  unfold QInv in QV. rewrite R in QV. destruct QV as (al & SH & GG).
  destruct (IV R) as (M & U & C & Lc & O & Gf).
  assert (SAME : L w' j = L w j -> documented (L w j) (L w' j) /\
     (L w' j = DEAD -> L w j <> DEAD ->
     ended (P w j) \/ In CHalt (stk w) \/ (exists r, stk w = CKillSet j :: r /\ L w j = FOREGROUND))).
  { intros E. rewrite E. split; [constructor|congruence]. }
  destruct e.
  - destruct (stk w) as [|c r] eqn:E; inv S.
    destruct (exec_label w c r al j) as [A B]; auto.
    { intros K i. apply (C c i); simpl; auto. }
    split; auto. intros D N. destruct (B D N) as [X|[X|[-> X]]]; auto.
    + right; left; simpl; auto.
    + right; right; eauto.
  - destruct (gone (ps (rec w j0))); [discriminate|]. destruct (j0 <? nxt w); inv S. apply SAME. apply setps_L.
  - inv S. apply SAME. reflexivity.
  - destruct (pendz w); inv S. apply SAME. reflexivity.
  - inv S. apply SAME. reflexivity.
  - destruct (stk w); inv S. apply SAME. reflexivity.
Qed.

Lemma nxt_mono : forall w e w', step w e = Some w' -> nxt w <= nxt w'.
Proof.
  intros w e w' S. unfold step in S. destruct (stat w); try discriminate.
  assert (RL : forall w0, nxt (raise_lookup w0) = nxt w0) by (intros w0; unfold raise_lookup; destruct (unwind_try (stk w0)); auto).
  assert (RK : forall w0, nxt (raise_kill w0) = nxt w0) by (intros w0; unfold raise_kill; destruct (unwind_cmd (stk w0)); auto).
  assert (OK : forall w0 i s k, (forall w', nxt (k w') = nxt w') -> nxt (os_kill w0 i s k) = nxt w0).
  { intros w0 i s k K. unfold os_kill. destruct (hasp (rec w0 i)); auto.
    destruct (ps (rec w0 i)) eqn:E; rewrite ?K; auto. }
  destruct e;
  repeat match type of S with
  | context [match ?x with _ => _ end] => destruct x eqn:?; try discriminate
  end; inv S; simpl; auto.
  destruct c; simpl;
  repeat match goal with
  | |- context [match ?x with _ => _ end] =>
      match x with
      | lab _ => destruct x eqn:?
      | hasp _ => destruct x eqn:?
      | is_dead _ => destruct x eqn:?
      | is_fg _ => destruct x eqn:?
      | is_bg _ => destruct x eqn:?
      | nth_error _ _ => destruct x eqn:?
      | ?v => is_var v; destruct v
      end
  end; simpl; rewrite ?RK; try rewrite OK by reflexivity; simpl; lia.
Qed.

(* ------------------------------------------------------------------ *)

(* At most one job is in the foreground, whatever the schedule, provided no
   startup script starts a job *)
Theorem c35_one_foreground_partial : forall w,
  reach anytime (boot 0) w -> stat w = Running -> one_foreground w.
Proof.
  intros w Hr R i j _ _ Fi Fj. destruct (reach_Inv _ _ Hr R) as (_ & U & _). apply U; auto.
Qed.

(* and the prompt is only shown when there is none *)
Theorem c35_prompt_partial : forall w,
  reach anytime (boot 0) w -> stat w = Running -> stk w = [] -> no_foreground w.
Proof.
  intros w Hr R E j _ Fj. destruct (reach_Inv _ _ Hr R) as (_ & _ & _ & Lc & _). 
  rewrite E in Lc. exact (Lc j Fj).
Qed.

(* Every change of label is a documented one *)
Theorem c35_transitions_partial : forall w e w' j,
  reach when_blocked (boot 0) w -> when_blocked w e -> step w e = Some w' -> exists_job w j ->
  documented (state w j) (state w' j).
Proof. intros. eapply (proj1 (step_label w e w' j H H0 H1 H2)). Qed.

(* A dead job stays dead *)
Theorem c35_dead_is_final_partial : forall w w' j,
  reach when_blocked (boot 0) w -> reach when_blocked w w' -> exists_job w j ->
  state w j = DEAD -> state w' j = DEAD.
Proof.
  intros w w' j H0 H1 Lt D.
  assert (Q : reach when_blocked (boot 0) w' /\ exists_job w' j /\ state w' j = DEAD); [|tauto].
  induction H1 as [|w1 e w2 Hr IH OK S]; [auto|].
  destruct IH as (A & B & C). split; [eapply reach_step; eauto|].
  split; [pose proof (nxt_mono _ _ _ S); unfold exists_job in *; lia|].
  pose proof (c35_transitions_partial w1 e w2 j A OK S B) as T. rewrite C in T. inv T; auto.
Qed.

(* A job in the background, or paused, is never killed by ctrl-C: it becomes dead because
   its process has ended, or because the user leaves the shell *)
Theorem c35_background_survives_partial : forall w e w' j,
  reach when_blocked (boot 0) w -> when_blocked w e -> step w e = Some w' -> exists_job w j ->
  state w j = BACKGROUND \/ state w j = PAUSED -> state w' j = DEAD ->
  ended (ps (rec w j)) \/ In CHalt (stk w).
Proof.
  intros w e w' j Hr OK S Lt B D.
  destruct (proj2 (step_label w e w' j Hr OK S Lt) D) as [|[|(r & _ & F)]]; auto;
    unfold state, L in *; destruct B; congruence.
Qed.

(* No job event brings the shell down *)
Theorem c35_no_crash_partial : forall w, reach when_blocked (boot 0) w -> stat w <> Crashed.
Proof. intros w Hr E. pose proof (reach_QInv _ Hr) as Q. unfold QInv in Q. rewrite E in Q. exact Q. Qed.

(* When the main process is blocked and no ctrl-Z is pending, labels tell the truth:
   a paused job does not run, a job in the background or in the foreground is not
   stopped, and a dead job has ended or was sent SIGKILL *)
Theorem c35_labels_partial : forall w j,
  reach when_blocked (boot 0) w -> stat w = Running -> blocked w -> pendz w = false -> exists_job w j ->
  agrees w j /\ (state w j = DEAD -> ps (rec w j) <> PRun /\ ps (rec w j) <> PStop).
Proof.
  intros w j Hr R B Z Lt. pose proof (reach_QInv _ Hr) as Q. unfold QInv in Q. rewrite R in Q.
  destruct Q as (al & SH & GG).
  assert (al = calm) as ->.
  { destruct B as [B|(i & r & B)]; rewrite B in SH; inv SH; auto. }
  pose proof (g_run _ _ GG j) as g_run0. pose proof (g_pause _ _ GG j) as g_pause0. pose proof (g_dead _ _ GG j) as g_dead0.
  unfold agrees, state, L, P in *. split.
  - simpl in *. unfold no in *.
    destruct (lab (rec w j)); auto; intros X; intuition congruence.
  - intros D. specialize (g_dead0 D). split; intros X; apply g_dead0; unfold alive; auto.
Qed.

(* Leaving the shell leaves no job running or stopped *)
Theorem c35_exit_kills_partial : forall w j,
  reach when_blocked (boot 0) w -> stat w = Halted -> ps (rec w j) <> PRun /\ ps (rec w j) <> PStop.
Proof.
  intros w j Hr R. pose proof (reach_QInv _ Hr) as Q. unfold QInv in Q. rewrite R in Q.
  split; intros E; apply (Q j); unfold alive, P; auto.
Qed.

(* ------------------------------------------------------------------ *)
(* ctrl-C and ctrl-Z do their work *)

(* the handler of signal k is still on its way to job j *)
Definition heading (k : kont) (j : nat) (s : list cmd) : Prop :=
  match s with
  | CScan l k' :: _ => k' = k /\ In j l
  | CCheck i :: CTestFg i' l k' :: _ => i = i' /\ k' = k /\ (j = i \/ In j l)
  | CSetDead i :: CClearProc i' :: CTestFg i'' l k' :: _ => i = i' /\ i = i'' /\ k' = k /\ (j = i \/ In j l)
  | CClearProc i :: CTestFg i' l k' :: _ => i = i' /\ k' = k /\ (j = i \/ In j l)
  | CTestFg i l k' :: _ => k' = k /\ (j = i \/ In j l)
  | CKill i :: _ | CKillSet i :: _ => k = KCtrlC /\ i = j
  | CPause i :: _ | CPauseSet i :: _ => k = KCtrlZ /\ i = j
  | _ => False
  end.
Definition done (k : kont) (l : jstate) : Prop := l = DEAD \/ (k = KCtrlZ /\ l = PAUSED).

Lemma heading_exec : forall w c r k j, (k = KCtrlC \/ k = KCtrlZ) ->
  (forall i, L w i = FOREGROUND -> i = j) -> L w j = FOREGROUND ->
  heading k j (c :: r) -> (exists al, shape w (c :: r) al /\ G w al) ->
  done k (L (exec c (setstk w r)) j) \/
  (L (exec c (setstk w r)) j = FOREGROUND /\ heading k j (stk (exec c (setstk w r)))).
Proof.
  intros w c r k j K U F H (al & SH & GG).
  assert (HP : hasp (rec w j) = true) by (apply (g_has _ _ GG j); congruence).
  destruct c; try contradiction H; simpl in H.
  - (* CKill *) destruct H as [-> ->]. right. simpl. fold (L w j). rewrite F. simpl. split; auto.
  - (* CKillSet *) destruct H as [-> ->]. left. left. simpl. unfold L; simpl; unfold upd. rewrite Nat.eqb_refl; auto.
  - (* CPause *) destruct H as [-> ->]. right. simpl. fold (L w j). rewrite F, HP. simpl; auto.
  - (* CPauseSet *) destruct H as [-> ->]. left. right. split; auto. unfold L; simpl; unfold upd. rewrite Nat.eqb_refl; auto.
  - (* CScan *) destruct H as [-> I]. right. destruct l as [|i l]; simpl in I; [contradiction|]. simpl. intuition.
  - (* CCheck *) destruct r as [|c r]; [contradiction|]. destruct c; try contradiction. destruct H as (<- & -> & I).
    right. simpl. destruct (hasp (rec w j0)); [destruct (gone (ps (rec w j0)))|]; simpl;
      (split; [unfold L; simpl; unfold upd; try (destruct (Nat.eqb_spec j j0)); subst; auto|auto]).
  - (* CSetDead *) destruct r as [|c r]; [contradiction|]. destruct c; try contradiction.
    destruct r as [|c r]; [contradiction|]. destruct c; try contradiction. destruct H as (<- & <- & -> & I).
    destruct (Nat.eq_dec j j0) as [->|Ne].
    + left; left. unfold L; simpl; unfold upd; rewrite Nat.eqb_refl; auto.
    + right. simpl. split; auto. unfold L; simpl; unfold upd. destruct (Nat.eqb_spec j j0); auto; congruence.
  - (* CClearProc *) destruct r as [|c r]; [contradiction|]. destruct c; try contradiction. destruct H as (<- & -> & I).
    right. simpl. split; auto. unfold L; simpl; unfold upd. destruct (Nat.eqb_spec j j0); subst; auto.
  - (* CTestFg *) destruct H as (-> & I). right. simpl. fold (L w j0).
    destruct (L w j0) eqn:D; simpl.
    + rewrite (U j0 D). split; auto. destruct K; subst; simpl; auto.
    + split; auto. destruct I as [->|I]; auto. congruence.
    + split; auto. destruct I as [->|I]; auto. congruence.
    + split; auto. destruct I as [->|I]; auto. congruence.
Qed.

Lemma heading_not_blocked : forall k j w, (k = KCtrlC \/ k = KCtrlZ) -> heading k j (stk w) -> ~ blocked w.
Proof.
  intros k j w K H [B|(i & r & B)]; rewrite B in H; exact H.
Qed.

Lemma handler_works : forall k e w w1 w2 j, (k = KCtrlC /\ e = ECHandle) \/ (k = KCtrlZ /\ e = EZHandle) ->
  reach when_blocked (boot 0) w -> blocked w -> exists_job w j -> state w j = FOREGROUND ->
  step w e = Some w1 -> reach when_blocked w1 w2 -> 
  reach when_blocked (boot 0) w2 /\ exists_job w2 j /\
  (stat w2 = Running -> 
   (state w2 j = FOREGROUND /\ heading k j (stk w2)) \/ exists w3, reach when_blocked (boot 0) w3 /\ exists_job w3 j /\ done k (state w3 j) /\ reach when_blocked w3 w2).
Proof.
  intros k e w w1 w2 j KE Hr B Lt F S1 R2.
  assert (R1 : reach when_blocked (boot 0) w1).
  { eapply reach_step; eauto. destruct KE as [[_ ->]|[_ ->]]; exact B. }
  assert (K : k = KCtrlC \/ k = KCtrlZ) by tauto.
  induction R2 as [|w2 e2 w3 R2 IH OK S].
  - split; auto. split; [pose proof (nxt_mono _ _ _ S1); unfold exists_job in *; lia|]. intros _. left.
    assert (Ro : stat w = Running) by (unfold step in S1; destruct (stat w); auto; discriminate).
    assert (IO : In j (order w)).
    { destruct (reach_Inv _ _ Hr Ro) as (_ & _ & _ & _ & O & _). destruct (O j F) as [|X]; auto.
      pose proof (reach_QInv _ Hr) as Q. unfold QInv in Q. rewrite Ro in Q. destruct Q as (al & SH & _).
      destruct B as [B|(i & r & B)]; rewrite B in *; [contradiction|]. inv SH. destruct X as [X|[]]; discriminate. }
    unfold step in S1. rewrite Ro in S1.
    destruct KE as [[-> ->]|[-> ->]].
    + inv S1. simpl. auto.
    + destruct (pendz w); inv S1. simpl. auto.
  - destruct IH as (A & Lt2 & IH).
    assert (A3 : reach when_blocked (boot 0) w3) by (eapply reach_step; eauto).
    assert (Lt3 : exists_job w3 j) by (pose proof (nxt_mono _ _ _ S); unfold exists_job in *; lia).
    split; auto. split; auto. intros R3.
    assert (Ro : stat w2 = Running) by (unfold step in S; destruct (stat w2); auto; discriminate).
    destruct (IH Ro) as [[F2 H2]|(w4 & P1 & P2 & P3 & P4)].
    2: { right. exists w4. repeat split; auto. eapply reach_step; eauto. }
    pose proof (heading_not_blocked k j w2 K H2) as NB.
    destruct (reach_Inv _ _ A Ro) as (_ & U & _).
    unfold step in S. rewrite Ro in S. destruct e2.
    + destruct (stk w2) as [|c r] eqn:E; inv S.
      pose proof (reach_QInv _ A) as Q. unfold QInv in Q. rewrite Ro, E in Q.
      destruct (heading_exec w2 c r k j K) as [D|[F3 H3]]; auto.
      right. eexists. split; [exact A3|]. split; auto. split; auto. constructor.
    + destruct (gone (ps (rec w2 j0))); [discriminate|]. destruct (j0 <? nxt w2); inv S. left.
      split; auto. unfold state. rewrite setps_lab. auto.
    + inv S. left. auto.
    + contradiction (NB OK).
    + contradiction (NB OK).
    + destruct (stk w2) eqn:E; [contradiction H2|discriminate].
Qed.

(* Once ctrl-C has been handled, the job that was in the foreground is dead, and its process
   has ended or was sent SIGKILL *)
Theorem c35_ctrl_c_partial : forall w w1 w2 j,
  reach when_blocked (boot 0) w -> blocked w -> exists_job w j -> state w j = FOREGROUND ->
  step w ECHandle = Some w1 -> reach when_blocked w1 w2 -> stat w2 = Running -> blocked w2 ->
  state w2 j = DEAD /\ ps (rec w2 j) <> PRun /\ ps (rec w2 j) <> PStop.
Proof.
  intros w w1 w2 j Hr B Lt F S R2 Ro B2.
  destruct (handler_works KCtrlC ECHandle w w1 w2 j) as (A & Lt2 & H); auto.
  destruct (H Ro) as [[_ X]|(w3 & A3 & Lt3 & D & R3)].
  - exfalso. apply (heading_not_blocked KCtrlC j w2); auto.
  - assert (D3 : state w3 j = DEAD) by (destruct D as [|[X _]]; [auto|discriminate]).
    assert (D2 : state w2 j = DEAD) by (eapply c35_dead_is_final_partial; eauto).
    split; auto. pose proof (reach_QInv _ A) as Q. unfold QInv in Q. rewrite Ro in Q. destruct Q as (al & SH & GG).
    assert (al = calm) as ->.
    { destruct B2 as [B2|(i & r & B2)]; rewrite B2 in SH; inv SH; auto. }
    pose proof (g_dead _ _ GG j D2) as X. split; intros E; apply X; unfold alive, P; auto.
Qed.

(* the rest of the handler of ctrl-Z *)
Definition ztail (s : list cmd) : Prop :=
  match s with
  | CSig _ TSTP :: CZStart :: _ | CZStart :: _ | CZLoop _ :: _
  | COp OpBg _ :: CZLoop _ :: _ | CBgSet _ :: CZLoop _ :: _ | CSig _ CONT :: CZLoop _ :: _ => True
  | _ => False
  end.

Lemma ztail_exec : forall w c r al j, stat w = Running -> shape w (c :: r) al -> G w al -> L w j = PAUSED -> ztail (c :: r) ->
  L (exec c (setstk w r)) j = PAUSED /\ (ztail (stk (exec c (setstk w r))) \/ blocked (exec c (setstk w r))).
Proof.
  intros w c r al j R S H F Z.
  assert (BB : forall b w', stk w' = bstk b -> blocked w').
  { intros b w' E. unfold blocked. rewrite E. destruct b; simpl; eauto. }
  inversion S; subst; clear S; try contradiction Z; unfold tail in Z; simpl in Z; try contradiction Z; try (destruct o; contradiction Z).
  - (* tstp *)
    assert (HP : hasp (rec w j0) = true) by (apply (g_has _ _ H j0); congruence).
    assert (NR : P w j0 <> PReaped) by (apply (no_reaped w _ j0 H); [simpl; unfold no; tauto|auto|congruence]).
    simpl. rewrite os_kill_ok; auto. split; [rewrite setps_L; auto|left; exact I].
  - (* zstart *) simpl. auto.
  - (* zloop *)
    destruct l as [|i l]; simpl.
    + split; auto. right. eapply BB; reflexivity.
    + destruct (is_bg (lab (rec w i))); simpl; auto.
  - (* zop *) simpl. fold (L w j0). rewrite H6. simpl. auto.
  - (* zset *)
    simpl. split; [|left; exact I]. unfold L; simpl; unfold upd. destruct (Nat.eqb_spec j j0); auto.
    subst; unfold L in *; congruence.
  - (* zcont *)
    assert (HP : hasp (rec w j0) = true) by (apply (g_has _ _ H j0); congruence).
    assert (NR : P w j0 <> PReaped) by (apply (no_reaped w _ j0 H); [simpl; unfold no; tauto|apply H4; simpl; auto|congruence]).
    simpl. rewrite os_kill_ok; auto. split; [rewrite setps_L; auto|left; exact I].
Qed.

Lemma heading_pause : forall w c r al j, shape w (c :: r) al -> L w j = FOREGROUND -> heading KCtrlZ j (c :: r) ->
  L (exec c (setstk w r)) j = PAUSED -> ztail (stk (exec c (setstk w r))).
Proof.
  intros w c r al j S F H D.
  destruct c; try contradiction H; simpl in H.
  - destruct H; discriminate.
  - destruct H; discriminate.
  - destruct H as [_ ->]. exfalso. revert D. simpl. fold (L w j). rewrite F. destruct (hasp (rec w j)); unfold L in *; simpl; congruence.
  - destruct H as [_ ->]. inv S. exact I.
  - destruct H as [-> I]. destruct l; simpl in D; unfold L in *; simpl in *; congruence.
  - exfalso. destruct r as [|c r]; [contradiction|]. destruct c; try contradiction.
    revert D. simpl. destruct (hasp (rec w j0)); [destruct (gone (ps (rec w j0)))|]; unfold L in *; simpl; unfold upd;
      try (destruct (Nat.eqb_spec j j0)); subst; simpl; congruence.
  - exfalso. revert D. unfold L in *; simpl; unfold upd. destruct (Nat.eqb_spec j j0); subst; simpl; congruence.
  - exfalso. revert D. unfold L in *; simpl; unfold upd. destruct (Nat.eqb_spec j j0); subst; simpl; congruence.
  - exfalso. revert D. simpl. destruct (is_fg (lab (rec w j0))); unfold L in *; simpl; congruence.
Qed.

(* Once ctrl-Z has been handled, that is at the first moment the main process is blocked
   again, the job that was in the foreground is paused, unless it has ended *)
Theorem c35_ctrl_z_partial : forall w w1 w2 j,
  reach when_blocked (boot 0) w -> blocked w -> exists_job w j -> state w j = FOREGROUND ->
  step w EZHandle = Some w1 -> reach (fun u e => when_blocked u e /\ ~ blocked u) w1 w2 -> stat w2 = Running -> blocked w2 ->
  state w2 j = PAUSED \/ state w2 j = DEAD.
Proof.
  intros w w1 w2 j Hr B Lt F S R2 Ro B2.
  assert (R1 : reach when_blocked (boot 0) w1) by (apply (reach_step _ _ w EZHandle); auto).
  assert (HW : forall u, reach (fun u e => when_blocked u e /\ ~ blocked u) w1 u ->
     reach when_blocked (boot 0) u /\ exists_job u j /\
     (stat u = Running -> (state u j = FOREGROUND /\ heading KCtrlZ j (stk u)) \/
        (state u j = PAUSED /\ (ztail (stk u) \/ blocked u)) \/ state u j = DEAD)).
  { induction 1 as [|u e v R IH [OK NB] St].
    - destruct (handler_works KCtrlZ EZHandle w w1 w1 j) as (A & Lt2 & _); auto; [constructor|].
      split; auto. split; auto. intros _. left.
      unfold step in S. destruct (stat w) eqn:Rw; try discriminate. destruct (pendz w); inv S.
      simpl. split; auto. split; auto.
      destruct (reach_Inv _ _ Hr Rw) as (_ & _ & _ & _ & O & _). destruct (O j F) as [|X]; auto.
      pose proof (reach_QInv _ Hr) as Q. unfold QInv in Q. rewrite Rw in Q. destruct Q as (al & SH & _).
      destruct B as [B|(i & r & B)]; rewrite B in *; [contradiction|]. inv SH. destruct X as [X|[]]; discriminate.
    - destruct IH as (A & Ltu & IH).
      assert (Av : reach when_blocked (boot 0) v) by (eapply reach_step; eauto).
      assert (Ltv : exists_job v j) by (pose proof (nxt_mono _ _ _ St); unfold exists_job in *; lia).
      split; auto. split; auto. intros Rv.
      assert (Ru : stat u = Running) by (unfold step in St; destruct (stat u); auto; discriminate).
      destruct (reach_Inv _ _ A Ru) as (_ & U & _).
      pose proof (reach_QInv _ A) as Q. unfold QInv in Q. rewrite Ru in Q. destruct Q as (al & SH & GG).
      pose proof (c35_transitions_partial u e v j A OK St Ltu) as T.
      specialize (IH Ru).
      assert (SAME : stk v = stk u -> (forall i, state v i = state u i) ->
        (state v j = FOREGROUND /\ heading KCtrlZ j (stk v)) \/
        (state v j = PAUSED /\ (ztail (stk v) \/ blocked v)) \/ state v j = DEAD).
      { intros E1 E2. unfold blocked. rewrite E1, E2. exact IH. }
      unfold step in St. rewrite Ru in St. destruct e.
      + destruct (stk u) as [|c r] eqn:E; inv St.
        destruct IH as [[Fu Hu]|[[Pu [Zu|Bu]]|Du]].
        * destruct (heading_exec u c r KCtrlZ j) as [D|[F3 H3]]; eauto.
          right. destruct D as [D|[_ D]]; auto. left. split; auto. left. eapply heading_pause; eauto.
        * destruct (ztail_exec u c r al j); auto.
        * contradiction.
        * right; right. rewrite Du in T. inv T. auto.
      + destruct (gone (ps (rec u j0))); [discriminate|]. destruct (j0 <? nxt u); inv St. apply SAME; auto.
        intros i; apply setps_lab.
      + inv St. apply SAME; auto.
      + contradiction (NB OK).
      + contradiction (NB OK).
      + destruct (stk u) eqn:E; [|discriminate]. exfalso; apply NB. left; auto. }
  destruct (HW w2 R2) as (A & Lt2 & H). destruct (H Ro) as [[_ X]|[[X _]|X]]; auto.
  exfalso. apply (heading_not_blocked KCtrlZ j w2); auto.
Qed.

(* ------------------------------------------------------------------ *)
(* Concrete histories *)

Definition blockedb (w : W) : bool :=
  match stk w with [] => true | CJoined _ :: _ => true | _ => false end.
Definition quietb (w : W) (e : ev) : bool :=
  match e with EZHandle | ECHandle => blockedb w | _ => true end.
Fixpoint qrun (w : W) (es : list ev) : option W :=
  match es with
  | [] => Some w
  | e :: r => if quietb w e then match step w e with Some w' => qrun w' r | None => None end else None
  end.

Lemma qrun_reach : forall es w0 w w', reach when_blocked w0 w -> qrun w es = Some w' -> reach when_blocked w0 w'.
Proof.
  induction es as [|e es IH]; simpl; intros w0 w w' H Q; [inv Q; auto|].
  destruct (quietb w e) eqn:B; [|discriminate]. destruct (step w e) as [w1|] eqn:S; [|discriminate].
  eapply IH; [|exact Q]. eapply reach_step; eauto.
  destruct e; simpl in *; auto; unfold blockedb, blocked in *;
    destruct (stk w) as [|[]]; try discriminate; eauto.
Qed.
Lemma run_reach : forall es w0 w w', reach anytime w0 w -> run w es = Some w' -> reach anytime w0 w'.
Proof.
  induction es as [|e es IH]; simpl; intros w0 w w' H Q; [inv Q; auto|].
  destruct (step w e) as [w1|] eqn:S; [|discriminate].
  eapply IH; [|exact Q]. eapply reach_step; eauto. exact I.
Qed.

Definition mains n := repeat EMain n.
Definition view (o : option W) :=
  match o with
  | Some w => Some (map (fun j => (lab (rec w j), ps (rec w j))) (seq 0 (nxt w)), order w, stk w, stat w)
  | None => None
  end.

(* Steps of the main process until it is blocked (at least one) *)
Fixpoint until (f : nat) (w : W) : list ev :=
  match f with
  | 0 => []
  | S f => match step w EMain with
           | Some w' => EMain :: (if blockedb w' then [] else until f w')
           | None => []
           end
  end.
Fixpoint drive (w : W) (es : list ev) : list ev :=
  match es with
  | [] => []
  | e :: r =>
      match step w e with
      | Some w1 =>
          let p := match e with EExit _ | EZTyped => [] | _ => if blockedb w1 then [] else until 100 w1 end in
          match run w1 p with
          | Some w2 => e :: p ++ drive w2 r
          | None => []
          end
      | None => []
      end
  end.

(* A job is started, paused by ctrl-Z, resumed by bg; a second one is started and is in the
   foreground when ctrl-Z is typed: at the prompt, the first runs in the background, and the
   second is paused. *)
Definition scenario : list ev :=
  drive (boot 0) [EType IJob; EZTyped; EZHandle; EMain; EType (IBg 0); EType IJob; EZTyped; EZHandle; EMain].

Example scenario_result : option_map (fun v => fst (fst (fst v))) (view (qrun (boot 0) scenario))
  = Some [(BACKGROUND, PRun); (PAUSED, PStop)].
Proof. vm_compute. reflexivity. Qed.
Example scenario_reached : exists w, reach when_blocked (boot 0) w /\ stk w = [] /\ stat w = Running /\
  state w 0 = BACKGROUND /\ state w 1 = PAUSED /\ nxt w = 2.
Proof.
  destruct (qrun (boot 0) scenario) as [w|] eqn:E.
  - exists w. split; [eapply qrun_reach; [apply reach_start|exact E]|].
    vm_compute in E. inv E. vm_compute. auto 10.
  - vm_compute in E. discriminate.
Qed.

(* The same, with ctrl-C: the second job is dead. *)
Definition scenario_c : list ev :=
  drive (boot 0) [EType IJob; EZTyped; EZHandle; EMain; EType (IBg 0); EType IJob; ECHandle; EMain].
Example scenario_c_result : option_map (fun v => fst (fst (fst v))) (view (qrun (boot 0) scenario_c))
  = Some [(BACKGROUND, PRun); (DEAD, PDoomed)].
Proof. vm_compute. reflexivity. Qed.

(* exit after the first scenario: the main process halts, and both jobs have been killed. *)
Definition scenario_exit : list ev :=
  scenario ++ [EType IExit] ++
  until 100 (match qrun (boot 0) (scenario ++ [EType IExit]) with Some w => w | None => boot 0 end).
Example scenario_exit_result : option_map (fun v => (map snd (fst (fst (fst v))), snd v))
  (view (qrun (boot 0) scenario_exit)) = Some ([PDoomed; PDoomed], Halted).
Proof. vm_compute. reflexivity. Qed.

(* ------------------------------------------------------------------ *)
(* What does not hold *)

(* With commands in the startup script, whose jobs nobody waits for, the prompt appears with
   two jobs in the foreground. *)
Theorem c35_startup_refuted : exists w,
  reach when_blocked (boot 2) w /\ stk w = [] /\ stat w = Running /\ ~ one_foreground w.
Proof.
  destruct (qrun (boot 2) (mains 6)) as [w|] eqn:E; [|vm_compute in E; discriminate].
  exists w. split; [eapply qrun_reach; [apply reach_start|exact E]|].
  vm_compute in E. inv E. repeat split; auto.
  intro H. unfold one_foreground, exists_job, state in H. simpl in H.
  specialize (H 0 1 ltac:(auto) ltac:(auto) eq_refl eq_refl). discriminate.
Qed.

(* Ctrl-C typed while bg resumes a job: between the test that the job is not dead, and the
   setting of its label, the handler finds the process ended and labels the job dead. Then
   the job is labelled as running in the background, and the shell dies of an AttributeError. *)
Definition race := drive (boot 0) [EType IJob; EZTyped; EZHandle; EMain] ++ [EType (IBg 0); EMain; EMain; EMain; EMain] .
Definition race2 := race ++ [EExit 0; ECHandle] ++ mains 6.
Theorem c35_race_refuted : exists w1 w2 w3,
  reach anytime (boot 0) w1 /\ step w1 EMain = Some w2 /\ step w2 EMain = Some w3 /\
  state w1 0 = DEAD /\ state w2 0 = BACKGROUND /\ stat w3 = Crashed.
Proof.
  destruct (run (boot 0) race2) as [w|] eqn:E; [|vm_compute in E; discriminate].
  assert (R : reach anytime (boot 0) w) by (eapply run_reach; [apply reach_start|exact E]).
  vm_compute in E. inv E. eexists. eexists. eexists. split; [exact R|].
  split; [reflexivity|]. split; [reflexivity|]. vm_compute. auto.
Qed.
