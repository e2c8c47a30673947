(** C80: the variables that jobs change reach the shell, once, whatever the order of events. *)
From Verif.Sys Require Export ListenerHist.
Local Open Scope list_scope.

(** Jobs are handled at most once, and only when they have sent all; what is assigned on their behalf is their changes, job by job, the last
    one perhaps in part *)
Theorem c80_once : forall settable e tr s, runs settable e tr s ->
  NoDup (handled tr) /\ (forall j, In (Handled j) tr -> In (Written j) tr) /\
  (forall j r r', In (Forked j r) tr -> In (Forked j r') tr -> r = r') /\
  exists applied part, map fst applied = handled tr /\ (forall j c, In (j, c) applied -> In (Forked j (Some (Good c))) tr) /\
    assigned tr = concat (map snd applied) ++ part /\
    (part = [] \/ exists j c, ~ In (Handled j) tr /\ In (Forked j (Some (Good (part ++ c)))) tr).
Proof.
  intros settable e tr s R. destruct (runs_told _ _ _ _ R) as (G & T & J & L). split; [apply (l_nodup _ _ L) | ]. split; [intros j I; apply (l_handled _ _ L j I) | ].
  split; [apply (t_one _ _ J) | ]. destruct (l_sets _ _ L) as (done & part & A & B & C & D). exists done, part. split; [exact A | ]. split; [exact B | ]. split; [exact C | ].
  destruct (lst s) eqn:E; try (now left).
  - right. exists j, c. split; [ | exact D]. apply (l_apply _ _ L j c todo gone E).
  - destruct D as [D | (j & c & D & F)]; [now left | right]. exists j, c. rewrite <- in_handled. auto.
Qed.

(** If the listener is alive and has no pipe left to listen to, all that jobs have sent has been applied *)
Theorem c80_settled : forall settable e tr s j, runs settable e tr s -> lst s <> Dead -> listeners s = [] -> In (Written j) tr -> In (Handled j) tr.
Proof.
  intros settable e tr s j R ND LS I. destruct (runs_told _ _ _ _ R) as (G & T & J & L).
  destruct (l_written _ _ L j I) as [(m & P) | [(c & t & g & P) | [P | P]]]; [ | | exact P | contradiction].
  - assert (LT : j < next s) by (destruct (le_lt_dec (next s) j) as [Q | Q]; [ | exact Q]; destruct (g_new _ G j Q) as [E _]; now rewrite E in P).
    assert (AP : appended (main s) j).
    { intros f. split; intros E; (destruct (g_start _ G j) as [_ F]; [now rewrite E | ]); now rewrite F in P. }
    destruct (g_left _ G j LT AP) as [K | [V _]]; [rewrite LS in K; destruct K | congruence].
  - exfalso. assert (K : In j (listeners s)) by (apply (g_known _ G); rewrite P; cbn; auto). rewrite LS in K. destruct K.
Qed.

(** No deadlock: the listener can go on, or the main thread has the lock and can go on, or the listener is waiting for the rest of a message *)
Theorem c80_no_deadlock : forall settable e tr s, runs settable e tr s -> lst s <> Dead -> lst s <> Stopped ->
  (exists ev s', step settable s ListenerThread ev s') \/
  (lock s = Some MainThread /\ exists ev s', step settable s MainThread ev s') \/
  (exists j todo gone m, lst s = Each (j :: todo) gone /\ jobs s j = mkj (Busy (Some m)) (Part m)).
Proof.
  intros settable e tr s R ND NS. destruct (runs_told _ _ _ _ R) as (G & T & J & L).
  assert (LK : (lst s = Asleep \/ exists g, lst s = Top g) -> lock s = None \/ lock s = Some MainThread).
  { intros H. destruct (lock s) as [[ | | j] | ] eqn:E; auto; [ | destruct (g_lock _ G j E)]. apply (g_lst _ G) in E.
    destruct H as [H | (g & H)]; rewrite H in E; destruct E as [(a & E) | [E | [(b & E) | E]]]; discriminate. }
  assert (MS : lock s = Some MainThread -> exists ev s', step settable s MainThread ev s').
  { intros E. apply (g_main _ G) in E. destruct E as (j & f & [E | E]); do 2 eexists; apply s_main; [now apply (m_append s j f) | now apply (m_release s j f)]. }
  assert (DO : forall ev s', listener_step settable s ev s' -> exists ev s', step settable s ListenerThread ev s') by (intros ev s' H; exists ev, s'; now constructor).
  destruct (lst s) as [gone | gone | | | seen | seen | todo gone | j c todo gone | | ] eqn:E; try contradiction.
  - destruct LK as [K | K]; [right; eauto | left; eapply DO, l_acquire; eauto | right; left; auto].
  - left. eapply DO, l_prune; eauto.
  - left. destruct (stop s) eqn:S; [eapply DO, l_stop; eauto | ]. destruct (listeners s) eqn:LS; [eapply DO, l_sleep; eauto | eapply DO, l_look; eauto]. now rewrite LS.
  - destruct LK as [K | K]; [now left | left; eapply DO, l_wake; eauto | right; left; auto].
  - left. eapply DO, l_unlock; eauto.
  - left. eapply DO, (l_poll settable s seen (filter (fun j => ready (jobs s j)) seen)); [exact E | intros j; now rewrite filter_In | ].
    apply NoDup_filter. pose proof (g_todo _ G) as Q. rewrite E in Q. cbn in Q. now rewrite app_nil_r in Q.
  - destruct todo as [ | j todo]; [left; eapply DO, l_again; eauto | ]. specialize (T j). destruct (jobs s j) as [p c] eqn:F. cbn in T.
    destruct c as [ | m | | m].
    + assert (K : ready (jobs s j) = true) by (apply (runs_readies _ _ _ _ R); rewrite E; now left). rewrite F in K. cbn in K.
      left. eapply DO, l_eof; [exact E | now rewrite F | rewrite F; cbn; destruct p; try discriminate; auto].
    + destruct p; try contradiction. subst r. right. right. exists j, todo, gone, m. auto.
    + left. eapply DO, l_torn; eauto. now rewrite F.
    + left. destruct m as [c | ]; [eapply DO, l_good; eauto; now rewrite F | eapply DO, l_unloadable; eauto; now rewrite F].
  - left. destruct c as [ | [v x] c]; [eapply DO, Listener.l_handled; eauto | ]. destruct (settable v x) eqn:S; [eapply DO, l_set; eauto | eapply DO, l_set_fails; eauto].
Qed.

(** ** Every message is delivered, if the listener goes on *)
Section Forever.
Variables (settable : settable_t) (e : vars) (at_ : nat -> state) (ev : nat -> event).
Hypothesis F : forever settable e at_ ev.

Lemma prefix_runs : forall n, exists tr, runs settable e tr (at_ n).
Proof.
  induction n as [ | n (tr & R)]; [exists []; rewrite (fo_start _ _ _ _ F); constructor | ].
  destruct (fo_step _ _ _ _ F n) as [(w & ST) | [E _]]; [exists (tr ++ [ev n]); econstructor; eauto | exists tr; now rewrite E].
Qed.

Lemma next_step : forall (P : state -> Prop) n,
  (forall s w x s' tr, runs settable e tr s -> step settable s w x s' -> w <> ListenerThread -> P s -> P s') -> P (at_ n) ->
  exists m, n <= m /\ P (at_ m) /\ listener_step settable (at_ m) (ev m) (at_ (S m)).
Proof.
  intros P n H. destruct (fo_fair _ _ _ _ F n) as (m & L & ST). replace m with (n + (m - n)) in ST by lia. revert ST. generalize (m - n). clear m L.
  intros d. revert n. induction d as [ | d IH]; intros n ST PN.
  - replace (n + 0) with n in ST by lia. exists n. inversion ST; subst. auto.
  - destruct (fo_step _ _ _ _ F n) as [(w & SN) | [E _]].
    + assert (D : w = ListenerThread \/ w <> ListenerThread) by (destruct w; auto; right; discriminate). destruct D as [-> | D].
      * exists n. inversion SN; subst. auto.
      * destruct (prefix_runs n) as (tr & R). destruct (IH (S n)) as (m & L & Q); [now replace (S n + d) with (n + S d) by lia | eauto | ]. exists m. split; [lia | exact Q].
    + destruct (IH (S n)) as (m & L & Q); [now replace (S n + d) with (n + S d) by lia | now rewrite E | ]. exists m. split; [lia | exact Q].
Qed.

Lemma lst_kept : forall s w x s', step settable s w x s' -> w <> ListenerThread -> lst s' = lst s.
Proof. intros s w x s' ST N. destruct ST as [s x s' ST | s j x s' ST | s x s' ST]; [destruct ST | destruct ST | now destruct N]; reflexivity. Qed.
Lemma whole_kept : forall tr s w x s' j m, runs settable e tr s -> step settable s w x s' -> w <> ListenerThread -> pipe (jobs s j) = Whole m -> pipe (jobs s' j) = Whole m.
Proof.
  intros tr s w x s' j m R ST N P. destruct (runs_told _ _ _ _ R) as (G & T & _ & _). pose proof (T j) as TJ. rewrite P in TJ.
  assert (NF : ph (jobs s j) <> Fresh) by (intros E; rewrite E in TJ; exact TJ).
  assert (NB : forall r, ph (jobs s j) <> Busy r) by (intros r E; rewrite E in TJ; exact TJ).
  destruct ST as [s x s' ST | s i x s' ST | s x s' ST]; [destruct ST | destruct ST | now destruct N]; cbn; try exact P.
  - jcase j (next s); [ | exact P]. destruct (g_new _ G (next s) (le_n _)) as [E _]. now rewrite E in P.
  - jcase j j0; [ | exact P]. destruct (g_start _ G j0) as [_ E]; [now rewrite H | ]. now rewrite E in P.
  - jcase j j0; [now apply killed_keeps | exact P].
  - now apply killed_keeps.
  - jcase j i; [ | exact P]. rewrite H in P. discriminate.
  - jcase j i; [ | exact P]. rewrite H in P. discriminate.
  - jcase j i; [ | exact P]. rewrite H in P. discriminate.
  - jcase j i; [ | exact P]. rewrite H in P. exact P.
  - jcase j i; [ | exact P]. rewrite H in P. exact P.
  - jcase j i; [now apply killed_keeps | exact P].
Qed.

Definition found (j n : nat) : Prop := exists m, n <= m /\ ev m = Handled j.
Lemma found_later : forall j n m, n <= m -> found j m -> found j n.
Proof. intros j n m L (k & K & E). exists k. split; [lia | exact E]. Qed.

Lemma over : forall n l, (l = Dead \/ l = Stopped) -> lst (at_ n) = l -> False.
Proof.
  intros n l D E. destruct (next_step (fun s => lst s = l) n) as (m & _ & P & ST); [ | exact E | ].
  - intros s w x s' tr R ST N Q. rewrite (lst_kept _ _ _ _ ST N). exact Q.
  - inversion ST; subst; destruct D; congruence.
Qed.

(** The next step of the listener, with the message still in its pipe *)
Lemma next_with : forall j m n l, lst (at_ n) = l -> pipe (jobs (at_ n) j) = Whole m ->
  exists k, n <= k /\ lst (at_ k) = l /\ pipe (jobs (at_ k) j) = Whole m /\ listener_step settable (at_ k) (ev k) (at_ (S k)).
Proof.
  intros j m n l E P. destruct (next_step (fun s => lst s = l /\ pipe (jobs s j) = Whole m) n) as (k & L & [A B] & ST); [ | auto | exists k; auto].
  intros s w x s' tr R ST N [Q V]. rewrite (lst_kept _ _ _ _ ST N). split; [exact Q | eapply whole_kept; eauto].
Qed.

Lemma applying : forall j c n t g, lst (at_ n) = Apply j c t g -> found j n.
Proof.
  intros j. induction c as [ | [v x] c IH]; intros n t g E;
    (destruct (next_step (fun s => lst s = lst (at_ n)) n) as (m & L & P & ST);
      [intros s w y s' tr R ST N Q; rewrite (lst_kept _ _ _ _ ST N); exact Q | reflexivity | ]); rewrite E in P.
  - inversion ST as [s0 g0 E0 | s0 g0 E0 | s0 E0 | s0 E0 | s0 E0 | s0 E0 | s0 s1 E0 | s0 s1 t0 E0 | s0 j0 c0 t0 g0 E0 | s0 j0 t0 g0 E0 | s0 j0 t0 g0 E0 | s0 j0 t0 g0 E0
      | s0 j0 v0 x0 c0 t0 g0 E0 | s0 j0 v0 x0 c0 t0 g0 E0 | s0 j0 t0 g0 E0 EV | s0 g0 E0]; rewrite P in E0; try discriminate E0.
    injection E0 as <- <- <-. exists m. split; [exact L | congruence].
  - apply (found_later j n (S m)); [lia | ].
    inversion ST as [s0 g0 E0 | s0 g0 E0 | s0 E0 | s0 E0 | s0 E0 | s0 E0 | s0 s1 E0 | s0 s1 t0 E0 | s0 j0 c0 t0 g0 E0 | s0 j0 t0 g0 E0 | s0 j0 t0 g0 E0 | s0 j0 t0 g0 E0
      | s0 j0 v0 x0 c0 t0 g0 E0 | s0 j0 v0 x0 c0 t0 g0 E0 | s0 j0 t0 g0 E0 EV | s0 g0 E0]; rewrite P in E0; try discriminate E0.
    + injection E0 as <- <- <- <- <- <-. apply (IH (S m) t g). match goal with H : _ = at_ (S m) |- _ => now rewrite <- H end.
    + exfalso. apply (over (S m) Dead); [now left | ]. match goal with H : _ = at_ (S m) |- _ => now rewrite <- H end.
Qed.

Section Message.
Variables (j : nat) (m : message).
Definition here (n : nat) : Prop := pipe (jobs (at_ n) j) = Whole m.

Ltac inv_step ST := inversion ST as [s0 g0 E0 | s0 g0 E0 | s0 E0 | s0 E0 SF0 LS0 | s0 E0 | s0 E0 | s0 s1 E0 | s0 s1 t0 E0 R0 | s0 j0 c0 t0 g0 E0 P0 | s0 j0 t0 g0 E0 P0
      | s0 j0 t0 g0 E0 P0 | s0 j0 t0 g0 E0 P0 | s0 j0 v0 x0 c0 t0 g0 E0 | s0 j0 v0 x0 c0 t0 g0 E0 | s0 j0 t0 g0 E0 EV | s0 g0 E0].
Ltac dead k := exfalso; apply (over (S k) Dead); [now left | ]; match goal with H : _ = at_ (S k) |- _ => now rewrite <- H end.

(** Through the changes of another job *)
Lemma apply_other : forall i t g, (forall n, lst (at_ n) = Each t g -> here n -> found j n) -> forall c n, lst (at_ n) = Apply i c t g -> here n -> found j n.
Proof.
  intros i t g HE. induction c as [ | [v x] c IH]; intros n E P; destruct (next_with j m n _ E P) as (k & L & A & B & ST); apply (found_later j n (S k)); try lia;
    inv_step ST; rewrite A in E0; try discriminate E0.
  - injection E0 as <- <- <-. apply HE; [ | unfold here]; match goal with H : _ = at_ (S k) |- _ => rewrite <- H end; auto.
  - injection E0 as <- <- <- <- <- <-. apply IH; [ | unfold here]; match goal with H : _ = at_ (S k) |- _ => rewrite <- H end; auto.
  - dead k.
Qed.

(** The pipe is among those to be read, or else the next round finds it *)
Lemma each_found : forall t n g, lst (at_ n) = Each t g -> here n -> (In j t \/ forall k g, n <= k -> lst (at_ k) = Top g -> here k -> found j k) -> found j n.
Proof.
  induction t as [ | i t IH]; intros n g E P H.
  - destruct H as [[] | H]. destruct (next_with j m n _ E P) as (k & L & A & B & ST). apply (found_later j n (S k)); [lia | ].
    inv_step ST; rewrite A in E0; try discriminate E0. injection E0 as <-. eapply H; [lia | | unfold here]; match goal with H : _ = at_ (S k) |- _ => rewrite <- H end; auto; reflexivity.
  - destruct (next_with j m n _ E P) as (k & L & A & B & ST). apply (found_later j n (S k)); [lia | ].
    assert (H' : i <> j -> forall n', S k <= n' -> In j t \/ forall k g, n' <= k -> lst (at_ k) = Top g -> here k -> found j k).
    { intros N n' L'. destruct H as [[-> | I] | H]; [now destruct N | now left | right]. intros q g' LQ. apply H. lia. }
    inv_step ST; rewrite A in E0; try discriminate E0; injection E0 as <- <- <-.
    + destruct (Nat.eq_dec i j) as [-> | N].
      * apply (applying j c0 (S k) t g). match goal with H : _ = at_ (S k) |- _ => now rewrite <- H end.
      * assert (HE : forall d n', n' = S k + d -> lst (at_ n') = Each t g -> here n' -> found j n').
        { intros d n' -> E' P'. apply (IH _ g); auto. apply H'; [exact N | lia]. }
        assert (AP : forall c n', S k <= n' -> lst (at_ n') = Apply i c t g -> here n' -> found j n').
        { clear - HE F. induction c as [ | [v x] c IHc]; intros n' L' E' P'; destruct (next_with j m n' _ E' P') as (q & LQ & A & B & ST); apply (found_later j n' (S q)); try lia;
            inv_step ST; rewrite A in E0; try discriminate E0.
          - injection E0 as <- <- <-. apply (HE (S q - S k)); [lia | | unfold here]; match goal with H : _ = at_ (S q) |- _ => rewrite <- H end; auto.
          - injection E0 as <- <- <- <- <- <-. apply IHc; [lia | | unfold here]; match goal with H : _ = at_ (S q) |- _ => rewrite <- H end; auto.
          - dead q. }
        apply (AP c0); [lia | | unfold here]; match goal with H : _ = at_ (S k) |- _ => rewrite <- H end; cbn; [reflexivity | ]. rewrite set_job_other by auto. exact B.
    + dead k.
    + dead k.
    + assert (N : i <> j) by congruence. eapply (IH (S k)); [ | unfold here | now apply H']; match goal with H : _ = at_ (S k) |- _ => rewrite <- H end; auto; reflexivity.
Qed.

Lemma poll_found : forall n seen, lst (at_ n) = Poll seen -> here n -> (In j seen \/ forall k g, n <= k -> lst (at_ k) = Top g -> here k -> found j k) -> found j n.
Proof.
  intros n seen E P H. destruct (next_with j m n _ E P) as (k & L & A & B & ST). apply (found_later j n (S k)); [lia | ].
  inv_step ST; rewrite A in E0; try discriminate E0. injection E0 as <-.
  apply (each_found t0 (S k) []); [ | unfold here | ]; try (match goal with H : _ = at_ (S k) |- _ => rewrite <- H end; auto; reflexivity).
  destruct H as [I | H]; [left | right; intros q g LQ; apply H; lia]. apply R0. split; [exact I | ]. unfold ready. now rewrite B.
Qed.
Lemma unlock_found : forall n seen, lst (at_ n) = Unlock seen -> here n -> (In j seen \/ forall k g, n <= k -> lst (at_ k) = Top g -> here k -> found j k) -> found j n.
Proof.
  intros n seen E P H. destruct (next_with j m n _ E P) as (k & L & A & B & ST). apply (found_later j n (S k)); [lia | ].
  inv_step ST; rewrite A in E0; try discriminate E0. injection E0 as <-.
  apply (poll_found (S k) seen); [ | unfold here | ]; try (match goal with H : _ = at_ (S k) |- _ => rewrite <- H end; auto; reflexivity).
  destruct H as [I | H]; [now left | right; intros q g LQ; apply H; lia].
Qed.

Lemma listed : forall n, here n -> In j (listeners (at_ n)).
Proof.
  intros n P. unfold here in P. destruct (prefix_runs n) as (tr & R). destruct (runs_told _ _ _ _ R) as (G & _).
  assert (LT : j < next (at_ n)) by (destruct (le_lt_dec (next (at_ n)) j) as [Q | Q]; [ | exact Q]; destruct (g_new _ G j Q) as [E _]; now rewrite E in P).
  assert (AP : appended (main (at_ n)) j).
  { intros f. split; intros E; (destruct (g_start _ G j) as [_ Q]; [now rewrite E | ]); now rewrite Q in P. }
  destruct (g_left _ G j LT AP) as [K | [V _]]; [exact K | congruence].
Qed.

Lemma look_found : forall n, lst (at_ n) = Look -> here n -> found j n.
Proof.
  intros n E P. destruct (next_with j m n _ E P) as (k & L & A & B & ST). apply (found_later j n (S k)); [lia | ].
  inv_step ST; rewrite A in E0; try discriminate E0.
  - exfalso. apply (over (S k) Stopped); [now right | ]. match goal with H : _ = at_ (S k) |- _ => now rewrite <- H end.
  - exfalso. pose proof (listed k B) as I. rewrite LS0 in I. destruct I.
  - apply (unlock_found (S k) (listeners (at_ k))); [ | unfold here | left; now apply listed]; match goal with H : _ = at_ (S k) |- _ => rewrite <- H end; auto.
Qed.
Lemma prune_found : forall n g, lst (at_ n) = Prune g -> here n -> found j n.
Proof.
  intros n g E P. destruct (next_with j m n _ E P) as (k & L & A & B & ST). apply (found_later j n (S k)); [lia | ].
  inv_step ST; rewrite A in E0; try discriminate E0.
  apply look_found; [ | unfold here]; match goal with H : _ = at_ (S k) |- _ => rewrite <- H end; auto.
Qed.
Lemma top_found : forall n g, lst (at_ n) = Top g -> here n -> found j n.
Proof.
  intros n g E P. destruct (next_with j m n _ E P) as (k & L & A & B & ST). apply (found_later j n (S k)); [lia | ].
  inv_step ST; rewrite A in E0; try discriminate E0. injection E0 as <-.
  apply (prune_found (S k) g); [ | unfold here]; match goal with H : _ = at_ (S k) |- _ => rewrite <- H end; auto.
Qed.

Lemma message_found : forall n, here n -> found j n.
Proof.
  intros n P. assert (TOP : forall n', forall k g, n' <= k -> lst (at_ k) = Top g -> here k -> found j k) by (intros n' k g _; apply top_found).
  destruct (lst (at_ n)) as [gone | gone | | | seen | seen | todo gone | i c todo gone | | ] eqn:E.
  - eapply top_found; eauto.
  - eapply prune_found; eauto.
  - now apply look_found.
  - destruct (next_with j m n _ E P) as (k & L & A & B & ST). apply (found_later j n (S k)); [lia | ]. inv_step ST; rewrite A in E0; try discriminate E0.
    apply look_found; [ | unfold here]; match goal with H : _ = at_ (S k) |- _ => rewrite <- H end; auto.
  - eapply unlock_found; eauto.
  - eapply poll_found; eauto.
  - eapply each_found; eauto.
  - eapply apply_other; [ | exact E | exact P]. intros n' E' P'. eapply each_found; eauto.
  - exfalso. exact (over n Stopped (or_intror eq_refl) E).
  - exfalso. exact (over n Dead (or_introl eq_refl) E).
Qed.
End Message.
End Forever.

(** What a job has sent is applied, in every run in which the listener goes on *)
Theorem c80_delivered : forall settable e at_ ev j n, forever settable e at_ ev -> ev n = Written j -> exists m, n < m /\ ev m = Handled j.
Proof.
  intros settable e at_ ev j n F E. destruct (fo_step _ _ _ _ F n) as [(w & ST) | [_ Q]]; [ | congruence]. rewrite E in ST.
  assert (W : exists m, pipe (jobs (at_ (S n)) j) = Whole m).
  { inversion ST as [s0 e0 s1 S | s0 i e0 s1 S | s0 e0 s1 S]; subst; inversion S; subst. cbn. rewrite set_job_same. cbn. eauto. }
  destruct W as (m & W). destruct (message_found settable e at_ ev F j m (S n) W) as (k & L & K). exists k. split; [lia | exact K].
Qed.
