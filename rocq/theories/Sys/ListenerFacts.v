(** Invariants of the listener. *)
From Verif.Sys Require Export ListenerSpec.
Local Open Scope list_scope.

(** ** Lists *)
Lemma remove_one_in : forall j i l, In i (remove_one j l) -> In i l.
Proof. intros j i. induction l as [ | k l IH]; cbn; [tauto | ]. destruct (Nat.eqb k j); cbn; tauto. Qed.
Lemma remove_one_other : forall j i l, i <> j -> In i l -> In i (remove_one j l).
Proof.
  intros j i l N. induction l as [ | k l IH]; cbn; [tauto | ]. destruct (Nat.eqb_spec k j) as [-> | M]; cbn; [ | tauto].
  intros [-> | I]; [now destruct N | exact I].
Qed.
Lemma remove_one_nodup : forall j l, NoDup l -> NoDup (remove_one j l) /\ ~ In j (remove_one j l).
Proof.
  intros j l. induction 1 as [ | k l NI ND IH]; cbn; [split; [constructor | tauto] | ]. destruct (Nat.eqb_spec k j) as [-> | M]; [auto | ].
  destruct IH as [A B]. split; [constructor; auto; intros I; apply NI; eapply remove_one_in; eauto | ]. cbn. intros [E | I]; auto.
Qed.
Lemma remove_each_spec : forall gone l, NoDup l -> NoDup (remove_each gone l) /\ (forall i, In i (remove_each gone l) <-> In i l /\ ~ In i gone).
Proof.
  unfold remove_each. induction gone as [ | j gone IH]; intros l ND; cbn; [split; [exact ND | tauto] | ].
  destruct (remove_one_nodup j l ND) as [ND' NJ]. destruct (IH _ ND') as [A B]. split; [exact A | ]. intros i. rewrite B. split.
  - intros [I NG]. split; [eapply remove_one_in; eauto | ]. intros [-> | G]; auto.
  - intros [I N]. split; [ | tauto]. apply remove_one_other; auto.
Qed.

Lemma snoc_nodup : forall (l : list nat) j, NoDup l -> ~ In j l -> NoDup (l ++ [j]).
Proof.
  intros l j. induction 1 as [ | k l NI ND IH]; cbn; intros NJ; [constructor; [tauto | constructor] | ]. constructor; [ | apply IH; tauto].
  rewrite in_app_iff. cbn. intuition.
Qed.
Lemma set_job_same : forall js j x, set_job js j x j = x.
Proof. intros. unfold set_job. now rewrite Nat.eqb_refl. Qed.
Lemma set_job_other : forall js j x i, i <> j -> set_job js j x i = js i.
Proof. intros. unfold set_job. destruct (Nat.eqb_spec i j); [contradiction | reflexivity]. Qed.

Ltac jcase i j := unfold set_job; destruct (Nat.eqb_spec i j) as [-> | ]; cbn.

(** ** The pipes that the listener knows *)
Definition drained (x : job) : Prop := pipe x = Void /\ (ph x = Closed \/ ph x = Gone).
Definition lists (l : lpc) : list nat * list nat :=
  match l with
  | Top g | Prune g => ([], g)
  | Unlock s | Poll s => (s, [])
  | Each t g => (t, g)
  | Apply j _ t g => (j :: t, g)
  | _ => ([], [])
  end.
Definition starting (m : mpc) : option nat :=
  match m with Acquire j _ | Append j _ | Release j _ | Start j _ => Some j | _ => None end.
Definition appended (m : mpc) (j : nat) : Prop := forall f, m <> Acquire j f /\ m <> Append j f.

Record good (s : state) : Prop := {
  g_new : forall j, next s <= j -> jobs s j = mkj Gone Void /\ ~ In j (listeners s);
  g_start : forall j, starting (main s) = Some j -> S j = next s /\ jobs s j = mkj Fresh Void;
  g_before : forall j f, main s = Acquire j f \/ main s = Append j f -> ~ In j (listeners s);
  g_fresh : forall j, ph (jobs s j) = Fresh -> starting (main s) = Some j;
  g_nodup : NoDup (listeners s);
  g_todo : NoDup (fst (lists (lst s)) ++ snd (lists (lst s)));
  g_known : forall j, In j (fst (lists (lst s))) \/ In j (snd (lists (lst s))) -> In j (listeners s);
  g_gone : forall j, In j (snd (lists (lst s))) -> drained (jobs s j);
  g_left : forall j, j < next s -> appended (main s) j -> In j (listeners s) \/ drained (jobs s j);
  g_main : lock s = Some MainThread <-> (exists j f, main s = Append j f \/ main s = Release j f);
  g_lst : lock s = Some ListenerThread <-> ((exists g, lst s = Prune g) \/ lst s = Look \/ (exists l, lst s = Unlock l) \/ lst s = Stopped);
  g_lock : forall j, lock s <> Some (Process j);
  g_apply : forall j c t g, lst s = Apply j c t g -> pipe (jobs s j) = Void /\ ph (jobs s j) <> Fresh /\ (forall r, ph (jobs s j) <> Busy r) }.

Lemma start_good : forall e, good (start e).
Proof.
  intros e. constructor; cbn; try discriminate; try tauto.
  - constructor.
  - constructor.
  - intros j H. lia.
  - split; [discriminate | ]. intros (j & f & [H | H]); discriminate.
  - split; [discriminate | ]. intros [(g & H) | [H | [(l & H) | H]]]; discriminate.
Qed.

Lemma killed_drained : forall x, drained x -> drained (killed x).
Proof. intros [p c] [A B]. cbn in *. subst c. unfold killed. cbn. destruct p; cbn; unfold drained; cbn; auto; destruct B; discriminate. Qed.
Lemma killed_fresh : forall x, ph (killed x) = Fresh -> x = killed x /\ ph x = Fresh.
Proof. intros [p c]. unfold killed. cbn. destruct p; cbn; intros; try discriminate; auto. Qed.
Lemma killed_void : forall x, pipe x = Void -> pipe (killed x) = Void.
Proof. intros [p c]. unfold killed. cbn. destruct p; cbn; intros H; rewrite ?H; auto. Qed.
Lemma killed_busy : forall x, ph x <> Fresh -> (forall r, ph x <> Busy r) -> ph (killed x) <> Fresh /\ (forall r, ph (killed x) <> Busy r).
Proof. intros [p c] A B. unfold killed. cbn in *. destruct p; cbn; split; try discriminate; auto. Qed.

Lemma main_good : forall s ev s', main_step s ev s' -> good s -> good s'.
Proof.
  intros s ev s' ST G. destruct G as [GN GS GB GF ND GT GK GG GL GM GLS GLK GA].
  destruct ST as [s f M | s v x c M | s M | s f M | s j f M L | s j f M | s j f M | s j f M | s j M P | s j M | s j M | s M];
    rewrite M in GS, GB, GF, GL, GM; constructor; cbn; auto; try discriminate; try tauto.
  all: try solve [intros i f0 [H | H]; discriminate].
  all: try solve [intros i H; specialize (GF i H); discriminate].
  all: try solve [intros i LT AP; apply GL; auto; intros f0; split; discriminate].
  all: try solve [rewrite GM; split; intros (a & b & [H | H]); discriminate].
  (* m_job *)
  - intros i H. jcase i (next s); [lia | ]. apply GN. lia.
  - intros i H. injection H as <-. rewrite set_job_same. auto.
  - intros i f0 [H | H]; [injection H as <- _ | discriminate]. apply GN. lia.
  - intros i. jcase i (next s); [reflexivity | ]. intros H. specialize (GF i H). discriminate.
  - intros i I. jcase i (next s); [ | now apply GG]. assert (In (next s) (listeners s)) as K by (apply GK; tauto). apply GN in K; [destruct K | lia].
  - intros i LT AP. jcase i (next s); [destruct (AP f) as [Q _]; now destruct Q | ]. apply GL; [lia | ]. intros f0; split; discriminate.
  - intros j c t g H. jcase j (next s); [ | eapply GA; eauto].
    assert (In (next s) (listeners s)) as K by (apply GK; rewrite H; cbn; tauto). apply GN in K; [destruct K | lia].
  (* m_acquire *)
  - intros i f0 [H | H]; [discriminate | ]. injection H as -> _. apply (GB i f). now left.
  - intros i LT AP. apply GL; auto. intros f0; split; [ | discriminate]. intros H. injection H as -> ->. destruct (AP f0) as [_ Q]. now destruct Q.
  - split; [ | reflexivity]. intros _. eauto.
  - split; [discriminate | ]. intros H. apply GLS in H. congruence.
  (* m_append *)
  - intros i H. destruct (GN i H) as [A B]. split; [exact A | ]. rewrite in_app_iff. intros [I | [<- | []]]; [tauto | ]. destruct (GS j eq_refl). lia.
  - apply snoc_nodup; [exact ND | ].
    apply (GB j f). now right.
  - intros i I. apply in_or_app. left. auto.
  - intros i LT AP. rewrite in_app_iff. destruct (Nat.eq_dec i j) as [-> | N]; [left; right; now left | ]. destruct (GL i LT) as [I | D]; [ | tauto | tauto].
    intros f0; split; [discriminate | ]. intros H. injection H as -> _. now destruct N.
  - rewrite GM. split; intros _; eauto.
  (* m_release *)
  - split; [discriminate | ]. intros (a & b & [H | H]); discriminate.
  - assert (lock s = Some MainThread) as K by (apply GM; eauto). split; [discriminate | ]. intros H. apply GLS in H. congruence.
  (* m_start *)
  - intros i H. destruct (GS j eq_refl). jcase i j; [lia | auto].
  - intros i. jcase i j; [discriminate | ]. intros H. specialize (GF i H). cbn in GF. congruence.
  - intros i I. jcase i j; [ | now apply GG]. destruct (GG j I) as [_ [H | H]]; destruct (GS j eq_refl) as [_ E]; rewrite E in H; discriminate.
  - intros i LT AP. destruct (GL i LT) as [I | D]; [intros f0; split; discriminate | tauto | ]. jcase i j; [ | tauto].
    destruct D as [_ [H | H]]; destruct (GS j eq_refl) as [_ E]; rewrite E in H; discriminate.
  - intros i c t g H. destruct (GA i c t g H) as (A & B & C). jcase i j; [ | auto]. destruct (GS j eq_refl) as [_ E]. rewrite E in B. now destruct B.
  (* ctrl-C *)
  - intros i H. jcase i j; [destruct (GN j H) as [E I]; rewrite E; auto | auto].
  - rewrite M. discriminate.
  - rewrite M. intros i f [H | H]; discriminate.
  - intros i. rewrite M. jcase i j; [intros H; apply killed_fresh in H | intros H]; [apply (GF j), H | apply (GF i H)].
  - intros i I. jcase i j; [apply killed_drained | ]; now apply GG.
  - rewrite M. intros i LT AP. destruct (GL i LT AP) as [I | D]; [tauto | right]. jcase i j; [now apply killed_drained | exact D].
  - rewrite M. exact GM.
  - intros i c t g H. destruct (GA i c t g H) as (A & B & C). jcase i j; [ | auto]. split; [now apply killed_void | ]. now apply killed_busy.
  (* exit *)
  - intros i H. destruct (GN i H) as [E I]. rewrite E. auto.
  - intros i H. apply killed_fresh in H. now apply GF.
  - intros i I. now apply killed_drained, GG.
  - intros i LT AP. destruct (GL i LT) as [I | D]; [intros f0; split; discriminate | tauto | right; now apply killed_drained].
  - intros i c t g H. destruct (GA i c t g H) as (A & B & C). split; [now apply killed_void | ]. now apply killed_busy.
Qed.

Lemma job_good : forall j s ev s', job_step j s ev s' -> good s -> good s'.
Proof.
  intros j s ev s' ST G.
  assert (H : exists x, s' = upd_job s j x /\ (x = jobs s j \/ (ph x <> Fresh /\ ph (jobs s j) <> Fresh /\ (drained (jobs s j) -> drained x) /\ j < next s /\
    ((pipe (jobs s j) = Void -> (forall r, ph (jobs s j) <> Busy r) -> pipe x = Void /\ forall r, ph x <> Busy r))))).
  { assert (LT : jobs s j <> mkj Gone Void -> j < next s).
    { intros N. destruct (le_lt_dec (next s) j) as [L | L]; [ | exact L]. destruct (g_new _ G j L) as [E _]. now rewrite E in N. }
    destruct ST as [s m E | s m E | s E | s p E | s p E | s]; eexists; split; try reflexivity.
    6: { destruct (jobs s j) as [p c] eqn:E. destruct p; [left; reflexivity | right | right | right | left; reflexivity]; unfold killed; cbn;
         (split; [discriminate | ]); (split; [discriminate | ]); (split; [ | split; [apply LT; discriminate | ]]);
         [intros [_ [H | H]]; discriminate | intros -> _ | intros [_ [H | H]]; discriminate | intros -> _ | intros [H _]; cbn in H; subst c; now split; [ | right] | intros -> _];
         split; auto; discriminate. }
    all: right; rewrite E in *; cbn; (split; [discriminate | ]); (split; [discriminate | ]); (split; [ | split; [apply LT; discriminate | ]]).
    all: try (intros [A [B | B]]; discriminate).
    all: try (intros _ N; now destruct (N _ eq_refl)).
    all: try (intros -> _; split; [reflexivity | discriminate]).
    intros [A _]. cbn in A. subst p. split; [reflexivity | now right]. }
  clear ST. destruct H as (x & -> & H). destruct G as [GN GS GB GF ND GT GK GG GL GM GLS GLK GA]. constructor; cbn; auto.
  - intros i L. jcase i j; [ | auto]. destruct (GN j L) as [A B]. destruct H as [-> | (_ & _ & _ & H & _)]; [auto | lia].
  - intros i S. destruct (GS i S) as [A B]. split; [exact A | ]. jcase i j; [ | exact B]. destruct H as [-> | (_ & H & _)]; [exact B | ]. rewrite B in H. now destruct H.
  - intros i. jcase i j; [ | apply GF]. destruct H as [-> | (H & _)]; [apply GF | contradiction].
  - intros i I. jcase i j; [ | now apply GG]. destruct H as [-> | (_ & _ & H & _)]; [ | apply H]; now apply GG.
  - intros i L A. destruct (GL i L A) as [I | D]; [tauto | ]. right. jcase i j; [ | exact D]. destruct H as [-> | (_ & _ & H & _)]; auto.
  - intros i c t g E. destruct (GA i c t g E) as (A & B & C). jcase i j; [ | auto]. destruct H as [-> | (P & _ & _ & _ & H)]; [auto | ]. destruct (H A C). auto.
Qed.

Definition locking (l : lpc) : Prop := (exists g, l = Prune g) \/ l = Look \/ (exists x, l = Unlock x) \/ l = Stopped.
Lemma moves_good : forall s e k l, good s ->
  NoDup (fst (lists l) ++ snd (lists l)) ->
  (forall j, In j (fst (lists l)) \/ In j (snd (lists l)) -> In j (listeners s)) ->
  (forall j, In j (snd (lists l)) -> drained (jobs s j)) ->
  (k = lock s \/ (k = None /\ lock s = Some ListenerThread) \/ (k = Some ListenerThread /\ lock s = None)) ->
  (k = Some ListenerThread <-> locking l) ->
  (forall j c t g, l = Apply j c t g -> pipe (jobs s j) = Void /\ ph (jobs s j) <> Fresh /\ (forall r, ph (jobs s j) <> Busy r)) ->
  good (mks e k (listeners s) (jobs s) (next s) (main s) l (stop s) (saved s)).
Proof.
  intros s e k l G H1 H2 H3 H4 H5 H6. destruct G as [GN GS GB GF ND GT GK GG GL GM GLS GLK GA]. constructor; cbn; auto.
  - destruct H4 as [-> | [[-> K] | [-> K]]]; [exact GM | | ]; rewrite K in GM; rewrite <- GM; split; discriminate.
  - intros j. destruct H4 as [-> | [[-> K] | [-> K]]]; [apply GLK | discriminate | discriminate].
Qed.

(** The listener takes something out of a pipe that is not empty *)
Lemma taken_good : forall s j, good s -> pipe (jobs s j) <> Void -> good (upd_job s j (mkj (ph (jobs s j)) Void)).
Proof.
  intros s j G P. destruct G as [GN GS GB GF ND GT GK GG GL GM GLS GLK GA].
  assert (F : forall i, starting (main s) = Some i -> i <> j) by (intros i S ->; destruct (GS j S) as [_ E]; now rewrite E in P).
  constructor; cbn; auto.
  - intros i L. jcase i j; [ | auto]. destruct (GN j L) as [E I]. now rewrite E in P.
  - intros i S. destruct (GS i S) as [A B]. split; [exact A | ]. rewrite set_job_other; auto.
  - intros i. jcase i j; apply GF.
  - intros i I. jcase i j; [ | auto]. destruct (GG j I) as [V _]. contradiction.
  - intros i L A. destruct (GL i L A) as [I | D]; [tauto | ]. right. jcase i j; [ | auto]. destruct D as [V _]. contradiction.
  - intros i c t g E. destruct (GA i c t g E) as (A & B & C). jcase i j; auto.
Qed.

Lemma pruned_good : forall s gone, good s -> (forall j, In j gone -> drained (jobs s j)) -> lists (lst s) = ([], gone) \/ lists (lst s) = ([], []) ->
  lock s = Some ListenerThread ->
  good (mks (env s) (lock s) (remove_each gone (listeners s)) (jobs s) (next s) (main s) Look (stop s) (saved s)).
Proof.
  intros s gone G D L K. destruct G as [GN GS GB GF ND GT GK GG GL GM GLS GLK GA]. destruct (remove_each_spec gone (listeners s) ND) as [A B]. constructor; cbn; auto.
  - intros j H. destruct (GN j H) as [E I]. split; [exact E | ]. rewrite B. tauto.
  - intros j f H. rewrite B. specialize (GB j f H). tauto.
  - constructor.
  - intros j [[] | []].
  - intros j [].
  - intros j H AP. rewrite B. destruct (GL j H AP) as [I | I]; [ | tauto]. destruct (in_dec Nat.eq_dec j gone) as [J | J]; [right; auto | tauto].
  - rewrite K. split; auto.
  - discriminate.
Qed.

Lemma not_locking : forall l, match l with Prune _ | Look | Unlock _ | Stopped => False | _ => True end -> ~ locking l.
Proof. intros l H [(g & ->) | [-> | [(x & ->) | ->]]]; exact H. Qed.

(** A message that is complete was written by a job that is not busy any more *)
Definition tidy (s : state) : Prop :=
  forall j, match ph (jobs s j), pipe (jobs s j) with
            | Fresh, Void | Busy _, Void | Wrote, Void | Wrote, Whole _ | Closed, Void | Closed, Whole _ | Gone, Void | Gone, Whole _ | Gone, Torn => True
            | Busy r, Part m => r = Some m
            | _, _ => False
            end.
Lemma step_tidy : forall settable s w ev s', step settable s w ev s' -> tidy s -> tidy s'.
Proof.
  assert (KT : forall x, match ph x, pipe x with
            | Fresh, Void | Busy _, Void | Wrote, Void | Wrote, Whole _ | Closed, Void | Closed, Whole _ | Gone, Void | Gone, Whole _ | Gone, Torn => True
            | Busy r, Part m => r = Some m | _, _ => False end -> match ph (killed x), pipe (killed x) with
            | Fresh, Void | Busy _, Void | Wrote, Void | Wrote, Whole _ | Closed, Void | Closed, Whole _ | Gone, Void | Gone, Whole _ | Gone, Torn => True
            | Busy r, Part m => r = Some m | _, _ => False end).
  { intros [p c]. unfold killed. cbn. destruct p, c; cbn; auto. }
  intros settable s w ev s' ST T. destruct ST as [s ev s' ST | s j ev s' ST | s ev s' ST]; destruct ST; try exact T; intros i; generalize (T i); intros TI;
    cbn [jobs upd_main upd_lst upd_lock upd_env upd_job upd_listeners]; try (apply KT; exact TI); unfold set_job;
    match goal with |- context [Nat.eqb i ?j] => destruct (Nat.eqb_spec i j) as [-> | ]; [ | exact TI] end; try (apply KT; exact TI); cbn; auto;
    try (match goal with H : jobs _ _ = _ |- _ => rewrite H in TI; cbn in TI end; auto; destruct p; auto);
    destruct (ph (jobs s j)); auto; rewrite H0 in TI; auto.
Qed.

Lemma listener_good : forall settable s ev s', listener_step settable s ev s' -> tidy s -> good s -> good s'.
Proof.
  intros settable s ev s' ST T G.
  assert (UL : ~ locking (lst s) -> lock s <> Some ListenerThread) by (intros N L; apply N; now apply (g_lst _ G)).
  assert (LK : locking (lst s) -> lock s = Some ListenerThread) by (apply (g_lst _ G)).
  pose proof (g_todo _ G) as GT. pose proof (g_known _ G) as GK. pose proof (g_gone _ G) as GG. pose proof (g_apply _ G) as GA.
  destruct ST as [s gone E L | s gone E | s E P | s E P K | s E L | s E P K | s seen E | s seen todo E R N | s j c todo gone E P | s j todo gone E P
    | s j todo gone E P | s j todo gone E P C | s j v x c todo gone E P | s j v x c todo gone E P | s j todo gone E | s gone E];
    rewrite E in GT, GK, GG, GA, UL, LK; cbn [lists fst snd app] in GT, GK, GG.
  Local Ltac unl UL := try solve [split; [intros QL; exfalso; refine (UL _ QL); refine (not_locking _ _); exact I | intros QL; now apply not_locking in QL]].
  Local Ltac lkd := try solve [split; [intros _; unfold locking; eauto 7 | auto; unfold locking; eauto 7]].
  Local Ltac fin := cbn; try solve [auto | constructor | tauto | discriminate]; lkd.
  - refine (moves_good s _ (Some ListenerThread) (Prune gone) G _ _ _ _ _ _); fin.
  - apply (pruned_good s gone G); auto; [left; now rewrite E | apply LK; left; eauto].
  - refine (moves_good s _ (lock s) Stopped G _ _ _ _ _ _); fin. rewrite LK by (unfold locking; auto). lkd.
  - refine (moves_good s _ None Asleep G _ _ _ _ _ _); fin; [right; left; split; auto; apply LK; unfold locking; auto | ]. split; [discriminate | intros QL; now apply not_locking in QL].
  - refine (moves_good s _ (Some ListenerThread) Look G _ _ _ _ _ _); fin.
  - refine (moves_good s _ (lock s) (Unlock (listeners s)) G _ _ _ _ _ _); fin; [rewrite app_nil_r; apply (g_nodup _ G) | ]. rewrite LK by (unfold locking; auto). lkd.
  - refine (moves_good s _ None (Poll seen) G _ _ _ _ _ _); fin; [right; left; split; auto; apply LK; unfold locking; eauto | ]. split; [discriminate | intros QL; now apply not_locking in QL].
  - refine (moves_good s _ (lock s) (Each todo []) G _ _ _ _ _ _); fin; unl UL; [now rewrite app_nil_r | ]. intros j [J | []]; apply GK; left; apply R, J.
  - assert (W : ph (jobs s j) <> Fresh /\ forall r, ph (jobs s j) <> Busy r).
    { specialize (T j). rewrite P in T. destruct (ph (jobs s j)); try contradiction; split; discriminate. }
    refine (moves_good (upd_job s j (mkj (ph (jobs s j)) Void)) (env s) (lock s) (Apply j c todo gone) _ _ _ _ _ _ _); fin; unl UL.
    + apply taken_good; [exact G | now rewrite P].
    + intros i Q. jcase i j; [ | auto]. inversion GT as [ | ? ? NI _]. destruct NI. apply in_or_app. now right.
    + intros i c0 t g Q. injection Q as -> _ _ _. rewrite set_job_same. cbn. destruct W. auto.
  - refine (moves_good (upd_job s j (mkj (ph (jobs s j)) Void)) (env s) (lock s) Dead _ _ _ _ _ _ _); fin; unl UL.
    apply taken_good; [exact G | now rewrite P].
  - refine (moves_good s _ (lock s) Dead G _ _ _ _ _ _); fin; unl UL.
  - refine (moves_good s _ (lock s) (Each todo (gone ++ [j])) G _ _ _ _ _ _); fin; unl UL.
    + apply NoDup_cons_iff in GT. destruct GT as [A B]. rewrite app_assoc. now apply snoc_nodup.
    + intros i. rewrite in_app_iff. intros [Q | [Q | [-> | []]]]; apply GK; cbn; auto.
    + intros i. rewrite in_app_iff. intros [Q | [<- | []]]; auto. now split.
  - refine (moves_good s _ (lock s) (Apply j c todo gone) G _ _ _ _ _ _); fin; unl UL.
    intros i c0 t g Q. injection Q as -> _ _ _. apply (GA _ _ _ _ eq_refl).
  - refine (moves_good s _ (lock s) Dead G _ _ _ _ _ _); fin; unl UL.
  - refine (moves_good s _ (lock s) (Each todo gone) G _ _ _ _ _ _); fin; unl UL.
    + now inversion GT.
    + intros i [Q | Q]; apply GK; cbn; auto.
  - refine (moves_good s _ (lock s) (Top gone) G _ _ _ _ _ _); fin; unl UL.
Qed.

Lemma step_good : forall settable s w ev s', step settable s w ev s' -> tidy s -> good s -> good s'.
Proof. intros settable s w ev s' ST T G. destruct ST; [eapply main_good | eapply job_good | eapply listener_good]; eauto. Qed.

Lemma runs_good : forall settable e tr s, runs settable e tr s -> good s /\ tidy s.
Proof.
  intros settable e tr s. induction 1 as [ | tr s w ev s' _ [G T] ST]; [split; [apply start_good | intros j; exact I] | ].
  split; [eapply step_good | eapply step_tidy]; eauto.
Qed.
