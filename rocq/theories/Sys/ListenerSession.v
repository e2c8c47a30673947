(** C80: a patient user sees the variables of a session without jobs. *)
From Verif.Sys Require Export ListenerProps.
Local Open Scope list_scope.

Lemma patient_runs : forall settable e tr s, patient settable e tr s -> runs settable e tr s.
Proof. induction 1; econstructor; eauto. Qed.
Lemma expected_snoc : forall tr ev e, expected (tr ++ [ev]) e = happens (expected tr e) ev.
Proof. intros. unfold expected. now rewrite fold_left_app. Qed.

Definition idle (l : lpc) : Prop := match l with Apply _ _ _ _ | Dead => False | _ => True end.
(** What is still to be done for the last job *)
Definition owed (se : session) (s : state) (x : job) : Prop :=
  match ph x with
  | Busy r => values se = env s /\ exists j f, running se = Some (j, f) /\ r = f (env s)
  | Fresh => False
  | _ => match pipe x with Whole (Good c) => values se = assign_all c (env s) | _ => values se = env s end
  end.
Definition last_job (s : state) (x : job) : Prop := match next s with 0 => x = mkj Gone Void | S n => x = jobs s n end.
Definition situation (se : session) (s : state) : Prop :=
  match main s with
  | Setting c => idle (lst s) /\ (forall i, jobs s i = mkj Gone Void) /\ values se = assign_all c (env s)
  | Acquire j f | Append j f | Release j f | Start j f => idle (lst s) /\ running se = Some (j, f) /\ values se = env s
  | _ => match lst s with
         | Apply j c _ _ => S j = next s /\ values se = assign_all c (env s)
         | _ => forall x, last_job s x -> owed se s x
         end
  end.
Definition older (s : state) : Prop := forall i, S i < next s -> jobs s i = mkj Gone Void.

Record follows (tr : list event) (e : vars) (s : state) : Prop := {
  f_older : older s;
  f_waiting : forall j, main s = Waiting j -> S j = next s;
  f_sit : lst s <> Dead -> situation (expected tr e) s }.

Lemma last_is : forall s j, S j = next s -> last_job s (jobs s j).
Proof. intros s j E. unfold last_job. rewrite <- E. reflexivity. Qed.
Lemma not_old : forall s j, good s -> older s -> jobs s j <> mkj Gone Void -> S j = next s.
Proof.
  intros s j G O N. destruct (lt_eq_lt_dec (S j) (next s)) as [[L | E] | L]; [ | exact E | ]; [now rewrite (O j L) in N | ].
  destruct (g_new _ G j) as [E _]; [lia | ]. now rewrite E in N.
Qed.

Lemma owed_killed : forall se s s' i, tidy s -> env s' = env s -> owed se s (jobs s i) -> owed se s' (killed (jobs s i)).
Proof.
  intros se s s' i T E. specialize (T i). unfold owed, killed. destruct (jobs s i) as [p c]. cbn in *. destruct p; cbn; rewrite ?E; auto.
  - intros [H _]. destruct c as [ | | | [d | ]]; cbn; auto; contradiction.
  - destruct c as [ | | | [d | ]]; cbn; auto; contradiction.
  - destruct c as [ | | | [d | ]]; cbn; auto; contradiction.
Qed.
Lemma owed_env : forall se s s' x, env s' = env s -> owed se s x -> owed se s' x.
Proof. intros se s s' x E. unfold owed. now rewrite E. Qed.
Lemma settled_owed : forall se s, settled s -> (forall x, last_job s x -> owed se s x) -> values se = env s.
Proof.
  intros se s [J _] H. unfold last_job in H. destruct (next s) as [ | n]; [exact (H _ eq_refl) | ]. specialize (H _ eq_refl). rewrite J in H. exact H.
Qed.
Lemma settled_values : forall se s, settled s -> main s = Prompt -> lst s <> Dead -> situation se s -> values se = env s /\ idle (lst s).
Proof.
  intros se s S M ND SI. unfold situation in SI. rewrite M in SI. destruct S as [J NA]. 
  destruct (lst s) eqn:E; try contradiction; try (split; [now apply settled_owed; [split | ] | exact I]).
  all: try (split; [apply (settled_owed se s); [split; [exact J | rewrite E; exact NA] | exact SI] | exact I]).
  now destruct (NA j c todo gone).
Qed.

(** The main thread waits, or is at its end *)
Definition resting (m : mpc) : Prop := match m with Prompt | Waiting _ | Exited => True | _ => False end.
Lemma resting_situation : forall se s, resting (main s) -> situation se s <->
  match lst s with Apply j c _ _ => S j = next s /\ values se = assign_all c (env s) | _ => forall x, last_job s x -> owed se s x end.
Proof. intros se s H. unfold situation. destruct (main s); try contradiction; reflexivity. Qed.

Lemma killed_situation : forall se s s', tidy s -> resting (main s) -> resting (main s') -> lst s' = lst s -> next s' = next s -> env s' = env s ->
  (forall i, jobs s' i = jobs s i \/ jobs s' i = killed (jobs s i)) -> situation se s -> situation se s'.
Proof.
  intros se s s' T R R' L N E J H. apply resting_situation; [exact R' | ]. apply resting_situation in H; [ | exact R]. rewrite L, N, E.
  assert (K : (forall x, last_job s x -> owed se s x) -> forall x, last_job s' x -> owed se s' x).
  { intros Q x. unfold last_job in *. rewrite N. destruct (next s) as [ | n]; [intros ->; now apply (owed_env se s), Q | ]. intros ->.
    destruct (J n) as [-> | ->]; [now apply (owed_env se s), Q | now apply owed_killed, Q]. }
  destruct (lst s); auto.
Qed.

Lemma main_follows : forall e tr s ev s', main_step s ev s' -> good s -> tidy s -> (enters ev = true -> settled s) -> follows tr e s -> follows (tr ++ [ev]) e s'.
Proof.
  intros e tr s ev s' ST G T PT [O WT SI]. assert (KEEP : lst s' = lst s) by (destruct ST; reflexivity).
  destruct ST as [s f M | s v x c M | s M | s f M | s j f M L | s j f M | s j f M | s j f M | s j M P | s j M | s j M | s M];
    cbn in KEEP; clear KEEP; constructor; cbn -[situation]; auto; try discriminate; try (intros ND; specialize (SI ND); rewrite expected_snoc).
  - destruct (settled_values _ _ (PT eq_refl) M ND SI) as [V I]. destruct (PT eq_refl) as [J _]. cbn. rewrite V. auto.
  - unfold situation in *. rewrite M in SI. cbn in *. exact SI.
  - unfold situation in SI. rewrite M in SI. destruct SI as (I & J & V). apply resting_situation; [exact Logic.I | ]. cbn.
    assert (K : forall x, last_job (upd_main s Prompt) x -> owed (expected tr e) (upd_main s Prompt) x).
    { intros x H. unfold last_job in H. cbn in H. assert (x = mkj Gone Void) as -> by (destruct (next s); [exact H | now rewrite H]). exact V. }
    destruct (lst s); try contradiction; exact K.
  - intros i H. cbn in *. jcase i (next s); [lia | ]. destruct (PT eq_refl) as [J _]. apply J.
  - destruct (settled_values _ _ (PT eq_refl) M ND SI) as [V I]. cbn. auto.
  - unfold situation in *. rewrite M in SI. exact SI.
  - unfold situation in *. rewrite M in SI. exact SI.
  - unfold situation in *. rewrite M in SI. exact SI.
  - intros i H. cbn in *. destruct (g_start _ G j) as [N _]; [now rewrite M | ]. jcase i j; [lia | now apply O].
  - intros i H. injection H as <-. destruct (g_start _ G j) as [N _]; [now rewrite M | ]. exact N.
  - unfold situation in SI. rewrite M in SI. destruct SI as (I & C & V). destruct (g_start _ G j) as [N _]; [now rewrite M | ]. apply resting_situation; [exact Logic.I | ]. cbn.
    assert (K : forall x, last_job (upd_job (upd_main s (Waiting j)) j (mkj (Busy (f (env s))) Void)) x ->
      owed (expected tr e) (upd_job (upd_main s (Waiting j)) j (mkj (Busy (f (env s))) Void)) x).
    { intros x H. unfold last_job in H. cbn in H. rewrite <- N, set_job_same in H. subst x. cbn. split; [exact V | ]. eauto. }
    destruct (lst s); try contradiction; exact K.
  - apply (killed_situation _ s); cbn; auto. now rewrite M.
  - intros i H. cbn in *. jcase i j; [rewrite (O j H); reflexivity | now apply O].
  - apply (killed_situation _ s); cbn; auto; try (now rewrite M). intros i. jcase i j; auto.
  - apply (killed_situation _ s); cbn; auto. now rewrite M.
  - intros i H. cbn in *. now rewrite (O i H).
  - apply (killed_situation _ s); cbn; auto. now rewrite M.
Qed.

(** A step of the last job *)
Lemma job_situation : forall se se' s j x, good s -> S j = next s -> jobs s j <> mkj Gone Void -> ph (jobs s j) <> Fresh ->
  (forall i c t g, lst s = Apply i c t g -> se' = se) ->
  (owed se s (jobs s j) -> owed se' s x) -> situation se s -> situation se' (upd_job s j x).
Proof.
  intros se se' s j x G N NG NF NA H SI. unfold situation in *. cbn. destruct (main s) eqn:M.
  2: { destruct SI as (_ & J & _). destruct NG. apply J. }
  2-5: destruct (g_start _ G j0) as [N' F]; [now rewrite M | ]; assert (j0 = j) as -> by lia; rewrite F in NF; now destruct NF.
  all: assert (K : (forall x, last_job s x -> owed se s x) -> forall y, last_job (upd_job s j x) y -> owed se' (upd_job s j x) y)
    by (intros Q y; unfold last_job in *; cbn; rewrite <- N, set_job_same in *; intros ->; apply (owed_env se' s); [reflexivity | ]; auto);
    destruct (lst s) eqn:E; auto; now rewrite (NA _ _ _ _ eq_refl).
Qed.

Lemma job_follows : forall e tr j s ev s', job_step j s ev s' -> good s -> tidy s -> follows tr e s -> follows (tr ++ [ev]) e s'.
Proof.
  intros e tr j s ev s' ST G T [O WT SI].
  assert (LAST : jobs s j <> mkj Gone Void -> S j = next s) by (intros N; exact (not_old s j G O N)).
  assert (OL : forall x, (jobs s j = mkj Gone Void -> x = mkj Gone Void) -> older (upd_job s j x)).
  { intros x H i L. cbn in *. jcase i j; [apply H, O, L | now apply O]. }
  assert (NB : forall i c t g, lst s = Apply i c t g -> S i = next s -> forall r p, jobs s j <> mkj (Busy r) p).
  { intros i c t g E N r p F. destruct (g_apply _ G i c t g E) as (_ & _ & K). assert (S j = next s) by (apply LAST; rewrite F; discriminate). assert (i = j) as -> by lia. now apply (K r); rewrite F. }
  destruct ST as [s m E | s m E | s E | s p E | s p E | s].
  - constructor; cbn; auto; [apply OL; rewrite E; discriminate | ]. intros ND. rewrite expected_snoc. cbn. apply (job_situation (expected tr e)); auto; rewrite ?E; try discriminate; auto.
    apply LAST. rewrite E. discriminate.
  - constructor; cbn; auto; [apply OL; rewrite E; discriminate | ]. intros ND. specialize (SI ND). rewrite expected_snoc.
    assert (N : S j = next s) by (apply LAST; rewrite E; discriminate).
    assert (NA : forall i c t g, lst s = Apply i c t g -> False).
    { intros i c t g A. unfold situation in SI. rewrite A in SI. destruct (main s) eqn:M.
      2-6: destruct SI as (Q & _); exact Q.
      all: destruct SI as (Q & _); exact (NB i c t g A Q _ _ E). }
    apply (job_situation (expected tr e)); auto; rewrite ?E; try discriminate.
    + intros i c t g A. destruct (NA i c t g A).
    + cbn. intros (V & i & f & C & F). rewrite C, V, <- F. destruct m as [c | ]; cbn; auto.
  - constructor; cbn; auto; [apply OL; rewrite E; discriminate | ]. intros ND. rewrite expected_snoc. cbn. apply (job_situation (expected tr e)); auto; rewrite ?E; try discriminate; auto.
    + apply LAST. rewrite E. discriminate.
    + cbn. tauto.
  - constructor; cbn; auto; [apply OL; rewrite E; discriminate | ]. intros ND. rewrite expected_snoc. cbn. apply (job_situation (expected tr e)); auto; rewrite ?E; try discriminate; auto.
    apply LAST. rewrite E. discriminate.
  - constructor; cbn; auto; [apply OL; rewrite E; discriminate | ]. intros ND. rewrite expected_snoc. cbn. apply (job_situation (expected tr e)); auto; rewrite ?E; try discriminate; auto.
    apply LAST. rewrite E. discriminate.
  - constructor; cbn; auto; [apply OL; intros ->; reflexivity | ]. intros ND. rewrite expected_snoc. cbn.
    destruct (jobs s j) as [p c] eqn:E.
    assert (D : p = Gone \/ p = Fresh \/ (p <> Gone /\ p <> Fresh)) by (destruct p; intuition discriminate).
    assert (SAME : killed (mkj p c) = mkj p c -> situation (expected tr e) (upd_job s j (killed (mkj p c)))).
    { intros ->. specialize (SI ND). assert (EQ : forall i, set_job (jobs s) j (mkj p c) i = jobs s i) by (intros i; jcase i j; auto).
      unfold situation in *. cbn. destruct (main s); auto; try (destruct SI as (A & B & C); split; [exact A | split; [intros i; rewrite EQ; apply B | exact C]]).
      all: destruct (lst s); auto; intros x; unfold last_job in *; cbn; destruct (next s); try rewrite EQ; intros ->; apply (owed_env _ s); auto. }
    destruct D as [-> | [-> | [D1 D2]]]; [now apply SAME | now apply SAME | ].
    apply (job_situation (expected tr e)); auto; rewrite ?E; auto; try (intros Q; injection Q as -> _; now destruct D1).
    { apply LAST. intros Q. injection Q as -> _. now destruct D1. }
    rewrite <- E. now apply owed_killed.
Qed.

Lemma idle_situation : forall se s s', jobs s' = jobs s -> env s' = env s -> next s' = next s -> main s' = main s -> idle (lst s) -> idle (lst s') -> situation se s -> situation se s'.
Proof.
  intros se s s' J E N M I I' H. unfold situation in *. rewrite M. destruct (main s); rewrite ?J, ?E; try tauto.
  all: assert (K : (forall x, last_job s x -> owed se s x) -> forall x, last_job s' x -> owed se s' x)
    by (intros Q x; unfold last_job in *; rewrite N, J; intros Y; apply (owed_env se s); auto);
    destruct (lst s); try contradiction; destruct (lst s'); try contradiction; auto.
Qed.

Lemma listener_follows : forall settable e tr s ev s', listener_step settable s ev s' -> good s -> tidy s -> follows tr e s -> follows (tr ++ [ev]) e s'.
Proof.
  intros settable e tr s ev s' ST G T [O WT SI].
  assert (MV : forall l s1, s1 = s' -> jobs s1 = jobs s -> env s1 = env s -> next s1 = next s -> main s1 = main s -> lst s = l -> idle l -> (idle (lst s1) \/ lst s1 = Dead) -> ev = Tau -> follows (tr ++ [ev]) e s').
  { intros l s1 <- J E N M EL I I' ->. constructor; [intros i; rewrite N, J; apply O | intros i; rewrite M, N; apply WT | ]. intros ND. rewrite expected_snoc. cbn.
    destruct I' as [I' | I']; [ | contradiction]. rewrite <- EL in I. apply (idle_situation _ s); auto. apply SI. intros D. rewrite D in I. exact I. }
  destruct ST as [s gone E L | s gone E | s E P | s E P K | s E L | s E P K | s seen E | s seen todo E R N | s j c todo gone E P | s j todo gone E P
    | s j todo gone E P | s j todo gone E P C | s j v x c todo gone E P | s j v x c todo gone E P | s j todo gone E | s gone E];
    try (eapply MV; [reflexivity | reflexivity | reflexivity | reflexivity | reflexivity | exact E | exact I | cbn; auto | reflexivity]).
  - (* a message is taken *)
    assert (N : S j = next s) by (apply (not_old s j G O); intros Q; rewrite Q in P; discriminate).
    constructor; cbn; auto.
    + intros i H. cbn in *. jcase i j; [lia | now apply O].
    + intros _. rewrite expected_snoc. cbn [happens]. assert (SI' : situation (expected tr e) s) by (apply SI; rewrite E; discriminate). clear SI. unfold situation in *. rewrite E in SI'. cbn in *.
      specialize (T j). rewrite P in T.
      assert (OW : (forall x, last_job s x -> owed (expected tr e) s x) -> S j = next s /\ values (expected tr e) = assign_all c (env s)).
      { intros Q. split; [exact N | ]. specialize (Q _ (last_is s j N)). unfold owed in Q. rewrite P in Q. destruct (ph (jobs s j)); try contradiction; exact Q. }
      destruct (main s) eqn:M; auto.
      * destruct SI' as (_ & J & _). rewrite J in P. discriminate.
      * destruct (g_start _ G j0) as [N' F]; [now rewrite M | ]. assert (j0 = j) as -> by lia. rewrite F in P. discriminate.
      * destruct (g_start _ G j0) as [N' F]; [now rewrite M | ]. assert (j0 = j) as -> by lia. rewrite F in P. discriminate.
      * destruct (g_start _ G j0) as [N' F]; [now rewrite M | ]. assert (j0 = j) as -> by lia. rewrite F in P. discriminate.
      * destruct (g_start _ G j0) as [N' F]; [now rewrite M | ]. assert (j0 = j) as -> by lia. rewrite F in P. discriminate.
  - constructor; cbn; auto; [ | intros ND; now destruct ND]. intros i H. cbn in *. pose proof (O i H) as Q. jcase i j; [ | exact Q]. rewrite Q in P. discriminate.
  - constructor; cbn; auto. intros _. rewrite expected_snoc. cbn [happens]. assert (SI' : situation (expected tr e) s) by (apply SI; rewrite E; discriminate).
    unfold situation in *. rewrite E in SI'. cbn. cbn in SI'. destruct (main s); try exact SI'; destruct SI' as [[] _].
  - constructor; cbn; auto. intros ND; now destruct ND.
  - constructor; cbn; auto. intros _. rewrite expected_snoc. cbn [happens]. assert (SI' : situation (expected tr e) s) by (apply SI; rewrite E; discriminate).
    unfold situation in *. rewrite E in SI'. destruct (g_apply _ G _ _ _ _ E) as (V & NF & NB). cbn.
    assert (OW : S j = next s /\ values (expected tr e) = env s -> forall x, last_job (upd_lst s (Each todo gone)) x -> owed (expected tr e) (upd_lst s (Each todo gone)) x).
    { intros [N Q] x. unfold last_job. cbn. rewrite <- N. intros ->. unfold owed. rewrite V. destruct (ph (jobs s j)) as [ | r | | | ]; auto; try (now destruct NF); now destruct (NB r). }
    destruct (main s); auto; tauto.
Qed.

Lemma patient_follows : forall settable e tr s, patient settable e tr s -> follows tr e s.
Proof.
  intros settable e tr s P. induction P as [ | tr s w ev s' P IH ST PT].
  - constructor; cbn; try discriminate; [intros i L; cbn in L; lia | ]. intros _. cbn. intros x ->. reflexivity.
  - destruct (runs_told _ _ _ _ (patient_runs _ _ _ _ P)) as (G & T & _ & _). destruct ST; [eapply main_follows | eapply job_follows | eapply listener_follows]; eauto.
Qed.

(** If the next command is always entered when all has settled, the variables are those of a session without jobs *)
Theorem c80_session_partial : forall settable e tr s, patient settable e tr s -> lst s <> Dead -> settled s -> main s = Prompt ->
  env s = values (expected tr e).
Proof.
  intros settable e tr s P ND S M. symmetry. apply (settled_values _ s S M ND). now apply (f_sit _ _ _ (patient_follows _ _ _ _ P)).
Qed.
