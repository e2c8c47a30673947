(** What has happened, and the state of the listener. *)
From Verif.Sys Require Export ListenerFacts.
Local Open Scope list_scope.

Lemma in_snoc : forall (x y : event) tr, In x (tr ++ [y]) <-> In x tr \/ y = x.
Proof. intros. rewrite in_app_iff. cbn. tauto. Qed.
Lemma handled_snoc : forall tr ev, handled (tr ++ [ev]) = handled tr ++ match ev with Handled j => [j] | _ => [] end.
Proof. intros. unfold handled. rewrite flat_map_app. cbn. now rewrite app_nil_r. Qed.
Lemma assigned_snoc : forall tr ev, assigned (tr ++ [ev]) = assigned tr ++ match ev with SetVar v x => [(v, x)] | _ => [] end.
Proof. intros. unfold assigned. rewrite flat_map_app. cbn. now rewrite app_nil_r. Qed.
Lemma in_handled : forall j tr, In j (handled tr) <-> In (Handled j) tr.
Proof.
  intros j tr. unfold handled. rewrite in_flat_map. split.
  - intros (ev & I & H). destruct ev; cbn in H; try tauto. destruct H as [-> | []]. exact I.
  - intros I. exists (Handled j). split; [exact I | now left].
Qed.

Record jobs_told (tr : list event) (s : state) : Prop := {
  t_none : forall j, next s <= j \/ ph (jobs s j) = Fresh -> (forall r, ~ In (Forked j r) tr) /\ ~ In (Written j) tr;
  t_busy : forall j r, ph (jobs s j) = Busy r -> In (Forked j r) tr /\ ~ In (Written j) tr;
  t_whole : forall j m, pipe (jobs s j) = Whole m -> In (Forked j (Some m)) tr /\ In (Written j) tr;
  t_one : forall j r r', In (Forked j r) tr -> In (Forked j r') tr -> r = r' }.

(** Events that say nothing about processes *)
Definition quiet (ev : event) : Prop := match ev with Forked _ _ | Written _ => False | _ => True end.
Lemma quiet_told : forall tr s ev s', jobs_told tr s -> quiet ev -> next s <= next s' ->
  (forall j, j < next s -> ph (jobs s' j) = Fresh -> ph (jobs s j) = Fresh) ->
  (forall j r, ph (jobs s' j) = Busy r -> ph (jobs s j) = Busy r) -> (forall j m, pipe (jobs s' j) = Whole m -> pipe (jobs s j) = Whole m) ->
  jobs_told (tr ++ [ev]) s'.
Proof.
  intros tr s ev s' [N B W O] Q L F HB HW.
  assert (QF : forall j r, ev <> Forked j r) by (intros j r ->; exact Q). assert (QW : forall j, ev <> Written j) by (intros j ->; exact Q).
  constructor.
  - intros j H. assert (K : next s <= j \/ ph (jobs s j) = Fresh).
    { destruct H as [H | H]; [left; lia | ]. destruct (le_lt_dec (next s) j); [now left | right; auto]. }
    destruct (N j K) as [A C]. split; [intros r | ]; rewrite in_snoc; intros [I | I]; [now apply (A r) | now apply (QF j r) | auto | now apply (QW j)].
  - intros j r H. destruct (B j r (HB j r H)) as [A C]. rewrite !in_snoc. split; [tauto | ]. intros [I | I]; [auto | now apply (QW j)].
  - intros j m H. destruct (W j m (HW j m H)) as [A C]. rewrite !in_snoc. tauto.
  - intros j r r'. rewrite !in_snoc. intros [I | I] [J | J]; try (now destruct (QF _ _ I)); try (now destruct (QF _ _ J)). eauto.
Qed.

Lemma killed_told : forall x, (ph (killed x) = Fresh -> ph x = Fresh) /\ (forall r, ph (killed x) = Busy r -> ph x = Busy r) /\
  (forall m, pipe (killed x) = Whole m -> pipe x = Whole m).
Proof. intros [p c]. unfold killed. cbn. destruct p, c; cbn; repeat split; intros; auto; discriminate. Qed.

Lemma step_told : forall settable tr s w ev s', step settable s w ev s' -> good s -> tidy s -> jobs_told tr s -> jobs_told (tr ++ [ev]) s'.
Proof.
  intros settable tr s w ev s' ST G T H. destruct ST as [s ev s' ST | s j ev s' ST | s ev s' ST]; destruct ST.
  all: try solve [apply (quiet_told tr s); cbn; auto].
  all: try solve [apply (quiet_told tr s); cbn; auto; intros i; try intros m; jcase i j; auto; try discriminate;
    rewrite ?H0, ?H1; cbn; auto; try discriminate; apply killed_told].
  - apply (quiet_told tr s); cbn; auto; [intros i L | intros i r | intros i m]; unfold set_job; (destruct (Nat.eqb_spec i (next s)) as [-> | ]; cbn; auto; try lia; try discriminate).
  - (* forked *)
    destruct H as [N B W O]. destruct (g_start _ G j) as [NX FR]; [now rewrite H0 | ]. assert (K := N j (or_intror (f_equal ph FR))). destruct K as [NF NW].
    constructor; cbn.
    + intros i Q. assert (NE : i <> j) by (intros ->; rewrite set_job_same in Q; cbn in Q; destruct Q; [lia | discriminate]). rewrite set_job_other in Q by exact NE.
      destruct (N i Q) as [A C]. split; [intros r | ]; rewrite in_snoc; intros [I | I]; auto; [now apply (A r) | congruence | discriminate].
    + intros i r. jcase i j; [intros E; injection E as <- | intros E]; rewrite !in_snoc; [split; [now right | ] | destruct (B i r E); split; [tauto | ]]; intros [I | I]; auto; discriminate.
    + intros i m. jcase i j; [discriminate | ]. intros E. destruct (W i m E). rewrite !in_snoc. tauto.
    + intros i r r'. rewrite !in_snoc. intros [I | I] [J | J]; [eauto | injection J as <- <-; now apply NF in I | injection I as <- <-; now apply NF in J | congruence].
  - apply (quiet_told tr s); cbn; auto; intros i; intros; now apply killed_told.
  - (* written *)
    destruct H as [N B W O]. destruct (B j (Some m)) as [BF BW]; [now rewrite H0 | ]. constructor; cbn.
    + intros i Q. assert (NE : i <> j).
      { intros ->. rewrite set_job_same in Q. cbn in Q. destruct Q as [Q | Q]; [ | discriminate]. destruct (g_new _ G j Q) as [E _]. congruence. }
      rewrite set_job_other in Q by exact NE. destruct (N i Q) as [A C]. split; [intros r | ]; rewrite in_snoc; intros [I | I]; auto; [now apply (A r) | discriminate | congruence].
    + intros i r. jcase i j; [discriminate | ]. intros E. destruct (B i r E). rewrite !in_snoc. split; [tauto | ]. intros [I | I]; auto. congruence.
    + intros i m'. jcase i j; [intros E; injection E as <- | intros E; destruct (W i m' E)]; rewrite !in_snoc; tauto.
    + intros i r r'. rewrite !in_snoc. intros [I | I] [J | J]; try discriminate. eauto.
Qed.

Definition sets_so_far (tr : list event) (l : lpc) : Prop :=
  exists done part, map fst done = handled tr /\ (forall j c, In (j, c) done -> In (Forked j (Some (Good c))) tr) /\
    assigned tr = concat (map snd done) ++ part /\
    match l with
    | Apply j c _ _ => In (Forked j (Some (Good (part ++ c)))) tr
    | Dead => part = [] \/ exists j c, ~ In j (handled tr) /\ In (Forked j (Some (Good (part ++ c)))) tr
    | _ => part = []
    end.

Record lst_told (tr : list event) (s : state) : Prop := {
  l_apply : forall j c t g, lst s = Apply j c t g -> In (Written j) tr /\ ~ In (Handled j) tr;
  l_written : forall j, In (Written j) tr -> (exists m, pipe (jobs s j) = Whole m) \/ (exists c t g, lst s = Apply j c t g) \/ In (Handled j) tr \/ lst s = Dead;
  l_handled : forall j, In (Handled j) tr -> In (Written j) tr /\ pipe (jobs s j) = Void /\ ph (jobs s j) <> Fresh /\ (forall r, ph (jobs s j) <> Busy r);
  l_nodup : NoDup (handled tr);
  l_sets : sets_so_far tr (lst s) }.

Lemma sets_quiet : forall tr ev l, (forall j, ev <> Handled j) -> (forall v x, ev <> SetVar v x) -> sets_so_far tr l -> sets_so_far (tr ++ [ev]) l.
Proof.
  intros tr ev l NH NS (done & part & A & B & C & D). exists done, part.
  assert (EH : handled (tr ++ [ev]) = handled tr) by (rewrite handled_snoc; destruct ev; try apply app_nil_r; now destruct (NH j)).
  assert (ES : assigned (tr ++ [ev]) = assigned tr) by (rewrite assigned_snoc; destruct ev; try apply app_nil_r; now destruct (NS v x)).
  rewrite EH, ES. split; [exact A | ]. split; [intros j c I; rewrite in_snoc; left; auto | ]. split; [exact C | ].
  destruct l; auto; [rewrite in_snoc; now left | ]. destruct D as [D | (j & c & D & E)]; [now left | right]. exists j, c. rewrite in_snoc. auto.
Qed.

(** The other threads and processes *)
Lemma other_told : forall tr s ev s', lst_told tr s -> lst s' = lst s -> (forall j, ev <> Handled j) -> (forall v x, ev <> SetVar v x) ->
  (forall j m, pipe (jobs s j) = Whole m -> pipe (jobs s' j) = Whole m) ->
  (forall j, ev = Written j -> exists m, pipe (jobs s' j) = Whole m) ->
  (forall j, In (Handled j) tr -> pipe (jobs s j) = Void -> ph (jobs s j) <> Fresh -> (forall r, ph (jobs s j) <> Busy r) ->
     pipe (jobs s' j) = Void /\ ph (jobs s' j) <> Fresh /\ (forall r, ph (jobs s' j) <> Busy r)) ->
  lst_told (tr ++ [ev]) s'.
Proof.
  intros tr s ev s' [A W H N S] L NH NS KW EW KH. rewrite <- L in A, W, S. constructor.
  - intros j c t g E. destruct (A j c t g E). rewrite !in_snoc. split; [tauto | ]. intros [I | I]; [auto | now destruct (NH j)].
  - intros j I. rewrite in_snoc in *. destruct I as [I | ->]; [ | left; auto]. destruct (W j I) as [(m & P) | [P | [P | P]]]; [left; eauto | tauto | tauto | tauto].
  - intros j I. rewrite in_snoc in *. destruct I as [I | I]; [ | now destruct (NH j)]. destruct (H j I) as (P & Q & R & B). split; [tauto | ]. now apply KH.
  - rewrite handled_snoc. destruct ev; try (now rewrite app_nil_r). now destruct (NH j).
  - now apply sets_quiet.
Qed.

Lemma killed_keeps : forall x, (forall m, pipe x = Whole m -> ph x <> Fresh -> pipe (killed x) = Whole m) /\
  (pipe x = Void -> ph x <> Fresh -> (forall r, ph x <> Busy r) -> pipe (killed x) = Void /\ ph (killed x) <> Fresh /\ forall r, ph (killed x) <> Busy r).
Proof. intros [p c]. unfold killed. cbn. destruct p, c; cbn; repeat split; intros; auto; try discriminate; congruence. Qed.

Lemma main_lst_told : forall tr s ev s', main_step s ev s' -> good s -> tidy s -> jobs_told tr s -> lst_told tr s -> lst_told (tr ++ [ev]) s'.
Proof.
  assert (KW : forall s, tidy s -> forall j m, pipe (jobs s j) = Whole m -> pipe (killed (jobs s j)) = Whole m).
  { intros s T j m P. apply killed_keeps; [exact P | ]. specialize (T j). rewrite P in T. destruct (ph (jobs s j)); try contradiction; discriminate. }
  intros tr s ev s' ST G T J H. destruct ST; try solve [apply (other_told tr s); cbn; auto; discriminate].
  - apply (other_told tr s); cbn; auto; try discriminate.
    + intros i m P. jcase i (next s); [ | exact P]. destruct (g_new _ G (next s) (le_n _)) as [E _]. now rewrite E in P.
    + intros i I P. jcase i (next s); [ | auto]. destruct (l_handled _ _ H _ I) as (Q & _). destruct (t_none _ _ J (next s) (or_introl (le_n _))) as [_ K]. contradiction.
  - apply (other_told tr s); cbn; auto; try discriminate.
    + intros i m P. jcase i j; [ | exact P]. destruct (g_start _ G j) as [_ E]; [now rewrite H0 | ]. now rewrite E in P.
    + intros i I P. jcase i j; [ | auto]. destruct (g_start _ G j) as [_ E]; [now rewrite H0 | ]. rewrite E. intros Q. now destruct Q.
  - apply (other_told tr s); cbn; auto; try discriminate.
    + intros i m P. jcase i j; [now apply KW | exact P].
    + intros i I P Q R. jcase i j; [now apply killed_keeps | auto].
  - apply (other_told tr s); cbn; auto; try discriminate.
    intros i I P Q R. now apply killed_keeps.
Qed.

Lemma job_lst_told : forall j tr s ev s', job_step j s ev s' -> tidy s -> lst_told tr s -> lst_told (tr ++ [ev]) s'.
Proof.
  intros j tr s ev s' ST T H. destruct ST; apply (other_told tr s); cbn; auto; try discriminate.
  all: try solve [intros i m0 P; jcase i j; auto; rewrite H0 in P; discriminate].
  all: try solve [intros i I P Q R; jcase i j; auto; rewrite H0 in R; now destruct (R _ eq_refl)].
  all: try solve [intros i I P Q R; jcase i j; auto; rewrite H0 in P; cbn in P; subst; repeat split; discriminate].
  all: try solve [intros i m0 P; jcase i j; auto; rewrite H0 in P; exact P].
  - intros i E. injection E as ->. rewrite set_job_same. now exists m.
  - intros i m P. jcase i j; [ | exact P]. apply killed_keeps; [exact P | ]. specialize (T j). rewrite P in T. destruct (ph (jobs s j)); try contradiction; discriminate.
  - intros i I P Q R. jcase i j; [now apply killed_keeps | auto].
Qed.

Lemma sets_move : forall tr l l', sets_so_far tr l -> match l with Apply _ _ _ _ | Dead => False | _ => True end ->
  match l' with Apply j c _ _ => In (Forked j (Some (Good c))) tr | _ => True end -> sets_so_far tr l'.
Proof.
  intros tr l l' (done & part & A & B & C & D) N M. exists done, part. split; [exact A | ]. split; [exact B | ]. split; [exact C | ].
  assert (P : part = []) by (destruct l; try contradiction; exact D). subst part. destruct l'; auto.
Qed.

(** Steps of the listener that neither take a message nor work on one *)
Lemma move_told : forall tr s s', lst_told tr s -> jobs s' = jobs s -> match lst s with Apply _ _ _ _ | Dead => False | _ => True end ->
  match lst s' with Apply _ _ _ _ => False | _ => True end -> lst_told (tr ++ [Tau]) s'.
Proof.
  intros tr s s' [A W H N S] E M M'. constructor; rewrite ?E.
  - intros j c t g F. rewrite F in M'. destruct M'.
  - intros j I. rewrite in_snoc in *. destruct I as [I | I]; [ | discriminate]. destruct (W j I) as [P | [(c & t & g & P) | [P | P]]]; [tauto | rewrite P in M; destruct M | tauto | rewrite P in M; destruct M].
  - intros j I. rewrite in_snoc in *. destruct I as [I | I]; [ | discriminate]. destruct (H j I). tauto.
  - rewrite handled_snoc, app_nil_r. exact N.
  - apply sets_quiet; [discriminate | discriminate | ]. apply (sets_move tr (lst s)); auto. now destruct (lst s').
Qed.

Lemma listener_lst_told : forall settable tr s ev s', listener_step settable s ev s' -> good s -> tidy s -> jobs_told tr s -> lst_told tr s -> lst_told (tr ++ [ev]) s'.
Proof.
  intros settable tr s ev s' ST G T J H. destruct ST.
  all: try match goal with E : lst ?x = _ |- _ => solve [apply (move_told tr x); cbn; auto; now rewrite E] end.
  - (* taken *)
    rename H0 into E, H1 into P. destruct H as [A W HH N S]. rewrite E in W, S. destruct (t_whole _ _ J j _ P) as [FK WR].
    assert (NH : ~ In (Handled j) tr) by (intros I; destruct (HH j I) as (_ & Q & _); congruence). constructor; cbn.
    + intros i c0 t g F. injection F as <- <- <- <-. rewrite !in_snoc. split; [tauto | ]. intros [I | I]; [auto | discriminate].
    + intros i I. rewrite in_snoc in *. destruct I as [I | I]; [ | discriminate]. destruct (W i I) as [(m & Q) | [(x & y & z & Q) | [Q | Q]]]; try discriminate; [ | tauto].
      jcase i j; [right; left; eauto | left; eauto].
    + intros i I. rewrite in_snoc in *. destruct I as [I | I]; [ | discriminate]. destruct (HH i I) as (K & L). split; [now left | ]. jcase i j; [contradiction | exact L].
    + rewrite handled_snoc, app_nil_r. exact N.
    + apply sets_quiet; [discriminate | discriminate | ]. now apply (sets_move tr _ _ S).
  - (* unloadable *)
    rename H0 into E, H1 into P. destruct H as [A W HH N S]. rewrite E in W, S. constructor; cbn.
    + discriminate.
    + intros i I. auto.
    + intros i I. rewrite in_snoc in *. destruct I as [I | I]; [ | discriminate]. destruct (HH i I) as (K & L). split; [now left | ]. jcase i j; [ | exact L]. destruct L as [L _]. congruence.
    + rewrite handled_snoc, app_nil_r. exact N.
    + apply sets_quiet; [discriminate | discriminate | ]. apply (sets_move tr _ Dead S); [exact I | exact I].
  - (* set *)
    rename H0 into E, H1 into P. destruct H as [A W HH N S]. rewrite E in A, W, S. destruct (A _ _ _ _ eq_refl) as [WR NH]. constructor; cbn.
    + intros i c0 t g F. injection F as <- <- <- <-. rewrite !in_snoc. split; [tauto | ]. intros [I | I]; [auto | discriminate].
    + intros i I. rewrite in_snoc in *. destruct I as [I | I]; [ | discriminate]. destruct (W i I) as [Q | [(a & b & d & Q) | [Q | Q]]]; try discriminate; [tauto | | tauto].
      injection Q as <- <- <- <-. right. left. eauto.
    + intros i I. rewrite in_snoc in *. destruct I as [I | I]; [ | discriminate]. destruct (HH i I). tauto.
    + rewrite handled_snoc, app_nil_r. exact N.
    + destruct S as (done & part & B & C & D & F). exists done, (part ++ [(v, x)]). rewrite handled_snoc, assigned_snoc, app_nil_r. split; [exact B | ].
      split; [intros i c0 I; rewrite in_snoc; left; auto | ]. split; [now rewrite D, app_assoc | ]. rewrite in_snoc, <- app_assoc. now left.
  - (* a failure *)
    rename H0 into E, H1 into P. destruct H as [A W HH N S]. rewrite E in A, W, S. destruct (A _ _ _ _ eq_refl) as [WR NH]. constructor; cbn.
    + discriminate.
    + auto.
    + intros i I. rewrite in_snoc in *. destruct I as [I | I]; [ | discriminate]. destruct (HH i I). tauto.
    + rewrite handled_snoc, app_nil_r. exact N.
    + apply sets_quiet; [discriminate | discriminate | ]. destruct S as (done & part & B & C & D & F). exists done, part. split; [exact B | ]. split; [exact C | ]. split; [exact D | ].
      right. exists j, ((v, x) :: c). rewrite in_handled. auto.
  - (* all applied *)
    rename H0 into E. destruct H as [A W HH N S]. rewrite E in A, W, S. destruct (A _ _ _ _ eq_refl) as [WR NH]. destruct (g_apply _ G _ _ _ _ E) as (V & NF & NB). constructor; cbn.
    + discriminate.
    + intros i I. rewrite in_snoc in *. destruct I as [I | I]; [ | discriminate]. destruct (W i I) as [Q | [(a & b & d & Q) | [Q | Q]]]; try discriminate; [tauto | | tauto].
      injection Q as <- _ _ _. tauto.
    + intros i I. rewrite in_snoc in *. destruct I as [I | I]; [destruct (HH i I); tauto | ]. injection I as <-. tauto.
    + rewrite handled_snoc. apply snoc_nodup; [exact N | ]. now rewrite in_handled.
    + destruct S as (done & part & B & C & D & F). rewrite app_nil_r in F. exists (done ++ [(j, part)]), []. rewrite handled_snoc, assigned_snoc, !map_app, concat_app, B. cbn.
      rewrite !app_nil_r. split; [reflexivity | ]. split; [ | auto]. intros i c0. rewrite in_app_iff, in_snoc. intros [I | [I | []]]; [left; auto | ]. injection I as <- <-. now left.
Qed.

Lemma runs_told : forall settable e tr s, runs settable e tr s -> good s /\ tidy s /\ jobs_told tr s /\ lst_told tr s.
Proof.
  intros settable e tr s R. induction R as [ | tr s w ev s' R IH ST].
  - destruct (runs_good settable e [] (start e) (r_start _ _)) as [G T]. split; [exact G | ]. split; [exact T | ]. split.
    + constructor; cbn; try tauto; try discriminate.
    + constructor; cbn; try tauto; try discriminate; [constructor | ]. exists [], []. cbn. intuition.
  - destruct IH as (G & T & J & L). split; [eapply step_good; eauto | ]. split; [eapply step_tidy; eauto | ]. split; [eapply step_told; eauto | ].
    destruct ST; [eapply main_lst_told | eapply job_lst_told | eapply listener_lst_told]; eauto.
Qed.

(** The pipes that are still to be read are ready *)
Definition todo_of (l : lpc) : list nat := match l with Each t _ | Apply _ _ t _ => t | _ => [] end.
Definition readies (s : state) : Prop := forall j, In j (todo_of (lst s)) -> ready (jobs s j) = true.

Lemma killed_ready : forall x, ready x = true -> ready (killed x) = true.
Proof. intros [p c]. unfold killed, ready. destruct p, c; cbn; auto. Qed.

Lemma step_readies : forall settable s w ev s', step settable s w ev s' -> good s -> tidy s -> readies s -> readies s'.
Proof.
  intros settable s w ev s' ST G T R. destruct ST as [s ev s' ST | s j ev s' ST | s ev s' ST].
  - assert (IN : forall j, In j (todo_of (lst s)) -> In j (listeners s)).
    { intros j I. apply (g_known _ G). left. destruct (lst s); cbn in *; auto; contradiction. }
    destruct ST; try exact R; intros i I; cbn in *.
    + jcase i (next s); [ | auto]. destruct (g_new _ G (next s) (le_n _)) as [_ N]. destruct N. auto.
    + jcase i j; [ | auto]. specialize (R j I). destruct (g_start _ G j) as [_ E]; [now rewrite H | ]. rewrite E in R. discriminate.
    + jcase i j; [apply killed_ready | ]; auto.
    + apply killed_ready. auto.
  - destruct ST; intros i I; cbn in *; (jcase i j; [ | auto]); specialize (R j I); try (rewrite H in R; unfold ready in *; cbn in *; auto; destruct p; auto; discriminate).
    now apply killed_ready.
  - assert (NJ : forall j t g, lst s = Each (j :: t) g -> ~ In j t).
    { intros j t g E I. pose proof (g_todo _ G) as Q. rewrite E in Q. cbn in Q. apply NoDup_cons_iff in Q. destruct Q as [Q _]. apply Q, in_or_app. now left. }
    unfold readies in *. destruct ST; rewrite H in R; intros i I; cbn in *; auto; try contradiction.
    + now apply (H0 i).
    + jcase i j; [now apply (NJ _ _ _ H) in I | auto].
Qed.
Lemma runs_readies : forall settable e tr s, runs settable e tr s -> readies s.
Proof.
  intros settable e tr s R. induction R as [ | tr s w ev s' R IH ST]; [intros j [] | ]. destruct (runs_good _ _ _ _ R). eapply step_readies; eauto.
Qed.
