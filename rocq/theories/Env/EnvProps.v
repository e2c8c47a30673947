(** C23-C26, C46: variables. *)
From Verif.Env Require Import EnvFacts.
Local Open Scope string_scope.
Local Open Scope list_scope.

(** ** C24: assigning and reading agree with the environment of NamespaceSpec.v. *)

(** For every command, started with no pipeline running, for which the specification is defined, the
    command reads the values the specification says, succeeds or fails as it says, and leaves the
    variables it says. *)
Theorem c24_scopes_partial : forall p h g' fs' rs ok,
  at_top h -> calls_ok p ->
  sexec (protected h) p (getvar h) [] = Some (g', fs', rs, ok) ->
  exists h', exec p h = (h', rs, ok) /\ at_top h' /\ forall x, getvar h' x = g' x.
Proof.
  intros p h g' fs' rs ok T C E.
  destruct (exec_sim p C h (getvar h) [] g' fs' rs ok (top_simulates h T) E) as (h' & X & S & SH).
  inversion SH; subst. exists h'. split; auto. split.
  - unfold at_top. pose proof (sim_inner _ _ _ S) as I. now inversion I.
  - intros x. apply (sim_flat _ _ _ S).
Qed.
Print Assumptions c24_scopes_partial.

(** The specification is defined whenever parameter names and global names are kept apart. *)
Theorem c24_defined : forall p h, well_named p (getvar h) ->
  sexec (protected h) p (getvar h) [] <> None.
Proof. intros p h W. apply named_defined. now apply well_named_in. Qed.
Print Assumptions c24_defined.

(** An assignment inside nested calls: [x] is a parameter of the second call only, so that call's
    [x] changes, and a name that is no parameter becomes a global. *)
Example c24_case :
  let h := mkh (mkns [("g", VInt 1)] [("g", VInt 1)] []) ["USER"] [] true in
  let p := PCall [("x", VInt 10)]
             (PCall [("x", VInt 20); ("y", VInt 30)]
                (PSet "x" (VInt 21) (PSet "g" (VInt 2) (PRead "x" (fun _ => PDone))))
                (PRead "x" (fun _ => PDone)))
             (PRead "x" (fun _ => PRead "g" (fun _ => PDone))) in
  at_top h /\ calls_ok p /\ well_named p (getvar h) /\
  snd (fst (exec p h)) = [Some (VInt 21); Some (VInt 10); None; Some (VInt 2)].
Proof.
  cbv zeta. split; [reflexivity|]. split; [|split; [|reflexivity]].
  - cbn. repeat split; auto; repeat constructor; cbn; intuition discriminate.
  - intros x H. assert (K : x = "x" \/ x = "y") by (cbn in H; firstorder).
    destruct K as [->| ->]; cbn; (split; [reflexivity|]); split; intro K; firstorder; discriminate.
Qed.

(** The case the specification leaves out, 1: a parameter with the name of a global variable. The
    global is gone when the pipeline returns. *)
Theorem c23_shadowed_global_refuted : forall h x v w,
  at_top h -> getvar h x = Some w ->
  exists h', exec (PCall [(x, v)] PDone PDone) h = (h', [], true) /\ getvar h' x = None.
Proof.
  intros h x v w T G. cbn [exec]. rewrite push_eq. cbn.
  rewrite !String.eqb_refl. cbn. rewrite dget_dset_eq. cbn. rewrite T. cbn.
  eexists; split; [reflexivity|]. unfold getvar; cbn. apply dget_ddel_eq.
Qed.
Print Assumptions c23_shadowed_global_refuted.

(** 2: deleting a parameter inside the pipeline makes the pipeline call fail on return. *)
Theorem c23_deleted_parameter_refuted : forall h x v,
  at_top h -> protected h x = false ->
  exists h', exec (PCall [(x, v)] (PDel x PDone) PDone) h = (h', [], false).
Proof.
  intros h x v T L. cbn [exec]. unfold delvar.
  assert (M : mutable (with_ns h (push_scope (nsp h) [(x, v)])) x = true).
  { unfold mutable, protected in *. cbn [with_ns enforce immutable]. now rewrite L. }
  rewrite M. unfold getvar. rewrite push_eq. cbn. rewrite !String.eqb_refl. cbn.
  rewrite dget_dset_eq. cbn. rewrite dget_ddel_eq. eexists; reflexivity.
Qed.
Print Assumptions c23_deleted_parameter_refuted.

(** ** C23: a call does not disturb the caller's variables. *)

(** The caller may itself be a pipeline, running inside calls [bs]. Whether the called pipeline
    finishes or fails, every variable it does not touch outside its own parameters is unchanged. *)
Theorem c23_call_keeps_partial : forall h bs b p x h' rs ok,
  at_top h ->
  Forall (fun c => NoDup (keys c) /\ forall y, In y (keys c) -> getvar h y = None) bs ->
  calls_ok (PCall b p PDone) ->
  sexec (protected h) (PCall b p PDone) (getvar h) (rev bs) <> None ->
  exec (PCall b p PDone) (inside h bs) = (h', rs, ok) ->
  ~ (touches p x /\ ~ In x (keys b)) ->
  getvar h' x = getvar (inside h bs) x.
Proof.
  intros h bs b p x h' rs ok T F C D X NT.
  pose proof (inside_sim bs (nsp h) (getvar h) [] (top_simulates h T) F) as S.
  rewrite app_nil_r in S.
  destruct (sexec (protected h) (PCall b p PDone) (getvar h) (rev bs)) as [[[[g' fs'] rs'] ok']|] eqn:E; [|easy].
  destruct (exec_sim (PCall b p PDone) C (inside h bs) (getvar h) (rev bs) g' fs' rs' ok') as (h2 & X2 & S2 & _); auto.
  rewrite X in X2. inversion X2; subst.
  unfold getvar at 1. rewrite (sim_flat _ _ _ S2).
  unfold getvar at 1. unfold inside. cbn. rewrite (sim_flat _ _ _ S).
  destruct (sexec_frame (protected h) x (PCall b p PDone) [] (rev bs) (getvar h) g' fs' rs' ok') as (a & c & Q & SH & A & G); auto.
  { right. cbn. tauto. }
  inversion SH; subst. cbn. now apply sread_agree.
Qed.
Print Assumptions c23_call_keeps_partial.

(** In particular with names kept apart, for a call at top level. *)
Theorem c23_call_keeps_top_partial : forall h b p x h' rs ok,
  at_top h -> calls_ok (PCall b p PDone) -> well_named (PCall b p PDone) (getvar h) ->
  exec (PCall b p PDone) h = (h', rs, ok) ->
  ~ touches p x -> getvar h' x = getvar h x.
Proof.
  intros h b p x h' rs ok T C W X NT.
  assert (E : h = inside h []) by (unfold inside; cbn; now destruct h).
  rewrite E in X.
  rewrite (c23_call_keeps_partial h [] b p x h' rs ok T (Forall_nil _) C (c24_defined _ _ W) X).
  - now rewrite <- E.
  - tauto.
Qed.
Print Assumptions c23_call_keeps_top_partial.

(** A failing pipeline that assigns its parameter [x] and the global [g]: the caller's [a] and [x] are
    as they were. *)
Example c23_case :
  let h := mkh (mkns [("a", VInt 1)] [("a", VInt 1)] []) ["USER"] [] true in
  let caller := inside h [[("x", VInt 5)]] in
  let p := PSet "x" (VInt 7) (PSet "g" (VInt 8) PFail) in
  let r := exec (PCall [("x", VInt 6)] p PDone) caller in
  snd r = false /\ sexec (protected h) (PCall [("x", VInt 6)] p PDone) (getvar h) [[("x", VInt 5)]] <> None /\
  map (getvar (fst (fst r))) ["a"; "x"; "g"] = [Some (VInt 1); Some (VInt 5); Some (VInt 8)].
Proof. repeat split. cbn. discriminate. Qed.

(** ** C25: immutable variables *)

(** No command changes a protected variable, unless it calls a pipeline having a parameter of that
    name. *)
Theorem c25_immutable_partial : forall h p x,
  at_top h -> protected h x = true -> ~ binds p x ->
  getvar (fst (fst (exec p h))) x = getvar h x.
Proof.
  intros h p x T L B. apply (immutable_kept x p h L B). rewrite T. constructor.
Qed.
Print Assumptions c25_immutable_partial.

(** Assigning, importing or deleting it stops the command, in any context. *)
Theorem c25_refused : forall h x v k, protected h x = true ->
  exec (PSet x v k) h = (h, [], false) /\ exec (PImport x v k) h = (h, [], false) /\
  exec (PDel x k) h = (h, [], false).
Proof.
  intros h x v k L. cbn. unfold setvar, setvar_import, delvar.
  assert (M : mutable h x = false) by (unfold mutable, protected in *; now rewrite L).
  rewrite M. auto.
Qed.
Print Assumptions c25_refused.

(** Any other variable can be set. *)
Theorem c25_others_settable : forall h x v, protected h x = false ->
  exists h', exec (PSet x v PDone) h = (h', [], true) /\ getvar h' x = Some v /\
             forall y, y <> x -> getvar h' y = getvar h y.
Proof.
  intros h x v L. cbn. unfold setvar.
  assert (M : mutable h x = true) by (unfold mutable, protected in *; now rewrite L).
  rewrite M. eexists; split; [reflexivity|]. unfold getvar; cbn. unfold assign.
  destruct (store_item (glob (nsp h)) (inner (nsp h)) x v). cbn. split.
  - apply dget_dset_eq.
  - intros y N. apply dget_dset_neq. congruence.
Qed.
Print Assumptions c25_others_settable.

(** Which names are protected from the start. *)
Theorem c25_startup_names : forall h, enforce h = true ->
  (forall x, In x startup_immutable -> In x (immutable h)) ->
  forall x, In x ["BOLD"; "COLOR_SCHEME"; "Color"; "DIRS"; "HOME"; "MARCEL_VERSION"; "pos"; "PROMPT"; "PWD"; "USER"] ->
  protected h x = true.
Proof.
  intros h E S x I. unfold protected. rewrite E. cbn. apply mem_In. apply S.
  apply mem_In. cbn in I. repeat (destruct I as [<-|I]; [reflexivity|]). destruct I.
Qed.
Print Assumptions c25_startup_names.

(** HOST and ITALIC are not among them (missing comma, env.py:93). *)
Theorem c25_host_refuted : forall n x v, In x ["HOST"; "ITALIC"] ->
  let h := mkh n startup_immutable [] true in
  getvar (fst (fst (exec (PSet x v PDone) h))) x = Some v.
Proof.
  intros n x v I h. destruct (c25_others_settable h x v) as (h' & E & G & _).
  - destruct I as [<-|[<-|[]]]; reflexivity.
  - now rewrite E.
Qed.
Print Assumptions c25_host_refuted.

(** A pipeline with a parameter named PWD removes PWD. *)
Theorem c25_parameter_refuted : forall h x v w, at_top h -> protected h x = true -> getvar h x = Some w ->
  getvar (fst (fst (exec (PCall [(x, v)] PDone PDone) h))) x = None.
Proof.
  intros h x v w T _ G. destruct (c23_shadowed_global_refuted h x v w T G) as (h' & E & Q).
  now rewrite E.
Qed.
Print Assumptions c25_parameter_refuted.

Example c25_case :
  let h := mkh (mkns [("USER", VStr "me")] [] []) startup_immutable [] true in
  protected h "USER" = true /\
  exec (PCall [("x", VInt 1)] (PSet "x" (VInt 2) (PSet "USER" (VStr "you") PDone)) PDone) h
  = (mkh (mkns [("USER", VStr "me")] [] []) startup_immutable ["x"] true, [], false).
Proof. split; reflexivity. Qed.

(** ** C46: saving and reopening a workspace keeps the variables. *)

Lemma opened_stored : forall perm h, as_opened perm h -> globals_stored perm (nsp h) (getvar h).
Proof. intros perm h [saved E] x. unfold getvar. rewrite E. apply reopen_get. Qed.

Lemma opened_top : forall perm h, as_opened perm h -> at_top h.
Proof. intros perm h [saved E]. unfold at_top. now rewrite E. Qed.

Lemma opened_nodup : forall perm h, as_opened perm h -> NoDup (keys (glob (nsp h))).
Proof. intros perm h [saved E]. rewrite E. cbn. apply keys_nodup_dsets. constructor. Qed.

Theorem c46_reopen_partial : forall perm h p,
  as_opened perm h -> calls_ok p -> (forall x, ~ deletes p x) -> well_named p (getvar h) ->
  forall x, getvar (saved_and_reopened perm (fst (fst (exec p h)))) x = getvar (fst (fst (exec p h))) x.
Proof.
  intros perm h p O C ND W x.
  pose proof (opened_top _ _ O) as T. pose proof (opened_stored _ _ O) as GS.
  pose proof (exec_nodup p h (opened_nodup _ _ O)) as N.
  pose proof (c24_defined p h W) as D.
  destruct (sexec (protected h) p (getvar h) []) as [[[[g' fs'] rs] ok]|] eqn:E; [|easy].
  destruct (c24_scopes_partial p h g' fs' rs ok T C E) as (h' & X & T' & G).
  destruct (exec_stored perm p C ND h (getvar h) [] g' fs' rs ok h' rs ok (top_simulates h T) GS E X) as (A & _).
  rewrite X in *. cbn in *. rewrite G, A.
  unfold saved_and_reopened, reopen, getvar, persistent. cbn [nsp with_ns flat]. rewrite dget_dsets, lastget_nodup by auto.
  reflexivity.
Qed.
Print Assumptions c46_reopen_partial.

(** A deleted variable comes back. *)
Theorem c46_deleted_refuted : forall perm h x v,
  as_opened perm h -> protected h x = false ->
  let h' := fst (fst (exec (PSet x v (PDel x PDone)) h)) in
  getvar h' x = None /\ getvar (saved_and_reopened perm h') x = Some v.
Proof.
  intros perm h x v O L. cbn [exec]. unfold setvar, delvar.
  assert (M : forall n w, mutable (mkh n (immutable h) w (enforce h)) x = true).
  { intros n w. unfold mutable, protected in *. cbn [enforce immutable]. now rewrite L. }
  assert (M0 : mutable h x = true) by (unfold mutable, protected in *; now rewrite L).
  rewrite M0, M. unfold getvar. cbn [nsp]. unfold assign.
  pose proof (opened_top _ _ O) as T. unfold at_top in T. rewrite T. cbn [store_item flat]. rewrite dget_dset_eq. cbn [fst].
  split; [apply dget_ddel_eq|]. unfold saved_and_reopened, reopen, persistent.
  cbn [nsp with_ns flat glob]. rewrite dget_dsets, lastget_nodup.
  - now rewrite dget_dset_eq.
  - apply nodup_dset. eapply opened_nodup; eauto.
Qed.
Print Assumptions c46_deleted_refuted.

Example c46_case :
  let perm := [("PWD", VStr "/tmp")] in
  let h := mkh (reopen perm [("a", VInt 1)]) startup_immutable [] true in
  let p := PSet "b" (VInt 2) (PCall [("x", VInt 3)] (PSet "a" (VInt 4) PDone) PDone) in
  as_opened perm h /\ well_named p (getvar h) /\
  map (getvar (saved_and_reopened perm (fst (fst (exec p h))))) ["PWD"; "a"; "b"; "x"]
  = [Some (VStr "/tmp"); Some (VInt 4); Some (VInt 2); None].
Proof.
  cbn. split; [|split].
  - exists [("a", VInt 1)]. reflexivity.
  - intros x [[<-|[]]|[[]|[]]]. repeat split; auto; cbn; intuition discriminate.
  - reflexivity.
Qed.

(** ** C26: variables changed by a job reach the shell. *)

(** For a command that completes, deletes and imports nothing and keeps names apart, the shell ends up
    with exactly the variables of the child process. *)
Theorem c26_job_partial : forall perm h p c rs,
  as_opened perm h -> calls_ok p -> (forall x, ~ deletes p x) -> (forall x, ~ imports p x) ->
  well_named p (getvar h) ->
  exec p (child_of perm h) = (c, rs, true) ->
  forall x, getvar (run_job perm p h) x = getvar c x.
Proof.
  intros perm h p c rs O C ND NI W X x.
  pose proof (opened_top _ _ O) as T. pose proof (opened_stored _ _ O) as GS.
  assert (GC : forall y, getvar (child_of perm h) y = getvar h y).
  { intros y. rewrite GS. unfold getvar, child_of, reopen, persistent. cbn [nsp with_ns flat].
    rewrite dget_dsets, lastget_nodup by (eapply opened_nodup; eauto). reflexivity. }
  assert (O2 : as_opened perm (child_of perm h)) by (exists (persistent (nsp h)); reflexivity).
  pose proof (opened_top _ _ O2) as T2. pose proof (opened_stored _ _ O2) as GS2.
  assert (W2 : well_named p (getvar (child_of perm h))).
  { intros y B. rewrite GC. now apply W. }
  pose proof (c24_defined p _ W2) as D.
  destruct (sexec (protected (child_of perm h)) p (getvar (child_of perm h)) []) as [[[[g' fs'] rs'] ok]|] eqn:E; [|easy].
  destruct (c24_scopes_partial p _ g' fs' rs' ok T2 C E) as (h' & X2 & T' & G).
  destruct (exec_stored perm p C ND _ _ [] g' fs' rs' ok h' rs' ok (top_simulates _ T2) GS2 E X2) as (_ & _ & CH & LK).
  rewrite X in X2. inversion X2; subst h' rs' ok. clear X2.
  unfold run_job. rewrite X.
  rewrite apply_changes_get; auto.
  - rewrite changes_get. destruct (mem x (written c)) eqn:M.
    + rewrite G. destruct (g' x) eqn:G'; auto.
      (* written but absent in the child: then absent before *)
      destruct (CH x (NI x)) as [Q|_].
      * rewrite <- GC, <- Q. auto.
      * specialize (ND x). clear - ND G' E C T2 GS2 GC.
        rewrite <- GC.
        assert (K : forall q g fs g1 fs1 r o, (~ deletes q x) -> sexec (protected (child_of perm h)) q g fs = Some (g1, fs1, r, o) -> g1 x = None -> g x = None).
        { clear. induction q; intros g fs g1 fs1 r o ND E N; cbn in E, ND.
          - inversion E; subst; auto.
          - inversion E; subst; auto.
          - destruct (protected (child_of perm h) x0); [inversion E; subst; auto|].
            destruct (string_dec x0 x) as [->|NX].
            + destruct (is_param fs x) eqn:P.
              * pose proof (swrite_param fs g x v P) as SP. destruct (swrite g fs x v). cbn in SP. subst. eauto.
              * exfalso. assert (SS : fst (swrite g fs x v) x = Some v).
                { pose proof (sread_swrite fs g x v x) as SR. rewrite String.eqb_refl in SR.
                  rewrite is_param_sread in SR; auto. rewrite (is_param_shape _ _ _ (swrite_shape fs g x v)). auto. }
                destruct (swrite g fs x v) as [g2 fs2]. cbn in SS.
                assert (g2 x = None) by eauto. congruence.
            + pose proof (proj2 (swrite_agree_neq fs g x0 v x NX)) as SP.
              destruct (swrite g fs x0 v). cbn in SP. rewrite <- SP. eauto.
          - destruct (protected (child_of perm h) x0); [inversion E; subst; auto|].
            destruct (string_dec x0 x) as [->|NX].
            + destruct (is_param fs x) eqn:P.
              * pose proof (swrite_param fs g x v P) as SP. destruct (swrite g fs x v). cbn in SP. subst. eauto.
              * exfalso. assert (SS : fst (swrite g fs x v) x = Some v).
                { pose proof (sread_swrite fs g x v x) as SR. rewrite String.eqb_refl in SR.
                  rewrite is_param_sread in SR; auto. rewrite (is_param_shape _ _ _ (swrite_shape fs g x v)). auto. }
                destruct (swrite g fs x v) as [g2 fs2]. cbn in SS.
                assert (g2 x = None) by eauto. congruence.
            + pose proof (proj2 (swrite_agree_neq fs g x0 v x NX)) as SP.
              destruct (swrite g fs x0 v). cbn in SP. rewrite <- SP. eauto.
          - destruct (protected (child_of perm h) x0); [inversion E; subst; auto|].
            destruct (is_param fs x0); [discriminate|].
            assert (Q : update g x0 None x = None) by (eapply IHq; eauto).
            unfold update in Q. destruct (String.eqb x0 x) eqn:EQ; auto.
            apply String.eqb_eq in EQ. exfalso. apply ND. now left.
          - destruct (sexec (protected (child_of perm h)) (k (sread g fs x0)) g fs) as [[[[a b] c] d]|] eqn:Q; [|discriminate].
            inversion E; subst. eapply H; eauto.
          - destruct (existsb _ _); [discriminate|].
            destruct (sexec (protected (child_of perm h)) q1 g (b :: fs)) as [[[[a b'] c] d]|] eqn:Q; [|discriminate].
            destruct d.
            + destruct (sexec (protected (child_of perm h)) q2 a (tl b')) as [[[[a2 b2] c2] d2]|] eqn:Q2; [|discriminate].
              inversion E; subst. assert (a x = None) by (eapply IHq2; eauto). eapply IHq1; eauto.
            + inversion E; subst. eapply IHq1; eauto. }
        eapply K; eauto.
    + apply mem_not_In in M. destruct (CH x (NI x)) as [Q|Q]; [|easy].
      rewrite G, Q. symmetry. apply GC.
  - intros y I. apply changes_keys in I. apply LK in I as [[]|I]. exact I.
Qed.
Print Assumptions c26_job_partial.

(** A command that fails in the child changes nothing in the shell. *)
Theorem c26_failed_job : forall perm h p c rs,
  exec p (child_of perm h) = (c, rs, false) -> run_job perm p h = h.
Proof. intros perm h p c rs X. unfold run_job. now rewrite X. Qed.
Print Assumptions c26_failed_job.

Example c26_case :
  let perm := [("PWD", VStr "/tmp")] in
  let h := mkh (reopen perm [("a", VInt 1)]) startup_immutable [] true in
  let p := PCall [("x", VInt 3)] (PSet "x" (VInt 5) (PSet "b" (VInt 4) PDone)) PDone in
  as_opened perm h /\ well_named p (getvar h) /\ snd (exec p (child_of perm h)) = true /\
  map (getvar (run_job perm p h)) ["PWD"; "a"; "b"; "x"]
  = [Some (VStr "/tmp"); Some (VInt 1); Some (VInt 4); None].
Proof.
  cbn. split; [|split; [|split]].
  - exists [("a", VInt 1)]. reflexivity.
  - intros x [[<-|[]]|[[]|[]]]. repeat split; auto; cbn; intuition discriminate.
  - reflexivity.
  - reflexivity.
Qed.

(** Deletions do not reach the shell. *)
Theorem c26_deletion_refuted : exists perm h x,
  as_opened perm h /\ getvar h x <> None /\
  getvar (fst (fst (exec (PDel x PDone) (child_of perm h)))) x = None /\
  snd (exec (PDel x PDone) (child_of perm h)) = true /\
  getvar (run_job perm (PDel x PDone) h) x = getvar h x.
Proof.
  exists [], (mkh (reopen [] [("a", VInt 1)]) startup_immutable [] true), "a".
  repeat split; try discriminate. now exists [("a", VInt 1)].
Qed.
Print Assumptions c26_deletion_refuted.

(** Neither do imports. *)
Theorem c26_import_refuted : exists perm h x v,
  as_opened perm h /\
  getvar (fst (fst (exec (PImport x v PDone) (child_of perm h)))) x = Some v /\
  getvar (run_job perm (PImport x v PDone) h) x = None.
Proof.
  exists [], (mkh (reopen [] []) startup_immutable [] true), "a", (VInt 1).
  repeat split. now exists [].
Qed.
Print Assumptions c26_import_refuted.

(** And a variable deleted in the shell is still seen by later jobs. *)
Theorem c26_stale_variable_refuted : forall perm h x v,
  as_opened perm h -> protected h x = false ->
  let h' := fst (fst (exec (PSet x v (PDel x PDone)) h)) in
  getvar h' x = None /\ getvar (child_of perm h') x = Some v.
Proof. intros perm h x v O L. exact (c46_deleted_refuted perm h x v O L). Qed.
Print Assumptions c26_stale_variable_refuted.
