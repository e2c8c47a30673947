From Verif.Py Require Export ValFacts.
From Verif.Exec Require Export Machine.
Set Implicit Arguments.

Definition res_out (S : Type) (r : result S) : list event := snd (fst r).
Definition res_outcome (S : Type) (r : result S) : outcome := snd r.
Definition res_st (S : Type) (r : result S) : S := fst (fst r).

Lemma rows_app a b : rows (a ++ b) = rows a ++ rows b.
Proof. induction a as [|[x|e|e|] a IH]; simpl; congruence. Qed.

Lemma errs_app a b : errs (a ++ b) = errs a ++ errs b.
Proof. induction a as [|[x|e|e|] a IH]; simpl; congruence. Qed.

Lemma flushes_app a b : flushes (a ++ b) = flushes a + flushes b.
Proof. induction a as [|[x|e|e|] a IH]; simpl; congruence. Qed.

Lemma rows_map_Data xs : rows (map Data xs) = map wrap xs.
Proof. induction xs; simpl; congruence. Qed.

Lemma feed_app m s xs ys :
  feed m s (xs ++ ys) =
  let '(s1, o1, r1) := feed m s xs in
  match r1 with
  | Ok => let '(s2, o2, r2) := feed m s1 ys in (s2, o1 ++ o2, r2)
  | _ => (s1, o1, r1)
  end.
Proof.
  revert s; induction xs as [|e xs IH]; intros s; simpl.
  - destruct (feed m s ys) as [[s2 o2] r2]; reflexivity.
  - destruct (deliver m s e) as [[s1 o1] r1]. destruct r1; auto.
    rewrite IH. destruct (feed m s1 xs) as [[s2 o2] r2]. destruct r2; auto.
    destruct (feed m s2 ys) as [[s3 o3] r3]. now rewrite app_assoc.
Qed.

(** Two machines that cannot be told apart through a relation between their states. *)
Definition simulates (a b : machine) (R : St a -> St b -> Prop) : Prop :=
  forall s t, R s t -> forall e,
    let '(s', o, r) := step a s e in
    let '(t', o', r') := step b t e in
    o = o' /\ r = r' /\ R s' t'.

Lemma simulates_feed a b R : simulates a b R ->
  forall es s t, R s t ->
    let '(s', o, r) := feed a s es in
    let '(t', o', r') := feed b t es in
    o = o' /\ r = r' /\ R s' t'.
Proof.
  intros HR; induction es as [|e es IH]; intros s t Hst; simpl; auto.
  unfold deliver. pose proof (HR s t Hst (as_input e)) as H.
  destruct (step a s (as_input e)) as [[s1 o1] r1], (step b t (as_input e)) as [[t1 o1'] r1'].
  destruct H as (-> & -> & H). destruct (caught e r1'); auto.
  specialize (IH s1 t1 H).
  destruct (feed a s1 es) as [[s2 o2] r2], (feed b t1 es) as [[t2 o2'] r2'].
  destruct IH as (-> & -> & IH). auto.
Qed.

(** Operators whose handlers are orderly: nothing but Errors comes out while an Error is handled, no
    end-of-stream comes out while a tuple is handled, and forwarding an Error never raises. *)
Definition is_err (e : event) : bool := match e with Err _ | Fatal _ => true | _ => false end.
Definition not_flush (e : event) : bool := match e with Flush => false | _ => true end.

Record orderly (m : machine) : Prop := {
  orderly_err_out : forall s e, forallb is_err (res_out (step m s (Err e))) = true;
  orderly_err_ok : forall s e, res_outcome (step m s (Err e)) = Ok;
  orderly_data_out : forall s x, forallb not_flush (res_out (step m s (Data x))) = true }.

Lemma is_err_not_flush es : forallb is_err es = true -> forallb not_flush es = true.
Proof. induction es as [|[x|e|e|] es IH]; simpl; auto; discriminate. Qed.

Lemma orderly_feed_errs m : orderly m -> forall es s, forallb is_err es = true ->
  forallb is_err (res_out (feed m s es)) = true /\ res_outcome (feed m s es) = Ok.
Proof.
  intros Hm es; induction es as [|e es IH]; intros s; simpl; auto.
  rewrite andb_true_iff; intros [He Hes]. unfold deliver.
  assert (exists e', as_input e = Err e') as [e' Ee] by (destruct e; simpl in *; try discriminate; eauto).
  rewrite Ee. pose proof (orderly_err_out Hm s e') as H1. pose proof (orderly_err_ok Hm s e') as H2.
  destruct (step m s (Err e')) as [[s1 o1] r1]. unfold res_out, res_outcome in *; simpl in *. subst r1.
  assert (caught e Ok = Ok) as -> by (destruct e; auto).
  specialize (IH s1 Hes). destruct (feed m s1 es) as [[s2 o2] r2]. simpl in *.
  rewrite forallb_app, H1. tauto.
Qed.

Lemma orderly_feed_noflush m : orderly m -> forall es s, forallb not_flush es = true ->
  forallb not_flush (res_out (feed m s es)) = true /\ res_outcome (feed m s es) <> Resume.
Proof.
  intros Hm es; induction es as [|e es IH]; intros s; simpl.
  { intros _; unfold res_outcome; simpl; split; congruence. }
  rewrite andb_true_iff; intros [He Hes]. unfold deliver.
  assert (forallb not_flush (res_out (step m s (as_input e))) = true /\
          caught e (res_outcome (step m s (as_input e))) <> Resume) as [H1 H2].
  { destruct e as [x|e|e|]; simpl in *; try discriminate.
    - split; [apply (orderly_data_out Hm)|]. destruct (res_outcome (step m s (Data (wrap x)))); congruence.
    - split; [apply is_err_not_flush, (orderly_err_out Hm)|]. rewrite (orderly_err_ok Hm); congruence.
    - split; [apply is_err_not_flush, (orderly_err_out Hm)|]. congruence. }
  destruct (step m s (as_input e)) as [[s1 o1] r1]. unfold res_out, res_outcome in *; simpl in *.
  destruct (caught e r1) eqn:Ec; simpl; try tauto.
  specialize (IH s1 Hes). destruct (feed m s1 es) as [[s2 o2] r2]. simpl in *.
  rewrite forallb_app, H1. tauto.
Qed.

Lemma orderly_seq a b : orderly a -> orderly b -> orderly (compose a b).
Proof.
  intros Ha Hb; split; intros [s1 s2] x; simpl.
  - pose proof (orderly_err_out Ha s1 x) as H. destruct (step a s1 (Err x)) as [[s1' o1] r1].
    pose proof (orderly_feed_errs Hb o1 s2 H) as [H2 _].
    destruct (feed b s2 o1) as [[s2' o2] r2]. exact H2.
  - pose proof (orderly_err_out Ha s1 x) as H. pose proof (orderly_err_ok Ha s1 x) as Hr.
    destruct (step a s1 (Err x)) as [[s1' o1] r1].
    pose proof (orderly_feed_errs Hb o1 s2 H) as [_ H2].
    destruct (feed b s2 o1) as [[s2' o2] r2]. unfold res_outcome in *; simpl in *. now subst.
  - pose proof (orderly_data_out Ha s1 x) as H. destruct (step a s1 (Data x)) as [[s1' o1] r1].
    pose proof (orderly_feed_noflush Hb o1 s2 H) as [H2 _].
    destruct (feed b s2 o1) as [[s2' o2] r2]. exact H2.
Qed.

Lemma orderly_wire : orderly wire.
Proof. split; intros; reflexivity. Qed.

Lemma orderly_pipe ms : Forall orderly ms -> orderly (pipe ms).
Proof. induction 1; simpl; auto using orderly_wire, orderly_seq. Qed.

(** The composition law on streams. *)
Lemma feed_seq a b : orderly a -> orderly b -> forall es s t,
  res_out (feed (compose a b) (s, t) es) = res_out (feed b t (res_out (feed a s es))) /\
  res_outcome (feed (compose a b) (s, t) es) =
    first_raise (res_outcome (feed b t (res_out (feed a s es)))) (res_outcome (feed a s es)).
Proof.
  intros Ha Hb es; induction es as [|e es IH]; intros s t; simpl; auto.
  unfold deliver; simpl.
  assert (forall t, caught e (first_raise (res_outcome (feed b t (res_out (step a s (as_input e)))))
                                (res_outcome (step a s (as_input e)))) =
          first_raise (res_outcome (feed b t (res_out (step a s (as_input e)))))
            (caught e (res_outcome (step a s (as_input e))))) as Hc.
  { clear t; intros t. destruct e as [x|e|e|]; simpl.
    - pose proof (orderly_data_out Ha s (wrap x)) as H.
      destruct (orderly_feed_noflush Hb _ t H) as [_ H2].
      destruct (res_outcome (feed b t (res_out (step a s (Data (wrap x)))))); simpl; auto; congruence.
    - reflexivity.
    - pose proof (orderly_err_out Ha s e) as H.
      destruct (orderly_feed_errs Hb _ t H) as [_ ->]. reflexivity.
    - reflexivity. }
  specialize (Hc t).
  destruct (step a s (as_input e)) as [[s1 o1] r1]. unfold res_out, res_outcome in Hc; simpl in Hc.
  destruct (feed b t o1) as [[t1 o2] r2] eqn:Eb. simpl in Hc. rewrite Hc.
  destruct (caught e r1) eqn:Er.
  - destruct r2; simpl.
    + specialize (IH s1 t1).
      destruct (feed (compose a b) (s1, t1) es) as [[[s3 t3] o3] r3].
      destruct (feed a s1 es) as [[s4 o4] r4]. unfold res_out, res_outcome in *; simpl in *.
      rewrite feed_app, Eb. destruct IH as [-> ->].
      destruct (feed b t1 o4) as [[t5 o5] r5]; auto.
    + destruct (feed a s1 es) as [[s4 o4] r4]. unfold res_out, res_outcome in *; simpl in *.
      rewrite feed_app, Eb; auto.
    + destruct (feed a s1 es) as [[s4 o4] r4]. unfold res_out, res_outcome in *; simpl in *.
      rewrite feed_app, Eb; auto.
  - unfold res_out, res_outcome; simpl. rewrite Eb; simpl. destruct r2; auto.
  - unfold res_out, res_outcome; simpl. rewrite Eb; simpl. destruct r2; auto.
Qed.

(** Everything a machine, freshly set up, does with a stream. *)
Definition through (m : machine) (es : list event) : source :=
  match setup m (fresh m) with
  | None => ([], Kill)
  | Some s => let '(_, o, r) := feed m s es in (o, r)
  end.

Lemma exec_through m es r0 :
  exec m (es, r0) =
  match r0 with
  | Ok => through m (es ++ [Flush])
  | _ => let '(o, r) := through m es in (o, first_raise r r0)
  end.
Proof.
  unfold exec, exec_from, through; simpl.
  destruct (setup m (fresh m)) as [s|]; [|destruct r0; reflexivity].
  destruct r0.
  - rewrite feed_app. destruct (feed m s es) as [[s1 o1] r1]. destruct r1; auto.
  - destruct (feed m s es) as [[s1 o1] r1]. destruct r1; auto.
  - destruct (feed m s es) as [[s1 o1] r1]. destruct r1; auto.
Qed.

Lemma first_raise_assoc a b c : first_raise a (first_raise b c) = first_raise (first_raise a b) c.
Proof. now destruct a. Qed.

Lemma feed_wire s es : feed wire s es = (s, map as_input es, Ok).
Proof.
  destruct s. induction es as [|e es IH]; simpl; auto. unfold deliver; simpl.
  assert (caught e Ok = Ok) as -> by (destruct e; auto). now rewrite IH.
Qed.

Lemma as_input_idem e : as_input (as_input e) = as_input e.
Proof. destruct e; simpl; auto. now rewrite wrap_wrap. Qed.

(** An orderly consumer does not notice that the events were normalised by [wire]. *)
Lemma feed_normalised m : orderly m -> forall es s, feed m s (map as_input es) = feed m s es.
Proof.
  intros Hm es; induction es as [|e es IH]; intros s; simpl; auto.
  unfold deliver. rewrite as_input_idem.
  assert (let '(_, _, r) := step m s (as_input e) in caught (as_input e) r = caught e r) as Hc.
  { destruct e as [x|e|e|]; simpl; try (destruct (step m s _) as [[? ?] ?]; reflexivity).
    pose proof (orderly_err_ok Hm s e) as H. destruct (step m s (Err e)) as [[? ?] ?].
    unfold res_outcome in H; simpl in *. now subst. }
  destruct (step m s (as_input e)) as [[s1 o1] r1]. rewrite Hc. destruct (caught e r1); auto.
  now rewrite IH.
Qed.

Lemma seq_assoc_feed a b c : orderly a -> orderly b -> orderly c -> forall es s t u,
  res_out (feed (compose (compose a b) c) ((s, t), u) es) = res_out (feed (compose a (compose b c)) (s, (t, u)) es) /\
  res_outcome (feed (compose (compose a b) c) ((s, t), u) es) =
    res_outcome (feed (compose a (compose b c)) (s, (t, u)) es).
Proof.
  intros Ha Hb Hc es s t u.
  destruct (feed_seq (orderly_seq Ha Hb) Hc es (s, t) u) as [A1 A2].
  destruct (feed_seq Ha (orderly_seq Hb Hc) es s (t, u)) as [B1 B2].
  destruct (feed_seq Ha Hb es s t) as [C1 C2].
  destruct (feed_seq Hb Hc (res_out (feed a s es)) t u) as [D1 D2].
  split.
  - refine (eq_trans A1 (eq_trans _ (eq_sym B1))).
    exact (eq_trans (f_equal (fun o => res_out (feed c u o)) C1) (eq_sym D1)).
  - refine (eq_trans A2 (eq_trans _ (eq_sym B2))).
    refine (eq_trans (f_equal2 first_raise (f_equal (fun o => res_outcome (feed c u o)) C1) C2) _).
    refine (eq_trans _ (f_equal2 first_raise (eq_sym D2) eq_refl)).
    apply first_raise_assoc.
Qed.

Lemma through_seq a b : orderly a -> orderly b -> forall es,
  through (compose a b) es =
  let '(o1, r1) := through a es in
  let '(o2, r2) := through b o1 in
  (o2, first_raise r2 r1).
Proof.
  intros Ha Hb es. unfold through; simpl.
  destruct (setup a (fresh a)) as [s|]; [|destruct (setup b (fresh b)) as [t|]; reflexivity].
  destruct (setup b (fresh b)) as [t|].
  - destruct (feed_seq Ha Hb es s t) as [H1 H2].
    destruct (feed (compose a b) (s, t) es) as [[[s' t'] o] r].
    destruct (feed a s es) as [[s1 o1] r1]. unfold res_out, res_outcome in *; simpl in *.
    destruct (feed b t o1) as [[t1 o2] r2]. simpl in *. now subst.
  - destruct (feed a s es) as [[s1 o1] r1]. reflexivity.
Qed.

Lemma through_normalised m : orderly m -> forall es, through m (map as_input es) = through m es.
Proof.
  intros Hm es; unfold through. destruct (setup m (fresh m)); auto. now rewrite feed_normalised.
Qed.

Lemma through_wire es : through wire es = (map as_input es, Ok).
Proof. unfold through; simpl. now rewrite feed_wire. Qed.

Lemma through_pipe_app ms1 ms2 : Forall orderly ms1 -> Forall orderly ms2 -> forall es,
  through (pipe (ms1 ++ ms2)) es =
  let '(o1, r1) := through (pipe ms1) es in
  let '(o2, r2) := through (pipe ms2) o1 in
  (o2, first_raise r2 r1).
Proof.
  intros H1 H2; induction H1 as [|m ms1 Hm H1 IH]; intros es.
  - cbn [app pipe]. rewrite through_wire, through_normalised by now apply orderly_pipe.
    destruct (through (pipe ms2) es) as [o r]. now destruct r.
  - cbn [app pipe].
    rewrite !through_seq; auto using orderly_pipe.
    2:{ apply orderly_pipe. rewrite Forall_app; auto. }
    destruct (through m es) as [o1 r1]. rewrite IH.
    destruct (through (pipe ms1) o1) as [o2 r2]. destruct (through (pipe ms2) o2) as [o3 r3].
    f_equal. now rewrite first_raise_assoc.
Qed.

Lemma orderly_mk_op (S : Type) (s0 : S) su receive flush :
  (forall s x, forallb not_flush (res_out (receive s x)) = true) ->
  orderly (mk_op s0 su receive flush).
Proof. intros H; split; intros; simpl; auto. Qed.
