(** C73: the contents of a trace. *)
From Verif.Ops Require Import TraceSpec ExecProps.
Set Implicit Arguments.
Local Open Scope string_scope.
Local Open Scope list_scope.

Lemma runs_app j a b : runs j (a ++ b) = runs j a ++ runs j b.
Proof. induction a as [|[] a IH]; simpl; auto. destruct (Nat.eqb i j); simpl; congruence. Qed.
Lemma reports_app j a b : reports j (a ++ b) = reports j a ++ reports j b.
Proof. induction a as [|[] a IH]; simpl; auto. destruct (Nat.eqb i j); simpl; congruence. Qed.
Lemma setups_app a b : setups (a ++ b) = setups a ++ setups b.
Proof. induction a as [|[] a IH]; simpl; congruence. Qed.
Lemma initial_refl A (l : list A) : initial_part l l.
Proof. exists []. now rewrite app_nil_r. Qed.
Lemma initial_nil A (l : list A) : initial_part [] l.
Proof. now exists l. Qed.
Lemma initial_cons A (x : A) a b : initial_part a b -> initial_part (x :: a) (x :: b).
Proof. intros [r ->]. now exists r. Qed.

Definition lres_core (S : Type) (r : lresult S) : result S := fst r.
Definition lres_log (S : Type) (r : lresult S) : list entry := snd r.

Lemma announce_some i sn rc e : sn <> None -> rc <> Some None -> exists l, announce i sn rc e = Some l.
Proof.
  intros H1 H2. destruct e; simpl; try (eexists; reflexivity).
  - destruct rc as [[n|]|]; [eexists; reflexivity|congruence|eexists; reflexivity].
  - destruct sn; [eexists; reflexivity|congruence].
  - destruct sn; [eexists; reflexivity|congruence].
Qed.

(** ** Tracing does not change a run *)
Lemma tfeed_core ms : Forall (fun m => after_setup m <> None) ms ->
  forall i sn s es, sn <> None -> lres_core (tfeed i sn ms s es) = feed (pipe (map stage_op ms)) s es.
Proof.
  induction 1 as [|m ms Hm Hms IH]; intros i sn s es Hsn.
  - cbn [map pipe]. rewrite feed_wire. revert s. induction es as [|e es IHe]; intros s; [reflexivity|].
    cbn [tfeed]. destruct (announce_some i e Hsn (rc := None)) as [l ->]; [discriminate|].
    cbn [tfeed] in IHe. specialize (IHe s).
    destruct ((fix go (s0 : unit) (es0 : list event) {struct es0} : lresult unit := _) s es) as [[[s' o] r] l'].
    cbn in IHe |- *. congruence.
  - cbn [map pipe] in s |- *. revert s. induction es as [|e es IHe]; intros s; [reflexivity|].
    cbn [tfeed feed]. destruct (announce_some i e Hsn (rc := Some (after_setup m))) as [l ->]; [congruence|].
    unfold deliver. cbn [step compose].
    destruct (step (stage_op m) (fst s) (as_input e)) as [[s1 o1] r1].
    specialize (IH (S i) (after_setup m) (snd s) o1 Hm).
    destruct (tfeed (S i) (after_setup m) ms (snd s) o1) as [[[s2 o2] r2] l2]. cbn in IH. rewrite <- IH.
    destruct (caught e (first_raise r2 r1)); try reflexivity.
    cbn [tfeed] in IHe. specialize (IHe (s1, s2)).
    destruct ((fix go (s0 : St (stage_op m) * St (pipe (map stage_op ms))) (es0 : list event) {struct es0} := _) (s1, s2) es) as [[[s3 o3] r3] l3].
    cbn in IHe |- *. cbn [compose St] in IHe. rewrite <- IHe. reflexivity.
Qed.

Lemma tfeed_end i sn ms s : tfeed i sn ms s [] = (s, [], Ok, []).
Proof. now destruct ms. Qed.
Lemma tfeed_next i n m ms s1 s2 e es n' :
  after_setup m = Some n' ->
  tfeed i (Some n) (m :: ms) (s1, s2) (e :: es) =
  let l := match e with Data x => [E_run (S i) n' x] | Err e | Fatal e => [E_error i n e] | Flush => [] end in
  let '(t1, o1, r1) := step (stage_op m) s1 (as_input e) in
  let '(t2, o2, r2, l2) := tfeed (S i) (Some n') ms s2 o1 in
  match caught e (first_raise r2 r1) with
  | Ok => let '(s3, o3, r3, l3) := tfeed i (Some n) (m :: ms) (t1, t2) es in (s3, o2 ++ o3, r3, l ++ l2 ++ l3)
  | r => ((t1, t2), o2, r, l ++ l2)
  end.
Proof.
  intros Hn. cbn [tfeed]. rewrite Hn. cbn [fst snd].
  destruct e; reflexivity.
Qed.
Lemma tfeed_wire i n s es :
  tfeed i (Some n) [] s es = (s, map as_input es, Ok, map (E_error i n) (errs es)).
Proof.
  revert s. induction es as [|e es IH]; intros s; [reflexivity|].
  cbn [tfeed] in IH |- *. specialize (IH s).
  destruct e; cbn [announce]; rewrite IH; reflexivity.
Qed.

Lemma tfeed_app i n ms (Hms : Forall (fun m => after_setup m <> None) ms) s xs ys :
  tfeed i (Some n) ms s (xs ++ ys) =
  let '(s1, o1, r1, l1) := tfeed i (Some n) ms s xs in
  match r1 with
  | Ok => let '(s2, o2, r2, l2) := tfeed i (Some n) ms s1 ys in (s2, o1 ++ o2, r2, l1 ++ l2)
  | _ => (s1, o1, r1, l1)
  end.
Proof.
  destruct Hms as [|m ms Hm Hms].
  - rewrite !tfeed_wire. rewrite map_app, errs_app, map_app. reflexivity.
  - destruct (after_setup m) as [n'|] eqn:En; [clear Hm|congruence]. cbn [map pipe compose St] in s.
    revert s. induction xs as [|e xs IH]; intros [s1 s2].
    + cbn [app]. rewrite tfeed_end. destruct (tfeed i (Some n) (m :: ms) (s1, s2) ys) as [[[? ?] ?] ?]; reflexivity.
    + cbn [app]. rewrite !(@tfeed_next i n m ms _ _ _ _ n' En). cbv zeta.
      set (l := match e with Data _ => _ | _ => _ end).
      destruct (step (stage_op m) s1 (as_input e)) as [[t1 o1] r1].
      destruct (tfeed (S i) (Some n') ms s2 o1) as [[[t2 o2] r2] l2].
      destruct (caught e (first_raise r2 r1)); try reflexivity.
      rewrite IH. destruct (tfeed i (Some n) (m :: ms) (t1, t2) xs) as [[[s3 o3] r3] l3].
      destruct r3; try reflexivity.
      destruct (tfeed i (Some n) (m :: ms) s3 ys) as [[[s4 o4] r4] l4].
      rewrite <- !app_assoc. reflexivity.
Qed.

(** Entries at and beyond a position *)
Definition beyond (i : nat) (l : list entry) : Prop :=
  forall j, (j <= i -> runs j l = []) /\ (j < i -> reports j l = []).
Lemma beyond_nil i : beyond i [].
Proof. split; reflexivity. Qed.
Lemma beyond_app i a b : beyond i a -> beyond i b -> beyond i (a ++ b).
Proof.
  intros Ha Hb j. rewrite runs_app, reports_app. destruct (Ha j) as [A1 A2], (Hb j) as [B1 B2].
  split; intros H; [rewrite A1, B1|rewrite A2, B2]; auto.
Qed.
Lemma beyond_weaken i l : beyond (S i) l -> beyond i l.
Proof. intros H j. destruct (H j) as [A B]. split; intros K; [apply A|apply B]; auto with arith. Qed.
Lemma beyond_announce i n n' e :
  beyond i (match e with Data x => [E_run (S i) n' x] | Err e | Fatal e => [E_error i n e] | Flush => [] end).
Proof.
  intros j. destruct e; cbn [runs reports]; split; intros H; auto.
  - destruct (Nat.eqb_spec (S i) j); auto; lia.
  - destruct (Nat.eqb_spec i j); auto; lia.
  - destruct (Nat.eqb_spec i j); auto; lia.
Qed.
Lemma tfeed_beyond ms : Forall (fun m => after_setup m <> None) ms -> forall i n s es,
  beyond i (lres_log (tfeed i (Some n) ms s es)).
Proof.
  induction 1 as [|m ms Hm Hms IH]; intros i n s es.
  - rewrite tfeed_wire. cbn. intros j. split; intros H.
    + induction (errs es); simpl; auto.
    + induction (errs es); simpl; auto. destruct (Nat.eqb_spec i j); auto; lia.
  - destruct (after_setup m) as [n'|] eqn:En; [clear Hm|congruence]. cbn [map pipe compose St] in s.
    revert s. induction es as [|e es IHe]; intros [s1 s2]; [rewrite tfeed_end; apply beyond_nil|].
    rewrite (@tfeed_next i n m ms _ _ _ _ n' En). cbv zeta.
    pose proof (beyond_announce i n n' e) as Hl. set (l := match e with Data _ => _ | _ => _ end) in *.
    destruct (step (stage_op m) s1 (as_input e)) as [[t1 o1] r1].
    specialize (IH (S i) n' s2 o1).
    destruct (tfeed (S i) (Some n') ms s2 o1) as [[[t2 o2] r2] l2]. cbn in IH. apply beyond_weaken in IH.
    destruct (caught e (first_raise r2 r1)); [|exact (beyond_app Hl IH)|exact (beyond_app Hl IH)].
    specialize (IHe (t1, t2)). destruct (tfeed i (Some n) (m :: ms) (t1, t2) es) as [[[s3 o3] r3] l3].
    exact (beyond_app Hl (beyond_app IH IHe)).
Qed.

(** The log below the first operator is the log of the rest of the pipeline on what that operator sends. *)
Definition same_beyond (i : nat) (a b : list entry) : Prop :=
  forall j, (i < j -> runs j a = runs j b) /\ (i <= j -> reports j a = reports j b).
Lemma same_beyond_announce i n n' e :
  same_beyond (S i) (match e with Data x => [E_run (S i) n' x] | Err e | Fatal e => [E_error i n e] | Flush => [] end) [].
Proof.
  intros j. destruct e; cbn [runs reports]; split; intros H; auto.
  - destruct (Nat.eqb_spec (S i) j); auto; lia.
  - destruct (Nat.eqb_spec i j); auto; lia.
  - destruct (Nat.eqb_spec i j); auto; lia.
Qed.
Lemma same_beyond_app i a b a' b' : same_beyond i a a' -> same_beyond i b b' -> same_beyond i (a ++ b) (a' ++ b').
Proof.
  intros Ha Hb j. rewrite !runs_app, !reports_app. destruct (Ha j) as [A1 A2], (Hb j) as [B1 B2].
  split; intros H; [rewrite A1, B1|rewrite A2, B2]; auto.
Qed.
Lemma same_beyond_refl i a : same_beyond i a a.
Proof. split; auto. Qed.

Fixpoint sent (es : list event) : list val :=
  match es with [] => [] | Data x :: es' => x :: sent es' | _ :: es' => sent es' end.
Lemma rows_sent es : rows es = map wrap (sent es).
Proof. induction es as [|[] es IH]; simpl; congruence. Qed.

Definition stage_orderly (m : stage) : Prop := orderly (stage_op m).

Lemma tfeed_peel m ms n' i n :
  after_setup m = Some n' -> Forall (fun m => after_setup m <> None) ms ->
  stage_orderly m -> Forall stage_orderly ms ->
  forall es (s1 : St (stage_op m)) (s2 : St (pipe (map stage_op ms))),
  let '(_, o, r, l) := tfeed i (Some n) (m :: ms) (s1, s2) es in
  let '(_, o1, r1) := feed (stage_op m) s1 es in
  let '(_, o2, r2, l2) := tfeed (S i) (Some n') ms s2 o1 in
  same_beyond (S i) l l2 /\ r = first_raise r2 r1 /\
  initial_part (runs (S i) l) (sent es) /\ initial_part (reports i l) (errs es) /\
  (r = Ok -> runs (S i) l = sent es /\ reports i l = errs es).
Proof.
  intros En Hms Hm Ho. unfold stage_orderly in Hm.
  assert (orderly (pipe (map stage_op ms))) as Hp.
  { apply orderly_pipe. rewrite Forall_map. exact Ho. }
  induction es as [|e es IH]; intros s1 s2.
  { rewrite tfeed_end. cbn [feed]. rewrite tfeed_end. cbn.
    repeat split; auto using initial_nil. }
  rewrite (@tfeed_next i n m ms _ _ _ _ n' En). cbv zeta. cbn [feed]. unfold deliver.
  assert (forall t2, let o1 := res_out (step (stage_op m) s1 (as_input e)) in
     let r1 := res_outcome (step (stage_op m) s1 (as_input e)) in
     let r2 := res_outcome (feed (pipe (map stage_op ms)) t2 o1) in
     caught e (first_raise r2 r1) = first_raise r2 (caught e r1)) as Hc.
  { intros t; cbv zeta. destruct e as [x|e|e|]; simpl.
    - pose proof (orderly_data_out Hm s1 (wrap x)) as H.
      destruct (orderly_feed_noflush Hp _ t H) as [_ H2].
      destruct (res_outcome (feed (pipe (map stage_op ms)) t (res_out (step (stage_op m) s1 (Data (wrap x)))))); simpl; auto; congruence.
    - reflexivity.
    - pose proof (orderly_err_out Hm s1 e) as H.
      destruct (orderly_feed_errs Hp _ t H) as [_ ->]. reflexivity.
    - reflexivity. }
  specialize (Hc s2). cbv zeta in Hc.
  destruct (step (stage_op m) s1 (as_input e)) as [[t1 o1] r1]. unfold res_out, res_outcome in Hc; cbn [fst snd] in Hc.
  assert (Some n' <> None) as Hn' by discriminate.
  pose proof (tfeed_core Hms (S i) s2 o1 Hn') as Hcore.
  pose proof (tfeed_beyond Hms (S i) n' s2 o1) as Hb2.
  pose proof (fun ys => tfeed_app (S i) n' Hms s2 o1 ys) as Happ.
  destruct (tfeed (S i) (Some n') ms s2 o1) as [[[t2 o2] r2] l2] eqn:E2.
  cbn in Hcore, Hb2. rewrite <- Hcore in Hc. cbn [snd] in Hc. rewrite Hc.
  pose proof (same_beyond_announce i n n' e) as Hl. set (l := match e with Data _ => _ | _ => _ end) in *.
  assert (runs (S i) l2 = [] /\ reports i l2 = []) as [K1 K2].
  { split; [apply Hb2|apply Hb2]; auto. }
  assert (runs (S i) l = sent [e] /\ reports i l = errs [e]) as [L1 L2].
  { destruct e; subst l; simpl; rewrite ?Nat.eqb_refl; auto. }
  assert (sent (e :: es) = sent [e] ++ sent es) as Es by (destruct e; reflexivity).
  assert (errs (e :: es) = errs [e] ++ errs es) as Ee by (destruct e; reflexivity).
  assert (forall X (p a b : list X), initial_part a b -> initial_part (p ++ a) (p ++ b)) as Hpre.
  { intros X p a b [rest ->]. exists rest. now rewrite app_assoc. }
  destruct (caught e r1) eqn:Er.
  - destruct r2; cbn [first_raise].
    + specialize (IH t1 t2). destruct (tfeed i (Some n) (m :: ms) (t1, t2) es) as [[[s3 o3] r3] l3].
      destruct (feed (stage_op m) t1 es) as [[s4 o4] r4]. rewrite (Happ o4).
      destruct (tfeed (S i) (Some n') ms t2 o4) as [[[s5 o5] r5] l5].
      destruct IH as (I1 & I2 & I3 & I4 & I5). rewrite Es, Ee, !runs_app, !reports_app, L1, L2, K1, K2. cbn [app].
      split; [|split; [exact I2|split; [auto|split; [auto|intros H; destruct (I5 H) as [-> ->]; auto]]]].
      apply (same_beyond_app Hl (same_beyond_app (same_beyond_refl _ l2) I1)).
    + destruct (feed (stage_op m) t1 es) as [[s4 o4] r4]. rewrite (Happ o4). cbv beta iota.
      rewrite Es, Ee, !runs_app, !reports_app, L1, L2, K1, K2, !app_nil_r.
      split; [apply (same_beyond_app Hl (same_beyond_refl _ l2))|]. split; [reflexivity|].
      split; [eexists; reflexivity|]. split; [eexists; reflexivity|discriminate].
    + destruct (feed (stage_op m) t1 es) as [[s4 o4] r4]. rewrite (Happ o4). cbv beta iota.
      rewrite Es, Ee, !runs_app, !reports_app, L1, L2, K1, K2, !app_nil_r.
      split; [apply (same_beyond_app Hl (same_beyond_refl _ l2))|]. split; [reflexivity|].
      split; [eexists; reflexivity|]. split; [eexists; reflexivity|discriminate].
  - rewrite E2. rewrite Es, Ee.
    destruct r2; cbn [first_raise]; rewrite ?runs_app, ?reports_app, ?L1, ?L2, ?K1, ?K2, ?app_nil_r;
      (split; [apply (same_beyond_app Hl (same_beyond_refl _ l2))|]; split; [reflexivity|];
      split; [eexists; reflexivity|]; split; [eexists; reflexivity|discriminate]).
  - rewrite E2. rewrite Es, Ee.
    destruct r2; cbn [first_raise]; rewrite ?runs_app, ?reports_app, ?L1, ?L2, ?K1, ?K2, ?app_nil_r;
      (split; [apply (same_beyond_app Hl (same_beyond_refl _ l2))|]; split; [reflexivity|];
      split; [eexists; reflexivity|]; split; [eexists; reflexivity|discriminate]).
Qed.

Fixpoint proj (k : nat) (ms : list machine) {struct ms} : St (pipe ms) -> St (pipe (firstn k ms)) :=
  match ms return St (pipe ms) -> St (pipe (firstn k ms)) with
  | [] => match k return St (pipe []) -> St (pipe (firstn k [])) with O => fun s => s | S _ => fun s => s end
  | m :: ms' =>
    match k return St (pipe (m :: ms')) -> St (pipe (firstn k (m :: ms'))) with
    | O => fun _ => tt
    | S k' => fun s => (fst s, proj k' ms' (snd s))
    end
  end.

Lemma proj_fresh ms : forall k, proj k ms (fresh (pipe ms)) = fresh (pipe (firstn k ms)).
Proof.
  induction ms as [|m ms IH]; intros [|k]; try reflexivity.
  cbn [proj firstn pipe compose fresh fst snd]. now rewrite IH.
Qed.
Lemma proj_setup ms : forall k s s', setup (pipe ms) s = Some s' -> setup (pipe (firstn k ms)) (proj k ms s) = Some (proj k ms s').
Proof.
  induction ms as [|m ms IH]; intros [|k] s s' H; try exact H; [reflexivity|].
  cbn [pipe compose St] in s. destruct s as [a b].
  change (match setup m a with None => None | Some x => match setup (pipe ms) b with None => None | Some y => Some (x, y) end end = Some s') in H.
  change (match setup m a with None => None | Some x => match setup (pipe (firstn k ms)) (proj k ms b) with None => None | Some y => Some (x, y) end end = Some (proj (S k) (m :: ms) s')).
  destruct (setup m a) as [t1|]; [|discriminate].
  destruct (setup (pipe ms) b) as [t2|] eqn:E; [|discriminate]. injection H as <-.
  rewrite (IH k _ _ E). reflexivity.
Qed.

Lemma initial_map A B (f : A -> B) a b : initial_part a b -> initial_part (map f a) (map f b).
Proof. intros [r ->]. exists (map f r). apply map_app. Qed.
Lemma rows_as_input es : rows (map as_input es) = map wrap (sent es).
Proof. induction es as [|[] es IH]; simpl; auto. now rewrite wrap_wrap, IH. Qed.
Lemma errs_as_input es : errs (map as_input es) = errs es.
Proof. induction es as [|[] es IH]; simpl; congruence. Qed.

Lemma tfeed_log ms : Forall (fun m => after_setup m <> None) ms -> Forall stage_orderly ms ->
  forall k i n s es, k <= length ms ->
  let '(_, _, r, l) := tfeed i (Some n) ms s es in
  let o := res_out (feed (pipe (firstn k (map stage_op ms))) (proj k _ s) es) in
  initial_part (reports (i + k) l) (errs o) /\
  (r = Ok -> reports (i + k) l = errs o) /\
  (k < length ms -> initial_part (map wrap (runs (S (i + k)) l)) (rows o) /\
     (r = Ok -> map wrap (runs (S (i + k)) l) = rows o)).
Proof.
  induction 1 as [|m ms Hm Hms IH]; intros Ho k i n s es Hk.
  - destruct k; [|cbn in Hk; lia]. cbn [map firstn pipe proj].
    rewrite tfeed_wire. cbn [firstn]. rewrite feed_wire. unfold res_out; cbn [fst snd].
    rewrite errs_as_input, Nat.add_0_r.
    assert (reports i (map (E_error i n) (errs es)) = errs es) as ->.
    { induction (errs es) as [|e l IHl]; cbn; auto. now rewrite Nat.eqb_refl, IHl. }
    split; [apply initial_refl|]. split; [reflexivity|]. cbn; lia.
  - destruct (after_setup m) as [n'|] eqn:En; [clear Hm|congruence].
    inversion Ho as [|m' ms' Hm Ho' E1]; subst m' ms'. cbn [map pipe compose St] in s. destruct s as [s1 s2].
    pose proof (@tfeed_peel m ms n' i n En Hms Hm Ho' es s1 s2) as P.
    destruct (tfeed i (Some n) (m :: ms) (s1, s2) es) as [[[s' o] r] l].
    destruct k as [|k].
    + cbn [map firstn pipe proj]. rewrite feed_wire. unfold res_out; cbn [fst snd].
      rewrite errs_as_input, rows_as_input, Nat.add_0_r.
      destruct (feed (stage_op m) s1 es) as [[t1 o1] r1].
      destruct (tfeed (S i) (Some n') ms s2 o1) as [[[t2 o2] r2] l2].
      destruct P as (P1 & P2 & P3 & P4 & P5).
      split; [exact P4|]. split; [intros H; apply P5, H|]. intros _. split; [apply initial_map, P3|].
      intros H. destruct (P5 H) as [-> _]. reflexivity.
    + cbn [map firstn pipe proj fst snd].
      assert (Forall orderly (firstn k (map stage_op ms))) as Hf.
      { apply Forall_forall. intros x Hx. apply (@Forall_forall _ orderly (map stage_op ms)); [rewrite Forall_map; exact Ho'|].
        rewrite <- (firstn_skipn k (map stage_op ms)). apply in_or_app; now left. }
      pose proof (@feed_seq (stage_op m) (pipe (firstn k (map stage_op ms))) Hm (orderly_pipe Hf) es s1 (proj k _ s2)) as [F _].
      rewrite F. clear F. unfold res_out at 2 4 6 8.
      destruct (feed (stage_op m) s1 es) as [[t1 o1] r1]. cbn [fst snd].
      cbn [length] in Hk. assert (k <= length ms) as Hk' by lia.
      specialize (IH Ho' k (S i) n' s2 o1 Hk').
      destruct (tfeed (S i) (Some n') ms s2 o1) as [[[t2 o2] r2] l2].
      destruct P as (P1 & P2 & _). cbv zeta in IH. destruct IH as (I1 & I2 & I3).
      replace (i + S k) with (S i + k) by lia.
      destruct (P1 (S i + k)) as [_ Q2]. destruct (P1 (S (S i + k))) as [Q1 _].
      rewrite Q2, Q1 by lia.
      assert (r = Ok -> r2 = Ok) as Hr by (rewrite P2; destruct r2; cbn; congruence).
      split; [exact I1|]. split; [intros H; apply I2, Hr, H|].
      intros H. cbn [length] in H. assert (k < length ms) as H' by lia. destruct (I3 H') as [J1 J2].
      split; [exact J1|intros K; apply J2, Hr, K].
Qed.

Lemma tsetup_setup ms : Forall representable ms -> forall i s, fst (tsetup i ms s) = setup (pipe (map stage_op ms)) s.
Proof.
  induction 1 as [|m ms' Hm Hms' IH]; intros i s; [reflexivity|].
  cbn [map pipe compose St] in s. destruct s as [a b]. destruct Hm as [Hm _].
  change (fst (tsetup i (m :: ms') (a, b)) = match setup (stage_op m) a with None => None | Some x => match setup (pipe (map stage_op ms')) b with None => None | Some y => Some (x, y) end end).
  rewrite <- (IH (S i) b). cbn [tsetup fst snd]. destruct (before_setup m) as [nm|]; [clear Hm|congruence].
  destruct (setup (stage_op m) a) as [s1|]; [|reflexivity].
  destruct (tsetup (S i) ms' b) as [[s2|] l]; reflexivity.
Qed.

Lemma texec_core b a ms src :
  b <> None -> a <> None -> Forall representable ms -> fst (texec b a ms src) = exec (pipe (map stage_op ms)) src.
Proof.
  intros Hb Ha Hms. destruct b as [n0|]; [clear Hb|congruence]. destruct a as [n|]; [clear Ha|congruence].
  assert (Forall (fun m => after_setup m <> None) ms) as Hn.
  { eapply Forall_impl; [|exact Hms]. intros m [_ H]; exact H. }
  unfold texec, texec_from, exec, exec_from. rewrite <- (tsetup_setup Hms 1).
  destruct (tsetup 1 ms (fresh (pipe (map stage_op ms)))) as [[s|] l]; [|reflexivity]. cbn [fst].
  assert (Some n <> None) as Hsn by discriminate.
  pose proof (tfeed_core Hn 0 s (fst src) Hsn) as H1.
  destruct (tfeed 0 (Some n) ms s (fst src)) as [[[s1 o1] r1] l1]. cbn in H1. rewrite <- H1.
  destruct r1; try reflexivity. destruct (snd src); try reflexivity.
  pose proof (tfeed_core Hn 0 s1 [Flush] Hsn) as H2.
  destruct (tfeed 0 (Some n) ms s1 [Flush]) as [[[s2 o2] r2] l2]. cbn [lres_core fst] in H2. rewrite <- H2. reflexivity.
Qed.

Lemma tsetup_no_runs ms : forall i s j, runs j (snd (tsetup i ms s)) = [] /\ reports j (snd (tsetup i ms s)) = [].
Proof.
  induction ms as [|m ms IH]; intros i s j; [split; reflexivity|].
  cbn [tsetup]. destruct (before_setup m); [|split; reflexivity].
  destruct (setup (stage_op m) (fst s)); [|split; reflexivity].
  specialize (IH (S i) (snd s) j). destruct (tsetup (S i) ms (snd s)). exact IH.
Qed.

Definition events_of (src : source) : list event := fst src ++ match snd src with Ok => [Flush] | _ => [] end.
Lemma exec_events m src : fst (exec m src) = match setup m (fresh m) with None => [] | Some s => res_out (feed m s (events_of src)) end.
Proof.
  destruct src as [es r0]. unfold exec, exec_from, events_of. cbn [fst snd].
  destruct (setup m (fresh m)) as [s|]; [|reflexivity]. rewrite feed_app.
  destruct (feed m s es) as [[s1 o1] r1]. destruct r1; try reflexivity.
  destruct r0; cbn [feed]; rewrite ?app_nil_r; try reflexivity.
  destruct (deliver m s1 Flush) as [[s2 o2] []]; try reflexivity.
Qed.

Lemma texec_log n0 n ms src : Forall representable ms ->
  let '((o, r), l) := texec (Some n0) (Some n) ms src in
  (exists s r' l0 l1, fst (tsetup 1 ms (fresh (pipe (map stage_op ms)))) = Some s /\
     tfeed 0 (Some n) ms s (events_of src) = (r', l1) /\
     l = E_setup 0 n0 :: l0 ++ E_start n :: l1 /\ l0 = snd (tsetup 1 ms (fresh (pipe (map stage_op ms)))) /\
     (r = Ok -> snd r' = Ok)) \/
  (r = Kill /\ l = E_setup 0 n0 :: snd (tsetup 1 ms (fresh (pipe (map stage_op ms))))).
Proof.
  intros Hms. unfold texec, texec_from.
  assert (Forall (fun m => after_setup m <> None) ms) as Hn.
  { eapply Forall_impl; [|exact Hms]. intros m [_ H]; exact H. }
  destruct (tsetup 1 ms (fresh (pipe (map stage_op ms)))) as [[s|] l] eqn:Es; [|cbn; right; split; reflexivity].
  cbn [snd fst]. pose proof (tfeed_app 0 n Hn s (fst src) (match snd src with Ok => [Flush] | _ => [] end)) as Happ.
  fold (events_of src) in Happ.
  destruct (tfeed 0 (Some n) ms s (fst src)) as [[[s1 o1] r1] l1].
  destruct r1.
  - destruct (snd src).
    + destruct (tfeed 0 (Some n) ms s1 [Flush]) as [[[s2 o2] r2] l2].
      left; eexists s, _, l, _. split; [reflexivity|]. split; [exact Happ|]. cbn [app]; rewrite <- ?app_assoc; cbn [app]; repeat split; auto.
    + rewrite tfeed_end in Happ. left; eexists s, _, l, _. split; [reflexivity|]. split; [exact Happ|].
      rewrite app_nil_r; cbn [app]; rewrite <- ?app_assoc; cbn [app]; repeat split; auto.
    + rewrite tfeed_end in Happ. left; eexists s, _, l, _. split; [reflexivity|]. split; [exact Happ|].
      rewrite app_nil_r; cbn [app]; rewrite <- ?app_assoc; cbn [app]; repeat split; auto.
  - left; eexists s, _, l, _. split; [reflexivity|]. split; [exact Happ|]. cbn [app]; rewrite <- ?app_assoc; cbn [app]; repeat split; auto.
  - left; eexists s, _, l, _. split; [reflexivity|]. split; [exact Happ|]. cbn [app]; rewrite <- ?app_assoc; cbn [app]; repeat split; auto.
Qed.


(** The values the trace shows for an operator are, in order, the ones it was given: all of them when
    the command ends normally, the ones before the command was killed otherwise.  The Errors likewise. *)
Theorem c73_trace_shows_what_happened :
  forall n0 n ms src o r l, Forall representable ms -> Forall builtin (map stage_op ms) ->
  texec (Some n0) (Some n) ms src = ((o, r), l) ->
  forall j, j <= length ms ->
  initial_part (reports j l) (errs (delivered j (map stage_op ms) src)) /\
  (r = Ok -> reports j l = errs (delivered j (map stage_op ms) src)) /\
  (j < length ms ->
     initial_part (map wrap (runs (S j) l)) (rows (delivered j (map stage_op ms) src)) /\
     (r = Ok -> map wrap (runs (S j) l) = rows (delivered j (map stage_op ms) src))).
Proof.
  intros n0 n ms src o r l Hms Hb E j Hj.
  assert (Forall (fun m => after_setup m <> None) ms) as Hn.
  { eapply Forall_impl; [|exact Hms]. intros m [_ H]; exact H. }
  assert (Forall stage_orderly ms) as Ho.
  { rewrite Forall_map in Hb. eapply Forall_impl; [|exact Hb]. intros m. apply builtin_orderly. }
  pose proof (texec_log n0 n src Hms) as H. rewrite E in H.
  destruct H as [(s & r' & l0 & l1 & E1 & E2 & -> & -> & Hr) | [-> ->]].
  - assert (forall j, runs j (E_setup 0 n0 :: snd (tsetup 1 ms (fresh (pipe (map stage_op ms)))) ++ E_start n :: l1) = runs j l1) as R1.
    { intros k. cbn [runs]. rewrite runs_app. destruct (tsetup_no_runs ms 1 (fresh (pipe (map stage_op ms))) k) as [-> _]. reflexivity. }
    assert (forall j, reports j (E_setup 0 n0 :: snd (tsetup 1 ms (fresh (pipe (map stage_op ms)))) ++ E_start n :: l1) = reports j l1) as R2.
    { intros k. cbn [reports]. rewrite reports_app. destruct (tsetup_no_runs ms 1 (fresh (pipe (map stage_op ms))) k) as [_ ->]. reflexivity. }
    rewrite R1, R2. clear R1 R2.
    pose proof (tfeed_log Hn Ho 0 n s (events_of src) Hj) as T. rewrite E2 in T. destruct r' as [[s' o'] r'].
    cbv zeta in T. rewrite Nat.add_0_l in T.
    unfold delivered. rewrite exec_events.
    rewrite (tsetup_setup Hms) in E1. rewrite <- proj_fresh, (proj_setup _ j _ E1).
    destruct T as (T1 & T2 & T3). cbn [snd] in Hr. split; [exact T1|]. split; [intros K; apply T2, Hr, K|].
    intros K. destruct (T3 K) as [T4 T5]. split; [exact T4|intros Q; apply T5, Hr, Q].
  - cbn [runs reports].
    destruct (tsetup_no_runs ms 1 (fresh (pipe (map stage_op ms))) j) as [_ ->].
    destruct (tsetup_no_runs ms 1 (fresh (pipe (map stage_op ms))) (S j)) as [-> _].
    split; [apply initial_nil|]. split; [discriminate|]. intros _. split; [apply initial_nil|discriminate].
Qed.

(** ** Each line names the operator it is about *)
Lemma tfeed_called ms : Forall (fun m => after_setup m <> None) ms -> forall i n s es e,
  In e (lres_log (tfeed i (Some n) ms s es)) ->
  match e with
  | E_run j n' _ | E_error j n' _ => i <= j /\ nth_error (Some n :: map after_setup ms) (j - i) = Some (Some n')
  | _ => False
  end.
Proof.
  induction 1 as [|m ms Hm Hms IH]; intros i n s es e Hin.
  - rewrite tfeed_wire in Hin. cbn in Hin. apply in_map_iff in Hin as (x & <- & _). rewrite Nat.sub_diag. auto.
  - destruct (after_setup m) as [n'|] eqn:En; [clear Hm|congruence]. cbn [map pipe compose St] in s.
    revert s Hin. induction es as [|ev es IHe]; intros [s1 s2] Hin; [rewrite tfeed_end in Hin; destruct Hin|].
    rewrite (@tfeed_next i n m ms _ _ _ _ n' En) in Hin. cbv zeta in Hin.
    assert (In e (match ev with Data x => [E_run (S i) n' x] | Err e | Fatal e => [E_error i n e] | Flush => [] end) ->
      match e with
      | E_run j n' _ | E_error j n' _ => i <= j /\ nth_error (Some n :: map after_setup (m :: ms)) (j - i) = Some (Some n')
      | _ => False
      end) as Hl.
    { destruct ev; cbn [In]; intros K; try contradiction; destruct K as [<-|[]].
      - split; [lia|]. replace (S i - i) with 1 by lia. cbn. now rewrite En.
      - rewrite Nat.sub_diag. auto.
      - rewrite Nat.sub_diag. auto. }
    set (l := match ev with Data _ => _ | _ => _ end) in *.
    destruct (step (stage_op m) s1 (as_input ev)) as [[t1 o1] r1].
    assert (In e (lres_log (tfeed (S i) (Some n') ms s2 o1)) ->
      match e with
      | E_run j n' _ | E_error j n' _ => i <= j /\ nth_error (Some n :: map after_setup (m :: ms)) (j - i) = Some (Some n')
      | _ => False
      end) as H2.
    { intros K. apply IH in K. destruct e; auto.
      - destruct K as [K1 K2]. split; [lia|]. replace (i0 - i) with (S (i0 - S i)) by lia. cbn [map nth_error] in *. rewrite En. exact K2.
      - destruct K as [K1 K2]. split; [lia|]. replace (i0 - i) with (S (i0 - S i)) by lia. cbn [map nth_error] in *. rewrite En. exact K2. }
    destruct (tfeed (S i) (Some n') ms s2 o1) as [[[t2 o2] r2] l2]. cbn [lres_log snd] in H2.
    destruct (caught ev (first_raise r2 r1)).
    + specialize (IHe (t1, t2)). destruct (tfeed i (Some n) (m :: ms) (t1, t2) es) as [[[s3 o3] r3] l3].
      cbn [lres_log snd] in *. apply in_app_or in Hin as [Hin|Hin]; [apply Hl, Hin|].
      apply in_app_or in Hin as [Hin|Hin]; [apply H2, Hin|]. exact (IHe Hin).
    + cbn [lres_log snd] in Hin. apply in_app_or in Hin as [Hin|Hin]; [apply Hl, Hin|apply H2, Hin].
    + cbn [lres_log snd] in Hin. apply in_app_or in Hin as [Hin|Hin]; [apply Hl, Hin|apply H2, Hin].
Qed.

Theorem c73_lines_name_their_operator :
  forall n0 n ms src o r l, Forall representable ms ->
  texec (Some n0) (Some n) ms src = ((o, r), l) ->
  called 0 n l /\
  forall j m n', nth_error ms j = Some m -> after_setup m = Some n' -> called (S j) n' l.
Proof.
  intros n0 n ms src o r l Hms E.
  assert (Forall (fun m => after_setup m <> None) ms) as Hn.
  { eapply Forall_impl; [|exact Hms]. intros m [_ H]; exact H. }
  assert (forall i s e, In e (snd (tsetup i ms s)) -> exists j m, e = E_setup j m) as Hs.
  { clear. induction ms as [|m ms IH]; intros i s e H; [destruct H|].
    cbn [tsetup] in H. destruct (before_setup m); [|destruct H].
    destruct (setup (stage_op m) (fst s)); [|destruct H as [<-|[]]; eauto].
    specialize (IH (S i) (snd s) e). destruct (tsetup (S i) ms (snd s)). destruct H as [<-|H]; eauto. }
  assert (forall e, In e l -> match e with
    | E_run j n' _ | E_error j n' _ => nth_error (Some n :: map after_setup ms) j = Some (Some n') | _ => True end) as K.
  { intros e He. pose proof (texec_log n0 n src Hms) as H. rewrite E in H.
    destruct H as [(s & r' & l0 & l1 & E1 & E2 & -> & -> & Hr) | [-> ->]].
    - destruct He as [<-|He]; [exact I|]. apply in_app_or in He as [He|He].
      + apply Hs in He as (j & m & ->). exact I.
      + destruct He as [<-|He]; [exact I|].
        pose proof (@tfeed_called ms Hn 0 n s (events_of src) e) as T. rewrite E2 in T. specialize (T He).
        destruct e; auto; rewrite Nat.sub_0_r in T; apply T.
    - destruct He as [<-|He]; [exact I|]. apply Hs in He as (j & m & ->). exact I. }
  split.
  - intros e He. specialize (K e He). destruct e; auto; intros ->; cbn in K; congruence.
  - intros j m n' Hj Hm e He. specialize (K e He).
    assert (nth_error (map after_setup ms) j = Some (Some n')) as Q by (rewrite nth_error_map, Hj; cbn; congruence).
    destruct e; auto; intros ->; cbn [nth_error] in K; congruence.
Qed.

(** When the command gets as far as being run, its operators have been announced one by one, in order. *)
Theorem c73_setup_lines :
  forall n0 n ms src o l, Forall representable ms ->
  texec (Some n0) (Some n) ms src = ((o, Ok), l) ->
  map fst (setups l) = seq 0 (S (length ms)) /\ map (fun x => Some (snd x)) (setups l) = Some n0 :: map before_setup ms.
Proof.
  intros n0 n ms src o l Hms E.
  assert (Forall (fun m => after_setup m <> None) ms) as Hn.
  { eapply Forall_impl; [|exact Hms]. intros m [_ H]; exact H. }
  pose proof (texec_log n0 n src Hms) as H. rewrite E in H.
  destruct H as [(s & r' & l0 & l1 & E1 & E2 & -> & -> & Hr) | [H _]]; [|discriminate].
  cbn [setups]. rewrite setups_app. cbn [setups].
  assert (setups l1 = []) as ->.
  { pose proof (@tfeed_called ms Hn 0 n s (events_of src)) as T. rewrite E2 in T. cbn [lres_log snd] in T. clear - T.
    induction l1 as [|e l1 IH]; [reflexivity|]. pose proof (T e (or_introl eq_refl)) as K.
    cbn [setups]. destruct e; try contradiction; apply IH; intros y Hy; apply T; now right. }
  rewrite app_nil_r. cbn [map fst snd seq].
  assert (forall i s s', fst (tsetup i ms s) = Some s' ->
    map fst (setups (snd (tsetup i ms s))) = seq i (length ms) /\
    map (fun x => Some (snd x)) (setups (snd (tsetup i ms s))) = map before_setup ms) as Hs.
  { clear. induction ms as [|m ms IH]; intros i s s' H; [split; reflexivity|].
    cbn [tsetup] in H |- *. destruct (before_setup m) as [nm|] eqn:Eb; [|discriminate].
    destruct (setup (stage_op m) (fst s)); [|discriminate].
    specialize (IH (S i) (snd s)). destruct (tsetup (S i) ms (snd s)) as [[s2|] l]; [|discriminate].
    destruct (IH _ eq_refl) as [I1 I2]. cbn [snd] in *. cbn [setups map fst snd length seq]. rewrite I1, I2, Eb. split; reflexivity. }
  destruct (Hs _ _ _ E1) as [-> ->]. split; reflexivity.
Qed.

(** ** Which commands can be traced *)
Definition has_text (o : operator) : Prop :=
  match o with O_reverse => False | O_window (Some _) _ _ => False | _ => True end.

Theorem c73_tracing_changes_nothing_partial :
  forall first_text ops src, Forall has_text ops ->
  fst (run_command true (Some first_text) (Some first_text) (map stage_of ops) src) =
  fst (run_command false (Some first_text) (Some first_text) (map stage_of ops) src).
Proof.
  intros t ops src H. cbn [run_command fst]. apply texec_core; try discriminate.
  rewrite Forall_map. eapply Forall_impl; [|exact H]. intros [] K; try contradiction; cbn in K |- *; split; try discriminate.
  all: try (destruct key as [[]|]; discriminate). all: destruct predicate; try contradiction; discriminate.
Qed.

(** reverse, and window with a predicate, have no usable text: with tracing on, a command containing one of
    them is killed during setup and delivers nothing. *)
Theorem c73_untraceable_refuted :
  forall first_text ops src, Exists (fun o => ~ has_text o) ops ->
  fst (run_command true (Some first_text) (Some first_text) (map stage_of ops) src) = ([], Kill).
Proof.
  intros t ops src H. cbn [run_command]. unfold texec, texec_from.
  assert (forall i s, fst (tsetup i (map stage_of ops) s) = None) as K.
  { induction H as [o ops Ho|o ops Ho IH]; intros i s.
    - cbn [map tsetup]. assert (before_setup (stage_of o) = None) as ->; [|reflexivity].
      destruct o; try (destruct Ho; exact I); [reflexivity|]. destruct predicate; [reflexivity|]. destruct Ho; exact I.
    - cbn [map pipe compose St] in s. destruct s as [u v].
      cbn [map tsetup fst snd]. destruct (before_setup (stage_of o)); [|reflexivity].
      destruct (setup (stage_op (stage_of o)) u); [|reflexivity].
      specialize (IH (S i) v). destruct (tsetup (S i) (map stage_of ops) v) as [[]]; [discriminate|reflexivity]. }
  specialize (K 1 (fresh (pipe (map stage_op (map stage_of ops))))).
  destruct (tsetup 1 (map stage_of ops) _) as [[]]; [discriminate|reflexivity].
Qed.

(** gen 3 | reverse: delivers 2, 1, 0 untraced and nothing when traced *)
Theorem c73_reverse_untraced :
  fst (run_command false (Some "gen(count=3, start=0)") (Some "gen(count=3, start=0)") (map stage_of [O_reverse]) (ints [0; 1; 2]%Z, Ok)) =
    ([Data (VTuple [VInt 2]); Data (VTuple [VInt 1]); Data (VTuple [VInt 0]); Flush], Ok) /\
  run_command true (Some "gen(count=3, start=0)") (Some "gen(count=3, start=0)") (map stage_of [O_reverse]) (ints [0; 1; 2]%Z, Ok) =
    ([], Kill, [E_setup 0 "gen(count=3, start=0)"]).
Proof. split; reflexivity. Qed.

(** gen 3 | map (x: x + 1) | head 2 *)
Theorem c73_a_trace :
  run_command true (Some "gen(count=3, start=0)") (Some "gen(count=3, start=0)")
    (map stage_of [O_map add_one "x: x + 1"; O_head 2]) (ints [0; 1; 2]%Z, Ok) =
  ([Data (VTuple [VInt 1]); Data (VTuple [VInt 2]); Flush], Ok,
   [E_setup 0 "gen(count=3, start=0)"; E_setup 1 "map(x: x + 1)"; E_setup 2 "head(2)"; E_start "gen(count=3, start=0)";
    E_run 1 "map(x: x + 1)" (VInt 0); E_run 2 "head(2)" (VInt 1);
    E_run 1 "map(x: x + 1)" (VInt 1); E_run 2 "head(2)" (VInt 2);
    E_run 1 "map(x: x + 1)" (VInt 2); E_run 2 "head(2)" (VInt 3)]).
Proof. reflexivity. Qed.

(** With or without tracing, it is the operators of the command that are run *)
Theorem c73_operators_meant : forall ops, map stage_op (map stage_of ops) = map meant ops.
Proof. intros ops. rewrite map_map. apply map_ext. intros []; try reflexivity; [destruct key as [[]|]|destruct predicate]; reflexivity. Qed.

(** The number on a line is the operator's argument *)
Lemma append_inj a b b' : (a ++ b)%string = (a ++ b')%string -> b = b'.
Proof. induction a as [|c a IH]; [trivial|]. cbn [String.append]. intros H. injection H as H. apply IH, H. Qed.
Lemma length_append a b : String.length (a ++ b)%string = String.length a + String.length b.
Proof. induction a as [|c a IH]; [reflexivity|]. cbn [String.append String.length]. now rewrite IH. Qed.
Lemma append_inj_r a a' c : (a ++ String c "")%string = (a' ++ String c "")%string -> a = a'.
Proof.
  revert a'. induction a as [|x a IH]; intros [|y a'] H; [reflexivity| | |].
  - apply (f_equal String.length) in H. cbn [String.append String.length] in H. rewrite length_append in H. cbn [String.length] in H. lia.
  - apply (f_equal String.length) in H. cbn [String.append String.length] in H. rewrite length_append in H. cbn [String.length] in H. lia.
  - cbn [String.append] in H. injection H as -> H. f_equal. apply IH, H.
Qed.
Lemma str_of_digits_inj a : forall b, Forall is_digit a -> Forall is_digit b -> str_of_digits a = str_of_digits b -> a = b.
Proof.
  induction a as [|x a IH]; intros [|y b] A B E; try discriminate; [reflexivity|]. cbn [str_of_digits] in E. injection E as E1 E.
  inversion A; inversion B; subst. f_equal; [|apply IH; assumption].
  apply (f_equal nat_of_ascii) in E1. rewrite !nat_of_digit in E1 by assumption. unfold is_digit in *. lia.
Qed.
Lemma dec_inj a b : dec a = dec b -> a = b.
Proof.
  assert (S : forall n l, Forall is_digit l -> ("-" ++ str_of_digits (digits n))%string <> str_of_digits l).
  { intros n [|d l] F E; [discriminate|]. cbn [str_of_digits String.append] in E. injection E as E _. inversion F; subst.
    apply (f_equal nat_of_ascii) in E. rewrite nat_of_digit in E by assumption. cbn in E. unfold is_digit in *. lia. }
  unfold dec. intros H.
  assert (D : forall n, (0 <= n)%Z -> Forall is_digit (digits n) /\ value (digits n) = n) by (intros n N; destruct (digits_spec N) as (P & Q & _); tauto).
  destruct (Z.ltb_spec a 0), (Z.ltb_spec b 0).
  - injection H as H. destruct (D (- a)%Z ltac:(lia)) as [A1 A2], (D (- b)%Z ltac:(lia)) as [B1 B2].
    apply str_of_digits_inj in H; [|assumption..]. rewrite H in A2. lia.
  - destruct (S (- a)%Z (digits b)); [apply D; lia|exact H].
  - destruct (S (- b)%Z (digits a)); [apply D; lia|symmetry; exact H].
  - destruct (D a ltac:(lia)) as [A1 A2], (D b ltac:(lia)) as [B1 B2]. apply str_of_digits_inj in H; [|assumption..]. congruence.
Qed.
Theorem c73_argument_shown : forall a b,
  (after_setup (stage_of (O_head a)) = after_setup (stage_of (O_head b)) -> a = b) /\
  (after_setup (stage_of (O_tail a)) = after_setup (stage_of (O_tail b)) -> a = b) /\
  (after_setup (stage_of (O_expand (Some a))) = after_setup (stage_of (O_expand (Some b))) -> a = b).
Proof.
  intros a b. cbn [stage_of after_setup]. 
  assert (K : forall p, Some (p ++ int_str a ++ ")")%string = Some (p ++ int_str b ++ ")")%string -> a = b).
  { intros p H. injection H as H. apply append_inj in H. apply append_inj_r in H. exact (dec_inj _ _ H). }
  repeat split; apply K.
Qed.
(** window -o 3 -d 0 is described by its options other than 0 *)
Theorem c73_descriptions :
  before_setup (stage_of (O_window None (Some 3%Z) None)) = Some "window()" /\
  after_setup (stage_of (O_window None (Some 3%Z) None)) = Some "window(overlap=3)" /\
  after_setup (stage_of (O_window None None (Some 2%Z))) = Some "window(disjoint=2)" /\
  after_setup (stage_of (O_window None (Some 3%Z) (Some 2%Z))) = Some "window(overlap=3, disjoint=2)" /\
  after_setup (stage_of (O_head 12)) = Some "head(12)" /\ after_setup (stage_of (O_tail (-1))) = Some "tail(-1)" /\
  after_setup (stage_of (O_expand (Some 0%Z))) = Some "expand(0)" /\ after_setup (stage_of (O_expand None)) = Some "expand()".
Proof. repeat split. Qed.

(** An operator whose description raises once it is set up: the first value for it ends the command *)
Theorem c73_unprintable_receiver : forall n0 n m ms s x es r,
  fst (tsetup 1 (m :: ms) (fresh (pipe (map stage_op (m :: ms))))) = Some s -> after_setup m = None ->
  fst (texec (Some n0) (Some n) (m :: ms) (Data x :: es, r)) = ([], Kill).
Proof.
  intros n0 n m ms s x es r H A. unfold texec, texec_from. destruct (tsetup 1 (m :: ms) _) as [[s'|] l]; [|discriminate].
  cbn [fst snd tfeed announce]. rewrite A. reflexivity.
Qed.
