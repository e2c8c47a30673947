(** C56: what sql makes permanent, and when. *)
From Verif.Sys Require Export Sql SqlSpec.
Set Implicit Arguments.
Local Open Scope Z_scope.
Local Open Scope list_scope.

Section Props.
Variables D A : Type.
Variable exec : D -> A -> option (D * Z).
Variable deferred : D -> bool.

Lemma executed_app : forall d xs ns d1 ys ms d2, executed exec d xs ns d1 -> executed exec d1 ys ms d2 ->
  executed exec d (xs ++ ys) (ns ++ ms) d2.
Proof. induction 1; intros; cbn; [assumption | econstructor; eauto]. Qed.
Lemma executed_one : forall d a d1 n, exec d a = Some (d1, n) -> executed exec d [a] [n] d1.
Proof. intros. econstructor; [eassumption | constructor]. Qed.
Lemma executed_fun : forall d xs ns d1, executed exec d xs ns d1 -> forall ns' d1', executed exec d xs ns' d1' -> ns = ns' /\ d1 = d1'.
Proof.
  induction 1 as [d | d a d1 n xs ns d' E X IH]; intros ns' d1' H'; inversion H' as [ | ? ? d2 m ? ms ? E' X']; subst; [auto | ].
  rewrite E in E'. injection E' as <- <-. destruct (IH _ _ X') as [-> ->]. auto.
Qed.

Lemma statements_app : forall (l l' : list (action A)), statements (l ++ l') = statements l ++ statements l'.
Proof. induction l as [ | x l IH]; intros; [reflexivity | ]. destruct x; cbn; now rewrite IH. Qed.
Lemma replay_app : forall c l l', replay exec deferred c (l ++ l') = replay exec deferred (replay exec deferred c l) l'.
Proof. intros. apply fold_left_app. Qed.
Lemma sum_app : forall a b, sum (a ++ b) = sum a + sum b.
Proof. induction a as [ | x a IH]; intros b; [reflexivity | ]. cbn [app sum fold_right]. fold (sum (a ++ b)). fold (sum a). rewrite IH. lia. Qed.

Variable o : options.
Variable d0 : D.
Let start := connect o d0.

(** Between two inputs *)
Definition inv (l : list (action A)) (c : conn D) (total : Z) : Prop :=
  c = replay exec deferred start l /\ closed c = false /\ auto c = autocommit o /\
  exists done pending ns1 ns2,
    statements l = done ++ pending /\ executed exec d0 done ns1 (committed c) /\
    executed exec (committed c) pending ns2 (working c) /\
    (autocommit o = true -> pending = []) /\
    (autocommit o = false -> every o <= 0 \/ select o = true -> done = []) /\
    (autocommit o = false -> 0 < every o -> select o = false -> sum ns2 = total /\ total < every o).

(** At any moment *)
Definition at_crash (p : list (action A)) : Prop :=
  exists done pending failed ns1 ns2 dw,
    statements p = done ++ pending ++ failed /\ (length failed <= 1)%nat /\
    executed exec d0 done ns1 (committed (replay exec deferred start p)) /\
    executed exec (committed (replay exec deferred start p)) pending ns2 dw /\
    (autocommit o = true -> pending = []) /\
    (autocommit o = false -> every o <= 0 \/ select o = true -> done = []) /\
    (autocommit o = false -> 0 < every o -> select o = false -> sum ns2 < every o \/ exists ns n, ns2 = ns ++ [n] /\ sum ns < every o).

Lemma inv_at_crash : forall l c total, inv l c total -> at_crash l.
Proof.
  intros l c total (E & _ & _ & done & pending & ns1 & ns2 & S & X1 & X2 & H1 & H2 & H3).
  exists done, pending, [], ns1, ns2, (working c). rewrite <- E. rewrite app_nil_r. repeat split; auto.
  intros a b e. left. destruct (H3 a b e). lia.
Qed.

(** What does not change the committed state does not change the claim. *)
Lemma at_crash_same : forall p x, at_crash p -> (forall a, x <> Execute a) ->
  committed (replay exec deferred start (p ++ [x])) = committed (replay exec deferred start p) -> at_crash (p ++ [x]).
Proof.
  intros p x (done & pending & failed & ns1 & ns2 & dw & S & L & X1 & X2 & H) N E.
  exists done, pending, failed, ns1, ns2, dw. rewrite E. rewrite statements_app, S.
  assert (statements [x] = []) as -> by (destruct x; [ | reflexivity ..]; destruct (N a); reflexivity).
  rewrite app_nil_r. repeat split; auto; apply H.
Qed.

Lemma rollback_same : forall c : conn D, committed (fst (perform (A := A) exec deferred c (Rollback A))) = committed c.
Proof. intros c. unfold perform. destruct (closed c); reflexivity. Qed.

Lemma replay_one : forall l x, replay exec deferred start (l ++ [x]) = fst (perform exec deferred (replay exec deferred start l) x).
Proof. intros. rewrite replay_app. reflexivity. Qed.

Ltac prefixes H := 
  let r := fresh "r" in destruct H as [r H];
  repeat match goal with
  | H : _ :: _ = ?p ++ _ |- _ => destruct p; cbn in H; [ | injection H as <- H]
  | H : [] = ?p ++ _ |- _ => destruct p; [ | discriminate H]
  end.

Lemma give_up_ok : forall (c : conn D), closed c = false ->
  exists c', give_up (A := A) exec deferred c = ([Rollback A], c', Killed) /\ c' = fst (perform exec deferred c (Rollback A)) /\ closed c' = false.
Proof. intros c H. unfold give_up, perform. rewrite H. eexists. split; [reflexivity | ]. split; reflexivity. Qed.

(** One input.  [l2]: what follows the statement *)
Lemma receive_ok : forall l0 c total a r l c' total' e, inv l0 c total ->
  receive exec deferred o c total a r = (l, c', total', e) ->
  (forall p, prefix p l -> at_crash (l0 ++ p)) /\
  (e = Continue -> inv (l0 ++ l) c' total' /\ statements l = [a] /\ exec (working c) a <> None) /\
  (e = Continue \/ e = Killed) /\ closed c' = false /\ c' = replay exec deferred start (l0 ++ l) /\
  statements l = [a].
Proof.
  intros l0 c total a r l c' total' e I R.
  pose proof (inv_at_crash I) as P0.
  destruct I as (E & CL & AU & done & pending & ns1 & ns2 & S & X1 & X2 & H1 & H2 & H3).
  assert (P0' : at_crash (l0 ++ [])) by now rewrite app_nil_r.
  unfold receive in R. unfold perform in R at 1. rewrite CL in R.
  destruct (exec (working c) a) as [[d n] | ] eqn:EX.
  2:{ (* the statement fails *)
    destruct (give_up_ok c CL) as (c2 & G & Gc & Gcl). rewrite G in R. injection R as <- <- <- <-.
    assert (R1 : replay exec deferred start (l0 ++ [Execute a]) = c).
    { rewrite replay_one, <- E. unfold perform. rewrite CL, EX. reflexivity. }
    assert (P1 : at_crash (l0 ++ [Execute a])).
    { exists done, pending, [a], ns1, ns2, (working c). rewrite R1, statements_app, S. cbn [statements]. rewrite app_assoc.
      repeat split; auto. intros x y z. left. destruct (H3 x y z). lia. }
    assert (P2 : at_crash (l0 ++ [Execute a; Rollback A])).
    { change [Execute a; Rollback A] with ([Execute a] ++ [Rollback A]). rewrite app_assoc. apply at_crash_same; [assumption | discriminate | ].
      rewrite (replay_one (l0 ++ [Execute a])). apply rollback_same. }
    split; [intros p Hp; prefixes Hp; assumption | ]. split; [discriminate | ]. split; [auto | ]. split; [assumption | ]. split; [ | reflexivity].
    change [Execute a; Rollback A] with ([Execute a] ++ [Rollback A]). rewrite app_assoc, replay_one, R1. assumption. }
  set (c1 := mkconn (if auto c then d else committed c) d (auto c) false) in *.
  assert (R1 : replay exec deferred start (l0 ++ [Execute a]) = c1).
  { rewrite replay_one, <- E. unfold perform. rewrite CL, EX. reflexivity. }
  (* the claim after the statement, and the invariant if no commit is due *)
  assert (P1 : at_crash (l0 ++ [Execute a])).
  { destruct (autocommit o) eqn:AO.
    - exists (done ++ [a]), [], [], (ns1 ++ [n]), [], d. rewrite R1, statements_app, S, (H1 eq_refl). cbn [statements]. unfold c1. rewrite AU. cbn [committed].
      rewrite !app_nil_r. repeat split; auto; try discriminate; try congruence; try constructor.
      apply executed_app with (d1 := committed c); [assumption | ]. apply executed_one.
      rewrite (H1 eq_refl) in X2. inversion X2; subst. congruence.
    - exists done, (pending ++ [a]), [], ns1, (ns2 ++ [n]), d. rewrite R1, statements_app, S. cbn [statements]. unfold c1. rewrite AU. cbn [committed].
      rewrite !app_nil_r, app_assoc. split; [reflexivity | ]. split; [cbn; lia | ]. split; [assumption | ].
      split; [apply executed_app with (d1 := working c); [assumption | now apply executed_one] | ].
      split; [congruence | ]. split; [intros _; apply (H2 eq_refl) | ].
      intros _ y z. right. exists ns2, n. split; [reflexivity | ]. destruct (H3 eq_refl y z). lia. }
  destruct (if select o then ([], total) else commit_if_necessary A o total n) as [acts t1] eqn:CN.
  assert (CNcases : (acts = [] /\
             (autocommit o = false -> 0 < every o -> select o = false -> t1 = total + n /\ total + n < every o)) \/
           (acts = [Commit A] /\ t1 = 0 /\ autocommit o = false /\ 0 < every o /\ select o = false)).
  { destruct (select o) eqn:SO; [injection CN as <- <-; left; split; [reflexivity | congruence] | ].
    unfold commit_if_necessary in CN. destruct (autocommit o) eqn:AO; cbn [negb andb] in CN.
    - injection CN as <- <-. left. split; [reflexivity | discriminate].
    - destruct (Z.gtb_spec (every o) 0).
      + destruct (Z.geb_spec (total + n) (every o)); injection CN as <- <-.
        * right. repeat split; auto; lia.
        * left. split; [reflexivity | ]. intros. split; [reflexivity | lia].
      + injection CN as <- <-. left. split; [reflexivity | lia]. }
  assert (CL1 : closed c1 = false) by reflexivity.
  destruct CNcases as [[-> T] | (-> & -> & AO & EV & SO)].
  - (* no commit *)
    assert (I1 : inv (l0 ++ [Execute a]) c1 t1).
    { split; [now rewrite R1 | ]. split; [reflexivity | ]. split; [assumption | ].
      destruct (autocommit o) eqn:AO.
      - exists (done ++ [a]), [], (ns1 ++ [n]), []. rewrite statements_app, S, (H1 eq_refl). cbn [statements]. unfold c1. rewrite AU. cbn [committed working].
        rewrite !app_nil_r. repeat split; auto; try discriminate; try congruence; try constructor.
        apply executed_app with (d1 := committed c); [assumption | ]. apply executed_one.
        rewrite (H1 eq_refl) in X2. inversion X2; subst. congruence.
      - exists done, (pending ++ [a]), ns1, (ns2 ++ [n]). rewrite statements_app, S. cbn [statements]. unfold c1. rewrite AU. cbn [committed working].
        rewrite app_assoc. split; [reflexivity | ]. split; [assumption | ].
        split; [apply executed_app with (d1 := working c); [assumption | now apply executed_one] | ].
        split; [congruence | ]. split; [intros _; apply (H2 eq_refl) | ]. intros _ y z. destruct (H3 eq_refl y z), (T eq_refl y z). rewrite sum_app. cbn. lia. }
    destruct (if select o || counts o then r else Fine); cbn [app] in R.
    + injection R as <- <- <- <-. split; [intros p Hp; prefixes Hp; assumption | ]. split; [intros _; split; [assumption | split; [reflexivity | discriminate]] | ].
      split; [auto | ]. split; [reflexivity | ]. split; [now rewrite R1 | reflexivity].
    + injection R as <- <- <- <-. split; [intros p Hp; prefixes Hp; assumption | ]. split; [discriminate | ].
      split; [auto | ]. split; [reflexivity | ]. split; [now rewrite R1 | reflexivity].
    + destruct (give_up_ok c1 CL1) as (c2 & G & Gc & Gcl). rewrite G in R. injection R as <- <- <- <-.
      assert (P2 : at_crash (l0 ++ [Execute a; Rollback A])).
      { change [Execute a; Rollback A] with ([Execute a] ++ [Rollback A]). rewrite app_assoc. apply at_crash_same; [assumption | discriminate | ].
        rewrite (replay_one (l0 ++ [Execute a])). apply rollback_same. }
      split; [intros p Hp; prefixes Hp; assumption | ]. split; [discriminate | ]. split; [auto | ]. split; [assumption | ]. split; [ | reflexivity].
      change [Execute a; Rollback A] with ([Execute a] ++ [Rollback A]). rewrite app_assoc, replay_one, R1. assumption.
  - (* a commit is due *)
    unfold perform in R at 1. rewrite CL1 in R. unfold c1 in R at 1 2. cbn [auto working closed] in R. rewrite AU, AO in R. cbn [orb] in R.
    assert (RC : replay exec deferred start (l0 ++ [Execute a; Commit A]) = fst (perform exec deferred c1 (Commit A))).
    { change [Execute a; Commit A] with ([Execute a] ++ [Commit A]). now rewrite app_assoc, replay_one, R1. }
    unfold perform in RC. rewrite CL1 in RC. unfold c1 in RC at 1 2. cbn [auto working closed] in RC. rewrite AU, AO in RC. cbn [orb] in RC.
    destruct (deferred d) eqn:DF; cbn [fst] in RC.
    + (* it succeeds *)
      unfold c1 in R, RC. cbn [working committed auto] in R, RC. rewrite AU, AO in R, RC. set (c2 := mkconn d d false false) in *.
      assert (EA : executed exec d0 (done ++ pending ++ [a]) (ns1 ++ ns2 ++ [n]) d).
      { apply executed_app with (d1 := committed c); [assumption | ]. apply executed_app with (d1 := working c); [assumption | ].
        now apply executed_one. }
      assert (I2 : inv (l0 ++ [Execute a; Commit A]) c2 0).
      { split; [now rewrite RC | ]. split; [reflexivity | ]. split; [now rewrite AO | ].
        exists (done ++ pending ++ [a]), [], (ns1 ++ ns2 ++ [n]), []. rewrite statements_app, S. cbn [statements]. rewrite app_nil_r, <- app_assoc.
        split; [reflexivity | ]. split; [assumption | ]. split; [constructor | ]. split; [reflexivity | ].
        split; [intros _ [ | ]; [lia | congruence] | ]. intros. split; [reflexivity | assumption]. }
      pose proof (inv_at_crash I2) as P2.
      destruct (if select o || counts o then r else Fine); cbn [app] in R.
      * injection R as <- <- <- <-. split; [intros p Hp; prefixes Hp; assumption | ]. split; [intros _; split; [assumption | split; [reflexivity | discriminate]] | ].
        split; [auto | ]. split; [reflexivity | ]. split; [now rewrite RC | reflexivity].
      * injection R as <- <- <- <-. split; [intros p Hp; prefixes Hp; assumption | ]. split; [discriminate | ].
        split; [auto | ]. split; [reflexivity | ]. split; [now rewrite RC | reflexivity].
      * destruct (give_up_ok c2 eq_refl) as (c3 & G & Gc & Gcl). rewrite G in R. injection R as <- <- <- <-.
        assert (P3 : at_crash (l0 ++ [Execute a; Commit A; Rollback A])).
        { change [Execute a; Commit A; Rollback A] with ([Execute a; Commit A] ++ [Rollback A]). rewrite app_assoc. apply at_crash_same; [assumption | discriminate | ].
          rewrite (replay_one (l0 ++ [Execute a; Commit A])). apply rollback_same. }
        split; [intros p Hp; prefixes Hp; assumption | ]. split; [discriminate | ]. split; [auto | ]. split; [assumption | ]. split; [ | reflexivity].
        change [Execute a; Commit A; Rollback A] with ([Execute a; Commit A] ++ [Rollback A]). rewrite app_assoc, replay_one, RC. assumption.
    + (* it fails *)
      unfold c1 in R, RC. cbn [working committed auto] in R, RC. rewrite AU, AO in R, RC. set (c2 := mkconn (committed c) (committed c) false false) in *.
      assert (P2 : at_crash (l0 ++ [Execute a; Commit A])).
      { change [Execute a; Commit A] with ([Execute a] ++ [Commit A]). rewrite app_assoc. apply at_crash_same; [assumption | discriminate | ].
        rewrite <- app_assoc. cbn [app]. rewrite RC, R1. unfold c1. rewrite AU, AO. reflexivity. }
      destruct (give_up_ok c2 eq_refl) as (c3 & G & Gc & Gcl). rewrite G in R. cbn [app] in R. injection R as <- <- <- <-.
      assert (P3 : at_crash (l0 ++ [Execute a; Commit A; Rollback A])).
      { change [Execute a; Commit A; Rollback A] with ([Execute a; Commit A] ++ [Rollback A]). rewrite app_assoc. apply at_crash_same; [assumption | discriminate | ].
        rewrite (replay_one (l0 ++ [Execute a; Commit A])). apply rollback_same. }
      split; [intros p Hp; prefixes Hp; assumption | ]. split; [discriminate | ]. split; [auto | ]. split; [assumption | ]. split; [ | reflexivity].
      change [Execute a; Commit A; Rollback A] with ([Execute a; Commit A] ++ [Rollback A]). rewrite app_assoc, replay_one, RC. assumption.
Qed.

Lemma prefix_app : forall (p l l' : list (action A)), prefix p (l ++ l') -> prefix p l \/ exists q, p = l ++ q /\ prefix q l'.
Proof.
  induction p as [ | x p IH]; intros l l' [r E].
  - left. exists l. reflexivity.
  - destruct l as [ | y l]; cbn in E.
    + right. exists (x :: p). split; [reflexivity | ]. exists r. exact E.
    + injection E as <- E. destruct (IH l l') as [[r' ->] | (q & -> & Q)].
      * exists r. exact E.
      * left. exists r'. reflexivity.
      * right. exists q. split; [reflexivity | exact Q].
Qed.

Lemma feed_ok : forall xs l0 c total l c' e, inv l0 c total -> feed exec deferred o c total xs = (l, c', e) ->
  (forall p, prefix p l -> at_crash (l0 ++ p)) /\
  (e = Continue -> statements l = map fst xs /\ exists t, inv (l0 ++ l) c' t) /\
  (e = Continue \/ e = Killed) /\ closed c' = false /\ c' = replay exec deferred start (l0 ++ l) /\
  exists rest, map fst xs = statements l ++ rest.
Proof.
  induction xs as [ | [a r] xs IH]; intros l0 c total l c' e I F; cbn [feed] in F.
  - injection F as <- <- <-. split; [ | split; [ | split; [ | split; [ | split]]]].
    + intros p Hp. prefixes Hp. rewrite app_nil_r. exact (inv_at_crash I).
    + intros _. split; [reflexivity | ]. exists total. now rewrite app_nil_r.
    + auto.
    + apply I.
    + rewrite app_nil_r. apply I.
    + exists []. reflexivity.
  - destruct (receive exec deferred o c total a r) as [[[l1 c1] t1] e1] eqn:R.
    destruct (receive_ok a r I R) as (P & K & EE & CL & RP & ST).
    destruct EE as [-> | ->].
    + destruct (K eq_refl) as (I1 & S1 & X1). destruct (feed exec deferred o c1 t1 xs) as [[l2 c2] e2] eqn:F2.
      injection F as <- <- <-. destruct (IH _ _ _ _ _ _ I1 F2) as (P2 & K2 & E2 & CL2 & RP2 & rest & ST2).
      split; [ | split; [ | split; [ | split; [ | split]]]].
      * intros p Hp. destruct (prefix_app _ _ Hp) as [H | (q & -> & H)]; [now apply P | ]. rewrite app_assoc. now apply P2.
      * intros E. destruct (K2 E) as (S2 & t & I2). split; [ | exists t; now rewrite app_assoc].
        rewrite statements_app, S1, S2. reflexivity.
      * assumption.
      * assumption.
      * now rewrite app_assoc.
      * exists rest. cbn [map fst]. rewrite ST2, statements_app, S1. reflexivity.
    + injection F as <- <- <-. split; [assumption | ]. split; [discriminate | ]. split; [auto | ]. split; [assumption | ]. split; [assumption | ].
      exists (map fst xs). now rewrite ST.
Qed.

(** Once the end of the stream has been dealt with *)
Definition flushed (xs : list (A * response)) (p : list (action A)) : Prop :=
  exists ns, executed exec d0 (map fst xs) ns (committed (replay exec deferred start p)) /\ statements p = map fst xs.

Definition safe_at (xs : list (A * response)) (e : ending) (p : list (action A)) : Prop :=
  (at_crash p /\ exists rest, map fst xs = statements p ++ rest) \/ ((exists r, e = End r) /\ flushed xs p).

Lemma safe_same : forall xs e p x, safe_at xs e p -> (forall a, x <> Execute a) ->
  committed (replay exec deferred start (p ++ [x])) = committed (replay exec deferred start p) -> safe_at xs e (p ++ [x]).
Proof.
  intros xs e p x H N E.
  assert (statements (p ++ [x]) = statements p) as SX.
  { rewrite statements_app. destruct x; [ | apply app_nil_r ..]. destruct (N a). reflexivity. }
  destruct H as [[H Y] | [H (ns & X & S)]].
  - left. split; [now apply at_crash_same | now rewrite SX].
  - right. split; [assumption | ]. exists ns. rewrite E, SX. auto.
Qed.

Lemma inv_start : inv [] start 0.
Proof.
  split; [reflexivity | ]. split; [reflexivity | ]. split; [reflexivity | ]. exists [], [], [], [].
  split; [reflexivity | ]. split; [constructor | ]. split; [constructor | ]. split; [reflexivity | ]. split; [reflexivity | ].
  intros. split; [reflexivity | assumption].
Qed.

Lemma prefix_statements : forall (p l : list (action A)), prefix p l -> exists rest, statements l = statements p ++ rest.
Proof. intros p l [r ->]. exists (statements r). apply statements_app. Qed.

Lemma close_same : forall l, committed (replay exec deferred start (l ++ [Close A])) = committed (replay exec deferred start l).
Proof. intros l. rewrite replay_one. unfold perform. destruct (closed _); reflexivity. Qed.

Lemma body_ok : forall xs e l c out, body exec deferred o d0 xs e = (l, c, out) ->
  (forall p, prefix p l -> safe_at xs e p) /\
  (out = Continue -> (exists r, e = End r) /\ flushed xs l) /\
  (out = Escaped -> e = End Fails) /\ closed c = false /\ c = replay exec deferred start l.
Proof.
  intros xs e l c out B. unfold body in B. fold start in B.
  destruct (feed exec deferred o start 0 xs) as [[l1 c1] e1] eqn:F.
  destruct (feed_ok _ inv_start F) as (P & K & EE & CL & RP & rest & ST). cbn [app] in *.
  assert (P1 : forall p, prefix p l1 -> safe_at xs e p).
  { intros p Hp. left. split; [now apply P | ]. destruct (prefix_statements Hp) as [rr RR]. exists (rr ++ rest). rewrite ST, RR. now rewrite <- app_assoc. }
  destruct EE as [-> | ->].
  2:{ assert (B' : (l1, c1, Killed) = (l, c, out)) by (destruct e; exact B). injection B' as <- <- <-.
      split; [assumption | ]. split; [discriminate | ]. split; [discriminate | ]. auto. }
  destruct e as [r | ].
  2:{ injection B as <- <- <-. split; [assumption | ]. split; [discriminate | ]. split; [discriminate | ]. auto. }
  destruct (K eq_refl) as (S1 & t & I). destruct I as (_ & _ & AU & done & pending & ns1 & ns2 & S & X1 & X2 & H1 & H2 & H3).
  assert (XX : executed exec d0 (map fst xs) (ns1 ++ ns2) (working c1)).
  { rewrite <- S1, S. apply executed_app with (d1 := committed c1); assumption. }
  unfold flush in B. unfold perform in B. rewrite CL in B.
  assert (RC : replay exec deferred start (l1 ++ [Commit A]) = fst (perform (A := A) exec deferred c1 (Commit A))) by now rewrite replay_one, <- RP.
  unfold perform in RC. rewrite CL in RC.
  destruct (auto c1 || deferred (working c1)) eqn:DF; cbn [fst] in RC.
  - injection B as <- <- <-.
    assert (FL : flushed xs (l1 ++ [Commit A])).
    { exists (ns1 ++ ns2). rewrite RC. cbn [committed]. split; [assumption | ]. rewrite statements_app. cbn [statements]. now rewrite app_nil_r. }
    split; [ | split; [ | split; [ | split]]].
    + intros p Hp. destruct (prefix_app _ _ Hp) as [H | (q & -> & H)]; [now apply P1 | ].
      prefixes H.
      * rewrite app_nil_r. apply P1. exists []. now rewrite app_nil_r.
      * right. split; [exists r; reflexivity | assumption].
    + intros _. split; [exists r; reflexivity | assumption].
    + destruct r; congruence || discriminate.
    + reflexivity.
    + now rewrite RC.
  - set (c2 := mkconn (committed c1) (committed c1) (auto c1) false) in *.
    destruct (give_up_ok c2 eq_refl) as (c3 & G & Gc & Gcl). rewrite G in B. injection B as <- <- <-.
    assert (SL : safe_at xs (End r) l1) by (apply P1; exists []; now rewrite app_nil_r).
    assert (SC : safe_at xs (End r) (l1 ++ [Commit A])).
    { apply safe_same; [assumption | discriminate | ]. rewrite RC, <- RP. reflexivity. }
    assert (SR : safe_at xs (End r) (l1 ++ [Commit A; Rollback A])).
    { change [Commit A; Rollback A] with ([Commit A] ++ [Rollback A]). rewrite app_assoc. apply safe_same; [assumption | discriminate | ].
      rewrite (replay_one (l1 ++ [Commit A])). apply rollback_same. }
    split; [ | split; [ | split; [ | split]]].
    + intros p Hp. destruct (prefix_app _ _ Hp) as [H | (q & -> & H)]; [now apply P1 | ]. prefixes H; [now rewrite app_nil_r | assumption ..].
    + destruct r; discriminate.
    + destruct r; congruence || discriminate.
    + assumption.
    + change [Commit A; Rollback A] with ([Commit A] ++ [Rollback A]). rewrite app_assoc, replay_one, RC. assumption.
Qed.

Lemma command_ok : forall xs e l out, command exec deferred o d0 xs e = (l, out) ->
  (forall p, prefix p l -> safe_at xs e p) /\
  (out = Continue -> (exists r, e = End r) /\ flushed xs l) /\
  (out = Escaped -> e = End Fails).
Proof.
  intros xs e l out C. unfold command in C. destruct (body exec deferred o d0 xs e) as [[l1 c1] o1] eqn:B.
  injection C as <- <-. destruct (body_ok _ _ B) as (P & F & E & CL & RP).
  split; [ | split; [ | assumption]].
  - intros p Hp. destruct (prefix_app _ _ Hp) as [H | (q & -> & H)]; [now apply P | ].
    assert (S1 : safe_at xs e l1) by (apply P; exists []; now rewrite app_nil_r).
    prefixes H; [now rewrite app_nil_r | ]. apply safe_same; [assumption | discriminate | apply close_same].
  - intros O. destruct (F O) as [X (ns & Y & Z)]. split; [assumption | ]. exists ns. rewrite close_same, statements_app. cbn [statements].
    rewrite app_nil_r. auto.
Qed.
End Props.

(** * The properties *)

(** Neither --commit nor --autocommit: wherever execution stops, either nothing has become permanent, or the stream has ended
    and everything has. *)
Theorem c56_all_or_nothing : forall (D A : Type) (exec : D -> A -> option (D * Z)) deferred o d xs e l out p,
  autocommit o = false -> every o = 0 ->
  command exec deferred o d xs e = (l, out) -> prefix p l ->
  crash exec deferred false d p = d \/
  exists r ns, e = End r /\ executed exec d (map fst xs) ns (crash exec deferred false d p).
Proof.
  intros D A exec deferred o d xs e l out p AO EV C Hp. destruct (command_ok _ _ _ _ _ _ C) as (P & _ & _).
  unfold crash. match goal with |- context [mkconn d d ?b false] => assert (mkconn d d b false = connect o d) as -> by (unfold connect; now rewrite AO) end.
  destruct (P p Hp) as [[(done & pending & failed & ns1 & ns2 & dw & S & L & X1 & X2 & H1 & H2 & H3) _] | [[r ->] (ns & X & S)]].
  - left. assert (done = []) as -> by (apply H2; [assumption | left; lia]). destruct (executed_fun X1 (ex_none exec d)) as [_ Q]. exact Q.
  - right. exists r, ns. auto.
Qed.

(** --commit N: wherever execution stops, what is permanent is what the first statements did, and the statements after those,
    not counting the one at which it stopped, have updated less than N rows. *)
Theorem c56_periodic : forall (D A : Type) (exec : D -> A -> option (D * Z)) deferred o d xs e l out p,
  autocommit o = false -> select o = false -> 0 < every o ->
  command exec deferred o d xs e = (l, out) -> prefix p l ->
  exists done pending failed rest ns ms d',
    map fst xs = done ++ pending ++ failed ++ rest /\ statements p = done ++ pending ++ failed /\ (length failed <= 1)%nat /\
    executed exec d done ns (crash exec deferred false d p) /\
    executed exec (crash exec deferred false d p) pending ms d' /\
    (sum ms < every o \/ exists ks k, ms = ks ++ [k] /\ sum ks < every o).
Proof.
  intros D A exec deferred o d xs e l out p AO SO EV C Hp. destruct (command_ok _ _ _ _ _ _ C) as (P & _ & _).
  unfold crash. match goal with |- context [mkconn d d ?b false] => assert (mkconn d d b false = connect o d) as -> by (unfold connect; now rewrite AO) end.
  destruct (P p Hp) as [[(done & pending & failed & ns1 & ns2 & dw & S & L & X1 & X2 & H1 & H2 & H3) [rest R]] | [[r ->] (ns & X & S)]].
  - exists done, pending, failed, rest, ns1, ns2, dw. rewrite R, S. rewrite <- !app_assoc. repeat split; auto.
  - exists (map fst xs), [], [], [], ns, [], (committed (replay exec deferred (connect o d) p)). rewrite !app_nil_r. repeat split; auto; constructor; assumption.
Qed.

(** --autocommit: what is permanent is what all the statements executed so far did. *)
Theorem c56_autocommit : forall (D A : Type) (exec : D -> A -> option (D * Z)) deferred o d xs e l out p,
  autocommit o = true -> command exec deferred o d xs e = (l, out) -> prefix p l ->
  exists done failed rest ns, map fst xs = done ++ failed ++ rest /\ statements p = done ++ failed /\ (length failed <= 1)%nat /\
    executed exec d done ns (crash exec deferred true d p).
Proof.
  intros D A exec deferred o d xs e l out p AO C Hp. destruct (command_ok _ _ _ _ _ _ C) as (P & _ & _).
  unfold crash. match goal with |- context [mkconn d d ?b false] => assert (mkconn d d b false = connect o d) as -> by (unfold connect; now rewrite AO) end.
  destruct (P p Hp) as [[(done & pending & failed & ns1 & ns2 & dw & S & L & X1 & X2 & H1 & H2 & H3) [rest R]] | [[r ->] (ns & X & S)]].
  - rewrite (H1 AO) in S. exists done, failed, rest, ns1. rewrite R, S. rewrite <- !app_assoc. repeat split; auto.
  - exists (map fst xs), [], [], ns. rewrite !app_nil_r. repeat split; auto.
Qed.

(** A command that ends normally has made everything permanent, whatever the flags. *)
Theorem c56_finished : forall (D A : Type) (exec : D -> A -> option (D * Z)) deferred o d xs e l,
  command exec deferred o d xs e = (l, Continue) ->
  exists ns, executed exec d (map fst xs) ns (crash exec deferred (autocommit o) d l).
Proof.
  intros D A exec deferred o d xs e l C. destruct (command_ok _ _ _ _ _ _ C) as (_ & F & _). destruct (F eq_refl) as (_ & ns & X & _). exists ns. exact X.
Qed.

(** A failure is reported, unless it is one of the next operator at the end of the stream. *)
Theorem c56_reported : forall (D A : Type) (exec : D -> A -> option (D * Z)) deferred o d xs e l out,
  command exec deferred o d xs e = (l, out) -> e <> End Fails -> out = Continue \/ out = Killed.
Proof.
  intros D A exec deferred o d xs e l out C N. destruct (command_ok _ _ _ _ _ _ C) as (_ & _ & E). destruct out; auto. destruct N. auto.
Qed.

(** * Cases *)
Definition add_row (d : list nat) (a : nat) : option (list nat * Z) := if Nat.leb 100 a then None else Some (a :: d, 1).
Definition no_check (d : list nat) : bool := true.
Example c56_case_once :
  command add_row no_check (mkoptions false 0 false false) [] [(1, Fine); (2, Fine)]%nat (End Fine) =
    ([Execute 1; Execute 2; Commit nat; Close nat]%nat, Continue) /\
  command add_row no_check (mkoptions false 0 false false) [] [(1, Fine); (200, Fine); (3, Fine)]%nat (End Fine) =
    ([Execute 1; Execute 200; Rollback nat; Close nat]%nat, Killed).
Proof. split; reflexivity. Qed.
Example c56_case_periodic :
  command add_row no_check (mkoptions false 2 true false) [] [(1, Fine); (2, Fine); (3, Kills)]%nat (End Fine) =
    ([Execute 1; Execute 2; Commit nat; Execute 3; Close nat]%nat, Killed).
Proof. reflexivity. Qed.
Example c56_case_auto :
  crash add_row no_check true [] (fst (command add_row no_check (mkoptions true 0 false false) [] [(1, Fine); (200, Fine)]%nat (End Fine))) = [1]%nat.
Proof. reflexivity. Qed.

(** * What fails *)

(** A variable whose value is a pipeline ending with sql: run as a command, it makes the changes and then always fails, with an
    exception that nothing handles (commit and rollback on a connection that has been closed). *)
Theorem c56_stored_refuted : forall (D A : Type) (exec : D -> A -> option (D * Z)) deferred o d xs l,
  command exec deferred o d xs (End Fine) = (l, Continue) ->
  exists l' ns, stored_command exec deferred o d xs Fine = (l', Escaped) /\
    executed exec d (map fst xs) ns (crash exec deferred (autocommit o) d l').
Proof.
  intros D A exec deferred o d xs l C. destruct (c56_finished _ _ _ _ _ _ C) as [ns X]. unfold command in C. unfold stored_command.
  destruct (body exec deferred o d xs (End Fine)) as [[l1 c1] o1] eqn:B. injection C as <- ->.
  destruct (body_ok _ _ _ _ _ _ B) as (_ & _ & _ & CL & RP). unfold perform at 1. rewrite CL. cbn. do 2 eexists. split; [reflexivity | ].
  unfold crash in *. fold (connect o d) in *. rewrite replay_app in X |- *. rewrite <- RP in X |- *. cbn in X |- *. unfold perform in X |- *. rewrite CL in X |- *.
  cbn in X |- *. exact X.
Qed.

(** Arguments given after the statement are not bound if there is input. *)
Theorem c56_arguments_refuted : exists (args : list nat) x, bound args (Some x) <> documented args (Some x).
Proof. exists [7%nat], [1%nat]. discriminate. Qed.
Theorem c56_arguments_partial : forall (A : Type) (args : list A) x, args = [] \/ x = None -> bound args x = documented args x.
Proof. intros A args x [-> | ->]; [destruct x | destruct args]; reflexivity. Qed.
