(** C68: proofs. *)
From Verif.Sys Require Import TimerSpec.

Lemma sub_refl {A} (l : list A) : subsequence l l.
Proof. induction l; constructor; auto. Qed.
Lemma sub_app_r {A} (k l m : list A) : subsequence k l -> subsequence k (l ++ m).
Proof. induction 1; cbn; constructor; auto. Qed.
Lemma sub_snoc {A} (k l : list A) x : subsequence k l -> subsequence (k ++ [x]) (l ++ [x]).
Proof. induction 1; cbn; [|constructor; auto..]. induction l; cbn; [apply sub_refl|now constructor]. Qed.
Lemma sub_in {A} (k l : list A) x : subsequence k l -> In x k -> In x l.
Proof. induction 1; cbn; [contradiction|intuition auto|auto]. Qed.
Lemma sub_nil_inv {A} (k : list A) : subsequence k [] -> k = [].
Proof. inversion 1; reflexivity. Qed.
Lemma sub_trans {A} (j k l : list A) : subsequence j k -> subsequence k l -> subsequence j l.
Proof.
  intros J K. revert j J. induction K as [l|x k l K IH|x k l K IH]; intros j J.
  - apply sub_nil_inv in J as ->. constructor.
  - inversion J; subst; constructor; auto.
  - constructor. auto.
Qed.
Lemma sub_app_l {A} (k l : list A) : subsequence l (k ++ l).
Proof. induction k; cbn; [apply sub_refl|now constructor]. Qed.
Lemma sub_pair {A} (k l : list A) a x b y c : subsequence k l -> k = a ++ x :: b ++ y :: c -> exists a' b' c', l = a' ++ x :: b' ++ y :: c'.
Proof.
  intros S E. assert (P : subsequence [x; y] l).
  { apply (sub_trans _ k); [|exact S]. rewrite E. apply (sub_trans _ (x :: b ++ y :: c)); [|apply sub_app_l]. constructor.
    apply (sub_trans _ (y :: c)); [|apply sub_app_l]. constructor. constructor. }
  clear - P. assert (G : forall x (k l : list A), subsequence (x :: k) l -> exists a' r, l = a' ++ x :: r /\ subsequence k r).
  { clear. intros x k l. induction l as [|z l IH]; intros S; [inversion S|]. inversion S; subst.
    - exists [], l. auto.
    - destruct (IH H1) as (a' & r & -> & Q). exists (z :: a'), r. auto. }
  destruct (G _ _ _ P) as (a' & r & -> & Q). destruct (G _ _ _ Q) as (b' & c' & -> & _). exists a', b', c'. reflexivity.
Qed.
Lemma sub_spaced i k l : subsequence k l -> spaced i l -> spaced i k.
Proof. intros S P a x b y c E. destruct (sub_pair _ _ _ _ _ _ _ S E) as (a' & b' & c' & E'). now apply (P a' x b' y c'). Qed.
Lemma spaced_snoc i l t : spaced i l -> (forall x, In x l -> x + i <= t) -> spaced i (l ++ [t]).
Proof.
  intros S B a x b y c E. destruct c as [|z c] using rev_ind.
  - rewrite app_comm_cons, app_assoc in E. apply app_inj_tail in E as [-> <-]. apply B. apply in_app_iff. right. now left.
  - clear IHc. rewrite app_comm_cons, app_assoc, app_comm_cons, app_assoc in E. apply app_inj_tail in E as [E _].
    rewrite <- app_assoc in E. cbn in E. now apply (S a x b y c).
Qed.

Section Proofs.
Variable interval : nat.
Notation step := (step interval).
Notation run := (run interval).

Definition m_ok (s : state) (p : mpc) : Prop :=
  match p with
  | MAcquire => forall x, In x (ticks s) -> x + interval <= clock s
  | MSet => forall x, In x (ticks s) -> x + interval <= clock s
  | MRelease | MBeforeSleep => forall x, In x (ticks s) -> x <= clock s
  | MSleep u => forall x, In x (ticks s) -> x + interval <= u
  end.
(** With one metronome *)
Record inv (s : state) : Prop := {
  i_metro : exists p, metronomes s = [p] /\ m_ok s p /\ (match p with MSet | MRelease => lock s = Some (Metro 0) | _ => lock s <> Some (Metro 0) end);
  i_lock : match runner s with RAcquire | RWait | RSend _ => lock s <> Some Runner | _ => lock s = Some Runner end;
  i_only : match lock s with Some (Metro (S _)) => False | _ => True end;
  i_take : match runner s with RTake => now s <> None | RClear t => now s = Some t | _ => True end;
  i_spaced : spaced interval (ticks s);
  i_sub : subsequence (taken s ++ waiting s) (ticks s);
  i_last : forall t, now s = Some t -> exists l, ticks s = l ++ [t] }.

Lemma inv_start c : inv (start c).
Proof.
  constructor; cbn; auto; try congruence.
  - exists MAcquire. split; [reflexivity|]. split; [intros x []|discriminate].
  - intros a x b y d E. destruct a; discriminate.
  - constructor.
Qed.

Lemma sub_now_overwritten (k w l : list nat) : subsequence (k ++ w) l -> subsequence k l.
Proof. intros S. apply (sub_trans _ (k ++ w)); [|exact S]. apply sub_app_r, sub_refl. Qed.

Lemma inv_pass d s : inv s -> inv (step (Pass d) s).
Proof.
  intros [(p & Mp & Ok & L) K O T S U W]. constructor; cbn; auto. exists p. split; [exact Mp|]. split; [|exact L].
  destruct p; cbn in *; intros x I; specialize (Ok x I); lia.
Qed.
Lemma inv_metro i s : inv s -> inv (step (M i) s).
Proof.
  intros I. pose proof I as [(p & Mp & Ok & L) K O T S U W]. cbn [Timer.step]. rewrite Mp. destruct i as [|i]; [|now destruct i].
  cbn [nth_error]. unfold metro. rewrite Mp. cbn [replace].
  destruct p as [| | | |u].
  - destruct (lock s) eqn:E; [exact I|]. constructor; cbn; auto.
    + exists MSet. split; [reflexivity|]. split; [exact Ok|reflexivity].
    + destruct (runner s); congruence.
  - rewrite L in *. constructor; cbn.
    + exists MRelease. split; [reflexivity|]. split; [|reflexivity]. cbn. intros x J. apply in_app_or in J as [J|[<-|[]]]; [|lia].
      specialize (Ok x J). lia.
    + destruct (runner s); congruence.
    + exact Logic.I.
    + destruct (runner s); congruence || auto.
    + now apply spaced_snoc.
    + unfold taken, waiting in *. cbn. apply sub_snoc. now apply sub_now_overwritten in U.
    + intros t [= <-]. eauto.
  - rewrite L in *. constructor; cbn; auto; try congruence.
    + exists MBeforeSleep. split; [reflexivity|]. split; [exact Ok|discriminate].
    + destruct (runner s); congruence.
  - constructor; cbn; auto. exists (MSleep (clock s + interval)). split; [reflexivity|]. split; [|exact L]. cbn in *. intros x J. specialize (Ok x J). lia.
  - destruct (u <=? clock s) eqn:E; [|exact I]. apply Nat.leb_le in E. constructor; cbn; auto.
    exists MAcquire. split; [reflexivity|]. split; [|exact L]. cbn in *. intros x J. specialize (Ok x J). lia.
Qed.
Lemma inv_main s : inv s -> inv (step R s).
Proof.
  intros I. pose proof I as [(p & Mp & Ok & L) K O T S U W]. cbn [Timer.step]. unfold main.
  unfold taken, waiting in U.
  destruct (runner s) as [| | | |t|t|t] eqn:RR.
  - destruct (lock s) eqn:E; [exact I|]. constructor; cbn; auto.
    exists p. split; [exact Mp|]. split; [exact Ok|]. destruct p; congruence.
  - destruct (now s) as [t|] eqn:E.
    + constructor; cbn; auto; try congruence. exists p. now rewrite Mp.
    + constructor; cbn; auto; try congruence.
      * exists p. split; [exact Mp|]. split; [exact Ok|]. destruct p; congruence.
  - destruct (lock s) eqn:E; [exact I|]. constructor; cbn; auto.
    exists p. split; [exact Mp|]. split; [exact Ok|]. destruct p; congruence.
  - destruct (now s) as [t|] eqn:E; [|congruence]. constructor; cbn; auto; try congruence. exists p. now rewrite Mp.
  - constructor; cbn; auto; try congruence. + exists p. now rewrite Mp.
    + unfold taken, waiting. cbn. rewrite T in U. now rewrite !app_nil_r in *.
  - constructor; cbn; auto; try congruence. exists p. split; [exact Mp|]. split; [exact Ok|]. destruct p; congruence.
  - constructor; cbn; auto; try congruence. + exists p. now rewrite Mp.
    + unfold taken, waiting. cbn. now rewrite app_nil_r.
Qed.
Lemma inv_run h : once h -> forall s, inv s -> inv (run h s).
Proof.
  unfold once. induction h as [|e h IH]; intros N s I; [exact I|]. cbn. apply IH; [intros J; apply N; now right|].
  destruct e; [now apply inv_pass|now apply inv_metro|now apply inv_main|elim N; now left].
Qed.

(** For every schedule: what is output are ticks, in order, none twice, at least the interval apart. *)
Theorem c68_output : forall h c, once h ->
  let s := run h (start c) in spaced interval (ticks s) /\ subsequence (out s) (ticks s) /\ spaced interval (out s).
Proof.
  intros h c N s. pose proof (inv_run h N _ (inv_start c)) as [_ _ _ _ S U _]. fold s in S, U. split; [exact S|].
  assert (Q : subsequence (out s) (ticks s)) by (unfold taken in U; rewrite <- app_assoc in U; now apply sub_now_overwritten in U).
  split; [exact Q|]. now apply (sub_spaced _ _ _ Q).
Qed.

(** No tick is lost if what is downstream keeps up. *)
Lemma run_app h1 h2 s : run (h1 ++ h2) s = run h2 (run h1 s).
Proof. unfold Timer.run. now rewrite fold_left_app. Qed.
Theorem c68_none_lost : forall h c, once h -> keeps_up interval h (start c) ->
  let s := run h (start c) in ticks s = taken s ++ waiting s.
Proof.
  intros h c. induction h as [|e h IH] using rev_ind; intros N Q s; [reflexivity|].
  assert (N1 : once h) by (intros J; apply N; apply in_app_iff; now left).
  assert (Q1 : keeps_up interval h (start c)).
  { intros h1 h2 ->. specialize (Q h1 (h2 ++ [e])). rewrite app_assoc in Q. specialize (Q eq_refl).
    destruct (now (run h1 (start c))); auto. destruct h2; cbn in *; auto. }
  specialize (IH N1 Q1). cbn zeta in IH. specialize (Q h [e] eq_refl). unfold s. rewrite run_app. set (u := run h (start c)) in *. cbn [Timer.run fold_left].
  pose proof (inv_run h N1 _ (inv_start c)) as [(p & Mp & Ok & L) K O T S U W]. fold u in Mp, Ok, L, K, O, T, S, U, W.
  unfold taken, waiting in *. destruct e as [d|i| |].
  - exact IH.
  - cbn [Timer.step]. destruct (nth_error (metronomes u) i) as [q|] eqn:E; [|exact IH]. unfold metro.
    destruct q; try exact IH.
    + destruct (lock u); exact IH.
    + cbn. cbn in Q. rewrite E in Q. destruct (now u); [congruence|]. rewrite app_nil_r in IH. rewrite IH. reflexivity.
    + destruct (until <=? clock u); exact IH.
  - cbn [Timer.step]. unfold main. destruct (runner u) eqn:RR; cbn; rewrite ?RR.
    + destruct (lock u); [now rewrite RR|exact IH].
    + destruct (now u); exact IH.
    + destruct (lock u); [now rewrite RR|exact IH].
    + destruct (now u); [exact IH|now rewrite RR].
    + rewrite T in IH. rewrite app_nil_r in *. exact IH.
    + exact IH.
    + rewrite app_nil_r. exact IH.
  - elim N. apply in_app_iff. right. now left.
Qed.

(** The threads cannot block each other: from every state in which there has been a tick that was not taken, a few steps of the threads
    output the latest tick. *)
Theorem c68_no_deadlock : forall h c, once h -> let s := run h (start c) in now s <> None ->
  exists k, length k <= 12 /\ (forall e, In e k -> e = R \/ e = M 0) /\
    exists t l, ticks (run k s) = l ++ [t] /\ exists o, out (run k s) = o ++ [t].
Proof.
  intros h c N s NN. pose proof (inv_run h N _ (inv_start c)) as I. fold s in I.
  assert (G : forall s, inv s -> (exists p, metronomes s = [p] /\ match p with MSet | MRelease => False | _ => True end) ->
    (match runner s with RAcquire | RCheck | RWait | RTake => now s <> None | RClear _ => True | _ => exists l t, ticks s = l ++ [t] /\ (runner s = RRelease t \/ runner s = RSend t) end) ->
    exists k, length k <= 7 /\ (forall e, In e k -> e = R \/ e = M 0) /\ exists t l, ticks (run k s) = l ++ [t] /\ exists o, out (run k s) = o ++ [t]).
  { clear. intros s [(p & Mp & Ok & L) K O T S U W] (p' & Mp' & NP) F.
    assert (LK : lock s = None \/ lock s = Some Runner).
    { rewrite Mp in Mp'. injection Mp' as <-. destruct (lock s) as [[[|i]|]|]; auto; [|contradiction]. destruct p; try contradiction; congruence. }
    destruct s as [cl ms ru lk nw ts ot]. cbn in *.
    assert (REP : forall n e, In e (repeat R n) -> e = R \/ e = M 0) by (intros n e J; left; now apply repeat_spec in J).
    destruct ru; cbn in *.
    - destruct LK as [->|]; [|congruence]. destruct nw as [t|]; [|congruence]. destruct (W t eq_refl) as [l ->].
      exists (repeat R 6). split; [cbn; lia|]. split; [apply REP|]. exists t, l. split; [reflexivity|]. eexists. reflexivity.
    - destruct nw as [t|]; [|congruence]. destruct (W t eq_refl) as [l ->].
      exists (repeat R 5). split; [cbn; lia|]. split; [apply REP|]. exists t, l. split; [reflexivity|]. eexists. reflexivity.
    - destruct LK as [->|]; [|congruence]. destruct nw as [t|]; [|congruence]. destruct (W t eq_refl) as [l ->].
      exists (repeat R 6). split; [cbn; lia|]. split; [apply REP|]. exists t, l. split; [reflexivity|]. eexists. reflexivity.
    - destruct nw as [t|]; [|congruence]. destruct (W t eq_refl) as [l ->].
      exists (repeat R 4). split; [cbn; lia|]. split; [apply REP|]. exists t, l. split; [reflexivity|]. eexists. reflexivity.
    - destruct (W t T) as [l ->]. exists (repeat R 3). split; [cbn; lia|]. split; [apply REP|]. exists t, l. split; [reflexivity|]. eexists. reflexivity.
    - destruct F as (l & t' & -> & [E|E]); [injection E as <-|discriminate].
      exists (repeat R 2). split; [cbn; lia|]. split; [apply REP|]. exists t, l. split; [reflexivity|]. eexists. reflexivity.
    - destruct F as (l & t' & -> & [E|E]); [discriminate|injection E as <-].
      exists (repeat R 1). split; [cbn; lia|]. split; [apply REP|]. exists t, l. split; [reflexivity|]. eexists. reflexivity. }
  (** A tick was put into [now] after the runner took another: finish the sending first. *)
  assert (G2 : forall s, inv s -> (exists p, metronomes s = [p] /\ match p with MSet | MRelease => False | _ => True end) -> now s <> None ->
    exists k, length k <= 9 /\ (forall e, In e k -> e = R \/ e = M 0) /\ exists t l, ticks (run k s) = l ++ [t] /\ exists o, out (run k s) = o ++ [t]).
  { clear - G. intros s I P NN.
    assert (J : exists k0, length k0 <= 2 /\ (forall e, In e k0 -> e = R) /\
      metronomes (run k0 s) = metronomes s /\ (match runner (run k0 s) with RAcquire | RCheck | RWait | RTake => now (run k0 s) <> None | RClear _ => True | _ => False end)).
    { destruct (runner s) eqn:RR.
      - exists []. cbn. rewrite RR. repeat split; auto; lia || contradiction.
      - exists []. cbn. rewrite RR. repeat split; auto; lia || contradiction.
      - exists []. cbn. rewrite RR. repeat split; auto; lia || contradiction.
      - exists []. cbn. rewrite RR. repeat split; auto; lia || contradiction.
      - exists []. cbn. rewrite RR. repeat split; auto; lia || contradiction.
      - exists [R; R]. cbn. unfold main. rewrite RR. cbn. repeat split; auto. intros e [<-|[<-|[]]]; reflexivity.
      - exists [R]. cbn. unfold main. rewrite RR. cbn. repeat split; auto. intros e [<-|[]]; reflexivity. }
    destruct J as (k0 & L0 & E0 & M0 & R0).
    assert (I0 : inv (run k0 s)) by (apply inv_run; [intros J; apply E0 in J; discriminate|exact I]).
    destruct (G (run k0 s) I0) as (k & Lk & Ek & t & l & Tk & o & Ok).
    - destruct P as (p & Mp & NP). exists p. now rewrite M0.
    - destruct (runner (run k0 s)); auto; contradiction.
    - exists (k0 ++ k). rewrite app_length. split; [lia|]. split.
      + intros e J. apply in_app_or in J as [J|J]; [left; auto|auto].
      + exists t, l. rewrite run_app. eauto. }
  assert (H : exists k0, length k0 <= 2 /\ (forall e, In e k0 -> e = M 0) /\ now (run k0 s) <> None /\
    exists p, metronomes (run k0 s) = [p] /\ match p with MSet | MRelease => False | _ => True end).
  { pose proof I as [(p & Mp & Ok & L) _ _ _ _ _ _]. destruct p.
    1, 4, 5: exists []; cbn; split; [lia|]; split; [contradiction|]; split; [exact NN|]; eexists; (split; [exact Mp|exact Logic.I]).
    - exists [M 0; M 0]. split; [cbn; lia|]. split; [intros e [<-|[<-|[]]]; reflexivity|]. cbn. rewrite Mp. cbn. rewrite Mp. cbn.
      split; [discriminate|]. eexists; (split; [reflexivity|exact Logic.I]).
    - exists [M 0]. split; [cbn; lia|]. split; [intros e [<-|[]]; reflexivity|]. cbn. rewrite Mp. cbn. rewrite Mp. cbn. split; [exact NN|]. eexists; (split; [reflexivity|exact Logic.I]). }
  destruct H as (k0 & L0 & E0 & N0 & P0).
  assert (I0 : inv (run k0 s)) by (apply inv_run; [intros J; apply E0 in J; discriminate|exact I]).
  destruct (G2 _ I0 P0 N0) as (k & Lk & Ek & t & l & Tk & o & Ok). exists (k0 ++ k). rewrite app_length. split; [lia|]. split.
  - intros e J. apply in_app_or in J as [J|J]; [right; auto|auto].
  - exists t, l. rewrite run_app. eauto.
Qed.
End Proofs.
Print Assumptions c68_output.
Print Assumptions c68_none_lost.
Print Assumptions c68_no_deadlock.

(** An example: interval 10; three ticks, all output. *)
Definition tick : list event := repeat (M 0) 4.
Definition take : list event := repeat R 6.
Definition ex_h : list event := tick ++ take ++ [Pass 11; M 0] ++ tick ++ take ++ [Pass 10; M 0] ++ tick ++ take.
Theorem c68_example : once ex_h /\ keeps_up 10 ex_h (start 100) /\ out (run 10 ex_h (start 100)) = [100; 111; 121].
Proof.
  split; [|split; [|reflexivity]].
  - intros I. repeat (destruct I as [I|I]; [discriminate|]). contradiction.
  - intros h1 h2 E. assert (H1 : h1 = firstn (length h1) ex_h) by (rewrite E, firstn_app, Nat.sub_diag, firstn_all; cbn; now rewrite app_nil_r).
    assert (H2 : h2 = skipn (length h1) ex_h) by (rewrite E, skipn_app, Nat.sub_diag, skipn_all; reflexivity).
    assert (L : length h1 <= 34) by (pose proof (f_equal (@length _) E) as Q; rewrite app_length in Q; change (length ex_h) with 34 in Q; lia).
    rewrite H1, H2. generalize dependent (length h1). intros n _ _ L.
    do 35 (destruct n as [|n]; [vm_compute; exact Logic.I || discriminate|]). lia.
Qed.
Print Assumptions c68_example.

(** Ticks are lost if what is downstream is slow; after a second run, output is closer together than the interval, and the second run can start
    with a tick from before. *)
Theorem c68_every_tick_refuted : exists h, once h /\ ticks (run 10 h (start 0)) = [0; 10; 20] /\ out (run 10 h (start 0)) = [0; 20].
Proof.
  exists (tick ++ take ++ [Pass 10; M 0] ++ tick ++ [Pass 10; M 0] ++ tick ++ take). split; [|split; reflexivity].
  intros I. repeat (destruct I as [I|I]; [discriminate|]). contradiction.
Qed.
Theorem c68_again_refuted : exists h, let s := run 10 h (start 0) in
  let s' := run 10 (take ++ repeat (M 1) 4 ++ take) (step 10 Again s) in
  out s = [0] /\ clock s = 13 /\ out s' = [0; 10; 13] /\ ~ spaced 10 (out s').
Proof.
  exists (tick ++ take ++ [Pass 10; M 0] ++ tick ++ [Pass 3]). cbn zeta.
  assert (E : out (run 10 (take ++ repeat (M 1) 4 ++ take) (step 10 Again (run 10 (tick ++ take ++ [Pass 10; M 0] ++ tick ++ [Pass 3]) (start 0)))) = [0; 10; 13]) by reflexivity.
  split; [reflexivity|]. split; [reflexivity|]. split; [exact E|]. rewrite E. intros S. specialize (S [0] 10 [] 13 [] eq_refl). lia.
Qed.
Print Assumptions c68_every_tick_refuted.
Print Assumptions c68_again_refuted.
