(** C80: the shell stops listening to a job that has ended, for ever. *)
From Verif.Sys Require Export ListenerProps.
Local Open Scope list_scope.

Section Released.
Variables (settable : settable_t) (e : vars) (at_ : nat -> state) (ev : nat -> event).
Hypothesis F : forever settable e at_ ev.
Variable j : nat.

Definition over_job (s : state) : Prop := jobs s j = mkj Gone Void /\ j < next s.

Lemma over_kept : forall tr s w x s', runs settable e tr s -> step settable s w x s' -> over_job s -> over_job s'.
Proof.
  intros tr s w x s' R ST [P LT]. destruct (runs_told _ _ _ _ R) as (G & _). unfold over_job.
  destruct ST as [s x s' ST | s i x s' ST | s x s' ST]; destruct ST; cbn; (split; [ | lia]); try exact P.
  - rewrite set_job_other by lia. exact P.
  - jcase j j0; [ | exact P]. destruct (g_start _ G j0) as [_ E]; [now rewrite H | ]. congruence.
  - jcase j j0; [now rewrite P | exact P].
  - now rewrite P.
  - jcase j i; [congruence | exact P].
  - jcase j i; [congruence | exact P].
  - jcase j i; [congruence | exact P].
  - jcase j i; [congruence | exact P].
  - jcase j i; [congruence | exact P].
  - jcase j i; [now rewrite P | exact P].
  - jcase j j0; [ | exact P]. rewrite P in H0. discriminate.
  - jcase j j0; [ | exact P]. rewrite P in H0. discriminate.
Qed.
Lemma over_next : forall n, over_job (at_ n) -> over_job (at_ (S n)).
Proof.
  intros n P. destruct (fo_step _ _ _ _ F n) as [(w & ST) | [E _]]; [ | now rewrite E]. destruct (prefix_runs settable e at_ ev F n) as (tr & R). eapply over_kept; eauto.
Qed.

Lemma unlisted_next : forall n, over_job (at_ n) -> ~ In j (listeners (at_ n)) -> ~ In j (listeners (at_ (S n))).
Proof.
  intros n P Q. destruct (fo_step _ _ _ _ F n) as [(w & ST) | [E _]]; [ | now rewrite E]. destruct (prefix_runs settable e at_ ev F n) as (tr & R).
  destruct (runs_told _ _ _ _ R) as (G & _). destruct P as [P LT]. revert ST P LT Q G. generalize (at_ n), (ev n), (at_ (S n)). clear. intros s x s' ST P LT Q G.
  destruct ST as [s x s' ST | s i x s' ST | s x s' ST]; destruct ST; cbn; try exact Q.
  - rewrite in_app_iff. intros [K | [K | []]]; [auto | subst j0]. destruct (g_start _ G j) as [_ E]; [now rewrite H | ]. congruence.
  - intros K. apply Q. apply (remove_each_spec gone _ (g_nodup _ G)) in K. apply K.
Qed.

Definition released (n : nat) : Prop := exists m, n <= m /\ ~ In j (listeners (at_ m)).
Lemma released_later : forall n m, n <= m -> released m -> released n.
Proof. intros n m L (k & K & E). exists k. split; [lia | exact E]. Qed.

Lemma next_over : forall n l, lst (at_ n) = l -> over_job (at_ n) ->
  exists k, n <= k /\ lst (at_ k) = l /\ over_job (at_ k) /\ over_job (at_ (S k)) /\ listener_step settable (at_ k) (ev k) (at_ (S k)).
Proof.
  intros n l E P. destruct (next_step settable e at_ ev F (fun s => lst s = l /\ over_job s) n) as (k & L & [A B] & ST); [ | auto | exists k; pose proof (over_next k B); auto 10].
  intros s w x s' tr R ST N [Q V]. rewrite (lst_kept _ _ _ _ _ ST N). split; [exact Q | eapply over_kept; eauto].
Qed.

Ltac inv_step ST := inversion ST as [s0 g0 E0 | s0 g0 E0 | s0 E0 | s0 E0 SF0 LS0 | s0 E0 | s0 E0 | s0 s1 E0 | s0 s1 t0 E0 R0 | s0 j0 c0 t0 g0 E0 P0 | s0 j0 t0 g0 E0 P0
      | s0 j0 t0 g0 E0 P0 | s0 j0 t0 g0 E0 P0 | s0 j0 v0 x0 c0 t0 g0 E0 | s0 j0 v0 x0 c0 t0 g0 E0 | s0 j0 t0 g0 E0 EV | s0 g0 E0].
Ltac dead k := exfalso; apply (over settable e at_ ev F (S k) Dead); [now left | ]; match goal with H : _ = at_ (S k) |- _ => now rewrite <- H end.
Ltac now_at k := match goal with H : _ = at_ (S k) |- _ => rewrite <- H end; auto; reflexivity.
Ltac go n k E P L A B B' ST := destruct (next_over n _ E P) as (k & L & A & B & B' & ST); apply (released_later n (S k)); [lia | ].

Lemma prune_in : forall n g, lst (at_ n) = Prune g -> over_job (at_ n) -> In j g -> released n.
Proof.
  intros n g E P K. go n k E P L A B B' ST; inv_step ST; rewrite A in E0; try discriminate E0. injection E0 as <-. exists (S k). split; [lia | ].
  match goal with H : _ = at_ (S k) |- _ => rewrite <- H end. cbn. destruct (prefix_runs settable e at_ ev F k) as (tr & R). destruct (runs_told _ _ _ _ R) as (G & _).
  intros Q. apply (remove_each_spec g _ (g_nodup _ G)) in Q. now apply Q.
Qed.
Lemma top_in : forall n g, lst (at_ n) = Top g -> over_job (at_ n) -> In j g -> released n.
Proof. intros n g E P K. go n k E P L A B B' ST; inv_step ST; rewrite A in E0; try discriminate E0. injection E0 as <-. apply (prune_in (S k) g); auto. now_at k. Qed.

Lemma apply_any : forall i t g n0, (forall n, n0 <= n -> lst (at_ n) = Each t g -> over_job (at_ n) -> released n) ->
  forall c n, n0 <= n -> lst (at_ n) = Apply i c t g -> over_job (at_ n) -> released n.
Proof.
  intros i t g n0 HE. induction c as [ | [v x] c IH]; intros n L0 E P; go n k E P L A B B' ST; inv_step ST; rewrite A in E0; try discriminate E0.
  - injection E0 as <- <- <-. apply HE; [lia | now_at k | auto].
  - injection E0 as <- <- <- <- <- <-. apply IH; [lia | now_at k | auto].
  - dead k.
Qed.

(** The job is among those to be read, or among those at their end, or else the next round finds it *)
Lemma each_any : forall t n g, lst (at_ n) = Each t g -> over_job (at_ n) ->
  (In j t \/ In j g \/ forall k g, n <= k -> lst (at_ k) = Top g -> over_job (at_ k) -> released k) -> released n.
Proof.
  induction t as [ | i t IH]; intros n g E P H.
  - go n k E P L A B B' ST; inv_step ST; rewrite A in E0; try discriminate E0. injection E0 as <-. assert (E1 : lst (at_ (S k)) = Top g) by now_at k.
    destruct H as [[] | [K | H]]; [apply (top_in (S k) g); auto | apply (H (S k) g); auto; lia].
  - go n k E P L A B B' ST; inv_step ST; rewrite A in E0; try discriminate E0; injection E0 as <- <- <-.
    + assert (N : i <> j) by (intros ->; destruct B as [B _]; rewrite B in P0; discriminate).
      apply (apply_any i t g (S k)) with (c := c0); auto; [ | now_at k]. intros n' L' E' P'. apply (IH n' g E' P').
      destruct H as [[K | K] | [K | H]]; [now destruct N | now left | now right; left | right; right]. intros q g' LQ. apply H. lia.
    + dead k.
    + dead k.
    + apply (IH (S k) (g ++ [i])); auto; [now_at k | ].
      destruct H as [[-> | K] | [K | H]]; [right; left; rewrite in_app_iff; cbn; auto | now left | right; left; rewrite in_app_iff; auto | right; right].
      intros q g' LQ. apply H. lia.
Qed.

Lemma poll_any : forall n seen, lst (at_ n) = Poll seen -> over_job (at_ n) ->
  (In j seen \/ forall k g, n <= k -> lst (at_ k) = Top g -> over_job (at_ k) -> released k) -> released n.
Proof.
  intros n seen E P H. go n k E P L A B B' ST; inv_step ST; rewrite A in E0; try discriminate E0. injection E0 as <-. apply (each_any t0 (S k) []); auto; [now_at k | ].
  destruct H as [K | H]; [left | right; right; intros q g LQ; apply H; lia]. apply R0. split; [exact K | ]. destruct B as [B _]. unfold ready. now rewrite B.
Qed.
Lemma unlock_any : forall n seen, lst (at_ n) = Unlock seen -> over_job (at_ n) ->
  (In j seen \/ forall k g, n <= k -> lst (at_ k) = Top g -> over_job (at_ k) -> released k) -> released n.
Proof.
  intros n seen E P H. go n k E P L A B B' ST; inv_step ST; rewrite A in E0; try discriminate E0. injection E0 as <-. apply (poll_any (S k) seen); auto; [now_at k | ].
  destruct H as [K | H]; [now left | right; intros q g LQ; apply H; lia].
Qed.
Lemma look_any : forall n, lst (at_ n) = Look -> over_job (at_ n) -> released n.
Proof.
  intros n E P. destruct (next_over n _ E P) as (k & L & A & B & B' & ST). destruct (in_dec Nat.eq_dec j (listeners (at_ k))) as [K | K]; [ | exists k; auto].
  apply (released_later n (S k)); [lia | ]. inv_step ST; rewrite A in E0; try discriminate E0.
  - exfalso. apply (over settable e at_ ev F (S k) Stopped); [now right | now_at k].
  - exfalso. now rewrite LS0 in K.
  - apply (unlock_any (S k) (listeners (at_ k))); auto. now_at k.
Qed.
Lemma prune_any : forall n g, lst (at_ n) = Prune g -> over_job (at_ n) -> released n.
Proof. intros n g E P. go n k E P L A B B' ST; inv_step ST; rewrite A in E0; try discriminate E0. apply look_any; auto. now_at k. Qed.
Lemma top_any : forall n g, lst (at_ n) = Top g -> over_job (at_ n) -> released n.
Proof. intros n g E P. go n k E P L A B B' ST; inv_step ST; rewrite A in E0; try discriminate E0. injection E0 as <-. apply (prune_any (S k) g); auto. now_at k. Qed.

Lemma is_released : forall n, over_job (at_ n) -> released n.
Proof.
  intros n P. assert (TOP : forall n', forall k g, n' <= k -> lst (at_ k) = Top g -> over_job (at_ k) -> released k) by (intros n' k g _; apply top_any).
  destruct (lst (at_ n)) as [gone | gone | | | seen | seen | todo gone | i c todo gone | | ] eqn:E.
  - eapply top_any; eauto.
  - eapply prune_any; eauto.
  - now apply look_any.
  - go n k E P L A B B' ST; inv_step ST; rewrite A in E0; try discriminate E0. apply look_any; auto. now_at k.
  - eapply unlock_any; eauto.
  - eapply poll_any; eauto.
  - eapply each_any; eauto.
  - eapply (apply_any i todo gone n); [ | apply le_n | exact E | exact P]. intros n' _ E' P'. eapply each_any; eauto.
  - exfalso. exact (over settable e at_ ev F n Stopped (or_intror eq_refl) E).
  - exfalso. exact (over settable e at_ ev F n Dead (or_introl eq_refl) E).
Qed.

Lemma stays_released : forall n, over_job (at_ n) -> exists m, n <= m /\ forall k, m <= k -> ~ In j (listeners (at_ k)).
Proof.
  intros n P. destruct (is_released n P) as (m & L & K). exists m. split; [exact L | ]. intros k LK.
  assert (PM : forall d, over_job (at_ (n + d))) by (induction d as [ | d IH]; [now rewrite Nat.add_0_r | rewrite Nat.add_succ_r; now apply over_next]).
  assert (Q : forall d, ~ In j (listeners (at_ (m + d)))).
  { induction d as [ | d IH]; [now rewrite Nat.add_0_r | ]. rewrite Nat.add_succ_r. apply unlisted_next; [ | exact IH]. replace (m + d) with (n + (m - n + d)) by lia. apply PM. }
  replace k with (m + (k - m)) by lia. apply Q.
Qed.
End Released.

(** A job that has been started and has ended, and whose changes have been read, is some day no longer listened to, and never again, in every
    run in which the listener goes on *)
Theorem c80_released : forall settable e at_ ev j n, forever settable e at_ ev -> j < next (at_ n) -> jobs (at_ n) j = mkj Gone Void ->
  exists m, n <= m /\ forall k, m <= k -> ~ In j (listeners (at_ k)).
Proof. intros settable e at_ ev j n F LT P. apply (stays_released settable e at_ ev F j n). now split. Qed.

(** Job 0 has ended and its message has been read, and it is still listened to *)
From Verif.Sys Require Import ListenerRefuted.
Example c80_released_case : forever any empty at_time at_event /\ 0 < next (at_time 18) /\ jobs (at_time 18) 0 = mkj Gone Void /\
  In 0 (listeners (at_time 18)) /\ listeners (at_time 28) = [].
Proof. split; [apply c80_forever | ]. split; [cbn; lia | ]. split; [reflexivity | ]. split; [now left | reflexivity]. Qed.
Print Assumptions c80_released.
