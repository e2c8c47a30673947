(** C92: fork runs a pipeline for each thread id, and failures are reported. *)
From Coq Require Import Lia.
From Verif.Sys Require Import ForkSpec ForkProps ForkWorkers.

Section Props.
Variables V T E : Type.
Notation failure := (failure E).
Notation fork := (@fork V T E).
Notation behaviour := (behaviour V E).

(** The thread ids of a generator: 0, ..., N-1, or the elements *)
Definition id_of (g : forkgen T) (k : nat) (i : thread_id T) : Prop :=
  match g with
  | Int _ n => (Z.of_nat k < n)%Z /\ i = Nth T k
  | Iterable _ l => exists x, nth_error l k = Some x /\ i = Item T x
  | Neither _ => False
  end.
(** The ids that a pipeline with this number of parameters is given *)
Definition given (params : nat) (i : thread_id T) : list (thread_id T) := match params with O => [] | _ => [i] end.

Lemma nth_error_ids : forall g l k i, thread_ids T E g = inl l -> (nth_error l k = Some i <-> id_of g k i).
Proof.
  intros [n|l|] l' k i H; cbn in H; [| |discriminate].
  - destruct (0 <? n)%Z eqn:P; [|discriminate]. injection H as <-. apply Z.ltb_lt in P. cbn. rewrite nth_error_map. split.
    + destruct (nth_error (seq 0 (Z.to_nat n)) k) as [j|] eqn:N; [|easy]. cbn. intros [= <-].
      assert (L : (k < Z.to_nat n)%nat) by (rewrite <- (seq_length (Z.to_nat n) 0); apply nth_error_Some; congruence).
      apply (nth_error_nth _ _ 0) in N. rewrite seq_nth in N by lia. subst j. split; [lia|reflexivity].
    + intros [L ->]. rewrite (nth_error_nth' _ 0) by (rewrite seq_length; lia). rewrite seq_nth by lia. reflexivity.
  - destruct l as [|x l]; [discriminate|]. injection H as <-. cbn [id_of]. change (Item T x :: map (Item T) l) with (map (Item T) (x :: l)).
    rewrite nth_error_map. destruct (nth_error (x :: l) k) as [y|]; cbn; split.
    + intros [= <-]. now exists y.
    + intros (z & [= <-] & ->). reflexivity.
    + discriminate.
    + now intros (z & ? & _).
Qed.

(** fork starts, with one worker for each id, exactly for a positive int or an iterable that is not empty, and at most one parameter. *)
Theorem c92_starts : forall g params body,
  (exists n ws, fork g params body = inl (n, ws) /\ (forall k, (k < n)%nat <-> exists i, id_of g k i) /\ (0 < n)%nat)
  <-> ((exists i, id_of g 0 i) /\ (params <= 1)%nat).
Proof.
  intros g params body. unfold ForkWorkers.fork. split.
  - intros (n & ws & H & A & P). destruct (thread_ids T E g) as [l|] eqn:G; [|discriminate].
    destruct (1 <? params)%nat eqn:L; [discriminate|]. apply Nat.ltb_ge in L. split; auto. now apply A.
  - intros ((i & I) & L). destruct (thread_ids T E g) as [l|e] eqn:G.
    + apply Nat.ltb_ge in L. rewrite L. exists (length l), (worker V T E l params body). split; auto.
      assert (A : forall k, (k < length l)%nat <-> exists i, id_of g k i).
      { intros k. rewrite <- nth_error_Some. split.
        - intros N. destruct (nth_error l k) as [j|] eqn:J; [|easy]. exists j. now apply (nth_error_ids g l).
        - intros (j & J). apply (nth_error_ids g l k j G) in J. congruence. }
      split; auto. apply A. now exists i.
    + exfalso. destruct g as [n|[|x l]|]; cbn in *; try discriminate; try easy.
      * destruct I as [I _]. apply Z.ltb_lt in I. now rewrite I in G.
      * now destruct I as (x & ? & _).
Qed.
(** Else there is a message. *)
Theorem c92_refused : forall g params body e, fork g params body = inr e ->
  (exists n, g = Int T n /\ (n <= 0)%Z /\ e = Not_positive E) \/ (g = Iterable T [] /\ e = Empty E) \/ (g = Neither T /\ e = Invalid E)
  \/ ((1 < params)%nat /\ e = Too_many_args E).
Proof.
  intros g params body e H. unfold ForkWorkers.fork, thread_ids in H. destruct g as [n|[|x l]|].
  - destruct (0 <? n)%Z eqn:P.
    + destruct (1 <? params)%nat eqn:L; [|discriminate]. injection H as <-. apply Nat.ltb_lt in L. auto.
    + injection H as <-. apply Z.ltb_ge in P. left. now exists n.
  - injection H as <-. auto.
  - destruct (1 <? params)%nat eqn:L; [|discriminate]. injection H as <-. apply Nat.ltb_lt in L. auto.
  - injection H as <-. auto.
Qed.

Lemma fold_send : forall ms c, opened V E c = true ->
  fold_left (fun c m => send V E m c) ms c = mkconn V E (sent V E c ++ ms) true (broken V E c).
Proof.
  induction ms as [|m ms IH]; intros [s o b] O; cbn in O; subst o; cbn [fold_left].
  - cbn. now rewrite app_nil_r.
  - unfold send at 2. cbn [opened sent broken]. rewrite IH by reflexivity. cbn [sent broken]. now rewrite <- app_assoc.
Qed.
Lemma sent_ok : forall b, setup_raises V E b = None -> sent V E (run_in_child V E b) = passes V E b.
Proof.
  intros b S. unfold run_in_child. rewrite S, fold_send by reflexivity. cbn [sent broken close app].
  destruct (run_raises V E b); reflexivity.
Qed.
Lemma worker_sends : forall g params body n ws w i, fork g params body = inl (n, ws) -> id_of g w i ->
  ws w = sent V E (run_in_child V E (behaves V T E (given params i) body)).
Proof.
  intros g params body n ws w i H I. unfold ForkWorkers.fork in H. destruct (thread_ids T E g) as [l|] eqn:G; [|discriminate].
  destruct (1 <? params)%nat; [discriminate|]. injection H as <- <-. unfold worker. apply (nth_error_ids g l w i G) in I. rewrite I.
  reflexivity.
Qed.

(** Each worker runs the pipeline with its id, and sends all that comes out; what reaches the output of fork, whatever the schedule, is
    the beginning of it. *)
Theorem c92_outputs : forall g params f n ws w i, fork g params (Ops V T E f) = inl (n, ws) -> id_of g w i ->
  setup_raises V E (f (given params i)) = None ->
  ws w = passes V E (f (given params i))
  /\ forall sm cap t s, runs sm cap n (start ws n) t s -> prefix (output_of w t) (passes V E (f (given params i))).
Proof.
  intros g params f n ws w i H I S. pose proof (worker_sends _ _ _ _ _ _ _ H I) as W. cbn [behaves] in W. rewrite sent_ok in W by auto.
  split; auto. intros sm cap t s R. rewrite <- W. refine (c36_prefix sm cap n ws t s _ R w).
  unfold ForkWorkers.fork in H. destruct (thread_ids T E g) as [l|] eqn:G; [|discriminate].
  destruct (1 <? params)%nat; [discriminate|]. injection H as <- <-. apply (nth_error_ids g l w i G) in I.
  assert (X : (w < length l)%nat) by (apply nth_error_Some; congruence). lia.
Qed.

(** An exception of the setup in a worker is sent. It is received as a value: fork passes it on like an output, and goes on. *)
Theorem c92_setup_errors : forall g params f n ws w i e, fork g params (Ops V T E f) = inl (n, ws) -> id_of g w i ->
  setup_raises V E (f (given params i)) = Some e -> ws w = [Exception V E e].
Proof.
  intros g params f n ws w i e H I S. rewrite (worker_sends _ _ _ _ _ _ _ H I). cbn [behaves]. unfold run_in_child. now rewrite S.
Qed.

(** An exception of the run is lost: what the worker sends is what it would send without it. *)
Definition calm (b : behaviour) : behaviour := mkbehaviour V E (setup_raises V E b) (passes V E b) None.
Theorem c92_run_errors_refuted : forall g params f n ws n' ws' w i, fork g params (Ops V T E f) = inl (n, ws) ->
  fork g params (Ops V T E (fun ids => calm (f ids))) = inl (n', ws') -> id_of g w i -> n = n' /\ ws w = ws' w.
Proof.
  intros g params f n ws n' ws' w i H H' I. split.
  - unfold ForkWorkers.fork in *. destruct (thread_ids T E g) as [l|]; [|discriminate]. destruct (1 <? params)%nat; congruence.
  - rewrite (worker_sends _ _ _ _ _ _ _ H I), (worker_sends _ _ _ _ _ _ _ H' I). cbn [behaves].
    destruct (setup_raises V E (f (given params i))) as [e|] eqn:S.
    + unfold run_in_child, calm. cbn [setup_raises]. now rewrite S.
    + rewrite !sent_ok; auto.
Qed.
(** The worker dies of another exception. *)
Theorem c92_dies : forall b, broken V E (run_in_child V E b) = true <-> setup_raises V E b = None /\ run_raises V E b <> None.
Proof.
  intros b. unfold run_in_child. destruct (setup_raises V E b) as [e|]; [cbn; split; [discriminate|now intros []]|].
  rewrite fold_send by reflexivity. destruct (run_raises V E b); cbn; split; auto; try discriminate; try (now intros []).
Qed.

(** fork in fork never works: nothing ever comes out, whatever is run. *)
Theorem c92_nested_refuted : forall g params g' params' body n ws w i, fork g params (Forks V T E g' params' body) = inl (n, ws) -> id_of g w i ->
  (exists j, id_of g' 0 j) -> (params' <= 1)%nat ->
  ws w = [] /\ forall sm cap t s, runs sm cap n (start ws n) t s -> output_of w t = [].
Proof.
  intros g params g' params' body n ws w i H I (j & J) L.
  assert (W : ws w = []).
  { rewrite (worker_sends _ _ _ _ _ _ _ H I). cbn [behaves]. destruct (thread_ids T E g') as [l|e] eqn:G.
    - apply Nat.ltb_ge in L. rewrite L. reflexivity.
    - exfalso. destruct g' as [k|[|x l]|]; cbn in *; try discriminate; try easy.
      + destruct J as [J _]. apply Z.ltb_lt in J. now rewrite J in G.
      + now destruct J as (x & ? & _). }
  split; auto. intros sm cap t s R. assert (P : prefix (output_of w t) (ws w)).
  { refine (c36_prefix sm cap n ws t s _ R w). unfold ForkWorkers.fork in H. destruct (thread_ids T E g) as [l|] eqn:G; [|discriminate].
    destruct (1 <? params)%nat; [discriminate|]. injection H as <- <-. apply (nth_error_ids g l w i G) in I.
    assert (X : (w < length l)%nat) by (apply nth_error_Some; congruence). lia. }
  rewrite W in P. destruct P as (c & P). now destruct (output_of w t).
Qed.
(** What is wrong with the arguments of a fork in fork is received like other exceptions of the setup. *)
Theorem c92_nested_errors : forall g params g' params' body n ws w i e, fork g params (Forks V T E g' params' body) = inl (n, ws) -> id_of g w i ->
  fork g' params' body = inr e -> ws w = [Exception V E e].
Proof.
  intros g params g' params' body n ws w i e H I H'. rewrite (worker_sends _ _ _ _ _ _ _ H I). cbn [behaves].
  unfold ForkWorkers.fork in H'. destruct (thread_ids T E g') as [l|e'].
  - destruct (1 <? params')%nat; [|discriminate]. now injection H' as <-.
  - now injection H' as <-.
Qed.
End Props.

(** fork 2 (| t: ... |) with a pipeline that passes on its id and then, in the second worker, fails; and fork 2 (| fork 'a' (| ... |) |) *)
Example c92_case :
  let f := fun ids => mkbehaviour nat unit None (map (fun i => Value nat unit (match i with Nth _ k => k | Item _ x => x end)) ids)
                        (match ids with [Nth _ 1] => Some (Other unit tt) | _ => None end) in
  (exists ws, fork nat nat unit (Int nat 2) 1 (Ops nat nat unit f) = inl (2, ws) /\ ws 0 = [Value nat unit 0] /\ ws 1 = [Value nat unit 1])
  /\ (exists ws, fork nat nat unit (Iterable nat [7]) 1 (Ops nat nat unit f) = inl (1, ws) /\ ws 0 = [Value nat unit 7])
  /\ (exists ws, fork nat nat unit (Int nat 2) 0 (Forks nat nat unit (Iterable nat [7]) 1 (Ops nat nat unit f)) = inl (2, ws) /\ ws 0 = []).
Proof. repeat split; eexists; repeat split; reflexivity. Qed.

Print Assumptions c92_starts.
Print Assumptions c92_refused.
Print Assumptions c92_outputs.
Print Assumptions c92_setup_errors.
Print Assumptions c92_run_errors_refuted.
Print Assumptions c92_dies.
Print Assumptions c92_nested_refuted.
Print Assumptions c92_nested_errors.
