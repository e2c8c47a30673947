(** A repeated end of stream (C61). tail and args tell their receiver of the end of the stream twice, on the assumption that
    the second time does nothing (op/args.py:104-106: Propagating a flush a second time should be a noop); sudo does the same
    (op/sudo.py:127, and pipeline.py:334). *)
From Verif.Ops Require Export Rerun.
Set Implicit Arguments.
Local Open Scope list_scope.

(** The operators of which the assumption is true: all that have been modelled, but union, window -o, and operators that have
    them in a pipeline that stays open until the end of the stream (case, pipeline variables). *)
Inductive steady : machine -> Prop :=
| s_map : forall f, steady (map_op f)
| s_select : forall f, steady (select_op f)
| s_squish : forall f, steady (squish_op f)
| s_cast : forall fs, steady (cast_op fs)
| s_head : forall n, steady (head_op n)
| s_tail : forall n, steady (tail_op n)
| s_reverse : steady reverse_op
| s_sort : forall k, steady (sort_op k)
| s_unique : steady unique_op
| s_unique_c : steady unique_consecutive_op
| s_window_p : forall p o d, steady (window_op (Some p) o d)
| s_window_d : forall d, steady (window_op None None d)
| s_red : forall i rs, steady (red_op i rs)
| s_expand : forall p, steady (expand_op p)
| s_difference : forall p, steady (difference_op p)
| s_intersect : forall ps, steady (intersect_op ps)
| s_join : forall k p, steady (join_op k p)
| s_filter : forall c d p, steady (filter_op c d p)
| s_args : forall a n run, steady (args_op a n run)
| s_write : forall w, steady (write_op w)
| s_nested : forall ms, Forall steady ms -> steady (nested (pipe ms))
| s_case : forall preds pls d, Forall (Forall steady) pls -> steady (case_op preds (map pipe pls) d).

Definition only_flush (o : list event) : Prop := exists k, o = repeat Flush (S k).
Definition settles (m : machine) : Prop :=
  orderly m /\
  exists done : St m -> Prop,
    (forall s s' o, step m s Flush = (s', o, Ok) -> done s' /\ exists o' k, o = o' ++ repeat Flush (S k) /\ open_stream o') /\
    (forall s, done s -> exists s' o, step m s Flush = (s', o, Ok) /\ only_flush o /\ done s').

(** For an operator whose second flush does the default. *)
Lemma settles_default : forall m (done : St m -> Prop), orderly m ->
  (forall s s' o, step m s Flush = (s', o, Ok) -> done s' /\ exists o' k, o = o' ++ repeat Flush (S k) /\ open_stream o') ->
  (forall s, done s -> exists s', step m s Flush = (s', [Flush], Ok) /\ done s') -> settles m.
Proof.
  intros m done Ho H1 H2. split; auto. exists done. split; auto. intros s D. destruct (H2 s D) as (s' & E & D'). exists s', [Flush].
  split; [exact E|]. split; auto. now exists 0.
Qed.
Lemma settles_simple : forall m, orderly m -> (forall s, step m s Flush = (s, [Flush], Ok)) -> settles m.
Proof.
  intros m Ho H. apply settles_default with (fun _ => True); auto.
  - intros s s' o E. rewrite H in E. inversion E; subst. split; auto. now exists [], 0.
  - intros s _. exists s. auto.
Qed.

(** In state done, any number of flushes give flushes. *)
Lemma feed_flushes : forall m (done : St m -> Prop),
  (forall s, done s -> exists s' o, step m s Flush = (s', o, Ok) /\ only_flush o /\ done s') ->
  forall k s, done s -> exists s' j, feed m s (repeat Flush k) = (s', repeat Flush j, Ok) /\ done s' /\ (k <= j)%nat.
Proof.
  intros m done H. induction k as [|k IH]; intros s D.
  - exists s, 0. split; [reflexivity|auto].
  - destruct (H s D) as (s1 & o & E & (j & ->) & D1). destruct (IH s1 D1) as (s2 & i & E2 & D2 & L).
    exists s2, (S j + i)%nat. split; [|split; [auto|lia]]. cbn [repeat feed]. unfold deliver. cbn [as_input]. rewrite E. cbn [caught].
    rewrite E2. now rewrite <- repeat_app.
Qed.
Lemma open_app : forall a b, open_stream a -> open_stream b -> open_stream (a ++ b).
Proof. intros a b A B. unfold open_stream in *. now rewrite forallb_app, A, B. Qed.

Lemma settles_compose : forall a b, settles a -> settles b -> settles (compose a b).
Proof.
  intros a b (Oa & da & A1 & A2) (Ob & db & B1 & B2). split; [now apply orderly_seq|].
  exists (fun s => da (fst s) /\ db (snd s)). split.
  - intros [s t] s' o E. cbn [compose step fst snd] in E. destruct (step a s Flush) as [[s1 o1] r1] eqn:E1.
    destruct (feed b t o1) as [[t2 o2] r2] eqn:E2. inversion E; subst; clear E.
    destruct r2; try discriminate. destruct r1; try discriminate.
    destruct (A1 _ _ _ E1) as (D & o1' & k & -> & Op). rewrite feed_app in E2.
    pose proof (@orderly_feed_noflush b Ob o1' t Op) as (N & _).
    destruct (feed b t o1') as [[t1 q1] r] eqn:F1. unfold res_out in N; cbn in N. destruct r; try discriminate.
    cbn [repeat feed] in E2. unfold deliver in E2. cbn [as_input] in E2. destruct (step b t1 Flush) as [[t3 q3] r3] eqn:F2. cbn [caught] in E2.
    destruct r3; try discriminate. destruct (B1 _ _ _ F2) as (Db & q' & j & -> & Oq).
    destruct (@feed_flushes b db B2 k t3 Db) as (t4 & i & F3 & Db' & _). rewrite F3 in E2. inversion E2; subst.
    cbn [fst snd]. split; [auto|]. exists (q1 ++ q'), (j + i)%nat. split.
    + change (S (j + i)) with (S j + i)%nat. now rewrite repeat_app, <- !app_assoc.
    + now apply open_app.
  - intros [s t] (D & Db). cbn [fst snd] in *. destruct (A2 s D) as (s1 & o & E & (k & ->) & D').
    destruct (@feed_flushes b db B2 (S k) t Db) as (t' & j & F & Db' & L).
    exists (s1, t'), (repeat Flush j). cbn [compose step fst snd]. rewrite E, F. split; [reflexivity|]. split; auto.
    destruct j as [|j]; [lia|]. now exists j.
Qed.
Lemma settles_wire : settles wire.
Proof. apply settles_simple; [apply orderly_wire|]. intros []. reflexivity. Qed.
Lemma settles_pipe : forall ms, Forall settles ms -> settles (pipe ms).
Proof. induction 1; cbn [pipe]; auto using settles_wire, settles_compose. Qed.

Lemma repeat_snoc : forall k, repeat Flush (S k) ++ [Flush] = repeat Flush (S (S k)).
Proof. induction k; cbn in *; [reflexivity|]. now rewrite IHk. Qed.
Lemma redirect_flushes : forall k, redirect (repeat Flush k) = [].
Proof. induction k; auto. Qed.
Lemma feed_one : forall m s, feed m s [Flush] = let '(s1, o, r) := step m s Flush in (s1, o, r).
Proof.
  intros m s. cbn. unfold deliver. cbn. destruct (step m s Flush) as [[s1 o] r]. cbn. destruct r; cbn; now rewrite ?app_nil_r.
Qed.

Lemma settles_nested : forall m, settles m -> settles (nested m).
Proof.
  intros m (Om & dn & H1 & H2). split.
  - apply orderly_mk_op. intros s x. now apply (feed_not_flush Om).
  - exists dn. split.
    + intros s s' o E. cbn [nested mk_op step] in E. rewrite feed_one in E. destruct (step m s Flush) as [[s1 o1] r1] eqn:E1.
      destruct r1; inversion E; subst. destruct (H1 _ _ _ E1) as (D & o' & k & -> & Op). split; auto. exists o', (S k).
      split; auto. rewrite <- app_assoc. f_equal. apply repeat_snoc.
    + intros s D. destruct (H2 s D) as (s' & o & E & (k & ->) & D'). exists s', (repeat Flush (S k) ++ [Flush]).
      split; [cbn [nested mk_op step]; rewrite feed_one; now rewrite E|]. split; auto. exists (S k). apply repeat_snoc.
Qed.

(** The branches of a case. *)
Fixpoint all_done (ms : list machine) : Forall settles ms -> states ms -> Prop.
Proof.
  destruct ms as [|m ms]; [exact (fun _ _ => True)|]. intros F s. refine (_ /\ all_done ms (Forall_inv_tail F) (snd s)).
  refine (exists dn : St m -> Prop, _ /\ _ /\ dn (fst s)).
  - exact (forall s s' o, step m s Flush = (s', o, Ok) -> dn s' /\ exists o' k, o = o' ++ repeat Flush (S k) /\ open_stream o').
  - exact (forall s, dn s -> exists s' o, step m s Flush = (s', o, Ok) /\ only_flush o /\ dn s').
Defined.
Lemma case_flush_done : forall ms (F : Forall settles ms) s s' o, case_flush ms s = (s', o, Ok) -> all_done F s' /\ open_stream o.
Proof.
  induction ms as [|m ms IH]; intros F s s' o E.
  - inversion E; subst. split; [exact I|reflexivity].
  - cbn [case_flush] in E. rewrite feed_one in E. destruct (step m (fst s) Flush) as [[s1 o1] r1] eqn:E1. destruct r1; try discriminate.
    destruct (case_flush ms (snd s)) as [[s2 o2] r2] eqn:E2. inversion E; subst. destruct (IH (Forall_inv_tail F) _ _ _ E2) as (D & Op).
    destruct (Forall_inv F) as (Om & dn & H1 & H2). split.
    + split; [|exact D]. exists dn. split; [exact H1|]. split; [exact H2|]. cbn. exact (proj1 (H1 _ _ _ E1)).
    + apply open_app; auto. apply redirect_open.
Qed.
Lemma case_flush_again : forall ms (F : Forall settles ms) s, all_done F s -> exists s', case_flush ms s = (s', [], Ok) /\ all_done F s'.
Proof.
  induction ms as [|m ms IH]; intros F s D.
  - exists s. split; [reflexivity|exact I].
  - destruct D as ((dn & H1 & H2 & D1) & D). destruct (H2 _ D1) as (s1 & o & E & (k & ->) & D1').
    destruct (IH _ _ D) as (s2 & E2 & D2). exists (s1, s2). split.
    + cbn [case_flush]. rewrite feed_one, E, E2. now rewrite redirect_flushes.
    + split; [|exact D2]. exists dn. auto.
Qed.
Lemma settles_case : forall preds ms d, Forall settles ms -> settles (case_op preds ms d).
Proof.
  intros preds ms d F. split.
  - apply orderly_mk_op. intros s x. destruct (case_route preds d 0 (components x)) as [[n|]|]; try reflexivity.
    destruct (feed_nth ms n [Data x] (snd s)) as [[s' o] r]. apply redirect_open.
  - exists (fun s => all_done F (snd s)). split.
    + intros s s' o E. cbn [case_op mk_op step] in E. destruct (case_flush ms (snd s)) as [[l o1] r1] eqn:E1. destruct r1; inversion E; subst.
      destruct (case_flush_done F _ E1) as (D & Op). split; [exact D|]. exists o1, 0. auto.
    + intros s D. destruct (case_flush_again F _ D) as (l & E & D'). exists (fst s, l), [Flush]. cbn [case_op mk_op step].
      rewrite E. split; [reflexivity|]. split; [now exists 0|exact D'].
Qed.

Local Ltac first_flush := intros ? ? ? [= <- <-]; split; [reflexivity|now exists [], 0].

Fixpoint steady_settles m (H : steady m) {struct H} : settles m.
Proof.
  destruct H; try (apply settles_simple; [apply builtin_orderly; constructor|intros s; reflexivity]).
  - (* tail *) pose proof (builtin_orderly (b_tail n)) as Ho. revert Ho. unfold tail_op. destruct (Z.eqb n 0); [|destruct (Z.ltb 0 n)]; intros Ho.
    + apply settles_simple; auto.
    + split; auto. exists (fun s => t_queue s = []). split.
      * intros s s' o [= <- <-]. split; [reflexivity|]. exists (tail_emit (Z.to_nat n) (t_queue s) (t_end s) (Nat.min (Z.to_nat n) (length (t_queue s)))), 1.
        split; [reflexivity|]. generalize (Nat.min (Z.to_nat n) (length (t_queue s))) (t_end s). unfold open_stream. induction n0; intros e; cbn; auto.
      * intros [q e] D. cbn in D. subst q. exists (MkTail [] e), [Flush; Flush]. split; [|split; [now exists 1|reflexivity]].
        cbn. now rewrite Nat.min_0_r.
    + apply settles_simple; auto.
  - (* reverse *) apply settles_default with (fun s => s = None); [apply builtin_orderly; constructor| |].
    + intros [c|] s' o [= <- <-]; (split; [reflexivity|]).
      * exists (map Data (rev c)), 0. split; [reflexivity|apply map_Data_not_flush].
      * now exists [], 0.
    + intros s ->. now exists None.
  - (* sort *) apply settles_default with (fun s => s = None); [apply builtin_orderly; constructor| |].
    + intros [c|] s' o; cbn [sort_op mk_op step].
      * destruct (match k with Some f => sort_keys f c | None => inl (map (fun x => (x, x)) c) end) as [ps|e]; [|discriminate].
        destruct (sort_pairs [] ps) as [ps'|]; [|discriminate]. intros [= <- <-]. split; [reflexivity|].
        exists (map (fun p => Data (snd p)) ps'), 0. split; [reflexivity|]. unfold open_stream. clear. induction ps'; simpl; auto.
      * intros [= <- <-]. split; [reflexivity|]. now exists [], 0.
    + intros s ->. now exists None.
  - (* window, predicate *) apply settles_default with (fun s => s = []); [apply builtin_orderly; constructor| |].
    + intros w s' o' [= <- <-]. split; [reflexivity|]. exists (flush_window w), 0. split; [reflexivity|apply flush_window_not_flush].
    + intros s ->. now exists [].
  - (* window, disjoint *) pose proof (builtin_orderly (b_window None None d)) as Ho. revert Ho. unfold window_op. destruct d as [z|]; intros Ho;
      [|now apply settles_simple]. destruct (Z.leb 0 z); [|now apply settles_simple].
    apply settles_default with (fun s => s = []); auto.
    + intros w s' o'; cbn [window_disjoint mk_op step]. destruct w as [|y w]; intros [= <- <-]; (split; [reflexivity|]).
      * now exists [], 0.
      * exists (flush_window (pad_to (Z.to_nat z) (y :: w))), 0. split; [reflexivity|apply flush_window_not_flush].
    + intros s ->. now exists [].
  - (* red *) pose proof (builtin_orderly (b_red i rs)) as Ho. revert Ho. unfold red_op. destruct (existsb r_group rs); intros Ho.
    + destruct i; [now apply settles_simple|]. apply settles_default with (fun s => s = None \/ s = Some []); auto.
      * intros [[|q l]|] s' o; cbn [red_grouping mk_op step]; intros [= <- <-].
        { split; [auto|]. now exists [], 0. }
        { split; [auto|]. exists (map (fun p => Data (VTuple (snd p))) (q :: l)), 0. split; [reflexivity|].
          unfold open_stream. generalize (q :: l). intros l0. induction l0; simpl; auto. }
        { split; [auto|]. now exists [], 0. }
      * intros s [->| ->]; eexists; (split; [reflexivity|auto]).
    + destruct i; [now apply settles_simple|]. apply settles_default with (fun s => s = None); auto.
      * intros [acc|] s' o [= <- <-]; (split; [reflexivity|]); [exists [Data (VTuple acc)], 0|exists [], 0]; split; reflexivity.
      * intros s ->. now exists None.
  - (* expand *) apply settles_simple; [apply builtin_orderly; constructor|]. destruct p; intros s; reflexivity.
  - (* args *) apply settles_default with (fun s => s = []); [apply builtin_orderly; constructor| |].
    + intros l s' o; cbn [args_op mk_op step]. destruct l as [|x l]; [intros [= <- <-]; split; [reflexivity|now exists [], 0]|].
      cbv zeta. set (l' := if a then _ else _). destruct (snd (run l')); intros [= <- <-]. split; [reflexivity|].
      exists (redirect (fst (run l'))), 1. split; [now rewrite <- app_assoc|apply redirect_open].
    + intros s ->. now exists [].
  - (* nested *) apply settles_nested, settles_pipe. induction H as [|m ms Hm Hms IH]; constructor; auto.
  - (* case *) apply settles_case. induction H as [|ms pls Hm Hms IH]; constructor; auto. apply settles_pipe. clear IH Hms.
    induction Hm as [|m ms Hm Hms IH]; constructor; auto.
Defined.

(** ** C61 *)

(** What is seen of a run: the tuples and Errors, in order, and how it ended. *)
Definition seen (r : source) : list event * outcome := (filter not_flush (fst r), snd r).
Lemma filter_open : forall o, open_stream o -> filter not_flush o = o.
Proof. unfold open_stream. induction o as [|e o IH]; cbn; intros H; auto. destruct (not_flush e); [|discriminate]. cbn in H. now rewrite IH. Qed.
Lemma filter_flushes : forall k, filter not_flush (repeat Flush k) = [].
Proof. induction k; auto. Qed.

Lemma feed_repeat : forall m, settles m -> forall es s k, 
  let '(s1, o1, r1) := feed m s (es ++ [Flush]) in
  let '(s2, o2, r2) := feed m s (es ++ Flush :: repeat Flush k) in
  r1 = r2 /\ filter not_flush o1 = filter not_flush o2.
Proof.
  intros m (Om & dn & H1 & H2) es s k. rewrite !feed_app. destruct (feed m s es) as [[s1 o1] r1]. destruct r1; auto.
  rewrite feed_one. cbn [feed]. unfold deliver. cbn [as_input]. destruct (step m s1 Flush) as [[s2 o2] r2] eqn:E. cbn [caught]. destruct r2; auto.
  destruct (H1 _ _ _ E) as (D & _). destruct (@feed_flushes m dn H2 k s2 D) as (s3 & j & -> & _). split; auto.
  rewrite !filter_app, filter_flushes. now rewrite app_nil_r.
Qed.

(** Whatever the first operator sends, being told more than once that it was all makes no difference to a pipeline of steady
    operators. *)
Theorem c61_repeated_end_partial : forall ms es k, Forall steady ms ->
  seen (exec (pipe ms) (es ++ repeat Flush k, Ok)) = seen (exec (pipe ms) (es, Ok)).
Proof.
  intros ms es k H. assert (S : settles (pipe ms)).
  { apply settles_pipe. eapply Forall_impl; [|exact H]. exact steady_settles. }
  rewrite !exec_through. unfold through. destruct (setup (pipe ms) (fresh (pipe ms))) as [s|]; [|reflexivity].
  rewrite <- app_assoc. assert (E : repeat Flush k ++ [Flush] = Flush :: repeat Flush k) by (clear; induction k; cbn; congruence). rewrite E.
  pose proof (feed_repeat S es s k) as F. destruct (feed (pipe ms) s (es ++ [Flush])) as [[s1 o1] r1].
  destruct (feed (pipe ms) s (es ++ Flush :: repeat Flush k)) as [[s2 o2] r2]. destruct F as (-> & F). unfold seen. cbn. now rewrite F.
Qed.

(** In particular after tail and args, which repeat the end of the stream, and in the place of the operators that follow sudo. *)
Definition rows_of (r : source) : list val := rows (fst r).
Definition ints (l : list Z) : list event := map (fun z => Data (VInt z)) l.

(** Without steady: union runs its pipelines again, and window -o adds windows of None.
    gen 2 | tail 1 | union (| gen 1 10 |) *)
Theorem c61_union_refuted :
  rows_of (exec (pipe [tail_op 1; union_op [(ints [10%Z], Ok)]]) (ints [1%Z; 2%Z], Ok))
    = [VTuple [VInt 2]; VTuple [VInt 10]; VTuple [VInt 10]] /\
  rows_of (exec (pipe [select_op (fun l => Some (VBool (match l with [VInt z] => Z.ltb 1 z | _ => false end))); union_op [(ints [10%Z], Ok)]]) (ints [1%Z; 2%Z], Ok))
    = [VTuple [VInt 2]; VTuple [VInt 10]].
Proof. split; reflexivity. Qed.
(** gen 3 | tail 2 | window -o 2 *)
Theorem c61_window_refuted :
  rows_of (exec (pipe [tail_op 2; window_op None (Some 2%Z) None]) (ints [1%Z; 2%Z; 3%Z], Ok))
    = [VTuple [VInt 2; VInt 3]; VTuple [VInt 3; VNone]; VTuple [VNone; VNone]] /\
  rows_of (exec (pipe [window_op None (Some 2%Z) None]) (ints [2%Z; 3%Z], Ok))
    = [VTuple [VInt 2; VInt 3]; VTuple [VInt 3; VNone]].
Proof. split; reflexivity. Qed.

(** A pipeline that meets the hypothesis, in which the end of the stream is repeated, and it does not matter.
    gen 5 | tail 4 | args (| a, b, c: gen ... |) | sort | red + *)
Definition sum_red : reducer := MkRed (fun l => match l with [VInt a; VInt b] => Some (VInt (a + b)) | [VNone; v] => Some v | _ => None end) false false.
Definition example := [tail_op 4; args_op false 3 (fun l => (map Data l, Ok)); select_op (fun l => Some (VBool (match l with [VInt _] => true | _ => false end))); sort_op None; red_op false [sum_red]].
Theorem c61_example : Forall steady example /\
  rows_of (exec (pipe example) (ints [5; 4; 3; 2; 1]%Z ++ [Flush; Flush], Ok)) = [VTuple [VInt 10]] /\
  (1 < flushes (fst (exec (pipe example) (ints [5; 4; 3; 2; 1]%Z, Ok))))%nat.
Proof.
  split; [repeat constructor|]. split; [reflexivity|]. now vm_compute; repeat constructor.
Qed.
