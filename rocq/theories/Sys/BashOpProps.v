(** C53: the output of an external command, line by line. *)
From Verif.Sys Require Import BashOpSpec.
Local Open Scope list_scope.

(** ** Lines *)
Lemma first_line_some : forall t l u, first_line t = Some (l, u) -> t = l ++ nl :: u /\ ~ In nl l.
Proof.
  induction t as [ | c t IH]; intros l u H; [discriminate H | ]. cbn [first_line] in H.
  destruct (Ascii.eqb_spec c nl) as [-> | N].
  - inversion H; subst. split; [reflexivity | intros []].
  - destruct (first_line t) as [[l' u'] | ]; [ | discriminate H]. inversion H; subst. destruct (IH l' u eq_refl) as [-> I].
    split; [reflexivity | ]. intros [E | E]; auto.
Qed.

Lemma first_line_none : forall t, first_line t = None -> ~ In nl t.
Proof.
  induction t as [ | c t IH]; intros H; [intros [] | ]. cbn [first_line] in H.
  destruct (Ascii.eqb_spec c nl) as [-> | N]; [discriminate H | ].
  destruct (first_line t) as [[l' u'] | ]; [discriminate H | ]. intros [E | E]; [congruence | ]. apply IH; auto.
Qed.

Lemma lines_total : forall t, exists ls, lines t ls.
Proof.
  assert (X : forall n t, length t <= n -> exists ls, lines t ls); [ | intro t; apply (X (length t) t (le_n _))].
  induction n; intros t H.
  - destruct t; [exists []; constructor | simpl in H; lia].
  - destruct (first_line t) as [[l u] | ] eqn:E.
    + apply first_line_some in E. destruct E as [-> I]. destruct (IHn u) as [ls L].
      * rewrite app_length in H. simpl in H. lia.
      * exists (l :: ls). constructor; assumption.
    + apply first_line_none in E. destruct t as [ | c t]; [exists []; constructor | ]. exists [c :: t]. apply lines_last; [assumption | discriminate].
Qed.

Definition ended_by_nl (ls : list text) : text := flat_map (fun l => l ++ [nl]) ls.

Lemma lines_app : forall ls t ls', Forall (fun l => ~ In nl l) ls -> lines t ls' -> lines (ended_by_nl ls ++ t) (ls ++ ls').
Proof.
  intros ls t ls' F L. induction F as [ | l ls H _ IH]; [exact L | ]. cbn [ended_by_nl flat_map app].
  rewrite <- !app_assoc. cbn [app]. constructor; assumption.
Qed.

(** The lines are unambiguous. *)
Lemma split_nl : forall l l' r r', ~ In nl l -> ~ In nl l' -> l ++ nl :: r = l' ++ nl :: r' -> l = l' /\ r = r'.
Proof.
  induction l as [ | c l IH]; intros l' r r' H H' E; destruct l' as [ | c' l']; cbn [app] in E; inversion E; subst.
  - auto.
  - exfalso. apply H'. left; reflexivity.
  - exfalso. apply H. left; reflexivity.
  - destruct (IH l' r r') as [-> ->]; auto; intro; [apply H | apply H']; right; assumption.
Qed.

Theorem c53_lines_unique : forall t ls ls', lines t ls -> lines t ls' -> ls = ls'.
Proof.
  assert (X : forall t ls, lines t ls -> forall ls', lines t ls' -> ls = ls'); [ | intros; eapply X; eauto].
  induction 1 as [ | l r ls N H IH | l N Z]; intros ls' H'; inversion H' as [A B | l2 r2 ls2 N2 H2 A B | l2 N2 Z2 A B]; subst.
  - reflexivity.
  - destruct l2; discriminate.
  - congruence.
  - destruct l; discriminate.
  - apply split_nl in A; auto. destruct A; subst. f_equal. auto.
  - exfalso. apply N2. apply in_or_app. right. left. reflexivity.
  - congruence.
  - exfalso. apply N. apply in_or_app. right. left. reflexivity.
  - reflexivity.
Qed.

(** ** What holds all the time *)
Lemma fd_eqb_refl : forall i, fd_eqb i i = true.
Proof. destruct i; reflexivity. Qed.
Lemma fd_eqb_eq : forall i j, fd_eqb i j = true -> i = j.
Proof. destruct i, j; intro H; try reflexivity; discriminate H. Qed.
Lemma fd_eqb_sym : forall i j, fd_eqb i j = fd_eqb j i.
Proof. destruct i, j; reflexivity. Qed.

Lemma written_snoc : forall i tr e, written i (tr ++ [e]) =
  written i tr ++ match e with Write j t => if fd_eqb i j then t else [] | _ => [] end.
Proof. intros. unfold written. rewrite flat_map_app. cbn [flat_map]. rewrite app_nil_r. reflexivity. Qed.
Lemma sent_snoc : forall i tr e, sent i (tr ++ [e]) =
  sent i tr ++ match e with Output j t => if fd_eqb i j then [t] else [] | _ => [] end.
Proof. intros. unfold sent. rewrite flat_map_app. cbn [flat_map]. rewrite app_nil_r. reflexivity. Qed.

(** What has been written, and what has become of it *)
Definition accounted (w : text) (out : list text) (x : stream) : Prop :=
  (Forall (fun l => ~ In nl l) out /\ w = ended_by_nl out ++ buffered x ++ in_pipe x) \/
  (open x = false /\ buffered x = [] /\ in_pipe x = [] /\
   exists ls l, out = ls ++ [l] /\ Forall (fun l => ~ In nl l) ls /\ ~ In nl l /\ l <> [] /\ w = ended_by_nl ls ++ l).

Lemma set_stream_same : forall s i x, streams (set_stream s i x) i = x.
Proof. intros. cbn. rewrite fd_eqb_refl. reflexivity. Qed.
Lemma set_stream_other : forall s i j x, fd_eqb i j = false -> streams (set_stream s i x) j = streams s j.
Proof. intros s i j x H. cbn. rewrite H. reflexivity. Qed.
Lemma streams_reader : forall s p i, streams (set_reader s p) i = streams s i.
Proof. reflexivity. Qed.
Lemma ended_snoc : forall ls l, ended_by_nl (ls ++ [l]) = ended_by_nl ls ++ l ++ [nl].
Proof. intros. unfold ended_by_nl. rewrite flat_map_app. cbn [flat_map]. rewrite app_nil_r. reflexivity. Qed.

Lemma accounted_step : forall tr s e s' j, step s e s' -> accounted (written j tr) (sent j tr) (streams s j) ->
  accounted (written j (tr ++ [e])) (sent j (tr ++ [e])) (streams s' j).
Proof.
  intros tr s e s' j H A. rewrite written_snoc, sent_snoc.
  inversion H; subst; rewrite ?app_nil_r; rewrite ?streams_reader; try exact A.
  - destruct (fd_eqb i j) eqn:E.
    + apply fd_eqb_eq in E. subst j. rewrite set_stream_same, fd_eqb_refl. destruct A as [[F A] | (A & _)]; [ | congruence].
      left. split; [assumption | ]. cbn. rewrite A, <- !app_assoc. reflexivity.
    + rewrite set_stream_other, fd_eqb_sym, E, app_nil_r by assumption. exact A.
  - destruct (fd_eqb i j) eqn:E.
    + apply fd_eqb_eq in E. subst j. rewrite set_stream_same. destruct A as [A | A]; [left; exact A | right].
      cbn. destruct A as (_ & A). split; [reflexivity | exact A].
    + rewrite set_stream_other by assumption. exact A.
  - destruct (fd_eqb i j) eqn:E.
    + apply fd_eqb_eq in E. subst j. rewrite set_stream_same, fd_eqb_refl. destruct (first_line_some _ _ _ H1) as [B N].
      destruct A as [[F A] | (_ & A & _)]; [ | rewrite A in B; destruct t; discriminate B].
      left. split; [apply Forall_app; split; [assumption | constructor; [assumption | constructor]] | ].
      cbn. rewrite ended_snoc, A, B, <- !app_assoc. cbn [app]. reflexivity.
    + rewrite set_stream_other, fd_eqb_sym, E, app_nil_r by assumption. exact A.
  - destruct (fd_eqb i j) eqn:E.
    + apply fd_eqb_eq in E. subst j. rewrite set_stream_same. destruct A as [[F A] | (_ & _ & A & _)]; [ | congruence].
      left. split; [assumption | ]. cbn. rewrite <- (app_assoc (buffered _)), firstn_skipn. exact A.
    + rewrite set_stream_other by assumption. exact A.
  - destruct (fd_eqb i j) eqn:E.
    + apply fd_eqb_eq in E. subst j. rewrite set_stream_same, fd_eqb_refl.
      destruct A as [[F A] | (_ & A & _)]; [ | congruence]. right. cbn. repeat split.
      exists (sent i tr), (buffered (streams s i)). repeat split; try assumption.
      * apply first_line_none; assumption.
      * rewrite A, H2, app_nil_r. reflexivity.
    + rewrite set_stream_other, fd_eqb_sym, E, app_nil_r by assumption. exact A.
  - destruct (fd_eqb i j) eqn:E.
    + apply fd_eqb_eq in E. subst j. rewrite set_stream_same. destruct A as [[F A] | A].
      * left. split; [assumption | ]. cbn. rewrite A, H1, H2. reflexivity.
      * right. cbn. destruct A as (_ & _ & _ & A). repeat split; try assumption.
    + rewrite set_stream_other by assumption. exact A.
Qed.

Lemma accounted_always : forall ok tr s i, exec ok tr s -> accounted (written i tr) (sent i tr) (streams s i).
Proof.
  intros ok tr s i H. induction H as [ | tr s e s' H IH O S].
  - left. split; [constructor | reflexivity].
  - eapply accounted_step; eassumption.
Qed.

(** Nothing is invented, repeated, merged, split or put out of order: at any time, what has been sent on from a stream is a
    first part of the lines written to it. *)
Theorem c53_in_order : forall tr s i, exec any tr s ->
  exists rest, lines (written i tr) (sent i tr ++ rest).
Proof.
  intros tr s i H. destruct (accounted_always any tr s i H) as [[F ->] | (_ & _ & _ & ls & l & -> & F & N & Z & ->)].
  - destruct (lines_total (buffered (streams s i) ++ in_pipe (streams s i))) as [ls L]. exists ls. apply lines_app; assumption.
  - exists []. rewrite app_nil_r. apply lines_app; [assumption | ]. apply lines_last; assumption.
Qed.

(** ** The streams being served *)
Definition pending (p : phase) : list fd := match p with Ready l | Serve l => l | _ => [] end.

Record inv (s : state) : Prop := {
  inv_unregistered : forall i, registered (streams s i) = false ->
    open (streams s i) = false /\ buffered (streams s i) = [] /\ in_pipe (streams s i) = [];
  inv_nodup : NoDup (pending (reader s));
  inv_registered : forall i, In i (pending (reader s)) -> registered (streams s i) = true /\
    (open (streams s i) = false \/ in_pipe (streams s i) <> [] \/ buffered (streams s i) <> []) }.

Lemma inv_start : inv start.
Proof. constructor; cbn; [discriminate | constructor | intros i []]. Qed.

Lemma ready_spec : forall x, ready x = true -> registered x = true /\ (open x = false \/ in_pipe x <> []).
Proof.
  intros x H. unfold ready in H. apply andb_true_iff in H. destruct H as [A B]. split; [exact A | ].
  apply orb_true_iff in B. destruct B as [B | B]; [left; destruct (open x); [discriminate B | reflexivity] | right].
  destruct (in_pipe x); [discriminate B | discriminate].
Qed.

Ltac other E := rewrite !set_stream_other by (first [exact E | rewrite fd_eqb_sym; exact E]).

Lemma inv_step : forall s e s', inv s -> step s e s' -> inv s'.
Proof.
  intros s e s' [U N R] H. inversion H; subst; try (constructor; cbn; assumption).
  - (* write *) constructor; cbn [reader set_stream]; [intros j; rename j into k | assumption | intros k K].
    + destruct (fd_eqb i k) eqn:E.
      * apply fd_eqb_eq in E. subst k. rewrite set_stream_same. cbn. intro Q. destruct (U i Q) as (Q' & _). congruence.
      * other E. apply U.
    + destruct (R k K) as [R1 R2]. destruct (fd_eqb i k) eqn:E.
      * apply fd_eqb_eq in E. subst k. rewrite set_stream_same. cbn. split; [exact R1 | right; left].
        destruct (in_pipe (streams s i)), t; cbn; congruence.
      * other E. auto.
  - (* close *) constructor; cbn [reader set_stream]; [intros k | assumption | intros k K].
    + destruct (fd_eqb i k) eqn:E.
      * apply fd_eqb_eq in E. subst k. rewrite set_stream_same. cbn. intro Q. destruct (U i Q) as (Q' & Q2). auto.
      * other E. apply U.
    + destruct (R k K) as [R1 R2]. destruct (fd_eqb i k) eqn:E.
      * apply fd_eqb_eq in E. subst k. rewrite set_stream_same. cbn. auto.
      * other E. auto.
  - (* select *) constructor; cbn [reader set_reader streams pending]; [assumption | assumption | ].
    intros k K. apply H2 in K. apply ready_spec in K. tauto.
  - (* break *) constructor; cbn; [assumption | constructor | intros i []].
  - constructor; cbn; [assumption | constructor | intros i []].
  - (* serve *) constructor; cbn; [assumption | | ]; rewrite H0 in *; cbn in *; assumption.
  - constructor; cbn; [assumption | constructor | intros k []].
  - (* line *) rewrite H0 in *. cbn [pending] in *. inversion N; subst.
    destruct (first_line_some _ _ _ H1) as [B _].
    constructor; cbn [reader set_reader pending]; [intros k; rewrite streams_reader | assumption | intros k K; rewrite streams_reader].
    + destruct (fd_eqb i k) eqn:E.
      * apply fd_eqb_eq in E. subst k. rewrite set_stream_same. cbn. intro Q. destruct (U i Q) as (_ & Q' & _). rewrite B in Q'. destruct t; discriminate Q'.
      * other E. apply U.
    + destruct (fd_eqb i k) eqn:E.
      * apply fd_eqb_eq in E. subst k. contradiction.
      * other E. apply R. right; assumption.
  - (* fill *) rewrite H0 in *. cbn [pending] in *.
    constructor; cbn [reader set_stream]; rewrite ?H0; cbn [pending]; [intros k | assumption | intros k K].
    + destruct (fd_eqb i k) eqn:E.
      * apply fd_eqb_eq in E. subst k. rewrite set_stream_same. cbn. intro Q. destruct (U i Q) as (_ & _ & Q'). congruence.
      * other E. apply U.
    + destruct (R k K) as [R1 R2]. destruct (fd_eqb i k) eqn:E.
      * apply fd_eqb_eq in E. subst k. rewrite set_stream_same. cbn. split; [exact R1 | right; right].
        destruct (in_pipe (streams s i)) as [ | c p]; [congruence | ]. destruct n; [lia | ]. cbn. destruct (buffered (streams s i)); discriminate.
      * other E. auto.
  - (* last *) rewrite H0 in *. cbn [pending] in *. inversion N; subst.
    constructor; cbn [reader set_reader pending]; [intros k; rewrite streams_reader | assumption | intros k K; rewrite streams_reader].
    + destruct (fd_eqb i k) eqn:E.
      * apply fd_eqb_eq in E. subst k. rewrite set_stream_same. cbn. auto.
      * other E. apply U.
    + destruct (fd_eqb i k) eqn:E.
      * apply fd_eqb_eq in E. subst k. contradiction.
      * other E. apply R. right; assumption.
  - (* unregister *) rewrite H0 in *. cbn [pending] in *. inversion N; subst.
    constructor; cbn [reader set_reader pending]; [intros k; rewrite streams_reader | assumption | intros k K; rewrite streams_reader].
    + destruct (fd_eqb i k) eqn:E.
      * apply fd_eqb_eq in E. subst k. rewrite set_stream_same. cbn. auto.
      * other E. apply U.
    + destruct (fd_eqb i k) eqn:E.
      * apply fd_eqb_eq in E. subst k. contradiction.
      * other E. apply R. right; assumption.
Qed.

Lemma inv_always : forall ok tr s, exec ok tr s -> inv s.
Proof. intros ok tr s H. induction H; [apply inv_start | eapply inv_step; eassumption]. Qed.

(** ** The end *)
Lemma end_done : forall ok tr s, exec ok tr s -> (In End tr <-> main s = Flushed) /\ (main s = Flushed -> reader s = Done).
Proof.
  intros ok tr s H. induction H as [ | tr s e s' H [IH1 IH2] O S].
  - split; [split; [intros [] | discriminate] | discriminate].
  - assert (X : In End (tr ++ [e]) <-> In End tr \/ e = End).
    { rewrite in_app_iff. cbn. intuition congruence. }
    rewrite X, IH1. clear X IH1.
    inversion S; subst; cbn [main set_stream set_exited set_reader set_main reader] in *;
      split; try (split; [intros [Q | Q]; [exact Q | discriminate Q] | auto]; fail); try (intro Q; specialize (IH2 Q); congruence; fail); try assumption.
    + split; [intros [Q | Q]; congruence | discriminate].
    + discriminate.
    + split; [reflexivity | auto].
    + auto.
Qed.

Lemma done_stays : forall s e s', reader s = Done -> step s e s' -> reader s' = Done /\ forall i l, e <> Output i l.
Proof. intros s e s' D S. inversion S; subst; cbn; try congruence; split; try assumption; discriminate. Qed.

(** The operators that follow are told once that there is no more, and nothing is sent on after that. *)
Theorem c53_end_last : forall a b s, exec any (a ++ End :: b) s ->
  ~ In End a /\ ~ In End b /\ forall i l, ~ In (Output i l) b.
Proof.
  assert (X : forall tr s, exec any tr s -> forall a b, tr = a ++ End :: b -> ~ In End a /\ ~ In End b /\ forall i l, ~ In (Output i l) b).
  { intros tr s H. induction H as [ | tr s e s' H IH O S]; intros a b E; [destruct a; discriminate E | ].
    destruct (end_done any tr s H) as [E1 E2].
    destruct (exists_last (l := End :: b)) as (b' & x & Eb); [discriminate | ].
    rewrite Eb, app_assoc in E. apply app_inj_tail in E. destruct E as [-> ->].
    destruct b' as [ | y b'].
    - cbn in Eb. inversion Eb; subst. rewrite app_nil_r in *. split; [ | split; [intros [] | intros i l []]].
      intro K. apply E1 in K. inversion S; subst. congruence.
    - cbn [app] in Eb. inversion Eb; subst. destruct (IH a b' eq_refl) as (I1 & I2 & I3). split; [exact I1 | ].
      assert (F : main s = Flushed) by (apply E1; apply in_or_app; right; left; reflexivity).
      destruct (done_stays s x s' (E2 F) S) as [_ NO]. split.
      + intro K. apply in_app_or in K. destruct K as [K | [-> | []]]; [contradiction | ]. inversion S; subst. congruence.
      + intros i l K. apply in_app_or in K. destruct K as [K | [-> | []]]; [eapply I3; exact K | ]. eapply NO; reflexivity. }
  intros a b s H. eapply X; [exact H | reflexivity].
Qed.

(** When the reading stops, in executions without the two problems *)
Lemma calm_done : forall tr s, exec calm tr s ->
  (exited s = true -> forall i, open (streams s i) = false) /\
  ((reader s = Done \/ (reader s = Ready [] /\ exited s = true)) -> forall i, registered (streams s i) = false).
Proof.
  intros tr s H. induction H as [ | tr s e s' H [IH1 IH2] [O1 O2] S].
  - split; [discriminate | intros [Q | [Q _]]; discriminate Q].
  - pose proof (inv_always _ _ _ H) as [U N R]. inversion S; subst; cbn [reader exited set_stream set_reader set_exited set_main] in *.
    + split.
      * intros X k. destruct (fd_eqb i k) eqn:E; [ | other E; auto]. apply fd_eqb_eq in E. subst k. rewrite (IH1 X i) in H0. discriminate H0.
      * intros X k. destruct (fd_eqb i k) eqn:E; [ | other E; auto]. apply fd_eqb_eq in E. subst k. rewrite set_stream_same. cbn. auto.
    + split.
      * intros X k. destruct (fd_eqb i k) eqn:E; [ | other E; auto]. apply fd_eqb_eq in E. subst k. rewrite set_stream_same. reflexivity.
      * intros X k. destruct (fd_eqb i k) eqn:E; [ | other E; auto]. apply fd_eqb_eq in E. subst k. rewrite set_stream_same. cbn. auto.
    + split; [intros _; apply O1; reflexivity | ]. intros [Q | [Q _]]; [apply IH2; auto | ]. exfalso. apply O2; auto.
    + split; [exact IH1 | ]. intros [Q | [Q X]]; [discriminate Q | ]. inversion Q; subst. intro i. cbn [streams].
      destruct (registered (streams s i)) eqn:E; [ | exact E]. exfalso.
      apply (proj2 (H2 i)). unfold ready. rewrite E, (IH1 X i). reflexivity.
    + split; [exact IH1 | ]. intros _. apply IH2. auto.
    + split; [exact IH1 | ]. intros [Q | [Q _]]; discriminate Q.
    + split; [exact IH1 | ]. intros [Q | [Q _]]; discriminate Q.
    + split; [exact IH1 | ]. intros [Q | [Q _]]; discriminate Q.
    + split; [ | intros [Q | [Q _]]; discriminate Q].
      intros X k. rewrite streams_reader. destruct (fd_eqb i k) eqn:E; [ | other E; auto]. apply fd_eqb_eq in E. subst k. rewrite set_stream_same. cbn. auto.
    + split; [ | intros [Q | [Q _]]; congruence].
      intros X k. destruct (fd_eqb i k) eqn:E; [ | other E; auto]. apply fd_eqb_eq in E. subst k. rewrite set_stream_same. cbn. auto.
    + split; [ | intros [Q | [Q _]]; discriminate Q].
      intros X k. rewrite streams_reader. destruct (fd_eqb i k) eqn:E; [ | other E; auto]. apply fd_eqb_eq in E. subst k. rewrite set_stream_same. reflexivity.
    + split; [ | intros [Q | [Q _]]; discriminate Q].
      intros X k. rewrite streams_reader. destruct (fd_eqb i k) eqn:E; [ | other E; auto]. apply fd_eqb_eq in E. subst k. rewrite set_stream_same. reflexivity.
    + auto.
    + auto.
    + auto.
Qed.

(** When the operators that follow are told that there is no more, everything the command has written, to either stream, has
    been sent on: each line once, in order.
    Missing: commands that leave something behind that keeps a pipe open, and the race, both refuted below. *)
Theorem c53_everything_partial : forall tr s i, exec calm tr s -> In End tr -> lines (written i tr) (sent i tr).
Proof.
  intros tr s i H E. destruct (end_done _ _ _ H) as [E1 E2]. apply E1 in E. apply E2 in E.
  destruct (calm_done _ _ H) as [_ C]. specialize (C (or_introl E) i).
  destruct (inv_unregistered _ (inv_always _ _ _ H) i C) as (_ & B & P).
  destruct (accounted_always _ _ _ i H) as [[F ->] | (_ & _ & _ & ls & l & -> & F & N & Z & ->)].
  - rewrite B, P. rewrite <- (app_nil_r (sent i tr)) at 2. apply lines_app; [assumption | constructor].
  - apply lines_app; [assumption | ]. apply lines_last; assumption.
Qed.

(** ** That it ends *)
(** The steps of marcel, as opposed to those of the command *)
Definition ours (e : event) : Prop :=
  match e with Output _ _ | Internal | End => True | _ => False end.

Definition weight (x : stream) : nat := 2 * length (in_pipe x) + length (buffered x) + (if registered x then 1 else 0).
Definition phase_weight (p : phase) : nat :=
  match p with Select => 2 | Ready _ => 1 | Serve [] => 3 | Serve _ => 0 | Done => 0 end.
Definition measure (s : state) : nat :=
  7 * (weight (streams s StdOut) + weight (streams s StdErr)) + 2 * phase_weight (reader s) + match main s with Flushed => 0 | _ => 1 end.

Lemma measure_stream : forall s i x, weight x < weight (streams s i) ->
  7 + 7 * (weight (streams (set_stream s i x) StdOut) + weight (streams (set_stream s i x) StdErr)) <=
  7 * (weight (streams s StdOut) + weight (streams s StdErr)).
Proof. intros s [ | ] x H; cbn [streams set_stream fd_eqb]; lia. Qed.

Lemma phase_bound : forall l, phase_weight (Serve l) <= 3.
Proof. intros [ | i l]; cbn; lia. Qed.

Lemma ours_decreases : forall s e s', inv s -> exited s = true -> ours e -> step s e s' -> measure s' < measure s.
Proof.
  intros s e s' [U N R] X Our S. unfold measure. inversion S; subst; try contradiction; try congruence.
  - cbn [reader set_reader main streams]. rewrite H. cbn. lia.
  - cbn [reader set_reader main streams]. rewrite H. cbn. lia.
  - cbn [reader set_reader main streams]. rewrite H. cbn. lia.
  - cbn [reader set_reader main streams]. rewrite H. cbn. lia.
  - destruct (first_line_some _ _ _ H0) as [B _].
    pose proof (measure_stream s i (mkstream (in_pipe (streams s i)) (open (streams s i)) u (registered (streams s i)))) as M.
    unfold weight at 1 2 in M. cbn [in_pipe buffered registered] in M. rewrite B, app_length in M. cbn [length] in M.
    specialize (M ltac:(lia)). cbn [reader set_reader main]. rewrite !streams_reader, H. cbn [set_stream main]. pose proof (phase_bound l).
    change (phase_weight (Serve (i :: l))) with 0. lia.
  - pose proof (measure_stream s i (mkstream (skipn n (in_pipe (streams s i))) (open (streams s i)) (buffered (streams s i) ++ firstn n (in_pipe (streams s i))) (registered (streams s i)))) as M.
    unfold weight at 1 2 in M. cbn [in_pipe buffered registered] in M. rewrite app_length, skipn_length, firstn_length in M.
    assert (0 < length (in_pipe (streams s i))) by (destruct (in_pipe (streams s i)); [congruence | cbn; lia]).
    specialize (M ltac:(lia)). cbn [reader set_reader main set_stream]. rewrite H. lia.
  - pose proof (measure_stream s i (mkstream [] false [] (registered (streams s i)))) as M.
    unfold weight at 1 2 in M. cbn [in_pipe buffered registered length] in M.
    assert (0 < length (buffered (streams s i))) by (destruct (buffered (streams s i)); [congruence | cbn; lia]).
    specialize (M ltac:(lia)). cbn [reader set_reader main]. rewrite !streams_reader, H. cbn [set_stream main]. pose proof (phase_bound l).
    change (phase_weight (Serve (i :: l))) with 0. lia.
  - pose proof (measure_stream s i (mkstream [] false [] false)) as M.
    unfold weight at 1 2 in M. cbn [in_pipe buffered registered length] in M.
    rewrite H in R. destruct (R i (or_introl eq_refl)) as [R1 _]. rewrite R1 in M.
    specialize (M ltac:(lia)). cbn [reader set_reader main]. rewrite !streams_reader, H. cbn [set_stream main]. pose proof (phase_bound l).
    change (phase_weight (Serve (i :: l))) with 0. lia.
  - cbn [reader set_main main streams]. rewrite H, H0. cbn. lia.
Qed.

Lemma ours_keeps : forall s e s', ours e -> step s e s' ->
  exited s' = exited s /\ (main s <> Feeding -> main s' <> Feeding) /\ ((forall i, open (streams s i) = false) -> forall i, open (streams s' i) = false).
Proof.
  intros s e s' Our S. inversion S; subst; try contradiction; cbn [exited main set_reader set_stream set_main]; (split; [reflexivity | split]);
    try (intros; first [assumption | discriminate]); try (intro K; exact K);
    intros K k; rewrite ?streams_reader; destruct (fd_eqb i k) eqn:E; try (other E; apply K);
    apply fd_eqb_eq in E; subst k; rewrite set_stream_same; cbn; first [reflexivity | apply K].
Qed.

(** Marcel can always go on, *)
Lemma can_go_on : forall s, inv s -> exited s = true -> (forall i, open (streams s i) = false) -> main s = Joining ->
  exists e s', ours e /\ step s e s'.
Proof.
  intros s [U N R] X C M. destruct (reader s) as [ | [ | i l] | [ | i l] | ] eqn:E.
  - pose (l := filter (fun i => ready (streams s i)) [StdOut; StdErr]).
    exists Internal, (set_reader s (Ready l)). split; [exact I | ]. apply step_select; [assumption | | ].
    + apply NoDup_filter. constructor; [intros [Q | []]; discriminate Q | ]. constructor; [intros [] | constructor].
    + intro i. unfold l. rewrite filter_In. split; [tauto | ]. intro Q. split; [destruct i; cbn; auto | exact Q].
  - eexists _, _. split; [ | apply step_break; assumption]. exact I.
  - eexists _, _. split; [ | eapply step_serve; eassumption]. exact I.
  - eexists _, _. split; [ | apply step_served; assumption]. exact I.
  - destruct (first_line (buffered (streams s i))) as [[t u] | ] eqn:F.
    + eexists _, _. split; [ | eapply step_line; eassumption]. exact I.
    + destruct (in_pipe (streams s i)) as [ | c p] eqn:P.
      * destruct (buffered (streams s i)) as [ | b bs] eqn:B.
        -- eexists _, _. split; [ | eapply step_unregister; try eassumption; apply C]. exact I.
        -- eexists _, _. split; [ | eapply step_last; try eassumption; [rewrite B; exact F | apply C | rewrite B; discriminate]]. exact I.
      * eexists _, _. split; [ | eapply (step_fill s i l 1); try eassumption; [rewrite P; discriminate | lia]]. exact I.
  - eexists _, _. split; [ | apply step_end; assumption]. exact I.
Qed.

(** [within n s]: whatever marcel's threads do, in whatever order, the operators that follow have been told the end after at
    most [n] steps. *)
Inductive within : nat -> state -> Prop :=
| within_now : forall n s, main s = Flushed -> within n s
| within_next : forall n s, (exists e s', ours e /\ step s e s') -> (forall e s', ours e -> step s e s' -> within n s') -> within (S n) s.

(** Once the command has ended, nothing holds its pipes, and there is no more input, the end comes. *)
Theorem c53_ends : forall tr s, exec any tr s -> In Exit tr -> (forall i, In (Close i) tr) -> In Eof tr -> exists n, within n s.
Proof.
  assert (X : forall n s, inv s -> exited s = true -> (forall i, open (streams s i) = false) -> main s <> Feeding -> measure s <= n -> within n s).
  { induction n; intros s V E C M L.
    - destruct (main s) eqn:MM; [congruence | exfalso; unfold measure in L; rewrite MM in L; lia | apply within_now; exact MM].
    - destruct (main s) eqn:MM; [congruence | | apply within_now; exact MM].
      apply within_next; [apply can_go_on; assumption | ]. intros e s' O S.
      destruct (ours_keeps s e s' O S) as (K1 & K2 & K3). apply IHn.
      + eapply inv_step; eassumption.
      + congruence.
      + apply K3, C.
      + apply K2. congruence.
      + pose proof (ours_decreases s e s' V E O S). lia. }
  assert (Y : forall tr s, exec any tr s -> (In Exit tr -> exited s = true) /\ (forall i, In (Close i) tr -> open (streams s i) = false) /\ (In Eof tr -> main s <> Feeding)).
  { intros tr s H. induction H as [ | tr s e s' H (I1 & I2 & I3) O S].
    - split; [intros [] | split; [intros i [] | intros []]].
    - split; [ | split].
      + intro K. apply in_app_or in K. destruct K as [K | [K | []]].
        * apply I1 in K. inversion S; subst; cbn; congruence.
        * subst. inversion S; subst. reflexivity.
      + intros k K. apply in_app_or in K. destruct K as [K | [K | []]].
        * apply I2 in K. inversion S; subst; cbn [streams set_exited set_main]; rewrite ?streams_reader; try exact K;
            (destruct (fd_eqb i k) eqn:E; [apply fd_eqb_eq in E; subst k; rewrite set_stream_same; cbn; congruence | other E; exact K]).
        * subst. inversion S; subst. rewrite set_stream_same. reflexivity.
      + intro K. apply in_app_or in K. destruct K as [K | [K | []]].
        * apply I3 in K. inversion S; subst; cbn; congruence.
        * subst. inversion S; subst. discriminate. }
  intros tr s H E C F. destruct (Y tr s H) as (Y1 & Y2 & Y3). exists (measure s). apply X; auto. eapply inv_always; exact H.
Qed.

(** ** Examples and refutations *)
Ltac back tac := eapply exec_step; [ | | tac].
Ltac side := cbn; auto; try discriminate;
  try (split; [intros Q; try discriminate Q; intros []; reflexivity | intros Q; try discriminate Q; discriminate]);
  try (constructor; fail);
  try (intros []; cbn; intuition congruence);
  try (repeat constructor; try (intros [Q | []]; discriminate Q); try (intros []); fail).

(** An execution: the command writes, in two pieces, [a], a line end, and [b], and ends. *)
Example c53_example : exists tr s, exec calm tr s /\ In End tr /\ In Exit tr /\ (forall i, In (Close i) tr) /\ In Eof tr /\
  written StdOut tr = ["a"; nl; "b"]%char /\ sent StdOut tr = [["a"]; ["b"]]%char /\ sent StdErr tr = [].
Proof.
  eexists _, _. split; [ | split; [ | split; [ | split; [ | split]]]].
  - back ltac:(apply step_end). back ltac:(apply step_eof). back ltac:(apply step_break). back ltac:(apply (step_select _ [])).
    back ltac:(apply step_served). back ltac:(eapply (step_unregister _ StdErr)). back ltac:(eapply (step_unregister _ StdOut)).
    back ltac:(eapply step_serve). back ltac:(apply (step_select _ [StdOut; StdErr])).
    back ltac:(apply step_exit). back ltac:(apply (step_close _ StdErr)).
    back ltac:(apply step_served). back ltac:(eapply (step_last _ StdOut)). back ltac:(eapply step_serve).
    back ltac:(apply (step_select _ [StdOut])). back ltac:(apply (step_close _ StdOut)).
    back ltac:(apply step_served). back ltac:(eapply (step_line _ StdOut)). back ltac:(eapply (step_fill _ StdOut _ 5)).
    back ltac:(apply (step_write _ StdOut ["b"%char])). back ltac:(eapply step_serve). back ltac:(apply (step_select _ [StdOut])).
    back ltac:(apply (step_write _ StdOut ["a"%char; nl])). apply exec_start.
    all: side.
  - cbn. tauto.
  - cbn. tauto.
  - intros []; cbn; tauto.
  - cbn. tauto.
  - repeat split; reflexivity.
Qed.

(** The race: the command writes its output and ends after marcel has given up waiting for a moment and before it asks whether
    the command has ended.  The output is lost. *)
Theorem c53_race_refuted : exists tr s, exec nothing_behind tr s /\ In End tr /\
  written StdOut tr = ["a"; nl]%char /\ sent StdOut tr = [].
Proof.
  eexists _, _. split; [ | split].
  - back ltac:(apply step_end). back ltac:(apply step_eof). back ltac:(apply step_break).
    back ltac:(apply step_exit). back ltac:(apply (step_close _ StdErr)). back ltac:(apply (step_close _ StdOut)).
    back ltac:(apply (step_write _ StdOut ["a"%char; nl])). back ltac:(apply (step_select _ [])). apply exec_start.
    all: side; try (intro Q; try discriminate Q; intros []; reflexivity).
  - cbn. tauto.
  - repeat split; reflexivity.
Qed.

(** The command writes two lines and ends, but leaves something in the background that has its standard output open: the second
    line is lost. *)
Theorem c53_background_refuted : exists tr s, exec no_race tr s /\ In End tr /\
  written StdOut tr = ["a"; nl; "b"; nl]%char /\ sent StdOut tr = [["a"]]%char.
Proof.
  eexists _, _. split; [ | split].
  - back ltac:(apply step_end). back ltac:(apply step_eof). back ltac:(apply step_break).
    back ltac:(apply (step_select _ [])). back ltac:(apply step_exit). 
    back ltac:(apply step_served). back ltac:(eapply (step_line _ StdOut)). back ltac:(eapply (step_fill _ StdOut _ 5)).
    back ltac:(eapply step_serve). back ltac:(apply (step_select _ [StdOut])).
    back ltac:(apply (step_write _ StdOut ["a"%char; nl; "b"%char; nl])). apply exec_start.
    all: side; try (intro Q; try discriminate Q; discriminate).
  - cbn. tauto.
  - repeat split; reflexivity.
Qed.

(** A complete line can be held back for as long as the command writes no more: marcel waits for the pipe, and the line is in
    its own buffer. *)
Theorem c53_delay_refuted : exists tr s, exec calm tr s /\
  written StdOut tr = ["a"; nl; "b"; nl]%char /\ sent StdOut tr = [["a"]]%char /\
  forall tr' s', later s tr' s' -> (forall t, ~ In (Write StdOut t) tr') -> ~ In (Close StdOut) tr' -> sent StdOut tr' = [].
Proof.
  eexists _, _. split; [ | split; [ | split]].
  - back ltac:(apply step_served). back ltac:(eapply (step_line _ StdOut)). back ltac:(eapply (step_fill _ StdOut _ 5)).
    back ltac:(eapply step_serve). back ltac:(apply (step_select _ [StdOut])).
    back ltac:(apply (step_write _ StdOut ["a"%char; nl; "b"%char; nl])). apply exec_start.
    all: side.
  - reflexivity.
  - reflexivity.
  - assert (X : forall s tr' s', later s tr' s' -> open (streams s StdOut) = true -> in_pipe (streams s StdOut) = [] -> ~ In StdOut (pending (reader s)) ->
      (forall t, ~ In (Write StdOut t) tr') -> ~ In (Close StdOut) tr' -> sent StdOut tr' = []).
    { clear. induction 1 as [s | s e s' tr s'' S L IH]; intros O P N W C; [reflexivity | ].
      assert (D : open (streams s' StdOut) = true /\ in_pipe (streams s' StdOut) = [] /\ ~ In StdOut (pending (reader s')) /\ forall l, e <> Output StdOut l).
      { inversion S; subst; try (repeat split; try assumption; discriminate).
        - destruct i; [exfalso; eapply W; left; reflexivity | ]. repeat split; try assumption; discriminate.
        - destruct i; [exfalso; eapply C; left; reflexivity | ]. repeat split; try assumption; discriminate.
        - repeat split; try assumption; try discriminate. cbn. intro K. apply H1 in K. unfold ready in K. rewrite O, P in K. cbn in K.
          rewrite andb_false_r in K. discriminate K.
        - repeat split; try assumption; try discriminate. intros [].
        - repeat split; try assumption; try discriminate. intros [].
        - repeat split; try assumption; try discriminate. rewrite H in N. exact N.
        - repeat split; try assumption; try discriminate. intros [].
        - rewrite H in N. destruct i; [exfalso; apply N; left; reflexivity | ]. repeat split; try assumption; try discriminate.
          intro K. apply N. right. exact K.
        - rewrite H in N. destruct i; [exfalso; apply N; left; reflexivity | ]. repeat split; try assumption; try discriminate.
          cbn. rewrite H. exact N.
        - rewrite H in N. destruct i; [exfalso; apply N; left; reflexivity | ]. repeat split; try assumption; try discriminate.
          intro K. apply N. right. exact K.
        - rewrite H in N. destruct i; [exfalso; apply N; left; reflexivity | ]. repeat split; try assumption; try discriminate.
          intro K. apply N. right. exact K. }
      destruct D as (D1 & D2 & D3 & D4).
      change (sent StdOut (e :: tr)) with ((match e with Output j l => if fd_eqb StdOut j then [l] else [] | _ => [] end) ++ sent StdOut tr).
      rewrite IH; try assumption.
      + destruct e; try reflexivity. destruct i; [exfalso; eapply D4; reflexivity | reflexivity].
      + intros t K. eapply W. right. exact K.
      + intro K. apply C. right. exact K. }
    intros tr' s' L W C. eapply X; [exact L | | | | exact W | exact C]; cbn; auto.
Qed.

(** With no input at all, the command is not started, and marcel fails at the end. *)
Theorem c53_no_input_refuted : forall received, op_run received = None <-> received = 0.
Proof. intros [ | n]; [split; reflexivity | ]. split; [ | discriminate]. unfold op_run. cbn. discriminate. Qed.
