(* C36: the output of fork. *)
From Coq Require Import List Bool Arith Lia.
From Verif.Sys Require Import Fork ForkSpec.
Import ListNotations.

Ltac inv H := inversion H; subst; clear H.

Section Facts.
Context {V : Type}.
Implicit Types (s : world V) (t : list (obs V)).

Lemma output_app : forall w t1 t2, output_of w (t1 ++ t2) = output_of w t1 ++ output_of (V:=V) w t2.
Proof. intros. unfold output_of. apply flat_map_app. Qed.
Lemma ends_app : forall t1 t2, ends (t1 ++ t2) = ends t1 ++ ends (V:=V) t2.
Proof. intros. unfold ends. apply flat_map_app. Qed.
Lemma timeouts_app : forall t1 t2, timeouts (t1 ++ t2) = timeouts t1 ++ timeouts (V:=V) t2.
Proof. intros. unfold timeouts. apply flat_map_app. Qed.

Lemma upd_same : forall A (f : nat -> A) k a, upd f k a k = a.
Proof. intros. unfold upd. now rewrite Nat.eqb_refl. Qed.
Lemma upd_other : forall A (f : nat -> A) k a i, i <> k -> upd f k a i = f i.
Proof. intros. unfold upd. now rewrite (proj2 (Nat.eqb_neq i k)). Qed.

(* ---- the invariant ---- *)
Record Inv (outs : nat -> list V) (n : nat) (t : list (obs V)) (s : world V) : Prop := {
  i_flow : forall w, output_of w t ++ pipe s w ++ todo (kids s w) = outs w;
  i_open : forall w, open (kids s w) = false -> todo (kids s w) = [];
  i_alive : forall w, alive (kids s w) = false -> open (kids s w) = false;
  i_ends : forall w, In w (ends t) -> w < n /\ pipe s w = [] /\ open (kids s w) = false;
  i_par : match par s with
          | Polling w c => w < n /\ c = length (ends t) /\ c < n
          | Joining w => w < n /\ length (ends t) = n
          | Done => length (ends t) = n
          end
}.

Lemma polling_cases : forall n w c, n > 0 ->
  (c < n /\ polling n w c = Polling w c) \/ (n <= c /\ polling n w c = Joining 0).
Proof.
  intros. unfold polling. destruct (Nat.ltb_spec c n); [left|right]; split; auto.
Qed.

Lemma inv_start : forall outs n, n > 0 -> Inv outs n [] (start outs n).
Proof.
  intros outs n Hn. constructor; simpl; intros; auto; try discriminate; try tauto.
  destruct (polling_cases n 0 0 Hn) as [[L ->]|[L ->]]; simpl; lia.
Qed.

Lemma at_eof_true : forall sm s w, at_eof sm s w = true -> pipe s w = [] /\ open (kids s w) = false.
Proof.
  intros sm s w H. unfold at_eof in H. destruct (pipe s w); [|discriminate].
  apply andb_true_iff in H. destruct H as [H _]. apply negb_true_iff in H. auto.
Qed.

Lemma inv_step : forall sm cap outs n t s o s', n > 0 ->
  Inv outs n t s -> step sm cap n s o s' -> Inv outs n (t ++ [o]) s'.
Proof.
  intros sm cap outs n t s o s' Hn [F O A E P] S. inv S.
  - (* a child *)
    rename H into Hw. rename H0 into C. unfold child_step in C.
    assert (EN : ends (t ++ [OChild w]) = ends t) by (rewrite ends_app; simpl; apply app_nil_r).
    assert (OU : forall i, output_of i (t ++ [OChild w]) = output_of i t)
      by (intro; rewrite output_app; simpl; apply app_nil_r).
    destruct (todo (kids s w)) as [|x r] eqn:T.
    + destruct (open (kids s w)) eqn:Op; [|destruct (alive (kids s w)) eqn:Al; [|discriminate]]; inv C;
        constructor; simpl; rewrite ?EN; auto; intros i; rewrite ?OU; try intros Hi;
        destruct (Nat.eq_dec i w) as [->|N]; rewrite ?upd_same, ?(upd_other _ _ _ _ i) in * by auto; simpl in *; auto;
        try (rewrite <- (F w), T; auto; fail); try discriminate;
        try (destruct (E _ Hi) as (? & ? & ?); repeat split; auto; congruence).
    + destruct (length (pipe s w) <? cap); [|discriminate]. inv C.
      assert (Op : open (kids s w) = true) by (destruct (open (kids s w)) eqn:Q; auto; rewrite (O _ Q) in T; discriminate).
      constructor; simpl; rewrite ?EN; auto; intros i; rewrite ?OU; try intros Hi;
        destruct (Nat.eq_dec i w) as [->|N]; rewrite ?upd_same, ?(upd_other _ _ _ _ i) in * by auto; simpl in *; auto.
      * rewrite <- (F w), T, <- app_assoc. auto.
      * congruence.
      * destruct (E _ Hi) as (? & ? & ?). congruence.
  - (* the parent *)
    rename H into C. unfold parent_step in C.
    destruct (par s) as [w c|w|] eqn:Pp; [| |discriminate].
    + destruct P as (Hw & Hc & Hcn).
      assert (M : (w + 1) mod n < n) by (apply Nat.mod_upper_bound; lia).
      destruct (pipe s w) as [|x r] eqn:Pw.
      * destruct (at_eof sm s w) eqn:Q; inv C.
        -- apply at_eof_true in Q. destruct Q as [Q1 Q2].
           assert (EN : ends (t ++ [OEof w]) = ends t ++ [w]) by (rewrite ends_app; reflexivity).
           constructor; simpl; rewrite ?EN; auto.
           ++ intros i. rewrite output_app. simpl. rewrite app_nil_r. auto.
           ++ intros i Hi. apply in_app_or in Hi. destruct Hi as [Hi|[<-|[]]]; auto.
           ++ rewrite app_length. simpl.
              destruct (polling_cases n ((w + 1) mod n) (length (ends t) + 1) Hn) as [[L ->]|[L ->]]; simpl; repeat split; auto; lia.
        -- assert (EN : ends (t ++ [OTimeout w]) = ends t) by (rewrite ends_app; simpl; apply app_nil_r).
           constructor; simpl; rewrite ?EN; auto.
           ++ intros i. rewrite output_app. simpl. rewrite app_nil_r. auto.
           ++ destruct (polling_cases n ((w + 1) mod n) (length (ends t)) Hn) as [[L ->]|[L ->]]; simpl; repeat split; auto; lia.
      * inv C. assert (EN : ends (t ++ [OData w x]) = ends t) by (rewrite ends_app; simpl; apply app_nil_r).
        constructor; simpl; rewrite ?EN; auto.
        -- intros i. rewrite output_app. simpl. destruct (Nat.eq_dec i w) as [->|N].
           ++ rewrite upd_same, Nat.eqb_refl. simpl. rewrite <- (F w), Pw, <- app_assoc. reflexivity.
           ++ rewrite upd_other by auto. rewrite (proj2 (Nat.eqb_neq w i)) by auto. simpl. rewrite app_nil_r. auto.
        -- intros i Hi. destruct (E i Hi) as (? & ? & ?). repeat split; auto.
           destruct (Nat.eq_dec i w) as [->|N]; [congruence|]. rewrite upd_other; auto.
        -- destruct (polling_cases n ((w + 1) mod n) (length (ends t)) Hn) as [[L ->]|[L ->]]; simpl; repeat split; auto; lia.
    + destruct (alive (kids s w)) eqn:Al; [discriminate|]. inv C.
      assert (EN : ends (t ++ [OJoin w]) = ends (V:=V) t) by (rewrite ends_app; simpl; apply app_nil_r).
      constructor; simpl; rewrite ?EN; auto.
      * intros i. rewrite output_app. simpl. rewrite app_nil_r. auto.
      * destruct P as (P1 & P2). destruct (Nat.ltb_spec (w + 1) n); simpl; auto.
Qed.

Lemma inv_runs : forall sm cap outs n t s, n > 0 -> runs sm cap n (start outs n) t s -> Inv outs n t s.
Proof.
  intros sm cap outs n t s Hn R. remember (start outs n) as s0. induction R; subst.
  - apply inv_start; auto.
  - eapply inv_step; eauto.
Qed.

(* ------------------------------------------------------------------ *)

(* Whatever the schedule, and at any time, what fork has output from a worker is a prefix of
   what the worker outputs: nothing is duplicated, invented or reordered. *)
Theorem c36_prefix : forall sm cap n outs t s, n > 0 ->
  runs sm cap n (start outs n) t s ->
  forall w, prefix (output_of w t) (outs w).
Proof.
  intros sm cap n outs t s Hn R w. pose proof (inv_runs _ _ _ _ _ _ Hn R) as I.
  eexists. symmetry. apply (i_flow _ _ _ _ I).
Qed.

(* A worker whose end was noticed has been heard out. *)
Theorem c36_ended_worker : forall sm cap n outs t s w, n > 0 ->
  runs sm cap n (start outs n) t s -> In w (ends t) -> output_of w t = outs w.
Proof.
  intros sm cap n outs t s w Hn R Hi. pose proof (inv_runs _ _ _ _ _ _ Hn R) as I.
  destruct (i_ends _ _ _ _ I w Hi) as (_ & P & O).
  pose proof (i_flow _ _ _ _ I w) as F. rewrite P, (i_open _ _ _ _ I _ O) in F. rewrite app_nil_r in F. exact F.
Qed.

(* If no worker's end is noticed twice, all is delivered. *)
Theorem c36_complete_partial : forall sm cap n outs t s, n > 0 ->
  runs sm cap n (start outs n) t s -> finished s -> NoDup (ends t) -> complete outs n t.
Proof.
  intros sm cap n outs t s Hn R Fi ND w Hw. eapply c36_ended_worker; eauto.
  pose proof (inv_runs _ _ _ _ _ _ Hn R) as I. pose proof (i_par _ _ _ _ I) as P. rewrite Fi in P.
  assert (INC : incl (seq 0 n) (ends t)).
  { apply NoDup_length_incl; auto.
    - rewrite seq_length. lia.
    - intros i Hi. apply in_seq. destruct (i_ends _ _ _ _ I i Hi). lia. }
  apply INC. apply in_seq. lia.
Qed.

(* One worker: all is delivered. *)
Theorem c36_one_worker : forall sm cap outs t s,
  runs sm cap 1 (start outs 1) t s -> finished s -> output_of 0 t = outs 0.
Proof.
  intros sm cap outs t s R Fi. eapply (c36_complete_partial sm cap 1); eauto.
  pose proof (inv_runs _ _ _ _ _ _ (le_n 1) R) as I. pose proof (i_par _ _ _ _ I) as P. rewrite Fi in P.
  destruct (ends t) as [|a [|b l]]; simpl in P; try lia. constructor; auto. constructor.
Qed.

(* ---- what happens when the parent never has to wait ---- *)

(* The parent has visited the workers below w r+1 times, the others r times *)
Definition visits (r w i : nat) : nat := if i <? w then S r else r.
(* the visits of worker i that found its end *)
Definition late (outs : nat -> list V) (r w i : nat) : nat := visits r w i - length (outs i).
Definition sum (f : nat -> nat) (n : nat) : nat := fold_right (fun i a => f i + a) 0 (seq 0 n).

Lemma sum_S : forall f n, sum f (S n) = sum f n + f n.
Proof.
  intros f n. unfold sum. rewrite seq_S, fold_right_app. simpl.
  enough (G : forall l a b, fold_right (fun i x => f i + x) (a + b) l = fold_right (fun i x => f i + x) a l + b).
  { rewrite <- (Nat.add_0_r (f n + 0)), G. rewrite <- G. simpl. 
    replace (f n + 0 + 0) with (0 + f n) by lia. apply G. }
  induction l; simpl; intros; [lia|]. rewrite IHl. lia.
Qed.
Lemma sum_ext : forall f g n, (forall i, i < n -> f i = g i) -> sum f n = sum g n.
Proof. intros f g n. induction n; intros H; [reflexivity|]. rewrite !sum_S, IHn, H; auto. Qed.

Lemma sum_bump : forall f g n w, w < n -> g w = f w + 1 -> (forall i, i <> w -> g i = f i) -> sum g n = sum f n + 1.
Proof.
  induction n; intros w L B O; [lia|]. rewrite !sum_S.
  destruct (Nat.eq_dec w n) as [->|N].
  - rewrite B. rewrite (sum_ext g f n); [lia|]. intros i Hi. apply O. lia.
  - rewrite (IHn w), (O n) by (auto; lia). lia.
Qed.

(* The state of the loop, when no visit has timed out *)
Definition Brisk (outs : nat -> list V) (n : nat) (t : list (obs V)) (r w : nat) : Prop :=
  w < n /\ (forall i, i < n -> length (output_of i t) = min (visits r w i) (length (outs i))) /\
  length (ends t) = sum (late outs r w) n.

Lemma visits_other : forall r w i, i <> w -> visits r (S w) i = visits r w i.
Proof. intros. unfold visits. destruct (Nat.ltb_spec i w), (Nat.ltb_spec i (S w)); auto; lia. Qed.
Lemma visits_self : forall r w, visits r (S w) w = S (visits r w w).
Proof. intros. unfold visits. destruct (Nat.ltb_spec w w), (Nat.ltb_spec w (S w)); auto; lia. Qed.
Lemma visits_wrap : forall r n i, i < n -> visits (S r) 0 i = visits r n i.
Proof. intros. unfold visits. destruct (Nat.ltb_spec i 0), (Nat.ltb_spec i n); auto; lia. Qed.

(* the same invariant with w = n allowed *)
Definition Brisk' (outs : nat -> list V) (n : nat) (t : list (obs V)) (r w : nat) : Prop :=
  (forall i, i < n -> length (output_of i t) = min (visits r w i) (length (outs i))) /\
  length (ends t) = sum (late outs r w) n.

Lemma brisk_wrap : forall outs n t r w, w < n -> Brisk' outs n t r (S w) ->
  exists r', Brisk outs n t r' ((w + 1) mod n).
Proof.
  intros outs n t r w L [A B]. destruct (Nat.eq_dec (S w) n) as [E|E].
  - exists (S r). rewrite Nat.add_1_r, E, Nat.mod_same by lia. split; [lia|]. split.
    + intros i Hi. rewrite visits_wrap with (n := n), A, E; auto.
    + rewrite B, E. apply sum_ext. intros i Hi. unfold late. now rewrite visits_wrap with (n := n).
  - exists r. rewrite Nat.mod_small by lia. rewrite Nat.add_1_r. split; [lia|]. split; auto.
Qed.

Lemma late_bump : forall outs r w, length (outs w) <= visits r w w -> late outs r (S w) w = late outs r w w + 1.
Proof. intros. unfold late. rewrite visits_self. lia. Qed.
Lemma late_same : forall outs r w, visits r w w < length (outs w) -> late outs r (S w) w = late outs r w w.
Proof. intros. unfold late. rewrite visits_self. lia. Qed.

(* the loop has ended with a visit that found the end of a worker *)
Definition Over (outs : nat -> list V) (n : nat) (t : list (obs V)) : Prop :=
  exists r w, w < n /\ Brisk' outs n t r (S w) /\ length (outs w) <= visits r w w.

Lemma brisk_runs : forall sm cap outs n t s, n > 0 -> runs sm cap n (start outs n) t s -> timeouts t = [] ->
  match par s with
  | Polling w c => exists r, Brisk outs n t r w
  | _ => Over outs n t
  end.
Proof.
  intros sm cap outs n t s Hn R. remember (start outs n) as s0. induction R; subst; intros T.
  - simpl. assert (B : Brisk outs n [] 0 0).
    { split; [auto|]. split; [intros; simpl; unfold visits; simpl; lia|].
      simpl. symmetry. unfold late, visits. simpl. clear. induction n; [auto|]. rewrite sum_S, IHn. auto. }
    destruct (polling_cases n 0 0 Hn) as [[_ ->]|[Q _]]; [eauto|lia].
  - rewrite timeouts_app in T. apply app_eq_nil in T. destruct T as [T1 T2].
    specialize (IHR eq_refl T1). pose proof (inv_runs _ _ _ _ _ _ Hn R) as I.
    assert (KEEP' : (forall i, output_of i [o] = []) -> ends [o] = [] -> forall r w, Brisk' outs n t r w -> Brisk' outs n (t ++ [o]) r w).
    { intros K1 K2 r w (B2 & B3). split.
      - intros i Hi. rewrite output_app, K1, app_nil_r. auto.
      - rewrite ends_app, K2, app_nil_r. auto. }
    assert (KEEP : (forall i, output_of i [o] = []) -> ends [o] = [] -> forall r w, Brisk outs n t r w -> Brisk outs n (t ++ [o]) r w).
    { intros K1 K2 r w (B1 & B2). split; [auto|]. apply KEEP'; auto. }
    assert (KEEPO : (forall i, output_of i [o] = []) -> ends [o] = [] -> Over outs n t -> Over outs n (t ++ [o])).
    { intros K1 K2 (r & w & B1 & B2 & B3). exists r, w. split; [auto|]. split; auto. }
    inv H.
    + (* a child *)
      assert (Q : par s2 = par s1).
      { unfold child_step in H1. destruct (todo (kids s1 w)).
        - destruct (open (kids s1 w)); [|destruct (alive (kids s1 w)); [|discriminate]]; inv H1; auto.
        - destruct (length (pipe s1 w) <? cap); [|discriminate]. inv H1. auto. }
      rewrite Q. destruct (par s1); auto. destruct IHR as (r & B); exists r; auto.
    + (* the parent *)
      unfold parent_step in H0. pose proof (i_par _ _ _ _ I) as IP.
      destruct (par s1) as [w c|w|] eqn:Pp; [| |discriminate].
      * destruct IHR as (r & Bw & B1 & B2). destruct IP as (Hw & Hc & Hcn).
        pose proof (i_flow _ _ _ _ I w) as FL.
        destruct (pipe s1 w) as [|x l] eqn:Pw.
        -- destruct (at_eof sm s1 w) eqn:Q; inv H0; [|discriminate].
           apply at_eof_true in Q. destruct Q as (_ & Q).
           rewrite (i_open _ _ _ _ I _ Q) in FL. simpl in FL. rewrite app_nil_r in FL.
           pose proof (B1 w Hw) as Lw. rewrite FL in Lw.
           assert (G : Brisk' outs n (t ++ [OEof w]) r (S w)).
           { split.
           - intros i Hi. rewrite output_app. simpl. rewrite app_nil_r. rewrite B1 by auto.
              destruct (Nat.eq_dec i w) as [->|N]; [rewrite visits_self; lia|now rewrite visits_other].
           - rewrite ends_app, app_length. simpl. rewrite B2. symmetry. apply sum_bump with (w := w); auto.
              * apply late_bump. lia.
              * intros i N. unfold late. now rewrite visits_other. }
           simpl. destruct (polling_cases n ((w + 1) mod n) (length (ends t) + 1) Hn) as [[_ ->]|[_ ->]].
           ++ eapply brisk_wrap; eauto.
           ++ exists r, w. split; [auto|]. split; [auto|lia].
        -- inv H0. pose proof (B1 w Hw) as Lw. simpl.
           destruct (polling_cases n ((w + 1) mod n) (length (ends t)) Hn) as [[_ ->]|[Q _]]; [|lia].
           assert (LL : length (output_of w t) < length (outs w)).
           { rewrite <- FL. rewrite app_length. simpl. lia. }
           apply brisk_wrap with (r := r); auto. split.
           ++ intros i Hi. rewrite output_app, app_length, B1 by auto. simpl.
              destruct (Nat.eq_dec i w) as [->|N].
              ** rewrite Nat.eqb_refl. rewrite visits_self. cbn [app length]. lia.
              ** rewrite visits_other by auto. rewrite (proj2 (Nat.eqb_neq w i)) by auto. simpl. lia.
           ++ rewrite ends_app. simpl. rewrite app_nil_r, B2. apply sum_ext. intros i Hi.
              destruct (Nat.eq_dec i w) as [->|N]; [symmetry; apply late_same; lia|].
              unfold late. now rewrite visits_other.
      * destruct (alive (kids s1 w)); [discriminate|]. inv H0. simpl.
        destruct (w + 1 <? n); auto.
Qed.

Lemma prefix_full : forall (a b : list V), prefix a b -> length b <= length a -> a = b.
Proof.
  intros a b [c ->] L. rewrite app_length in L. destruct c; [now rewrite app_nil_r|simpl in L; lia].
Qed.

Lemma sum_low : forall f n i, i < n -> f i <= sum f n.
Proof. induction n; intros; [lia|]. rewrite sum_S. destruct (Nat.eq_dec i n) as [->|]; [lia|]. specialize (IHn i). lia. Qed.

Lemma sum_le : forall f n, (forall i, i < n -> f i <= 1) -> sum f n <= n.
Proof. induction n; intros H; [auto|]. rewrite sum_S. specialize (IHn ltac:(intros; apply H; lia)). specialize (H n ltac:(lia)). lia. Qed.
Lemma sum_all : forall f n, (forall i, i < n -> f i <= 1) -> sum f n = n -> forall i, i < n -> f i = 1.
Proof.
  induction n; intros H E i Hi; [lia|]. rewrite sum_S in E.
  pose proof (sum_le f n ltac:(intros; apply H; lia)). pose proof (H n ltac:(lia)).
  destruct (Nat.eq_dec i n) as [->|]; [lia|]. apply IHn; [intros; apply H; lia| |]; lia.
Qed.

(* If all workers output equally many values, and the parent never has to wait, all is
   delivered.  (This is how fork is used in the tests of marcel.) *)
Theorem c36_equal_partial : forall sm cap n outs m t s, n > 0 ->
  (forall w, w < n -> length (outs w) = m) ->
  runs sm cap n (start outs n) t s -> finished s -> timeouts t = [] -> complete outs n t.
Proof.
  intros sm cap n outs m t s Hn Len R Fi T w Hw.
  apply prefix_full; [eapply c36_prefix; eauto|].
  pose proof (brisk_runs _ _ _ _ _ _ Hn R T) as B. rewrite Fi in B. destruct B as (r & w0 & B0 & (B1 & B2) & B3).
  pose proof (inv_runs _ _ _ _ _ _ Hn R) as I. pose proof (i_par _ _ _ _ I) as P. rewrite Fi in P.
  rewrite B1, Len by auto. rewrite P in B2.
  rewrite Len in B3 by auto. unfold visits in *. rewrite Nat.ltb_irrefl in B3. destruct (w <? S w0); lia.
Qed.

(* Otherwise values are lost.  With two workers, if the second outputs more values than the
   first, by two or more, fork never delivers all of them when it does not have to wait. *)
Theorem c36_always_lost : forall sm cap outs t s,
  runs sm cap 2 (start outs 2) t s -> finished s -> timeouts t = [] ->
  length (outs 1) >= length (outs 0) + 2 -> ~ complete outs 2 t.
Proof.
  intros sm cap outs t s R Fi T Len C. assert (Hn : 2 > 0) by lia.
  pose proof (brisk_runs _ _ _ _ _ _ Hn R T) as B. rewrite Fi in B. destruct B as (r & w0 & B0 & (B1 & B2) & B3).
  pose proof (inv_runs _ _ _ _ _ _ Hn R) as I. pose proof (i_par _ _ _ _ I) as P. rewrite Fi in P.
  pose proof (C 1 ltac:(lia)) as C1. specialize (B1 1 ltac:(lia)). rewrite C1 in B1.
  rewrite P in B2. unfold sum, late, visits in *.
  destruct w0 as [|[|w0]]; [| |lia]; cbn [seq fold_right Nat.ltb Nat.leb] in *; lia.
Qed.

(* ---- fork ends ---- *)

Lemma runs_cons : forall sm cap n s o s1 t s2, step sm cap n s o s1 -> runs sm cap n s1 t s2 ->
  runs sm cap n s (o :: t) s2.
Proof.
  intros sm cap n s o s1 t s2 S R. induction R.
  - apply (runs_snoc sm cap n s [] s o s0); auto. constructor.
  - change (o :: t ++ [o0]) with ((o :: t) ++ [o0]). econstructor; eauto.
Qed.

Definition work (s : world V) (i : nat) : nat :=
  2 * length (todo (kids s i)) + length (pipe s i) + (if open (kids s i) then 1 else 0) + (if alive (kids s i) then 1 else 0).
Definition pwork (n : nat) (p : phase) : nat :=
  match p with Polling _ c => n - c + n + 1 | Joining w => n - w | Done => 0 end.
Definition measure (n : nat) (s : world V) : nat := sum (work s) n + pwork n (par s).

Lemma sum_less : forall f g n w, w < n -> g w < f w -> (forall i, i <> w -> g i = f i) -> sum g n < sum f n.
Proof.
  induction n; intros w L B O; [lia|]. rewrite !sum_S.
  destruct (Nat.eq_dec w n) as [->|N].
  - rewrite (sum_ext g f n); [lia|]. intros i Hi. apply O. lia.
  - specialize (IHn w ltac:(lia) B O). rewrite (O n) by auto. lia.
Qed.

Lemma child_decreases : forall cap n s w s', w < n -> child_step cap s w = Some s' -> measure n s' < measure n s.
Proof.
  intros cap n s w s' L C. unfold child_step in C. unfold measure.
  destruct (todo (kids s w)) as [|x r] eqn:T.
  - destruct (open (kids s w)) eqn:O; [|destruct (alive (kids s w)) eqn:A; [|discriminate]]; inv C; simpl;
      apply Nat.add_lt_mono_r; apply sum_less with (w := w); auto; unfold work; simpl;
      rewrite ?upd_same, ?T, ?O, ?A; simpl; try lia;
      intros i N; rewrite !upd_other; auto.
  - destruct (length (pipe s w) <? cap); [|discriminate]. inv C. simpl.
    apply Nat.add_lt_mono_r. apply sum_less with (w := w); auto; unfold work; simpl.
    + rewrite !upd_same, T. simpl. rewrite app_length. simpl. destruct (open (kids s w)), (alive (kids s w)); simpl; lia.
    + intros i N; rewrite !upd_other; auto.
Qed.

Lemma alive_dec : forall s n, (exists w, w < n /\ alive (kids s w) = true) \/ (forall w, w < n -> alive (kids s w) = false).
Proof.
  intros s n. induction n as [|n [(w & L & A)|D]].
  - right. lia.
  - left. exists w. auto.
  - destruct (alive (kids s n)) eqn:A; [left; exists n; auto|right].
    intros w L. destruct (Nat.eq_dec w n) as [->|]; auto. apply D. lia.
Qed.

Lemma progress : forall sm cap outs n t s, n > 0 -> cap > 0 -> (n = 1 \/ forall w, w < n -> length (outs w) <= cap) ->
  Inv outs n t s -> finished s \/ exists o s', step sm cap n s o s' /\ measure n s' < measure n s.
Proof.
  intros sm cap outs n t s Hn Hc Fit I.
  assert (CH : forall w s', w < n -> child_step cap s w = Some s' ->
            finished s \/ exists o s', step sm cap n s o s' /\ measure n s' < measure n s).
  { intros w s' L C. right. exists (OChild w), s'. split; [constructor; auto|eapply child_decreases; eauto]. }
  pose proof (i_par _ _ _ _ I) as P.
  destruct (alive_dec s n) as [(w & L & A)|D].
  - destruct (child_step cap s w) as [s'|] eqn:C; [eauto|].
    unfold child_step in C. destruct (todo (kids s w)) as [|x r] eqn:T.
    + destruct (open (kids s w)); [discriminate|]. rewrite A in C. discriminate.
    + destruct (Nat.ltb_spec (length (pipe s w)) cap) as [|F]; [discriminate|].
      pose proof (i_flow _ _ _ _ I w) as FL. rewrite T in FL.
      destruct Fit as [->|Fit].
      * assert (w = 0) as -> by lia.
        destruct (pipe s 0) as [|y l] eqn:Pw; [simpl in F; lia|].
        destruct (par s) as [v c|v|] eqn:Pp; [|exfalso|left; auto].
        -- right. destruct P as (P1 & _). assert (v = 0) as -> by lia.
           eexists. eexists. split; [apply step_parent; unfold parent_step; rewrite Pp, Pw; reflexivity|].
           unfold measure, sum, work. simpl. rewrite upd_same, Pp, Pw.
           destruct (polling_cases 1 0 c Hn) as [[Q ->]|[Q ->]]; simpl; lia.
        -- destruct P as (_ & P). destruct (ends t) as [|e l'] eqn:E; [discriminate|].
           destruct (i_ends _ _ _ _ I e) as (E1 & E2 & _); [rewrite E; simpl; auto|].
           assert (e = 0) as -> by lia. congruence.
      * exfalso. specialize (Fit w L). rewrite <- FL, !app_length in Fit. simpl in Fit. lia.
  - destruct (par s) as [w c|w|] eqn:Pp; [| |left; auto]; right.
    + destruct P as (P1 & P2 & P3).
      assert (O : open (kids s w) = false) by (apply (i_alive _ _ _ _ I); auto).
      destruct (pipe s w) as [|y l] eqn:Pw.
      * assert (Q : at_eof sm s w = true).
        { unfold at_eof. rewrite Pw, O. destruct sm; auto. simpl. apply forallb_forall. intros i Hi. apply in_seq in Hi.
          rewrite D by lia. auto. }
        eexists. eexists. split; [apply step_parent; unfold parent_step; rewrite Pp, Pw, Q; reflexivity|].
        unfold measure. simpl. rewrite Pp. apply Nat.add_lt_mono_l.
        destruct (polling_cases n ((w + 1) mod n) (c + 1) Hn) as [[R ->]|[R ->]]; simpl; lia.
      * eexists. eexists. split; [apply step_parent; unfold parent_step; rewrite Pp, Pw; reflexivity|].
        unfold measure. simpl. rewrite Pp.
        destruct (polling_cases n ((w + 1) mod n) c Hn) as [[R ->]|[R ->]]; [|lia]. cbn [pwork]. apply Nat.add_lt_mono_r.
        apply sum_less with (w := w); auto; unfold work; simpl; [rewrite upd_same, Pw; simpl; lia|].
        intros i N. now rewrite upd_other.
    + destruct P as (P1 & P2).
      eexists. eexists. split; [apply step_parent; unfold parent_step; rewrite Pp, D by auto; reflexivity|].
      unfold measure. simpl. rewrite Pp. apply Nat.add_lt_mono_l.
      destruct (Nat.ltb_spec (w + 1) n); simpl; lia.
Qed.

Lemma can_finish : forall m sm cap outs n t s, n > 0 -> cap > 0 -> (n = 1 \/ forall w, w < n -> length (outs w) <= cap) ->
  Inv outs n t s -> measure n s < m -> exists t' s', runs sm cap n s t' s' /\ finished s'.
Proof.
  induction m; intros sm cap outs n t s Hn Hc Fit I M; [lia|].
  destruct (progress sm cap outs n t s Hn Hc Fit I) as [F|(o & s1 & S & L)].
  - exists [], s. split; [constructor|auto].
  - destruct (IHm sm cap outs n (t ++ [o]) s1) as (t' & s' & R & F); auto.
    + eapply inv_step; eauto.
    + lia.
    + exists (o :: t'), s'. split; [eapply runs_cons; eauto|auto].
Qed.

(* fork cannot hang if there is one worker, or if every worker's output fits in its pipe. *)
Theorem c36_no_hang_partial : forall sm cap n outs t s, n > 0 -> cap > 0 ->
  (n = 1 \/ forall w, w < n -> length (outs w) <= cap) ->
  runs sm cap n (start outs n) t s -> exists t' s', runs sm cap n s t' s' /\ finished s'.
Proof.
  intros. eapply can_finish; eauto. eapply inv_runs; eauto.
Qed.

(* ---- the processes of the workers ---- *)

Lemma joined_step : forall sm cap n s o s',
  (forall i, match par s with Polling _ _ => False | Joining w => i < w | Done => i < n end -> alive (kids s i) = false) ->
  step sm cap n s o s' ->
  (forall i, match par s' with Polling _ _ => False | Joining w => i < w | Done => i < n end -> alive (kids s' i) = false).
Proof.
  intros sm cap n s o s' J S i Hi. inv S.
  - unfold child_step in H0.
    destruct (todo (kids s w)) as [|x r]; [destruct (open (kids s w)); [|destruct (alive (kids s w)) eqn:Al; [|discriminate]]|
      destruct (length (pipe s w) <? cap); [|discriminate]]; inv H0; simpl in *;
      (destruct (Nat.eq_dec i w) as [->|N]; [rewrite upd_same; simpl; auto|rewrite upd_other by auto; auto]).
  - unfold parent_step in H. destruct (par s) as [w c|w|] eqn:P; [| |discriminate].
    + assert (Q : forall a b, match polling n a b with Polling _ _ => False | Joining w => i < w | Done => i < n end -> False).
      { intros a b. unfold polling. destruct (b <? n); intros; lia. }
      destruct (pipe s w); [destruct (at_eof sm s w)|]; inv H; simpl in Hi; now apply Q in Hi.
    + destruct (alive (kids s w)) eqn:A; [discriminate|]. inv H. simpl in *.
      destruct (Nat.ltb_spec (w + 1) n).
      * destruct (Nat.eq_dec i w) as [->|N]; auto. apply J. lia.
      * destruct (Nat.eq_dec i w) as [->|N]; auto. apply J. lia.
Qed.

(* fork does not end before the processes of all the workers have ended. *)
Theorem c36_all_ended : forall sm cap n outs t s, n > 0 ->
  runs sm cap n (start outs n) t s -> finished s -> forall w, w < n -> alive (kids s w) = false.
Proof.
  intros sm cap n outs t s Hn R Fi w Hw.
  assert (J : forall i, match par s with Polling _ _ => False | Joining w => i < w | Done => i < n end -> alive (kids s i) = false).
  { clear Fi w Hw. remember (start outs n) as s0. induction R; subst.
    - intros i. unfold start, par, polling. destruct (Nat.ltb_spec 0 n); [easy|]. lia.
    - eapply joined_step; eauto. }
  apply J. now rewrite Fi.
Qed.

End Facts.

(* ------------------------------------------------------------------ *)
(* Concrete runs *)

Inductive who := Kid (w : nat) | Par.
Fixpoint exec {V} (sm : start_method) (cap n : nat) (s : world V) (l : list who) : option (list (obs V) * world V) :=
  match l with
  | [] => Some ([], s)
  | Kid w :: r => if w <? n then match child_step cap s w with
                           | Some s1 => match exec sm cap n s1 r with Some (t, s2) => Some (OChild w :: t, s2) | None => None end
                           | None => None end else None
  | Par :: r => match parent_step sm n s with
                | Some (o, s1) => match exec sm cap n s1 r with Some (t, s2) => Some (o :: t, s2) | None => None end
                | None => None end
  end.
Lemma exec_runs : forall V sm cap n l (s : world V) t s', exec sm cap n s l = Some (t, s') -> runs sm cap n s t s'.
Proof.
  induction l as [|[w|] l IH]; simpl; intros s t s' E.
  - inv E. constructor.
  - destruct (Nat.ltb_spec w n); [|discriminate]. destruct (child_step cap s w) eqn:C; [|discriminate].
    destruct (exec sm cap n w0 l) as [[t1 s1]|] eqn:X; [|discriminate]. inv E.
    eapply runs_cons; eauto. constructor; auto.
  - destruct (parent_step sm n s) as [[o s1]|] eqn:C; [|discriminate].
    destruct (exec sm cap n s1 l) as [[t1 s2]|] eqn:X; [|discriminate]. inv E.
    eapply runs_cons; eauto. apply step_parent; auto.
Qed.

(* Two workers with the outputs 1 2 and 3 4: they are run to their end, and then the parent
   reads: everything is delivered. *)
Definition outs_eq (w : nat) := if w =? 0 then [1; 2] else [3; 4].
Definition sched_eq := repeat (Kid 0) 4 ++ repeat (Kid 1) 4 ++ repeat Par 8.
Example equal_run : forall sm, exists t s, runs sm 10 2 (start outs_eq 2) t s /\ finished s /\
  timeouts t = [] /\ NoDup (ends t) /\ complete outs_eq 2 t.
Proof.
  intros sm. destruct (exec sm 10 2 (start outs_eq 2) sched_eq) as [[t s]|] eqn:E.
  - exists t, s. split; [eapply exec_runs; exact E|].
    destruct sm; vm_compute in E; inv E; (split; [reflexivity|]); (split; [reflexivity|]);
      (split; [cbn; repeat constructor; simpl; intuition discriminate|]);
      intros [|[|w]] L; try reflexivity; lia.
  - destruct sm; vm_compute in E; discriminate.
Qed.

(* A worker that outputs nothing, and one that outputs 1 2 3.  Both run to their end before
   the parent looks at them.  Two values are lost. *)
Definition outs_lost (w : nat) := if w =? 0 then [] else [1; 2; 3].
Definition sched_lost := repeat (Kid 0) 2 ++ repeat (Kid 1) 5 ++ repeat Par 5.
Theorem c36_lost_refuted : forall sm, exists t s,
  runs sm 10 2 (start outs_lost 2) t s /\ finished s /\ output_of 1 t = [1] /\ ~ complete outs_lost 2 t.
Proof.
  intros sm. destruct (exec sm 10 2 (start outs_lost 2) sched_lost) as [[t s]|] eqn:E.
  - exists t, s. split; [eapply exec_runs; exact E|].
    destruct sm; vm_compute in E; inv E; (split; [reflexivity|]); (split; [reflexivity|]);
      intros C; specialize (C 1 ltac:(lia)); discriminate.
  - destruct sm; vm_compute in E; discriminate.
Qed.

(* The second worker is only slow: equally many values, and those of the second are lost. *)
Definition outs_slow (w : nat) := if w =? 0 then [1] else [2].
Definition sched_slow := repeat (Kid 0) 3 ++ repeat Par 5 ++ repeat (Kid 1) 3 ++ repeat Par 2.
Theorem c36_slow_refuted : forall sm, exists t s,
  runs sm 10 2 (start outs_slow 2) t s /\ finished s /\ output_of 1 t = [].
Proof.
  intros sm. destruct (exec sm 10 2 (start outs_slow 2) sched_slow) as [[t s]|] eqn:E.
  - exists t, s. split; [eapply exec_runs; exact E|].
    destruct sm; vm_compute in E; inv E; split; reflexivity.
  - destruct sm; vm_compute in E; discriminate.
Qed.

(* Whatever the size of the pipe, fork can hang: the parent, having stopped listening, waits
   for a child that waits for room in the pipe. *)
Definition outs_hang (cap : nat) (w : nat) := if w =? 0 then [] else repeat 7 (S cap).
Theorem c36_hang_refuted : forall sm cap, exists t s,
  runs sm cap 2 (start (outs_hang cap) 2) t s /\
  forall t' s', runs sm cap 2 s t' s' -> ~ finished s'.
Proof.
  intros sm cap.
  set (sched := [Kid 0; Kid 0; Par; Par; Par; Par]).
  destruct (exec sm cap 2 (start (outs_hang cap) 2) sched) as [[t s]|] eqn:E;
    [|destruct sm; cbv in E; discriminate].
  exists t, s. split; [eapply exec_runs; exact E|].
  assert (S0 : par s = Joining 1 /\ pipe s 1 ++ todo (kids s 1) = repeat 7 (S cap) /\ alive (kids s 1) = true /\
               length (pipe s 1) <= cap).
  { clear -E. destruct sm; cbn in E; inv E; cbn; repeat split; lia. }
  clear E. intros t' s' R.
  assert (S1 : par s' = Joining 1 /\ pipe s' 1 ++ todo (kids s' 1) = repeat 7 (S cap) /\ alive (kids s' 1) = true /\
               length (pipe s' 1) <= cap).
  { induction R as [|s t' s1 o s2 R IH S]; auto. destruct (IH S0) as (P & F & A & L). clear IH S0.
    assert (NE : todo (kids s1 1) <> []).
    { intros Z. rewrite Z, app_nil_r in F. rewrite F, repeat_length in L. lia. }
    inv S.
    - unfold child_step in H0. destruct (todo (kids s1 w)) as [|x r] eqn:T.
      + assert (1 <> w) by congruence.
        destruct (open (kids s1 w)); [|destruct (alive (kids s1 w)); [|discriminate]]; inv H0; simpl;
          rewrite upd_other by auto; auto.
      + destruct (Nat.ltb_spec (length (pipe s1 w)) cap) as [Q|]; [|discriminate]. inv H0. simpl.
        destruct (Nat.eq_dec 1 w) as [<-|N].
        * rewrite !upd_same. simpl. rewrite <- app_assoc. simpl. rewrite <- T, app_length. simpl. repeat split; auto; lia.
        * rewrite !upd_other by auto. auto.
    - unfold parent_step in H. rewrite P, A in H. discriminate. }
  unfold finished. destruct S1 as (-> & _). discriminate.
Qed.
