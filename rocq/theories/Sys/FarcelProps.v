(** C84: the process that runs a pipeline on another host. *)
From Verif.Sys Require Import FarcelSpec.

Section Props.
Context {V : Type}.
Implicit Types s : state V.

(** ** The table of processes *)
Lemma lookup_in : forall t p q, lookup t p = Some q -> In q t /\ pid q = p.
Proof.
  intros t p q L. apply find_some in L. destruct L as [I E]. apply Nat.eqb_eq in E. auto.
Qed.
Lemma lookup_none : forall t p, lookup t p = None -> forall q, In q t -> pid q <> p.
Proof.
  intros t p L q I E. apply (find_none _ _ L) in I. apply Nat.eqb_neq in I. auto.
Qed.
Lemma ends_pids : forall p t x, (exists q, In q (ends p t) /\ pid q = x) <-> x <> p /\ exists q, In q t /\ pid q = x.
Proof.
  intros p t x. unfold ends. split.
  - intros (q & I & E). apply in_map_iff in I. destruct I as (q' & Q & I). apply filter_In in I. destruct I as [I N].
    apply negb_true_iff, Nat.eqb_neq in N.
    assert (P : pid q = pid q') by (subst q; destruct (Nat.eqb _ _); reflexivity).
    split; [congruence|]. exists q'. split; congruence.
  - intros (N & q & I & E).
    exists (if Nat.eqb (parent q) p then mkprocess (pid q) init (open_output q) (ignores q) (forbidden q) else q). split.
    + apply in_map_iff. exists q. split; [reflexivity|]. apply filter_In. split; [exact I|].
      apply negb_true_iff, Nat.eqb_neq. congruence.
    + destruct (Nat.eqb _ _); exact E.
Qed.
(** What a process is, apart from its parent *)
Definition kind (q : process) := (pid q, open_output q, ignores q, forbidden q).
Lemma ends_kind : forall p t q, In q (ends p t) -> exists q', In q' t /\ kind q = kind q'.
Proof.
  intros p t q I. unfold ends in I. apply in_map_iff in I. destruct I as (q' & Q & I). apply filter_In in I.
  exists q'. split; [tauto|]. subst q. destruct (Nat.eqb (parent q') p); reflexivity.
Qed.

(** ** What holds all the time *)
Definition tidy s : Prop :=
  NoDup (map pid (procs s)) /\
  (forall q, In q (procs s) -> 2 <= pid q < next s /\ parent q < pid q) /\ 2 <= next s.
Lemma nodup_map_filter : forall (f : process -> bool) t, NoDup (map pid t) -> NoDup (map pid (filter f t)).
Proof.
  intros f t. induction t as [|q t IH]; cbn; intros N; [constructor|]. inversion N; subst.
  destruct (f q); cbn; [constructor|]; auto.
  intro I. apply H1. apply in_map_iff in I. destruct I as (x & E & I). apply filter_In in I. apply in_map_iff. exists x. tauto.
Qed.
Lemma ends_map_pid : forall p t, map pid (ends p t) = map pid (filter (fun q => negb (Nat.eqb (pid q) p)) t).
Proof.
  intros p t. unfold ends. rewrite map_map. apply map_ext. intro q. destruct (Nat.eqb _ _); reflexivity.
Qed.
Lemma tidy_ends : forall a a' (r r' : option (pipeline V * nat)) o o' e e' t n p, tidy (mkstate a r o e t n) -> tidy (mkstate a' r' o' e' (ends p t) n).
Proof.
  intros a a' r r' o o' e e' t n p (N & B & G). cbn in *. split; [|split]; cbn.
  - rewrite ends_map_pid. apply nodup_map_filter. exact N.
  - intros q I. unfold ends in I. apply in_map_iff in I. destruct I as (q' & Q & I). apply filter_In in I. destruct I as [I _].
    destruct (B q' I). subst q. destruct (Nat.eqb _ _); cbn; [|auto]. unfold init. lia.
  - exact G.
Qed.
Lemma tidy_new : forall a a' (r r' : option (pipeline V * nat)) o o' e e' t n up b d f, tidy (mkstate a r o e t n) ->
  up < n -> tidy (mkstate a' r' o' e' (t ++ [mkprocess n up b d f]) (S n)).
Proof.
  intros a a' r r' o o' e e' t n up b d f (N & B & G) U. cbn in *. split; [|split]; cbn.
  - rewrite map_app. cbn. clear G U. induction t as [|x t IH]; cbn in *; [constructor; [tauto|constructor]|].
    inversion N; subst. constructor.
    + intro I. apply in_app_or in I. destruct I as [I|[I|[]]]; [auto|].
      destruct (B x (or_introl eq_refl)). lia.
    + apply IH; auto.
  - intros q I. apply in_app_or in I. destruct I as [I|[I|[]]].
    + destruct (B q I). lia.
    + subst q. cbn. lia.
  - lia.
Qed.
Lemma tidy_step : forall ok s a s', step ok s a s' -> tidy s -> tidy s'.
Proof.
  intros ok s a s' H T.
  inversion H; subst; try exact T.
  - destruct (ignores q s0); [exact T|]. eapply tidy_ends; exact T.
  - eapply tidy_new; [exact T|]. destruct T as (_ & _ & G). cbn in G. unfold me. lia.
  - eapply tidy_new; [exact T|]. destruct T as (_ & B & _). cbn in B. destruct (B q H0). lia.
  - eapply tidy_ends; exact T.
Qed.
Lemma tidy_runs : forall ok s tr s', runs ok s tr s' -> tidy s -> tidy s'.
Proof. induction 1; eauto using tidy_step. Qed.
Lemma tidy_start : forall input, tidy (start (V := V) input).
Proof. intros. split; [constructor|split]; cbn; [intros q []|lia]. Qed.

(** ** Everything that the pipeline outputs is there *)
Definition wants (ok : bool) (input : list (item V)) : option (pipeline V) := fst (receive ok input).
Definition ran (ok : bool) (input : list (item V)) s : Prop :=
  match at_ s with
  | Opening i => i = input /\ runner s = None /\ out s = []
  | a =>
      match wants ok input with
      | None => runner s = None /\ out s = []
      | Some p => exists n, runner s = Some (p, n) /\ (forall m, m < n -> p m <> None) /\ out s = outputs p n /\
                            (a = Ended -> p n = None)
      end
  end.
Lemma ran_step : forall ok input s a s', step ok s a s' -> ran ok input s -> ran ok input s'.
Proof.
  intros ok input s a s' H R. unfold ran in *.
  inversion H; subst; cbn in *; try exact R;
  try (destruct (wants ok input) as [w|]; [destruct R as (k' & R & M & O & E); inversion R; subst;
         exists k'; repeat split; auto; try discriminate; intros _; assumption|exact R]).
  - destruct R as (-> & -> & ->). unfold wants. rewrite H0. cbn. destruct p as [p|]; cbn; [|auto].
    exists 0. repeat split; [lia|discriminate].
  - destruct a0; [destruct R as (_ & R & _); discriminate|..];
    (destruct (wants ok input) as [w|]; [|destruct R; discriminate]);
    destruct R as (k' & R & M & O & E); inversion R; subst; exists (S k'); repeat split;
    try (intros m L; destruct (Nat.eq_dec m k'); [subst; congruence|apply M; lia]);
    try (cbn; rewrite H0; reflexivity); try discriminate. intro X. specialize (E X). congruence.
  - destruct a0; [destruct R as (_ & R & _); discriminate|..];
    (destruct (wants ok input) as [w|]; [|destruct R; discriminate]);
    destruct R as (k' & R & M & O & E); inversion R; subst; exists (S k'); repeat split;
    try (intros m L; destruct (Nat.eq_dec m k'); [subst; congruence|apply M; lia]);
    try (cbn; rewrite H0, app_nil_r; reflexivity); try discriminate. intro X. specialize (E X). congruence.
Qed.
Lemma ran_runs : forall ok input s tr s', runs ok s tr s' -> ran ok input s -> ran ok input s'.
Proof. induction 1; eauto using ran_step. Qed.
Lemma ran_start : forall ok input, ran ok input (start input).
Proof. intros. cbn. auto. Qed.

(** When farcel has ended, its output is everything that the pipeline outputs, whatever the other processes did in the meantime, and
    whatever was sent after the pipeline. *)
Theorem c84_complete : forall version usage p more tr s,
  runs true (start (request version usage p ++ more)) tr s -> ended s -> everything p (out s).
Proof.
  intros v u p more tr s R E. pose proof (ran_runs _ _ _ _ _ R (ran_start true _)) as X. unfold ran in X. rewrite E in X.
  cbn in X. destruct X as (n & _ & M & O & N). exists n. auto.
Qed.
(** In particular when the client has all of it. *)
Theorem c84_client : forall version usage p tr s,
  runs true (start (request version usage p)) tr s -> client_done s -> everything p (out s).
Proof.
  intros v u p tr s R (E & _). eapply c84_complete with (more := []); [rewrite app_nil_r; exact R|exact E].
Qed.
(** Before that, what is there is the beginning. *)
Theorem c84_prefix : forall version usage p more tr s,
  runs true (start (request version usage p ++ more)) tr s -> exists n, out s = outputs p n /\ forall m, m < n -> p m <> None.
Proof.
  intros v u p more tr s R. pose proof (ran_runs _ _ _ _ _ R (ran_start true _)) as X. unfold ran in X.
  destruct (at_ s); cbn in X; [|destruct X as (n & _ & M & O & N); eauto..].
  destruct X as (_ & _ & ->). exists 0. split; [reflexivity|lia].
Qed.

(** farcel does not end before the pipeline does: a pipeline without an end goes on for ever, whatever is sent to farcel, and though the
    client may be gone. *)
Theorem c84_endless : forall ok version usage p more tr s, (forall n, p n <> None) -> ok = true ->
  runs ok (start (request version usage p ++ more)) tr s -> ~ ended s.
Proof.
  intros ok v u p more tr s N -> R E. destruct (c84_complete _ _ _ _ _ _ R E) as (n & X & _). exact (N n X).
Qed.

(** ** A request that is not understood *)
Definition lost (input : list (item V)) s : Prop :=
  runner s = None /\ out s = [] /\
  match at_ s with
  | Opening i => i = input
  | Listening i => forall x, In x i -> not_an_item x
  | Closing | Ended => told s = true
  | _ => False
  end.
Lemma lost_step : forall ok input s a s', (broken input \/ ok = false /\ exists v u p, input = request v u p) ->
  step ok s a s' -> lost input s -> lost input s'.
Proof.
  intros ok input s a s' B H (R & O & L). unfold lost.
  inversion H; subst; cbn in *; try discriminate; try contradiction; auto.
  - subst i o r.
    assert (X : p = None /\ forall x, In x rest -> not_an_item x).
    { destruct B as [(g & b & -> & N & G & B)|(-> & v & u & p' & ->)].
      - destruct g as [|[x|] [|[y|] [|? ?]]]; cbn in H0, N; try lia;
        try (exfalso; apply (G Garbage); cbn; auto; fail).
        all: destruct b as [|[z|] b]; try (exfalso; exact (B (Item z) (or_introl eq_refl))); inversion H0; subst; split; auto;
          intros w I; try destruct I; apply B; cbn; auto.
      - inversion H0; subst. split; [reflexivity|intros w []]. }
    destruct X as (-> & X). cbn. auto.
  - exact (False_ind _ (L (Item (Signal s0)) (or_introl eq_refl))).
  - exact (False_ind _ (L (Item x) (or_introl eq_refl))).
Qed.
(** Then the output is empty, and only standard error tells. *)
Theorem c84_not_understood : forall ok input tr s, (broken input \/ ok = false /\ exists v u p, input = request v u p) ->
  runs ok (start input) tr s -> ended s -> out s = [] /\ told s = true.
Proof.
  intros ok input tr s B R E.
  assert (L : lost input s).
  { assert (L : lost input (start input)) by (unfold lost; cbn; auto).
    remember (start input) as s0. clear Heqs0. induction R; [exact L|]. apply IHR; [exact E|]. eapply lost_step; eauto. }
  destruct L as (_ & O & T). rewrite E in T. auto.
Qed.

(** ** The processes that are left *)
Lemma runs_history : forall ok (P : list actor -> state V -> Prop),
  (forall h s a s', P h s -> step ok s a s' -> P (h ++ [a]) s') ->
  forall s tr s', runs ok s tr s' -> forall h, P h s -> P (h ++ tr) s'.
Proof.
  intros ok P Hs s tr s' R. induction R; intros h I; [rewrite app_nil_r; exact I|].
  replace (h ++ a :: tr) with ((h ++ [a]) ++ tr) by (rewrite <- app_assoc; reflexivity). eauto.
Qed.
Lemma descendant_in : forall t p, descendant t p -> exists q, In q t /\ pid q = p.
Proof. intros t p D. destruct D; eauto. Qed.

(** After the look at [s1], which found [l]: [done] were sent the signal. *)
Record killing (s1 : state V) (l : list nat) (h : list actor) (s : state V) : Prop := {
  k_tidy : tidy s;
  k_next : next s1 <= next s;
  k_old : forall q, In q (procs s) -> pid q < next s1 -> exists q', In q' (procs s1) /\ kind q = kind q';
  k_gone : forall p, In p l -> ~ alive s p -> In (Exits p) h \/ match at_ s with Killing _ rest => ~ In p rest | _ => True end;
  k_phase : match at_ s with
            | Killing sg rest => sg = sigterm /\ exists d, l = d ++ rest /\
                forall q, In q (procs s) -> In (pid q) d -> ignores q sigterm = true
            | Closing | Ended =>
                (forall q, In q (procs s) -> In (pid q) l -> ignores q sigterm = true) \/
                (exists q, In q (procs s1) /\ In (pid q) l /\ (forbidden q = true \/ In (Exits (pid q)) h))
            | _ => False
            end
}.
Lemma tidy_unique : forall s q q', tidy s -> In q (procs s) -> In q' (procs s) -> pid q = pid q' -> q = q'.
Proof.
  intros s q q' (N & _ & _). induction (procs s) as [|x t IH]; cbn in *; [tauto|].
  inversion N; subst. intros [I|I] [J|J] E; subst; auto.
  - exfalso. apply H1. rewrite E. apply in_map. exact J.
  - exfalso. apply H1. rewrite <- E. apply in_map. exact I.
Qed.
Lemma killing_step : forall ok s1 l, tidy s1 -> NoDup l -> (forall p, In p l <-> descendant (procs s1) p) ->
  forall h s a s', killing s1 l h s -> step ok s a s' -> killing s1 l (h ++ [a]) s'.
Proof.
  intros ok s1 l T1 ND L h s a s' [T N O G P] H.
  assert (LN : forall p, In p l -> p < next s1).
  { intros p I. apply L in I. apply descendant_in in I. destruct I as (q & I & <-). destruct T1 as (_ & B & _). apply (B q I). }
  pose proof (tidy_step _ _ _ _ H T) as T'.
  destruct H; cbn in *; try contradiction.
  - (* sent *)
    destruct P as (-> & d & E & D). destruct (lookup_in _ _ _ H) as [I Q].
    assert (E' : l = (d ++ [p]) ++ l0) by (rewrite <- app_assoc; exact E).
    assert (NP : ~ In p l0) by (rewrite E in ND; apply NoDup_remove_2 in ND; intro X; apply ND, in_or_app; auto).
    destruct (ignores q sigterm) eqn:IG.
    + constructor; cbn; auto.
      * intros x X A. destruct (G x X A) as [J|J]; [left; apply in_or_app; auto|right; intro; apply J; right; auto].
      * split; [reflexivity|]. exists (d ++ [p]). split; [exact E'|]. intros q' I' J. apply in_app_or in J. destruct J as [J|[J|[]]]; [auto|].
        rewrite (tidy_unique _ q' q T I' I); [exact IG|congruence].
    + constructor; cbn; auto.
      * intros q' I' B. apply ends_kind in I'. destruct I' as (q2 & I2 & K). assert (pid q2 = pid q') by (unfold kind in K; congruence).
        destruct (O q2 I2) as (q3 & I3 & K3); [congruence|]. exists q3. split; [exact I3|congruence].
      * intros x X A. destruct (Nat.eq_dec x p) as [->|NE]; [right; exact NP|].
        assert (A' : ~ alive (mkstate (Killing sigterm (p :: l0)) r o e t n) x).
        { intro Y. apply A. unfold alive in *. cbn in *. apply ends_pids. auto. }
        destruct (G x X A') as [J|J]; [left; apply in_or_app; auto|right; intro; apply J; right; auto].
      * split; [reflexivity|]. exists (d ++ [p]). split; [exact E'|]. intros q' I' J.
        assert (X : exists q2, In q2 (ends p t) /\ pid q2 = pid q') by eauto. apply ends_pids in X. destruct X as [X _].
        apply ends_kind in I'. destruct I' as (q2 & I2 & K). unfold kind in K. inversion K as [[K1 K2 K3 K4]].
        rewrite K3. apply D; [exact I2|]. rewrite <- K1. apply in_app_or in J. destruct J as [J|[J|[]]]; [exact J|congruence].
  - (* not sent *)
    destruct P as (-> & d & E & D).
    constructor; cbn; auto. right.
    assert (IL : In p l) by (rewrite E; apply in_or_app; cbn; auto).
    destruct (lookup t p) as [q|] eqn:LK.
    + destruct (lookup_in _ _ _ LK) as [I Q]. destruct (O q I) as (q' & I' & K); [rewrite Q; auto|].
      unfold kind in K. inversion K. exists q'. split; [exact I'|]. split; [congruence|left; congruence].
    + destruct (G p IL) as [J|J].
      * intros (q & I & Q). exact (lookup_none _ _ LK q I Q).
      * pose proof IL as X. apply L, descendant_in in X. destruct X as (q & I & Q). exists q. split; [exact I|]. rewrite Q. split; [exact IL|].
        right. apply in_or_app. auto.
      * exfalso. apply J. left. reflexivity.
  - (* all sent *)
    destruct P as (-> & d & E & D). rewrite app_nil_r in E. subst d. constructor; cbn; auto.
  - (* closed *)
    constructor; cbn; auto. destruct P as [P|(q & A & B & C)]; [auto|]. right. exists q. split; [exact A|]. split; [exact B|].
    destruct C; [auto|]. right. apply in_or_app. auto.
  - (* output *)
    constructor; cbn; auto.
    + intros x X A. destruct (G x X A); [left; apply in_or_app; auto|auto].
    + destruct a; auto; (destruct P as [P|(q & A & B & C)]; [auto|]; right; exists q; split; [exact A|]; split; [exact B|];
      destruct C; [auto|]; right; apply in_or_app; auto).
  - (* start *)
    constructor; cbn; auto.
    + intros q I B. apply in_app_or in I. destruct I as [I|[I|[]]]; [auto|]. subst q. cbn in B. lia.
    + intros x X A. assert (A' : ~ alive (mkstate a (Some (p, k)) o e t n) x).
      { intros (q & I & Q). apply A. exists q. split; [apply in_or_app; auto|exact Q]. }
      destruct (G x X A'); [left; apply in_or_app; auto|auto].
    + assert (NW : forall q, In q (t ++ [mkprocess n me b d f]) -> In (pid q) l -> In q t).
      { intros q I J. apply in_app_or in I. destruct I as [I|[I|[]]]; [exact I|]. subst q. cbn in J. apply LN in J. lia. }
      destruct a; auto.
      * destruct P as (-> & d' & E & D). split; [reflexivity|]. exists d'. split; [exact E|]. intros q I J. apply D; [|exact J].
        apply NW; [exact I|]. rewrite E. apply in_or_app. auto.
      * destruct P as [P|(q & A & B & C)]; [left; intros q I J; apply P; auto|]. right. exists q. split; [exact A|]. split; [exact B|].
        destruct C; [auto|]. right. apply in_or_app. auto.
      * destruct P as [P|(q & A & B & C)]; [left; intros q I J; apply P; auto|]. right. exists q. split; [exact A|]. split; [exact B|].
        destruct C; [auto|]. right. apply in_or_app. auto.
  - (* fork *)
    constructor; cbn; auto.
    + intros q' I B. apply in_app_or in I. destruct I as [I|[I|[]]]; [auto|]. subst q'. cbn in B. lia.
    + intros x X A. assert (A' : ~ alive (mkstate a r o e t n) x).
      { intros (q' & I & Q). apply A. exists q'. split; [apply in_or_app; auto|exact Q]. }
      destruct (G x X A'); [left; apply in_or_app; auto|auto].
    + assert (NW : forall q', In q' (t ++ [mkprocess n (pid q) b d f]) -> In (pid q') l -> In q' t).
      { intros q' I J. apply in_app_or in I. destruct I as [I|[I|[]]]; [exact I|]. subst q'. cbn in J. apply LN in J. lia. }
      destruct a; auto.
      * destruct P as (-> & d' & E & D). split; [reflexivity|]. exists d'. split; [exact E|]. intros q' I J. apply D; [|exact J].
        apply NW; [exact I|]. rewrite E. apply in_or_app. auto.
      * destruct P as [P|(q' & A & B & C)]; [left; intros q' I J; apply P; auto|]. right. exists q'. split; [exact A|]. split; [exact B|].
        destruct C; [auto|]. right. apply in_or_app. auto.
      * destruct P as [P|(q' & A & B & C)]; [left; intros q' I J; apply P; auto|]. right. exists q'. split; [exact A|]. split; [exact B|].
        destruct C; [auto|]. right. apply in_or_app. auto.
  - (* exit *)
    constructor; cbn; auto.
    + intros q' I' B. apply ends_kind in I'. destruct I' as (q2 & I2 & K). assert (pid q2 = pid q') by (unfold kind in K; congruence).
      destruct (O q2 I2) as (q3 & I3 & K3); [congruence|]. exists q3. split; [exact I3|congruence].
    + intros x X A. destruct (Nat.eq_dec x (pid q)) as [->|NE]; [left; apply in_or_app; cbn; auto|].
      assert (A' : ~ alive (mkstate a r o e t n) x).
      { intro Y. apply A. unfold alive in *. cbn in *. apply ends_pids. auto. }
      destruct (G x X A'); [left; apply in_or_app; auto|auto].
    + assert (K : forall (Q : nat -> Prop), (forall q', In q' t -> Q (pid q') -> ignores q' sigterm = true) ->
                   forall q', In q' (ends (pid q) t) -> Q (pid q') -> ignores q' sigterm = true).
      { intros Q Y q' I' B. apply ends_kind in I'. destruct I' as (q2 & I2 & K). unfold kind in K. inversion K as [[K1 K2 K3 K4]].
        rewrite K3. apply Y; congruence. }
      destruct a; auto.
      * destruct P as (-> & d' & E & D). split; [reflexivity|]. exists d'. split; [exact E|]. apply (K (fun x => In x d')). exact D.
      * destruct P as [P|(q' & A & B & C)]; [left; apply (K (fun x => In x l)); exact P|]. right. exists q'. split; [exact A|]. split; [exact B|].
        destruct C; [auto|]. right. apply in_or_app. auto.
      * destruct P as [P|(q' & A & B & C)]; [left; apply (K (fun x => In x l)); exact P|]. right. exists q'. split; [exact A|]. split; [exact B|].
        destruct C; [auto|]. right. apply in_or_app. auto.
Qed.
Lemma looks_killing : forall ok s1 s2, tidy s1 -> looks ok s1 s2 -> exists l, NoDup l /\ (forall p, In p l <-> descendant (procs s1) p) /\
  at_ s2 = Killing sigterm l /\ procs s2 = procs s1 /\ next s2 = next s1 /\ killing s1 l [] s2.
Proof.
  intros ok s1 s2 T (A & H). inversion H; subst; cbn in A; try discriminate. exists l. repeat (split; [auto; fail|]).
  repeat (split; [reflexivity|]). constructor; cbn; auto.
  - intros q I _. exists q. auto.
  - intros p I N. exfalso. apply N. apply descendant_in. apply H2. exact I.
  - split; [reflexivity|]. exists []. split; [reflexivity|]. intros q _ [].
Qed.

(** A process that farcel found and that is there when farcel is gone ignores the signal; or farcel stopped at one that
    it may not send signals to, or that had ended before its turn came. *)
Theorem c84_killed_partial : forall ok input tr1 s1 s2 tr s3 p,
  runs ok (start input) tr1 s1 -> looks ok s1 s2 -> runs ok s2 tr s3 -> ended s3 ->
  descendant (procs s1) p -> alive s3 p ->
  (exists q, In q (procs s1) /\ pid q = p /\ ignores q sigterm = true) \/
  (exists q, In q (procs s1) /\ descendant (procs s1) (pid q) /\ (forbidden q = true \/ In (Exits (pid q)) tr)).
Proof.
  intros ok input tr1 s1 s2 tr s3 p R1 K R E D (q & I & Q).
  pose proof (tidy_runs _ _ _ _ R1 (tidy_start input)) as T1.
  destruct (looks_killing _ _ _ T1 K) as (l & ND & L & _ & _ & _ & K2).
  pose proof (runs_history ok (killing s1 l) (killing_step ok s1 l T1 ND L) _ _ _ R [] K2) as [T N O G P]. cbn in *.
  rewrite E in P. pose proof (proj2 (L p) D) as IL.
  destruct P as [P|(q' & A & B & C)].
  - left. destruct (O q I) as (q' & I' & KK).
    { rewrite Q. destruct (descendant_in _ _ D) as (q1 & I1 & <-). destruct T1 as (_ & B & _). apply (B q1 I1). }
    unfold kind in KK. inversion KK as [[K1 K3 K4 K5]]. exists q'. split; [exact I'|]. split; [congruence|].
    rewrite <- K4. apply P; [exact I|congruence].
  - right. exists q'. split; [exact A|]. split; [apply L; exact B|exact C].
Qed.

(** If none of them ignores the signal, is somebody else's, or ends by itself, none is left. *)
Corollary c84_all_killed_partial : forall ok input tr1 s1 s2 tr s3,
  runs ok (start input) tr1 s1 -> looks ok s1 s2 -> runs ok s2 tr s3 -> ended s3 ->
  (forall q, In q (procs s1) -> descendant (procs s1) (pid q) -> ignores q sigterm = false /\ forbidden q = false /\ ~ In (Exits (pid q)) tr) ->
  forall p, descendant (procs s1) p -> ~ alive s3 p.
Proof.
  intros ok input tr1 s1 s2 tr s3 R1 K R E F p D A.
  destruct (c84_killed_partial _ _ _ _ _ _ _ _ R1 K R E D A) as [(q & I & Q & X)|(q & I & Q & X)].
  - subst p. destruct (F q I D) as (Y & _). congruence.
  - destruct (F q I Q) as (_ & Y & Z). destruct X; [congruence|contradiction].
Qed.

(** Whatever farcel did not find, it does not end: the processes whose parents are gone, and those that start later. *)
Definition sparing (l : list nat) (s : state V) : Prop :=
  match at_ s with Killing _ rest => incl rest l | Closing | Ended => True | _ => False end.
Lemma sparing_step : forall ok l s a s', step ok s a s' -> sparing l s -> sparing l s'.
Proof.
  intros ok l s a s' H K. destruct H; cbn in *; try contradiction; auto.
  intros x I. apply K. right. exact I.
Qed.
Lemma spared_step : forall ok l s a s' p, step ok s a s' -> sparing l s -> ~ In p l -> alive s p -> a <> Exits p -> alive s' p.
Proof.
  intros ok l s a s' p H K N (q & I & Q) X. destruct H; try (exists q; split; assumption).
  - unfold alive. cbn in *. destruct (ignores q0 s); [exists q; auto|].
    apply ends_pids. split; [intros ->; apply N, K; left; reflexivity|exists q; auto].
  - exists q. split; [apply in_or_app; left; exact I|exact Q].
  - exists q. split; [apply in_or_app; left; exact I|exact Q].
  - unfold alive. cbn in *. apply ends_pids. split; [intros ->; apply X; reflexivity|exists q; auto].
Qed.
Lemma spared_runs : forall ok l s tr s' p, runs ok s tr s' -> sparing l s -> ~ In p l -> alive s p -> ~ In (Exits p) tr -> alive s' p.
Proof.
  intros ok l s tr s' p R. induction R; intros K N A X; [exact A|].
  apply IHR; [eapply sparing_step; eauto|exact N| |intro; apply X; right; assumption].
  eapply spared_step; eauto. intros ->. apply X. left. reflexivity.
Qed.
Theorem c84_orphans : forall ok input tr1 s1 s2 tr s3 p,
  runs ok (start input) tr1 s1 -> looks ok s1 s2 -> runs ok s2 tr s3 ->
  alive s1 p -> ~ descendant (procs s1) p -> ~ In (Exits p) tr -> alive s3 p.
Proof.
  intros ok input tr1 s1 s2 tr s3 p R1 K R A D X.
  pose proof (tidy_runs _ _ _ _ R1 (tidy_start input)) as T1.
  destruct (looks_killing _ _ _ T1 K) as (l & ND & L & P & PR & NX & _).
  apply (spared_runs ok l s2 tr s3 p R).
  - unfold sparing. rewrite P. apply incl_refl.
  - intro I. apply D. apply L. exact I.
  - unfold alive in *. rewrite PR. exact A.
  - exact X.
Qed.
Lemma forked_step : forall ok s p q s', step ok s (Forks p q) s' -> alive s' q /\ q = next s.
Proof.
  intros ok s p q s' H. inversion H; subst. split; [|reflexivity]. exists (mkprocess q (pid q0) b d f).
  split; [apply in_or_app; right; left; reflexivity|reflexivity].
Qed.
Lemma next_step : forall ok s a s', step ok s a s' -> next s <= next s'.
Proof. intros ok s a s' H. destruct H; cbn; lia. Qed.
Theorem c84_late : forall ok input tr1 s1 s2 tr s3 p q,
  runs ok (start input) tr1 s1 -> looks ok s1 s2 -> runs ok s2 tr s3 ->
  In (Forks p q) tr -> ~ In (Exits q) tr -> alive s3 q.
Proof.
  intros ok input tr1 s1 s2 tr s3 p q R1 K R F X.
  pose proof (tidy_runs _ _ _ _ R1 (tidy_start input)) as T1.
  destruct (looks_killing _ _ _ T1 K) as (l & ND & L & P & PR & NX & _).
  assert (LN : forall x, In x l -> x < next s1).
  { intros x I. apply L in I. apply descendant_in in I. destruct I as (y & I & <-). destruct T1 as (_ & B & _). apply (B y I). }
  assert (SP : sparing l s2) by (unfold sparing; rewrite P; apply incl_refl).
  assert (NX' : next s1 <= next s2) by lia. clear NX PR P K.
  induction R; [destruct F|].
  pose proof (sparing_step _ _ _ _ _ H SP) as SP'. pose proof (next_step _ _ _ _ H) as NS.
  destruct F as [->|F].
  - destruct (forked_step _ _ _ _ _ H) as [A E]. eapply (spared_runs ok l); eauto.
    + intro I. apply LN in I. lia.
    + intro; apply X; right; assumption.
  - apply IHR; auto; [intro; apply X; right; assumption|lia].
Qed.

(** ** farcel comes to an end *)
Lemma descendant_dec : forall s, tidy s -> forall p, descendant (procs s) p \/ ~ descendant (procs s) p.
Proof.
  intros s T p. induction p as [p IH] using lt_wf_ind.
  destruct (lookup (procs s) p) as [q|] eqn:LK.
  - destruct (lookup_in _ _ _ LK) as [I E]. pose proof T as (_ & B & _). destruct (B q I) as (_ & U).
    destruct (Nat.eq_dec (parent q) me) as [M|M]; [left; rewrite <- E; apply child; assumption|].
    destruct (IH (parent q)) as [Y|Y]; [lia|left; rewrite <- E; apply grandchild; assumption|].
    right. intro D. inversion D as [q' I' M' E'|q' I' M' E']; subst p; pose proof (tidy_unique _ q' q T I' I E') as ->; contradiction.
  - right. intro D. apply descendant_in in D. destruct D as (q & I & E). exact (lookup_none _ _ LK q I E).
Qed.
Lemma look_exists : forall s, tidy s -> exists l, NoDup l /\ forall p, In p l <-> descendant (procs s) p.
Proof.
  intros s T. pose proof (descendant_dec s T) as DEC. pose proof T as (N & _ & _).
  assert (X : forall ps, NoDup ps -> exists l, NoDup l /\ forall p, In p l <-> In p ps /\ descendant (procs s) p).
  { induction ps as [|x ps IH]; intros ND; [exists []; split; [constructor|cbn; tauto]|].
    inversion ND; subst. destruct IH as (l & NL & L); [assumption|]. destruct (DEC x) as [D|D].
    - exists (x :: l). split; [constructor; [intro I; apply L in I; tauto|exact NL]|]. intro p. cbn. rewrite L. split; intros; [intuition congruence|tauto].
    - exists l. split; [exact NL|]. intro p. rewrite L. cbn. split; [tauto|]. intros ([->|I] & D'); tauto. }
  destruct (X (map pid (procs s)) N) as (l & NL & L). exists l. split; [exact NL|]. intro p. rewrite L. split; [tauto|].
  intro D. split; [|exact D]. apply descendant_in in D. destruct D as (q & I & <-). apply in_map. exact I.
Qed.
(** Once the pipeline is over, nothing that the others do keeps the main thread from its next step, *)
Theorem c84_progress : forall ok input tr s, runs ok (start input) tr s -> over (runner s) -> ~ ended s -> exists s', step ok s Main s'.
Proof.
  intros ok input tr s R O N. pose proof (tidy_runs _ _ _ _ R (tidy_start input)) as T.
  destruct (look_exists s T) as (l & ND & L).
  destruct s as [a r o e t n]. cbn in *. destruct a as [i|[|[[p|sg|]|] rest]| |sg [|p rest]| |].
  - destruct (receive ok i) as [p rest] eqn:X. eexists. eapply s_open. exact X.
  - destruct r as [[p k]|]; [eexists; apply s_eof|eexists; apply s_eof_nothing].
  - eexists. apply s_nonsense. discriminate.
  - eexists. eapply s_signal; eauto.
  - eexists. apply s_nonsense. discriminate.
  - eexists. apply s_garbage.
  - eexists. eapply s_kill; eauto.
  - eexists. apply s_killed.
  - destruct (lookup t p) as [q|] eqn:LK.
    + destruct (forbidden q) eqn:F; [eexists; apply s_not_sent; rewrite LK; exact F|eexists; eapply s_sent; eauto].
    + eexists. apply s_not_sent. rewrite LK. exact Logic.I.
  - eexists. apply s_close. exact O.
  - exfalso. apply N. reflexivity.
Qed.
(** and after the look at the processes that are left, the number of its steps is bounded by how many there were then. *)
Definition steps_left (s : state V) : nat :=
  match at_ s with Killing _ l => length l + 2 | Closing => 1 | _ => 0 end.
Theorem c84_bounded : forall ok input tr1 s1 s2 tr s3,
  runs ok (start input) tr1 s1 -> looks ok s1 s2 -> runs ok s2 tr s3 -> main_steps tr <= length (procs s1) + 2.
Proof.
  intros ok input tr1 s1 s2 tr s3 R1 K R.
  pose proof (tidy_runs _ _ _ _ R1 (tidy_start input)) as T1.
  destruct (looks_killing _ _ _ T1 K) as (l & ND & L & P & PR & NX & _).
  assert (LE : length l <= length (procs s1)).
  { rewrite <- (map_length pid (procs s1)). apply NoDup_incl_length; [exact ND|]. intros p I. apply L, descendant_in in I.
    destruct I as (q & I & <-). apply in_map. exact I. }
  assert (SP : sparing l s2) by (unfold sparing; rewrite P; apply incl_refl).
  assert (M : main_steps tr <= steps_left s2); [|unfold steps_left in M; rewrite P in M; lia].
  clear PR NX P K LE. induction R; [cbn; lia|].
  pose proof (sparing_step _ _ _ _ _ H SP) as SP'. specialize (IHR SP').
  assert (ST : (a = Main -> steps_left s0 < steps_left s) /\ steps_left s0 <= steps_left s).
  { destruct H; cbn in SP; try contradiction; unfold steps_left; cbn; split; try discriminate; lia. }
  unfold main_steps in *. cbn. destruct a; cbn; destruct ST as (S1 & S2); try lia. specialize (S1 eq_refl). lia.
Qed.
End Props.

(** ** Cases *)
Definition hears : nat -> bool := fun _ => false.
Definition from_list (l : list (act nat)) : pipeline nat := fun n => nth_error l n.
Definition two : list (item nat) := request Other Other (from_list [Start false hears false; Output 7; Start false hears false]).
Definition p2 := mkprocess 2 me false hears false.
Definition p3 := mkprocess 3 me false hears false.
Ltac one c := eapply r_step; [eapply c|]; cbn.
Ltac only_child := let D := fresh in intro D; inversion D; subst; cbn in *;
  repeat match goal with H : _ \/ _ |- _ => destruct H | H : False |- _ => destruct H end; subst; cbn in *; auto.

Lemma two_look : runs true (start two) [Main; Runner; Main; Runner; Runner]
  (mkstate Waiting (Some (from_list [Start false hears false; Output 7; Start false hears false], 3)) [7] false [p2; p3] 4).
Proof.
  one @s_open; [reflexivity|]. one @s_start; [reflexivity|]. one @s_eof. one @s_output; [reflexivity|]. one @s_start; [reflexivity|]. apply r_here.
Qed.
Lemma two_found : forall p, In p [2; 3] <-> descendant [p2; p3] p.
Proof.
  intro p. split.
  - intros [<-|[<-|[]]]; [apply (child [p2; p3] p2)|apply (child [p2; p3] p3)]; cbn; auto.
  - only_child.
Qed.
Lemma nodup_23 : NoDup [2; 3].
Proof. repeat constructor; cbn; intuition congruence. Qed.

(** Both processes that the pipeline started are ended, and the client has everything. *)
Example c84_case : exists tr s, runs true (start two) tr s /\ client_done s /\ procs s = [] /\ out s = [7].
Proof.
  assert (X : exists tr s, runs true (mkstate Waiting (Some (from_list [Start false hears false; Output 7; Start false hears false], 3)) [7] false [p2; p3] 4) tr s
            /\ client_done s /\ procs s = [] /\ out s = [7]).
  { eexists. eexists. split.
    - eapply r_step; [apply (s_kill true) with (l := [2; 3]); [reflexivity|exact nodup_23|exact two_found]|].
      eapply r_step; [eapply s_sent with (q := p2); reflexivity|]. cbn.
      eapply r_step; [eapply s_sent with (q := p3); reflexivity|]. cbn.
      one @s_killed. one @s_close; [reflexivity|]. apply r_here.
    - split; [split; [reflexivity|intros q []]|]. auto. }
  destruct X as (tr & s & R & X). exists ([Main; Runner; Main; Runner; Runner] ++ tr), s. split; [|exact X].
  pose proof two_look as L. induction L; [exact R|]. cbn. eapply r_step; eauto.
Qed.

(** Refuted: nothing is left running.  One process ends just before its turn, and the next one, which would take the signal, is not sent it. *)
Theorem c84_gone_refuted : exists tr1 s1 s2 tr s3,
  runs true (start two) tr1 s1 /\ looks true s1 s2 /\ runs true s2 tr s3 /\ ended s3 /\
  descendant (procs s1) 3 /\ ignores p3 sigterm = false /\ forbidden p3 = false /\ In p3 (procs s1) /\ alive s3 3.
Proof.
  do 2 eexists. eexists. exists [Exits 2; Main; Main]. eexists. split; [apply two_look|]. split; [|split; [|split; [|split; [|split; [|split; [|split]]]]]].
  - split; [reflexivity|]. apply (s_kill true) with (l := [2; 3]); [reflexivity|exact nodup_23|exact two_found].
  - eapply r_step; [apply (s_exit true) with (q := p2); cbn; auto|]. cbn.
    one @s_not_sent; [exact Logic.I|]. one @s_close; [reflexivity|]. apply r_here.
  - reflexivity.
  - apply two_found. cbn. auto.
  - reflexivity.
  - reflexivity.
  - cbn. auto.
  - exists p3. cbn. auto.
Qed.
(** Refuted: the same.  A process starts another one while farcel is at it. *)
Definition one_child : list (item nat) := request Other Other (from_list [Start false hears false]).
Lemma one_found : forall p, In p [2] <-> descendant [p2] p.
Proof.
  intro p. split.
  - intros [<-|[]]. apply (child [p2] p2); cbn; auto.
  - only_child.
Qed.
Theorem c84_late_refuted : exists tr s, runs true (start one_child) tr s /\ ended s /\
  In (Forks 2 3) tr /\ exists q, In q (procs s) /\ pid q = 3 /\ ignores q sigterm = false /\ forbidden q = false.
Proof.
  exists [Main; Runner; Main; Main; Forks 2 3; Main; Main; Main]. eexists. split; [|split; [|split]].
  - one @s_open; [reflexivity|]. one @s_start; [reflexivity|]. one @s_eof.
    eapply r_step; [apply (s_kill true) with (l := [2]); [reflexivity|repeat constructor; cbn; tauto|exact one_found]|].
    eapply r_step; [apply (s_fork true) with (q := p2) (b := false) (d := hears) (f := false); cbn; auto|]. cbn.
    eapply r_step; [eapply s_sent with (q := p2); reflexivity|]. cbn.
    one @s_killed. one @s_close; [reflexivity|]. apply r_here.
  - reflexivity.
  - cbn. tauto.
  - exists (mkprocess 3 1 false hears false). cbn. auto.
Qed.
(** Refuted: the client has the output when the pipeline is over.  A shell starts a program in the background and ends: farcel does
    not see the program, which keeps the output open. *)
Definition background : list (item nat) := request Other Other (from_list [Start true hears false; Output 7]).
Definition shell := mkprocess 2 me true hears false.
Lemma alone_not : forall q0 p, parent q0 <> me -> parent q0 <> pid q0 -> ~ descendant [q0] p.
Proof.
  intros q0 p M N D. induction D as [q I E|q I E IH]; [|exact IH].
  destruct I as [->|[]]. contradiction.
Qed.
Theorem c84_orphan_refuted : exists tr s, runs true (start background) tr s /\ ended s /\ out s = [7] /\
  (exists q, In q (procs s) /\ pid q = 3 /\ ignores q sigterm = false /\ forbidden q = false /\ open_output q = true) /\ ~ client_done s.
Proof.
  exists [Main; Runner; Main; Forks 2 3; Exits 2; Runner; Main; Main; Main]. eexists. split; [|split; [|split; [|split]]].
  - one @s_open; [reflexivity|]. one @s_start; [reflexivity|]. one @s_eof.
    eapply r_step; [apply (s_fork true) with (q := shell) (b := true) (d := hears) (f := false); cbn; auto|]. cbn.
    eapply r_step; [apply (s_exit true) with (q := shell); cbn; auto|]. cbn.
    one @s_output; [reflexivity|].
    eapply r_step; [apply (s_kill true) with (l := []); [reflexivity|constructor|]|].
    { intro p. split; [intros []|]. intro D. exact (alone_not (mkprocess 3 1 true hears false) p ltac:(discriminate) ltac:(discriminate) D). }
    one @s_killed. one @s_close; [reflexivity|]. apply r_here.
  - reflexivity.
  - reflexivity.
  - exists (mkprocess 3 1 true hears false). cbn. auto.
  - intros (_ & X). specialize (X (mkprocess 3 1 true hears false) (or_introl eq_refl)). discriminate.
Qed.
(** Refuted: the output tells whether the pipeline was run.  That of a pipeline that the host cannot unpickle is that of one that outputs nothing. *)
Theorem c84_not_told_refuted : exists (bad good : list (item nat)) tr s tr' s',
  broken bad /\ good = request Other Other (from_list []) /\
  runs true (start bad) tr s /\ client_done s /\ runs true (start good) tr' s' /\ client_done s' /\ out s = out s'.
Proof.
  exists [Item Other; Item Other; Garbage], (request Other Other (from_list [])). do 4 eexists. split; [|split; [reflexivity|split; [|split; [|split; [|split]]]]].
  - exists [Item Other; Item Other], [Garbage]. repeat split; cbn; auto.
    + intros i [<-|[<-|[]]] [].
    + intros i [<-|[]]. exact Logic.I.
  - one @s_open; [reflexivity|]. one @s_eof_nothing. one @s_close; [exact Logic.I|]. apply r_here.
  - split; [reflexivity|intros q []].
  - one @s_open; [reflexivity|]. one @s_eof.
    eapply r_step; [apply (s_kill true) with (l := []); [reflexivity|constructor|]|].
    { intro p. split; [intros []|]. intro D. destruct D as [q []|q []]. }
    one @s_killed. one @s_close; [reflexivity|]. apply r_here.
  - split; [reflexivity|intros q []].
  - reflexivity.
Qed.
(** Refuted: an interrupted command ends on the host too. *)
Theorem c84_interrupt_refuted : exists p : pipeline nat, forall signal tr s,
  runs true (start (request Other Other p ++ [Item (Signal signal)])) tr s -> ~ ended s.
Proof.
  exists (fun _ => Some (Output 0)). intros sg tr s R. eapply c84_endless with (ok := true); [|reflexivity|exact R]. discriminate.
Qed.

Print Assumptions c84_complete.
Print Assumptions c84_killed_partial.
Print Assumptions c84_late.
Print Assumptions c84_bounded.
