(** C54: the Python API. *)
From Verif.Ops Require Import ApiSpec.
Local Open Scope list_scope.

(** ** gather, first, iteration *)
Definition keep (unwrap stop : bool) (es : list event) : list item :=
  filter (fun i => match i with Value _ => true | Error _ => negb stop end) (delivered unwrap es).

Lemma step_api u st s e : exists s' o, step (api_op u st) s e = (s', o, Ok).
Proof. destruct e; cbn; eauto. Qed.

Lemma feed_api u st es : forall s, exists o, feed (api_op u st) s es = (s ++ keep u st es, o, Ok).
Proof.
  induction es as [ | e es IH]; intros s.
  - exists []. cbn. rewrite app_nil_r. reflexivity.
  - cbn [feed]. unfold deliver.
    assert (E : exists o, step (api_op u st) s (as_input e) = (s ++ keep u st [e], o, Ok)).
    { destruct e as [x | e | e | ]; cbn; destruct st; cbn; eauto; rewrite app_nil_r; eauto. }
    destruct E as [o1 ->]. assert (C : caught e Ok = Ok) by (destruct e; reflexivity). rewrite C.
    destruct (IH (s ++ keep u st [e])) as [o2 ->]. exists (o1 ++ o2). rewrite <- app_assoc. f_equal. f_equal. f_equal.
    unfold keep, delivered. cbn [flat_map]. rewrite app_nil_r, filter_app. reflexivity.
Qed.

Lemma feed_compose m u st es : forall (s : St m) (t : list item),
  let '(s', o, r) := feed m s es in
  exists o', feed (compose m (api_op u st)) (s, t) es = ((s', t ++ keep u st o), o', r).
Proof.
  induction es as [ | e es IH]; intros s t.
  - cbn. exists []. rewrite app_nil_r. reflexivity.
  - cbn [feed]. unfold deliver. cbn [compose step fst snd].
    destruct (step m s (as_input e)) as [[s1 o1] r1].
    destruct (feed_api u st o1 t) as [o2 F]. rewrite F. cbn [first_raise].
    destruct (caught e r1); [ | eexists; reflexivity | eexists; reflexivity].
    specialize (IH s1 (t ++ keep u st o1)). destruct (feed m s1 es) as [[s2 o3] r2]. destruct IH as [o' IH].
    match goal with |- context [feed ?M ?S es] => replace (feed M S es) with (s2, (t ++ keep u st o1) ++ keep u st o3, o', r2) by (symmetry; exact IH) end.
    eexists. rewrite <- app_assoc. unfold keep, delivered. rewrite flat_map_app, filter_app. reflexivity.
Qed.

Lemma run_api_keep u st m src : run_api u st m src = (keep u st (fst (exec m src)), snd (exec m src)).
Proof.
  unfold run_api, exec, exec_from. cbn [compose setup fresh fst snd api_op].
  destruct (setup m (fresh m)) as [s | ]; [ | reflexivity].
  pose proof (feed_compose m u st (fst src) s []) as F. destruct (feed m s (fst src)) as [[s1 o1] r1].
  destruct F as [o' F].
  match goal with |- context [feed ?M ?S (fst src)] => replace (feed M S (fst src)) with (s1, [] ++ keep u st o1, o', r1) by (symmetry; exact F) end.
  destruct r1; [ | reflexivity | reflexivity].
  destruct (snd src); [ | reflexivity | reflexivity].
  pose proof (feed_compose m u st [Flush] s1 ([] ++ keep u st o1)) as G. destruct (feed m s1 [Flush]) as [[s2 o2] r2].
  destruct G as [o'' G].
  match goal with |- context [feed ?M ?S [Flush]] => replace (feed M S [Flush]) with (s2, ([] ++ keep u st o1) ++ keep u st o2, o'', r2) by (symmetry; exact G) end.
  cbn [fst snd app]. unfold keep, delivered. rewrite flat_map_app, filter_app. reflexivity.
Qed.

Lemma filter_all {A} (f : A -> bool) l : (forall x, f x = true) -> filter f l = l.
Proof. intros H. induction l as [ | x l IH]; cbn; [reflexivity | ]. rewrite H, IH. reflexivity. Qed.

(** gather returns what the pipeline delivers, values and Errors, in order and complete, however the run ends. *)
Theorem c54_gather : forall unwrap m src, gather unwrap m src = delivered unwrap (fst (exec m src)).
Proof. intros u m src. unfold gather. rewrite run_api_keep. cbn [fst]. apply filter_all. intros []; reflexivity. Qed.

(** Errors do not go to the list given for them (notes/scripting.txt:123-126). *)
Theorem c54_errors_list_refuted : exists m src e,
  delivered true (fst (exec m src)) = [Error e] /\ gather_errors true m src [] <> ([], [Error e]) /\
  snd (gather_errors true m src []) = [].
Proof. exists wire, ([Err (MkErr "f" VNone)], Ok), (MkErr "f" VNone). split; [reflexivity | split; [discriminate | reflexivity]]. Qed.

(** first returns the first value; Missing: Errors that come before it (below). *)
Theorem c54_first_partial : forall unwrap m src,
  first unwrap m src = inl (hd_error (values (delivered unwrap (fst (exec m src))))).
Proof.
  intros u m src. unfold first. rewrite run_api_keep. cbn [fst]. unfold keep. induction (delivered u (fst (exec m src))) as [ | [v | e] l IH]; [reflexivity | reflexivity | exact IH].
Qed.

(** It means to raise if the first thing delivered is an Error (api.py:293-294, notes/scripting.txt:149-152): it never does. *)
Theorem c54_first_errors_refuted : exists m src e v,
  hd_error (delivered true (fst (exec m src))) = Some (Error e) /\ first true m src = inl (Some v).
Proof. exists wire, ([Err (MkErr "f" VNone); Data (VInt 1)], Ok), (MkErr "f" VNone), (VInt 1). split; reflexivity. Qed.

Theorem c54_first_never_raises : forall unwrap m src e, first unwrap m src <> inr e.
Proof. intros u m src e. rewrite c54_first_partial. discriminate. Qed.

(** It does not stop after the first value either: all of the pipeline is run, and ends as it would without [first], and all its values are
    kept. *)
Theorem c54_first_goes_on_refuted : forall unwrap m src,
  length (fst (run_api unwrap true m src)) = length (values (delivered unwrap (fst (exec m src)))) /\
  snd (run_api unwrap true m src) = snd (exec m src).
Proof.
  intros u m src. rewrite run_api_keep. cbn [fst snd]. split; [ | reflexivity]. unfold keep.
  induction (delivered u (fst (exec m src))) as [ | [v | e] l IH]; cbn; [reflexivity | | ]; auto.
Qed.

(** Iterating over a pipeline gives what gather gives, unless its first operator fails. *)
Theorem c54_iterate_partial : forall m src, snd (exec m src) <> Resume -> iterate m src = Some (gather true m src).
Proof.
  intros m src H. unfold iterate, gather. rewrite run_api_keep. cbn [fst]. destruct (snd (exec m src)); [reflexivity | congruence | reflexivity].
Qed.

(** [for x in map(lambda: 1 / 0)]: gather returns the Error, iteration fails with KillAndResumeException. *)
Theorem c54_iterate_refuted : exists src e, iterate wire src = None /\ gather true wire src = [Error e].
Proof. exists ([Fatal (MkErr "map" VNone)], Resume), (MkErr "map" VNone). split; reflexivity. Qed.

Example c54_gather_example :
  gather true wire ([Data (VTuple [VInt 1; VInt 2]); Err (MkErr "f" VNone); Data (VInt 3)], Ok) =
  [Value (VTuple [VInt 1; VInt 2]); Error (MkErr "f" VNone); Value (VInt 3)].
Proof. reflexivity. Qed.

(** ** [|] *)
Lemma replace_length A n (x : A) l : length (replace n x l) = length l.
Proof. revert n. induction l as [ | y l IH]; intros [ | n]; cbn; auto. Qed.
Lemma replace_same A n (x : A) l : n < length l -> nth_error (replace n x l) n = Some x.
Proof. revert n. induction l as [ | y l IH]; intros [ | n] H; cbn in *; [lia | lia | reflexivity | apply IH; lia]. Qed.
Lemma replace_other A n k (x : A) l : n <> k -> nth_error (replace n x l) k = nth_error l k.
Proof. revert n k. induction l as [ | y l IH]; intros [ | n] [ | k] H; cbn; auto; try congruence. Qed.

(** A variable that has not been extended by the first [n] statements. *)
Definition live (p : list stmt) (n v : nat) : Prop := v < n /\ forall k, k < n -> ~ extended_at p v k.

(** After [n] statements: the variables that have not been extended refer to different OpLists, with the right operators; an OpList
    has either [op] or [ops]. *)
Record holds (p : list stmt) (n : nat) (m : memory) : Prop := {
  h_length : length (vars m) = n;
  h_refs : forall v r, nth_error (vars m) v = Some r -> r < length (cells m);
  h_distinct : forall v v' r, live p n v -> live p n v' -> nth_error (vars m) v = Some r -> nth_error (vars m) v' = Some r -> v = v';
  h_shape : forall r c, nth_error (cells m) r = Some c -> (c_op c = None <-> c_ops c <> None);
  h_meaning : forall v r c, live p n v -> nth_error (vars m) v = Some r -> nth_error (cells m) r = Some c -> meaning p v (ops_of c) }.

Lemma live_less p n v : live p (S n) v -> v < n -> live p n v.
Proof. intros [A B] H. split; [exact H | ]. intros k K. apply B. lia. Qed.

Lemma or_spec m r q c d : nth_error (cells m) r = Some c -> nth_error (cells m) q = Some d -> r <> q ->
  (c_op c = None <-> c_ops c <> None) -> (c_op d = None <-> c_ops d <> None) ->
  exists m', or_cells m r q = Some m' /\ vars m' = vars m /\ length (cells m') = length (cells m) /\
    nth_error (cells m') r = Some (mkcell None (Some (ops_of c ++ ops_of d))) /\
    forall k, k <> r -> nth_error (cells m') k = nth_error (cells m) k.
Proof.
  intros C D N SC SD. unfold or_cells. rewrite C.
  assert (L : r < length (cells m)) by (apply nth_error_Some; congruence).
  destruct (c_ops c) as [l | ] eqn:EC.
  - assert (OC : c_op c = None) by (apply SC; congruence). rewrite D, OC. eexists. split; [reflexivity | ]. cbn [vars cells].
    split; [reflexivity | ]. split; [apply replace_length | ]. split.
    + rewrite replace_same by assumption. unfold ops_of. rewrite OC, EC.
      destruct (c_op d) eqn:OD; destruct (c_ops d) eqn:ED; reflexivity.
    + intros k K. apply replace_other. congruence.
  - rewrite replace_other by assumption. rewrite D. eexists. split; [reflexivity | ]. cbn [vars cells].
    split; [reflexivity | ]. split; [rewrite !replace_length; reflexivity | ]. split.
    + rewrite replace_same by (rewrite replace_length; assumption). unfold ops_of. rewrite EC.
      destruct (c_op c) as [a | ] eqn:OC; [ | exfalso; apply (proj1 SC); reflexivity].
      destruct (c_op d) eqn:OD; destruct (c_ops d) eqn:ED; reflexivity.
    + intros k K. rewrite !replace_other by congruence. reflexivity.
Qed.

Lemma holds_step p n m s : scoped p -> used_once p -> holds p n m -> nth_error p n = Some s ->
  exists m', exec_stmt m s = Some m' /\ holds p (S n) m'.
Proof.
  intros SC UO [HL HR HD HS HM] E. destruct s as [a | i j].
  - eexists. split; [reflexivity | ].
    assert (V : forall v r, nth_error (vars m ++ [length (cells m)]) v = Some r ->
      (v < n /\ nth_error (vars m) v = Some r) \/ (v = n /\ r = length (cells m))).
    { intros v r Q. destruct (Nat.lt_ge_cases v (length (vars m))) as [K | K].
      - rewrite nth_error_app1 in Q by assumption. left. split; [lia | exact Q].
      - rewrite nth_error_app2 in Q by assumption. right. destruct (v - length (vars m)) as [ | k] eqn:Z; [ | destruct k; discriminate Q].
        cbn in Q. inversion Q. split; lia. }
    constructor; cbn [vars cells].
    + rewrite app_length. cbn. lia.
    + intros v r Q. rewrite app_length. cbn. destruct (V v r Q) as [[_ K] | [_ ->]]; [apply HR in K; lia | lia].
    + intros v v' r Lv Lv' Q Q'. destruct (V v r Q) as [[A B] | [A B]]; destruct (V v' r Q') as [[A' B'] | [A' B']].
      * eapply HD; try eassumption; apply live_less; assumption.
      * apply HR in B. lia.
      * apply HR in B'. lia.
      * congruence.
    + intros r c Q. destruct (Nat.lt_ge_cases r (length (cells m))) as [K | K].
      * rewrite nth_error_app1 in Q by assumption. eapply HS; exact Q.
      * rewrite nth_error_app2 in Q by assumption. destruct (r - length (cells m)) as [ | k]; [ | destruct k; discriminate Q].
        cbn in Q. inversion Q. cbn. split; [discriminate | intro Z; congruence].
    + intros v r c Lv Q C. destruct (V v r Q) as [[A B] | [A B]].
      * rewrite nth_error_app1 in C by (eapply HR; exact B). eapply HM; try eassumption. apply live_less; assumption.
      * subst. rewrite nth_error_app2, Nat.sub_diag in C by lia. cbn in C. inversion C. cbn. constructor. exact E.
  - destruct (SC _ _ _ E) as [Hi Hj].
    assert (X : extended_at p i n) by (exists j; exact E).
    destruct (UO i n X) as [NE _].
    assert (NIJ : i <> j) by (intros ->; apply NE; exact E).
    assert (Li : live p n i).
    { split; [exact Hi | ]. intros k K Y. destruct (UO i k Y) as [_ M]. apply (M n (Or i j) K E). left. reflexivity. }
    assert (Lj : live p n j).
    { split; [exact Hj | ]. intros k K Y. destruct (UO j k Y) as [_ M]. apply (M n (Or i j) K E). right. reflexivity. }
    destruct (nth_error (vars m) i) as [r | ] eqn:Er; [ | apply nth_error_None in Er; lia].
    destruct (nth_error (vars m) j) as [q | ] eqn:Eq; [ | apply nth_error_None in Eq; lia].
    assert (NRQ : r <> q) by (intros ->; apply NIJ; eapply HD; eassumption).
    destruct (nth_error (cells m) r) as [c | ] eqn:C; [ | apply nth_error_None in C; apply HR in Er; lia].
    destruct (nth_error (cells m) q) as [d | ] eqn:D; [ | apply nth_error_None in D; apply HR in Eq; lia].
    destruct (or_spec m r q c d C D NRQ (HS _ _ C) (HS _ _ D)) as (m' & O & OV & OL & OR & OO).
    exists (mkmemory (cells m') (vars m' ++ [r])). split; [cbn; rewrite Er, Eq, O; reflexivity | ].
    assert (V : forall v x, nth_error (vars m' ++ [r]) v = Some x -> (v < n /\ nth_error (vars m) v = Some x) \/ (v = n /\ x = r)).
    { intros v x Q. rewrite OV in Q. destruct (Nat.lt_ge_cases v (length (vars m))) as [K | K].
      - rewrite nth_error_app1 in Q by assumption. left. split; [lia | exact Q].
      - rewrite nth_error_app2 in Q by assumption. right. destruct (v - length (vars m)) as [ | k] eqn:Z; [ | destruct k; discriminate Q].
        cbn in Q. inversion Q. split; lia. }
    assert (NL : forall v, live p (S n) v -> v < n -> nth_error (vars m) v <> Some r).
    { intros v Lv K Q. assert (v = i) by (eapply HD; try eassumption; apply live_less; assumption). subst v. apply (proj2 Lv n); [lia | exact X]. }
    constructor; cbn [vars cells].
    + rewrite app_length, OV. cbn. lia.
    + intros v x Q. rewrite OL. destruct (V v x Q) as [[_ K] | [_ ->]]; eapply HR; eassumption.
    + intros v v' x Lv Lv' Q Q'. destruct (V v x Q) as [[A B] | [A B]]; destruct (V v' x Q') as [[A' B'] | [A' B']].
      * eapply HD; try eassumption; apply live_less; assumption.
      * subst x. exfalso. eapply (NL v); eassumption.
      * subst x. exfalso. eapply (NL v'); eassumption.
      * congruence.
    + intros k e Q. destruct (Nat.eq_dec k r) as [-> | N].
      * rewrite OR in Q. inversion Q. cbn. split; [discriminate | reflexivity].
      * rewrite OO in Q by assumption. eapply HS; exact Q.
    + intros v x e Lv Q Ce. destruct (V v x Q) as [[A B] | [-> ->]].
      * assert (x <> r) by (intros ->; eapply (NL v); eassumption). rewrite OO in Ce by assumption.
        eapply HM; try eassumption. apply live_less; assumption.
      * rewrite OR in Ce. inversion Ce. cbn [ops_of c_op c_ops]. eapply meaning_or; try eassumption; eapply HM; eassumption.
Qed.

Lemma holds_all p : scoped p -> used_once p -> forall a b m, p = a ++ b -> holds p (length a) m ->
  exists m', exec_stmts m b = Some m' /\ holds p (length p) m'.
Proof.
  intros SC UO a b. revert a. induction b as [ | s b IH]; intros a m E H.
  - exists m. split; [reflexivity | ]. replace (length p) with (length a) by (rewrite E, app_nil_r; reflexivity). exact H.
  - assert (N : nth_error p (length a) = Some s) by (rewrite E, nth_error_app2, Nat.sub_diag by lia; reflexivity).
    destruct (holds_step _ _ _ _ SC UO H N) as (m1 & X & H1). cbn [exec_stmts]. rewrite X.
    apply (IH (a ++ [s])); [rewrite E, <- app_assoc; reflexivity | ]. rewrite app_length, Nat.add_1_r. exact H1.
Qed.

(** [a | b] is the pipeline of the operators of [a], then those of [b], and [b] stays what it is; as long as [a] is not used again.
    Missing: pipelines that are extended and used again (below). *)
Theorem c54_or_partial : forall p v, scoped p -> used_once p -> v < length p -> (forall k, ~ extended_at p v k) ->
  exists l, pipeline_of p v = Some l /\ meaning p v l.
Proof.
  intros p v SC UO L N.
  assert (H0 : holds p 0 (mkmemory [] [])).
  { constructor; cbn.
    - reflexivity.
    - intros k r Q. destruct k; discriminate Q.
    - intros k k' r [A _]. lia.
    - intros r c Q. destruct r; discriminate Q.
    - intros k r c [A _]. lia. }
  destruct (holds_all p SC UO [] p (mkmemory [] []) eq_refl H0) as (m & E & [HL HR HD HS HM]). unfold pipeline_of. rewrite E.
  destruct (nth_error (vars m) v) as [r | ] eqn:Er; [ | apply nth_error_None in Er; lia].
  destruct (nth_error (cells m) r) as [c | ] eqn:C; [ | apply nth_error_None in C; apply HR in Er; lia].
  eexists. split; [reflexivity | ]. eapply HM; try eassumption. split; [exact L | intros k _; apply N].
Qed.

Lemma meaning_unique p n l l' : meaning p n l -> meaning p n l' -> l = l'.
Proof.
  intros H. revert l'. induction H as [n a E | n i j l1 l2 E A B H1 IH1 H2 IH2]; intros l' H'; inversion H' as [n' a' E' | n' i' j' k1 k2 E' A' B' K1 K2]; subst; rewrite E in E'; inversion E'; subst; [reflexivity | ].
  f_equal; auto.
Qed.

(** [v2 = v0 | v1; v4 = v2 | v3] *)
Example c54_or_example : let p := [New 10; New 11; Or 0 1; New 12; Or 2 3] in
  scoped p /\ used_once p /\ (forall k, ~ extended_at p 4 k) /\ (forall k, ~ extended_at p 1 k) /\
  pipeline_of p 4 = Some [10; 11; 12] /\ pipeline_of p 1 = Some [11].
Proof.
  cbv zeta. set (p := [New 10; New 11; Or 0 1; New 12; Or 2 3]).
  assert (X : forall k s, nth_error p k = Some s -> (k, s) = (0, New 10) \/ (k, s) = (1, New 11) \/ (k, s) = (2, Or 0 1) \/ (k, s) = (3, New 12) \/ (k, s) = (4, Or 2 3)).
  { intros k s H. do 5 (destruct k as [ | k]; [cbn in H; inversion H; tauto | ]). destruct k; discriminate H. }
  split; [ | split; [ | split; [ | split]]].
  - intros n i j H. apply X in H. destruct H as [H | [H | [H | [H | H]]]]; inversion H; subst; lia.
  - intros v k [j H]. split.
    + intro K. rewrite H in K. inversion K; subst. apply X in H. destruct H as [H | [H | [H | [H | H]]]]; inversion H; lia.
    + intros k' s L K. apply X in H. apply X in K. intro M.
      destruct H as [H | [H | [H | [H | H]]]]; inversion H; subst; destruct K as [K | [K | [K | [K | K]]]]; inversion K; subst; cbn in M; lia.
  - intros k [j H]. apply X in H. destruct H as [H | [H | [H | [H | H]]]]; inversion H.
  - intros k [j H]. apply X in H. destruct H as [H | [H | [H | [H | H]]]]; inversion H.
  - split; reflexivity.
Qed.

(** [a | b] changes [a]: the common beginning of two pipelines cannot be kept in a variable.  After
    [v2 = v0 | v1; v4 = v0 | v3], all of v0, v2 and v4 are the operator of v0, then v1, then v3. *)
Theorem c54_reuse_refuted : exists p, scoped p /\ meaning p 0 [10] /\ meaning p 2 [10; 11] /\ meaning p 4 [10; 12] /\
  forall v, In v [0; 2; 4] -> pipeline_of p v = Some [10; 11; 12].
Proof.
  exists [New 10; New 11; Or 0 1; New 12; Or 0 3]. split; [ | split; [ | split; [ | split]]].
  - intros n i j H. do 5 (destruct n as [ | n]; [cbn in H; inversion H; lia | ]). destruct n; discriminate H.
  - apply meaning_new. reflexivity.
  - apply (meaning_or _ 2 0 1 [10] [11]); [reflexivity | lia | lia | | ]; apply meaning_new; reflexivity.
  - apply (meaning_or _ 4 0 3 [10] [12]); [reflexivity | lia | lia | | ]; apply meaning_new; reflexivity.
  - intros v [<- | [<- | [<- | []]]]; reflexivity.
Qed.
