(** Facts about case, args and pipelines held by variables. *)
From Verif.Ops Require Export SetFacts.
Set Implicit Arguments.
Local Open Scope list_scope.

Lemma redirect_app a b : redirect (a ++ b) = redirect a ++ redirect b.
Proof. apply flat_map_app. Qed.

Lemma redirect_open es : open_stream (redirect es).
Proof. unfold open_stream. induction es as [|[x|e|e|] es IH]; simpl; auto. Qed.

Lemma rows_redirect es : rows (redirect es) = rows es.
Proof. induction es as [|[x|e|e|] es IH]; simpl; auto. now rewrite wrap_wrap, IH. Qed.

Lemma errs_redirect es : errs (redirect es) = errs es.
Proof. induction es as [|[x|e|e|] es IH]; simpl; rewrite ?IH; auto. Qed.

(** * case *)

(** The route of a row: the first predicate that is true, else the default. *)
Lemma case_route_spec preds d xs : forall i,
  match case_route preds d i xs with
  | inl (Some n) =>
    (exists j p v, n = i + j /\ nth_error preds j = Some p /\ p xs = Some v /\ truthy v = true /\
       forall k q, k < j -> nth_error preds k = Some q -> exists w, q xs = Some w /\ truthy w = false) \/
    (d = true /\ n = i + length preds /\
       forall q, In q preds -> exists w, q xs = Some w /\ truthy w = false)
  | inl None => d = false /\ forall q, In q preds -> exists w, q xs = Some w /\ truthy w = false
  | inr _ => exists j p, nth_error preds j = Some p /\ p xs = None /\
       forall k q, k < j -> nth_error preds k = Some q -> exists w, q xs = Some w /\ truthy w = false
  end.
Proof.
  induction preds as [|p preds IH]; intros i; simpl.
  - destruct d; [right|]; split; auto; try (split; [lia|]); intros q [].
  - destruct (p xs) as [v|] eqn:Ep.
    + destruct (truthy v) eqn:Ev.
      * left. exists 0, p, v. repeat split; auto; try lia.
      * specialize (IH (S i)). destruct (case_route preds d (S i) xs) as [[n|]|[]].
        -- destruct IH as [(j & q & w & Hn & Hq & Hw & Ht & Hk)|(Hd & Hn & Hall)].
           ++ left. exists (S j), q, w. repeat split; auto; try lia.
              intros [|k] q' Hk' Hq'; simpl in Hq'; [injection Hq' as <-; eauto|]. apply (Hk k); auto; lia.
           ++ right. repeat split; auto; try lia. intros q [<-|Hq]; eauto.
        -- destruct IH as [Hd Hall]. split; auto. intros q [<-|Hq]; eauto.
        -- destruct IH as (j & q & Hq & Hw & Hk). exists (S j), q. repeat split; auto.
           intros [|k] q' Hk' Hq'; simpl in Hq'; [injection Hq' as <-; eauto|]. apply (Hk k); auto; lia.
    + exists 0, p. split; [reflexivity|]. split; auto. intros k q Hk. lia.
Qed.

(** Rows sent to pipeline n. *)
Definition sent (preds : list func) (d : bool) (n : nat) (x : val) : bool :=
  match case_route preds d 0 (components x) with
  | inl (Some k) => Nat.eqb k n
  | _ => false
  end.

Definition unsent (preds : list func) (d : bool) (x : val) : bool :=
  match case_route preds d 0 (components x) with inr _ => true | _ => false end.

(** What pipeline n, from its current state, does with some events. *)
Definition does (ms : list machine) (n : nat) (es : list event) (s : states ms) : source :=
  let '(_, o, r) := feed_nth ms n es s in (o, r).

Lemma feed_nth_app ms : forall n a b (s : states ms),
  feed_nth ms n (a ++ b) s =
  match feed_nth ms n a s with
  | (s1, o1, Ok) => let '(s2, o2, r2) := feed_nth ms n b s1 in (s2, o1 ++ o2, r2)
  | r => r
  end.
Proof.
  induction ms as [|m ms IH]; intros n a b s; simpl; auto.
  destruct n as [|n].
  - rewrite feed_app. destruct (feed m (fst s) a) as [[s1 o1] r1]. destruct r1; auto. simpl.
    destruct (feed m s1 b) as [[s2 o2] r2]. reflexivity.
  - rewrite IH. destruct (feed_nth ms n a (snd s)) as [[s1 o1] r1]. destruct r1; auto. simpl.
    destruct (feed_nth ms n b s1) as [[s2 o2] r2]. reflexivity.
Qed.

Lemma does_other ms : forall n k a b (s : states ms), n <> k ->
  does ms n a (res_st (feed_nth ms k b s)) = does ms n a s.
Proof.
  unfold does. induction ms as [|m ms IH]; intros n k a b s Hne; simpl; auto.
  destruct n as [|n], k as [|k]; try congruence.
  - destruct (feed_nth ms k b (snd s)) as [[s2 o2] r2]. unfold res_st; simpl.
    destruct (feed m (fst s) a) as [[s3 o3] r3]. reflexivity.
  - destruct (feed m (fst s) b) as [[s2 o2] r2]. unfold res_st; simpl.
    destruct (feed_nth ms n a (snd s)) as [[s3 o3] r3]. reflexivity.
  - specialize (IH n k a b (snd s)). destruct (feed_nth ms k b (snd s)) as [[s2 o2] r2].
    unfold res_st in *; simpl in *.
    assert (n <> k) as Hnk by congruence. specialize (IH Hnk).
    destruct (feed_nth ms n a s2) as [[s3 o3] r3]. rewrite IH. destruct s as [sa sb]; cbn [fst snd] in *.
    destruct (feed_nth ms n a sb) as [[s4 o4] r4]. reflexivity.
Qed.

Lemma does_through ms : forall s, setup_all ms (fresh_all ms) = Some s ->
  forall n es, n < length ms -> does ms n es s = through (nth n ms wire) es.
Proof.
  unfold does. induction ms as [|m ms IH]; intros s Hs n es Hn; [simpl in Hn; lia|]. simpl in Hs.
  destruct (setup m (fresh m)) as [s1|] eqn:E1; [|discriminate].
  destruct (setup_all ms (fresh_all ms)) as [s2|] eqn:E2; [|discriminate]. injection Hs as <-.
  destruct n as [|n]; cbn [feed_nth nth fst snd].
  - unfold through. rewrite E1. destruct (feed m s1 es) as [[s3 o3] r3]. reflexivity.
  - rewrite <- (IH s2 eq_refl n es) by (simpl in Hn; lia).
    destruct (feed_nth ms n es s2) as [[s3 o3] r3]. reflexivity.
Qed.

Lemma from_app n a b : from n (a ++ b) = from n a ++ from n b.
Proof. unfold from. now rewrite filter_app, map_app. Qed.

Lemma from_tag n k es : from n (map (fun e => (k, e)) es) =
  if match k, n with Some i, Some j => Nat.eqb i j | None, None => true | _, _ => false end then es else [].
Proof.
  unfold from. induction es as [|e es IH]; simpl; [now destruct (match k, n with Some i, Some j => Nat.eqb i j | None, None => true | _, _ => false end)|].
  destruct (match k, n with Some i, Some j => Nat.eqb i j | None, None => true | _, _ => false end) eqn:E; simpl; auto.
  now rewrite IH.
Qed.

Lemma map_snd_tag (k : option nat) es : map snd (map (fun e : event => (k, e)) es) = es.
Proof. rewrite map_map. simpl. apply map_id. Qed.

(** Errors that case passes on or produces itself. *)
Definition case_own_ (preds : list func) (d : bool) (es : list event) : list event :=
  flat_map (fun e => match e with
                     | Data x => if unsent preds d (wrap x)
                                 then [Fatal (MkErr "case" (VTuple (components (wrap x))))] else []
                     | Err e | Fatal e => [Err e]
                     | Flush => []
                     end) es.

Definition branch_in_ (preds : list func) (d : bool) (n : nat) (es : list event) : list event :=
  map Data (filter (sent preds d n) (rows es)).

Lemma case_feed preds ms d es : open_stream es -> forall b (s : states ms),
  (forall n, n < length ms -> snd (does ms n (branch_in_ preds d n es) s) = Ok) ->
  (forall x n, case_route preds d 0 (components x) = inl (Some n) -> n < length ms) ->
  exists s' t, feed (case_op preds ms d) (b, s) es = ((b, s'), map snd t, Ok) /\
    (forall n, n < length ms -> from (Some n) t = redirect (fst (does ms n (branch_in_ preds d n es) s))) /\
    from None t = case_own_ preds d es /\
    (forall n es', n < length ms -> does ms n (branch_in_ preds d n es ++ es') s =
       let '(o, r) := does ms n es' s' in (fst (does ms n (branch_in_ preds d n es) s) ++ o, r)).
Proof.
  intros He. induction es as [|e es IH]; intros b s Hok Hlt.
  - exists s, []. cbn [feed]. repeat split; auto.
    + intros n Hn. unfold branch_in_. simpl. unfold does.
      assert (feed_nth ms n [] s = (s, [], Ok)) as ->; [|reflexivity].
      { clear. revert n s. induction ms as [|m ms IH]; intros [|n] s; simpl; auto; [now destruct s|].
        rewrite IH. now destruct s. }
    + intros n es' Hn. unfold branch_in_. simpl.
      assert (does ms n [] s = ([], Ok)) as ->.
      { unfold does. assert (feed_nth ms n [] s = (s, [], Ok)) as ->; [|reflexivity].
        clear. revert n s. induction ms as [|m ms IH]; intros [|n] s; simpl; auto; [now destruct s|].
        rewrite IH. now destruct s. }
      destruct (does ms n es' s); reflexivity.
  - apply open_cons in He; destruct He as [He Hes].
    destruct e as [x|e|e|]; try discriminate; cbn [feed]; unfold deliver; cbn [as_input step case_op mk_op].
    + destruct (case_route preds d 0 (components (wrap x))) as [[k|]|[]] eqn:Er.
      * assert (k < length ms) as Hk by (eapply Hlt; eauto).
        assert (forall n, branch_in_ preds d n (Data x :: es) =
                  (if Nat.eqb k n then [Data (wrap x)] else []) ++ branch_in_ preds d n es) as Hin.
        { intros n. unfold branch_in_, sent. cbn [rows filter]. rewrite Er. destruct (Nat.eqb k n); reflexivity. }
        pose proof (Hok k Hk) as Hokk. rewrite Hin, Nat.eqb_refl in Hokk. unfold does in Hokk.
        rewrite feed_nth_app in Hokk. cbn [snd fst].
        destruct (feed_nth ms k [Data (wrap x)] s) as [[s1 o1] r1] eqn:E1.
        assert (r1 = Ok) as -> by (destruct r1; auto; discriminate).
        cbn [caught].
        assert (forall n a, n <> k -> does ms n a s1 = does ms n a s) as Hoth.
        { intros n a Hne. pose proof (@does_other ms n k a [Data (wrap x)] s Hne) as H. rewrite E1 in H. exact H. }
        assert (forall a, does ms k ([Data (wrap x)] ++ a) s =
                  (o1 ++ fst (does ms k a s1), snd (does ms k a s1))) as Hsame.
        { intros a. unfold does. rewrite feed_nth_app, E1. destruct (feed_nth ms k a s1) as [[s2 o2] r2]. reflexivity. }
        destruct (IH Hes b s1) as (s' & t & Ef & Hfrom & Hown & Hcont); auto.
        { intros n Hn. destruct (Nat.eq_dec n k) as [->|Hne].
          - pose proof (Hok k Hk) as H. rewrite Hin, Nat.eqb_refl, Hsame in H. exact H.
          - rewrite Hoth by auto. pose proof (Hok n Hn) as H. rewrite Hin in H.
            destruct (Nat.eqb_spec k n); [congruence|]. exact H. }
        cbn [St case_op mk_op] in Ef. rewrite Ef.
        exists s', (map (fun e => (Some k, e)) (redirect o1) ++ t). split; [now rewrite map_app, map_snd_tag|].
        split; [|split].
        -- intros n Hn. rewrite from_app, from_tag, Hin, Hfrom by auto. destruct (Nat.eqb_spec k n) as [<-|Hne].
           ++ rewrite Hsame. cbn [fst]. now rewrite redirect_app.
           ++ cbn [app]. now rewrite Hoth by auto.
        -- rewrite from_app, from_tag, Hown. unfold case_own_ at 2. cbn [flat_map]. unfold unsent. rewrite Er. reflexivity.
        -- intros n es' Hn. rewrite Hin. specialize (Hcont n es' Hn). destruct (Nat.eqb_spec k n) as [<-|Hne].
           ++ rewrite <- app_assoc, !Hsame, Hcont. destruct (does ms k es' s'). cbn [fst snd]. now rewrite app_assoc.
           ++ cbn [app]. rewrite !Hoth in Hcont by auto. exact Hcont.
      * assert (forall n, branch_in_ preds d n (Data x :: es) = branch_in_ preds d n es) as Hin.
        { intros n. unfold branch_in_, sent. cbn [rows filter]. now rewrite Er. }
        cbn [caught]. destruct (IH Hes b s) as (s' & t & Ef & Hfrom & Hown & Hcont); auto.
        { intros n Hn. rewrite <- Hin. auto. }
        cbn [St case_op mk_op] in Ef. rewrite Ef. exists s', t. split; [reflexivity|]. split; [|split].
        -- intros n Hn. rewrite Hin. auto.
        -- unfold case_own_. cbn [flat_map]. unfold unsent. rewrite Er. exact Hown.
        -- intros n es' Hn. rewrite Hin. auto.
      * assert (forall n, branch_in_ preds d n (Data x :: es) = branch_in_ preds d n es) as Hin.
        { intros n. unfold branch_in_, sent. cbn [rows filter]. now rewrite Er. }
        unfold fatal_error. cbn [caught]. destruct (IH Hes b s) as (s' & t & Ef & Hfrom & Hown & Hcont); auto.
        { intros n Hn. rewrite <- Hin. auto. }
        cbn [St case_op mk_op] in Ef. rewrite Ef.
        exists s', ((None, Fatal (MkErr "case" (VTuple (components (wrap x))))) :: t). split; [reflexivity|]. split; [|split].
        -- intros n Hn. rewrite Hin. rewrite <- Hfrom by auto. reflexivity.
        -- change (case_own_ preds d (Data x :: es)) with
             ((if unsent preds d (wrap x) then [Fatal (MkErr "case" (VTuple (components (wrap x))))] else [])
              ++ case_own_ preds d es).
           rewrite <- Hown. unfold unsent. rewrite Er. reflexivity.
        -- intros n es' Hn. rewrite Hin. auto.
    + cbn [caught]. destruct (IH Hes b s) as (s' & t & Ef & Hfrom & Hown & Hcont); auto.
      cbn [St case_op mk_op] in Ef. rewrite Ef.
      exists s', ((None, Err e) :: t). split; [reflexivity|]. split; [|split]; auto.
      unfold case_own_. cbn [flat_map app]. fold (case_own_ preds d es). rewrite <- Hown. reflexivity.
    + cbn [caught]. destruct (IH Hes b s) as (s' & t & Ef & Hfrom & Hown & Hcont); auto.
      cbn [St case_op mk_op] in Ef. rewrite Ef.
      exists s', ((None, Err e) :: t). split; [reflexivity|]. split; [|split]; auto.
      unfold case_own_. cbn [flat_map app]. fold (case_own_ preds d es). rewrite <- Hown. reflexivity.
Qed.

Lemma case_flush_ok ms : forall i (s : states ms),
  (forall n, n < length ms -> snd (does ms n [Flush] s) = Ok) ->
  exists s' t, case_flush ms s = (s', map snd t, Ok) /\ from None t = [] /\
    (forall n, n < i -> from (Some n) t = []) /\
    (forall n, n < length ms -> from (Some (i + n)) t = redirect (fst (does ms n [Flush] s))).
Proof.
  induction ms as [|m ms IH]; intros i s Hok.
  - exists s, []. simpl. repeat split; auto.
  - cbn [case_flush]. pose proof (Hok 0 ltac:(simpl; lia)) as H0. unfold does in H0. cbn [feed_nth] in H0.
    destruct (feed m (fst s) [Flush]) as [[s1 o1] r1] eqn:E1. cbn [snd] in H0. subst r1.
    assert (forall n, does (m :: ms) (S n) [Flush] s = does ms n [Flush] (snd s)) as Hsn.
    { intros n. unfold does. cbn [feed_nth]. destruct (feed_nth ms n [Flush] (snd s)) as [[? ?] ?]. reflexivity. }
    destruct (IH (S i) (snd s)) as (s' & t & E & H1 & H2 & H3).
    { intros n Hn. rewrite <- Hsn. apply Hok. simpl. lia. }
    rewrite E. exists (s1, s'), (map (fun e => (Some i, e)) (redirect o1) ++ t). repeat split.
    + now rewrite map_app, map_snd_tag.
    + rewrite from_app, from_tag, H1. reflexivity.
    + intros n Hn. rewrite from_app, from_tag, H2 by lia. destruct (Nat.eqb_spec i n); [lia|reflexivity].
    + intros [|n] Hn.
      * rewrite Nat.add_0_r, from_app, from_tag, Nat.eqb_refl, H2 by lia.
        unfold does. cbn [feed_nth]. rewrite E1. cbn [fst]. now rewrite app_nil_r.
      * rewrite from_app, from_tag. destruct (Nat.eqb_spec i (i + S n)); [lia|]. cbn [app].
        replace (i + S n) with (S i + n) by lia. rewrite H3 by (simpl in Hn; lia). now rewrite Hsn.
Qed.

Lemma case_exec (preds : list func) (ms : list machine) (d : bool) (es : list event) : open_stream es ->
  length ms = length preds + (if d then 1 else 0) ->
  Forall (fun m => setup m (fresh m) <> None) ms ->
  (forall n, n < length ms -> snd (through (nth n ms wire) (branch_in_ preds d n es ++ [Flush])) = Ok) ->
  exists t, exec (case_op preds ms d) (es, Ok) = (map snd t ++ [Flush], Ok) /\
    from None t = case_own_ preds d es /\
    forall n, n < length ms ->
      from (Some n) t = redirect (fst (through (nth n ms wire) (branch_in_ preds d n es ++ [Flush]))).
Proof.
  intros He Hlen Hsu Hok.
  assert (exists s, setup_all ms (fresh_all ms) = Some s) as [s Hs].
  { clear - Hsu. induction Hsu as [|m ms Hm _ [s IH]]; simpl; eauto.
    destruct (setup m (fresh m)); [|congruence]. rewrite IH. eauto. }
  assert (forall x n, case_route preds d 0 (components x) = inl (Some n) -> n < length ms) as Hlt.
  { intros x n Hr. pose proof (@case_route_spec preds d (components x) 0) as H. rewrite Hr in H.
    destruct H as [(j & p & v & Hn & Hp & _)|(Hd & Hn & _)].
    - assert (j < length preds) by (apply nth_error_Some; congruence). lia.
    - subst d. lia. }
  rewrite exec_through. unfold through at 1. cbn [setup case_op mk_op fresh fst snd]. rewrite Hs, feed_app.
  assert (forall n, n < length ms -> forall es, does ms n es s = through (nth n ms wire) es) as Hdoes.
  { intros n Hn es'. now apply does_through. }
  assert (forall n, n < length ms -> snd (does ms n (branch_in_ preds d n es) s) = Ok) as Hpre.
  { intros n Hn. specialize (Hok n Hn). rewrite <- Hdoes in Hok by auto. unfold does in *. rewrite feed_nth_app in Hok.
    destruct (feed_nth ms n (branch_in_ preds d n es) s) as [[s1 o1] r1]. cbn [snd] in *. destruct r1; auto. }
  destruct (@case_feed preds ms d es He true s Hpre Hlt) as (s' & t & Ef & Hfrom & Hown & Hcont).
  cbn [St case_op mk_op] in *. rewrite Ef. cbn [feed]. unfold deliver. cbn [as_input step case_op mk_op fst snd].
  destruct (@case_flush_ok ms 0 s') as (s'' & t2 & Efl & H1 & _ & H3).
  { intros n Hn. specialize (Hcont n [Flush] Hn). rewrite Hdoes in Hcont by auto. specialize (Hok n Hn).
    destruct (does ms n [Flush] s') as [o r]. rewrite Hcont in Hok. exact Hok. }
  rewrite Efl. cbn [caught].
  exists (t ++ t2). split; [now rewrite map_app, <- ?app_assoc, ?app_nil_r, <- ?app_assoc|]. split.
  - now rewrite from_app, Hown, H1, app_nil_r.
  - intros n Hn. rewrite from_app, Hfrom by auto. rewrite (H3 n Hn) at 1. rewrite <- redirect_app.
    rewrite <- Hdoes by auto. rewrite Hcont by auto. now destruct (does ms n [Flush] s').
Qed.

(** The same in terms of the specification's [routed] and [no_route]. *)
Lemma route_shift preds d xs : forall i,
  case_route preds d i xs =
  match case_route preds d 0 xs with inl (Some n) => inl (Some (i + n)) | r => r end.
Proof.
  induction preds as [|p preds IH]; intros i; simpl; [destruct d; auto; now rewrite Nat.add_0_r|].
  destruct (p xs) as [v|]; auto. destruct (truthy v); [now rewrite Nat.add_0_r|].
  rewrite IH, (IH 1). destruct (case_route preds d 0 xs) as [[n|]|u]; auto. simpl. do 2 f_equal. lia.
Qed.

Lemma sent_routed preds d x : forall n, sent preds d n x = routed preds d n x.
Proof.
  unfold sent. induction preds as [|p preds IH]; intros n.
  - unfold routed. simpl. destruct n, d; simpl; auto.
  - simpl. unfold routed, says. destruct n as [|n]; simpl.
    + destruct (p (components x)) as [v|]; simpl; auto. destruct (truthy v); auto.
      rewrite route_shift. destruct (case_route preds d 0 (components x)) as [[k|]|]; reflexivity.
    + destruct (p (components x)) as [v|]; simpl; auto. destruct (truthy v); auto.
      rewrite route_shift. specialize (IH n). unfold routed, says in IH. cbn [andb]. rewrite <- IH.
      destruct (case_route preds d 0 (components x)) as [[k|]|]; reflexivity.
Qed.

Lemma existsb_seq_S (f : nat -> bool) n : existsb f (seq 0 (S n)) = f 0 || existsb (fun i => f (S i)) (seq 0 n).
Proof. cbn [seq existsb]. f_equal. rewrite <- seq_shift. induction (seq 0 n); simpl; congruence. Qed.

Lemma existsb_none (A : Type) (f : A -> bool) l : (forall x, f x = false) -> existsb f l = false.
Proof. intros H. induction l; simpl; auto. now rewrite H. Qed.

Lemma existsb_ext_all (A : Type) (f g : A -> bool) l : (forall x, f x = g x) -> existsb f l = existsb g l.
Proof. intros H. induction l; simpl; auto. now rewrite H, IHl. Qed.

Lemma unsent_no_route preds d x : unsent preds d x = no_route preds x.
Proof.
  unfold unsent. induction preds as [|p preds IH]; [destruct d; reflexivity|].
  unfold no_route. cbn [length]. rewrite existsb_seq_S. cbn [firstn nth_error forallb case_route].
  unfold says at 1. destruct (p (components x)) as [v|] eqn:E; cbn [option_map]; [|reflexivity].
  destruct (truthy v) eqn:Ev; cbn [andb orb].
  - symmetry. apply existsb_none. intros n. unfold says at 1. rewrite E. simpl. now rewrite Ev.
  - rewrite route_shift. unfold no_route in IH.
    transitivity (match case_route preds d 0 (components x) with inl _ => false | inr _ => true end).
    + destruct (case_route preds d 0 (components x)) as [[k|]|]; reflexivity.
    + rewrite IH. apply existsb_ext_all. intros n. unfold says at 3. rewrite E. simpl. now rewrite Ev.
Qed.

Lemma case_own_eq preds d es : case_own_ preds d es = case_own preds es.
Proof.
  unfold case_own_, case_own. apply flat_map_ext. intros [x|e|e|]; auto. now rewrite unsent_no_route.
Qed.

Lemma branch_in_eq preds d n es : branch_in_ preds d n es = branch_in preds d n es.
Proof. unfold branch_in_, branch_in. f_equal. apply filter_ext. intros x. apply sent_routed. Qed.

Lemma case_exec_spec (preds : list func) (ms : list machine) (d : bool) (es : list event) : open_stream es ->
  length ms = length preds + (if d then 1 else 0) ->
  Forall (fun m => setup m (fresh m) <> None) ms ->
  (forall n, n < length ms -> snd (through (nth n ms wire) (branch_in preds d n es ++ [Flush])) = Ok) ->
  exists t, exec (case_op preds ms d) (es, Ok) = (map snd t ++ [Flush], Ok) /\
    from None t = case_own preds es /\
    forall n, n < length ms ->
      from (Some n) t = redirect (fst (through (nth n ms wire) (branch_in preds d n es ++ [Flush]))).
Proof.
  intros He Hl Hs Hok. destruct (@case_exec preds ms d es He Hl Hs) as (t & E & H1 & H2).
  - intros n Hn. rewrite branch_in_eq. auto.
  - exists t. split; [exact E|]. split; [now rewrite H1, case_own_eq|].
    intros n Hn. rewrite H2, branch_in_eq by auto. reflexivity.
Qed.

(** A branch made of orderly operators yields no end-of-stream before the end; the tags are those of
    existing pipelines. *)

(** * args *)
Lemma args_feed n run : 0 < n -> forall es w, open_stream es -> length w < n ->
  exists w' ws, length w' < n /\ Forall (fun x => length x = n) ws /\
    w ++ map unwrap_op_output (rows es) = concat ws ++ w' /\
    (Forall (fun a => snd (run a) <> Kill) ws ->
     exists out, feed (args_op false n run) w es = (w', out, Ok) /\
       rows out = flat_map (fun a => rows (fst (run a))) ws /\
       (errs es = [] -> errs out = flat_map (fun a => errs (fst (run a))) ws)).
Proof.
  intros Hn; induction es as [|e es IH]; intros w He Hw.
  - exists w, []. simpl. rewrite app_nil_r. repeat split; auto. intros _. exists []. auto.
  - apply open_cons in He; destruct He as [He Hes].
    destruct e as [x|e|e|]; try discriminate; cbn [rows map].
    + set (y := unwrap_op_output (wrap x)).
      destruct (Nat.eqb_spec (length (w ++ [y])) n) as [Hf|Hf].
      * destruct (IH [] Hes) as (w' & ws & H1 & H2 & H3 & H4); [simpl; lia|].
        exists w', ((w ++ [y]) :: ws). split; auto. split; [constructor; auto|]. split.
        { simpl in *. rewrite <- !app_assoc. simpl. rewrite H3. reflexivity. }
        intros Hk. inversion Hk as [|? ? Hk1 Hk2]; subst.
        destruct (H4 Hk2) as (out & E & Hr & Hee).
        exists (redirect (fst (run (w ++ [y]))) ++ out). cbn [feed]. unfold deliver. cbn [as_input step args_op mk_op negb andb].
        fold y. rewrite Nat.eqb_refl. cbn [St args_op mk_op] in E.
        assert (caught (Data x) (snd (run (w ++ [y]))) = Ok) as -> by (destruct (snd (run (w ++ [y]))); auto; congruence).
        rewrite E. split; [reflexivity|]. rewrite rows_app, errs_app, rows_redirect, errs_redirect, Hr.
        split; [reflexivity|]. intros H. rewrite Hee by auto. reflexivity.
      * rewrite app_length in Hf; simpl in Hf.
        destruct (IH (w ++ [y]) Hes) as (w' & ws & H1 & H2 & H3 & H4); [rewrite app_length; simpl; lia|].
        exists w', ws. split; auto. split; auto. split; [rewrite <- app_assoc in H3; exact H3|].
        intros Hk. destruct (H4 Hk) as (out & E & Hr & Hee). exists out.
        cbn [feed]. unfold deliver. cbn [as_input step args_op mk_op negb andb]. fold y.
        destruct (Nat.eqb_spec (length (w ++ [y])) n) as [Hc|_]; [rewrite app_length in Hc; simpl in Hc; lia|].
        cbn [caught]. cbn [St args_op mk_op] in E. rewrite E. auto.
    + destruct (IH w Hes Hw) as (w' & ws & H1 & H2 & H3 & H4). exists w', ws. repeat split; auto.
      intros Hk. destruct (H4 Hk) as (out & E & Hr & Hee). exists (Err e :: out).
      cbn [feed]. unfold deliver. cbn [as_input step args_op mk_op]. cbn [caught].
      cbn [St args_op mk_op] in E. rewrite E. cbn [app rows errs]. repeat split; auto. discriminate.
    + destruct (IH w Hes Hw) as (w' & ws & H1 & H2 & H3 & H4). exists w', ws. repeat split; auto.
      intros Hk. destruct (H4 Hk) as (out & E & Hr & Hee). exists (Err e :: out).
      cbn [feed]. unfold deliver. cbn [as_input step args_op mk_op]. cbn [caught].
      cbn [St args_op mk_op] in E. rewrite E. cbn [app rows errs]. repeat split; auto. discriminate.
Qed.

Lemma args_exec n run es : 0 < n -> open_stream es ->
  exists ws, padded_chunks n (map unwrap_op_output (rows es)) ws /\
    (Forall (fun a => snd (run a) = Ok) ws ->
     exists out, exec (args_op false n run) (es, Ok) = (out ++ [Flush], Ok) /\
       rows out = flat_map (fun a => rows (fst (run a))) ws /\
       (errs es = [] -> errs out = flat_map (fun a => errs (fst (run a))) ws)).
Proof.
  intros Hn He. destruct (@args_feed n run Hn es [] He) as (w' & ws & H1 & H2 & H3 & H4); [simpl; lia|].
  cbn [app] in H3. destruct w' as [|y w'].
  - exists ws. rewrite app_nil_r in H3. split.
    { split; auto. exists 0. rewrite H3. simpl. rewrite app_nil_r. split; [lia|]. split; auto.
      intros E. destruct ws as [|[|? ?] ?]; auto; simpl in E; try discriminate. inversion H2; subst; simpl in *; lia. }
    intros Hk. destruct H4 as (out & E & Hr & Hee).
    { eapply Forall_impl; [|exact Hk]. simpl. intros a ->. discriminate. }
    exists out. rewrite exec_through. unfold through. cbn [setup args_op mk_op fresh andb].
    destruct (Nat.eqb_spec n 0); [lia|]. rewrite feed_app. cbn [St args_op mk_op] in *. rewrite E. auto.
  - exists (ws ++ [pad_to n (y :: w')]). split.
    { split.
      - apply Forall_app. split; auto. constructor; auto. unfold pad_to. rewrite app_length, repeat_length. lia.
      - exists (n - length (y :: w')). split; [simpl in *; lia|]. split.
        + rewrite concat_app, H3, <- app_assoc. cbn [concat]. rewrite app_nil_r. reflexivity.
        + intros E. rewrite E in H3. symmetry in H3. apply app_eq_nil in H3. destruct H3; discriminate. }
    intros Hk. apply Forall_app in Hk. destruct Hk as [Hk1 Hk2]. inversion Hk2 as [|? ? Hk3 _]; subst.
    destruct H4 as (out & E & Hr & Hee).
    { eapply Forall_impl; [|exact Hk1]. simpl. intros a ->. discriminate. }
    exists (out ++ redirect (fst (run (pad_to n (y :: w')))) ++ [Flush]).
    rewrite exec_through. unfold through. cbn [setup args_op mk_op fresh andb].
    destruct (Nat.eqb_spec n 0); [lia|]. rewrite feed_app. cbn [St args_op mk_op] in *. rewrite E.
    cbn [feed]. unfold deliver. cbn [as_input step args_op mk_op]. rewrite Hk3. cbn [caught].
    split; [rewrite ?app_nil_r, <- ?app_assoc; reflexivity|].
    rewrite !rows_app, !errs_app, rows_redirect, errs_redirect, flat_map_app, Hr. cbn [rows errs flat_map].
    rewrite !app_nil_r. split; [reflexivity|]. intros H. rewrite Hee by auto. rewrite flat_map_app. cbn [flat_map].
    now rewrite app_nil_r.
Qed.

Lemma args_all_feed run : forall es w, open_stream es ->
  exists out, feed (args_op true 1 run) w es = (w ++ map unwrap_op_output (rows es), out, Ok) /\
    rows out = [] /\ errs out = errs es.
Proof.
  induction es as [|e es IH]; intros w He.
  - exists []. simpl. now rewrite app_nil_r.
  - apply open_cons in He; destruct He as [He Hes].
    destruct e as [x|e|e|]; try discriminate; cbn [feed]; unfold deliver;
      cbn [as_input step args_op mk_op negb andb]; cbn [rows map caught].
    + destruct (IH (w ++ [unwrap_op_output (wrap x)]) Hes) as (out & E & Hr & Hee).
      cbn [St args_op mk_op] in E. rewrite E. exists out. rewrite <- app_assoc. auto.
    + destruct (IH w Hes) as (out & E & Hr & Hee). cbn [St args_op mk_op] in E. rewrite E.
      exists (Err e :: out). cbn [app rows errs]. rewrite Hr, Hee. auto.
    + destruct (IH w Hes) as (out & E & Hr & Hee). cbn [St args_op mk_op] in E. rewrite E.
      exists (Err e :: out). cbn [app rows errs]. rewrite Hr, Hee. auto.
Qed.

Lemma args_all_exec run es : open_stream es ->
  let xs := map unwrap_op_output (rows es) in
  (xs <> [] -> snd (run [VList xs]) = Ok) ->
  exists out, exec (args_op true 1 run) (es, Ok) = (out ++ [Flush], Ok) /\
    rows out = if xs then [] else rows (fst (run [VList xs])).
Proof.
  intros He xs Hk. rewrite exec_through. unfold through. cbn [setup args_op mk_op fresh andb negb Nat.eqb].
  rewrite feed_app. destruct (@args_all_feed run es [] He) as (out & E & Hr & Hee).
  cbn [St args_op mk_op app] in *. rewrite E. cbn [feed]. unfold deliver. cbn [as_input step args_op mk_op].
  fold xs. destruct xs as [|y ys].
  - exists out. cbn [caught]. auto.
  - rewrite Hk by discriminate. cbn [caught].
    exists (out ++ redirect (fst (run [VList (y :: ys)])) ++ [Flush]).
    split; [rewrite ?app_nil_r, <- ?app_assoc; reflexivity|].
    rewrite !rows_app, rows_redirect, Hr. cbn [rows]. now rewrite app_nil_r.
Qed.

(** * pipelines held by variables *)

(** Errors go through untouched. *)
Definition error_transparent (m : machine) : Prop := forall s e, step m s (Err e) = (s, [Err e], Ok).

Lemma transparent_mk_op (S : Type) (s0 : S) su receive flush : error_transparent (mk_op s0 su receive flush).
Proof. intros s e. reflexivity. Qed.

Lemma transparent_compose a b : error_transparent a -> error_transparent b -> error_transparent (compose a b).
Proof.
  intros Ha Hb [s t] e. cbn [compose step fst snd]. rewrite Ha. cbn [feed]. unfold deliver. cbn [as_input].
  rewrite Hb. reflexivity.
Qed.

Lemma transparent_pipe ms : Forall error_transparent ms -> error_transparent (pipe ms).
Proof. induction 1; [intros [] e; reflexivity|]. now apply transparent_compose. Qed.

Lemma nested_feed m : error_transparent m -> forall es s, open_stream es ->
  feed (nested m) s es = feed m s es.
Proof.
  intros Hm. induction es as [|e es IH]; intros s He; auto.
  apply open_cons in He; destruct He as [He Hes].
  cbn [feed]. unfold deliver. destruct e as [x|e|e|]; try discriminate; cbn [as_input].
  - cbn [nested mk_op step feed]. unfold deliver. cbn [as_input]. rewrite wrap_wrap.
    destruct (step m s (Data (wrap x))) as [[s1 o1] r1]. cbn [caught].
    destruct r1; cbn [feed caught]; rewrite ?app_nil_r; auto.
    + rewrite IH by auto. destruct (feed m s1 es) as [[s2 o2] r2]. reflexivity.
    + rewrite IH by auto. destruct (feed m s1 es) as [[s2 o2] r2]. reflexivity.
  - rewrite Hm. cbn [nested mk_op step caught]. rewrite IH by auto. reflexivity.
  - rewrite Hm. cbn [nested mk_op step caught]. rewrite IH by auto. reflexivity.
Qed.

Lemma nested_exec m es o : error_transparent m -> open_stream es ->
  exec m (es, Ok) = (o, Ok) -> exec (nested m) (es, Ok) = (o ++ [Flush], Ok).
Proof.
  intros Hm He. rewrite !exec_through. unfold through. cbn [setup nested mk_op fresh].
  destruct (setup m (fresh m)) as [s|]; [|discriminate].
  rewrite (@feed_app (nested m)), (@feed_app m). rewrite (nested_feed Hm) by auto.
  destruct (feed m s es) as [[s1 o1] r1]. destruct r1; try discriminate.
  cbn [feed]. unfold deliver. cbn [as_input nested mk_op step feed]. unfold deliver. cbn [as_input].
  destruct (step m s1 Flush) as [[s2 o2] r2]. cbn [caught].
  destruct r2; cbn [feed caught]; intros [= <-]; rewrite ?app_nil_r, <- ?app_assoc; reflexivity.
Qed.
