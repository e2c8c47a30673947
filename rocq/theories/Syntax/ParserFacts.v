(** Facts about the parser: fuel. *)
From Verif.Syntax Require Import LexerFacts ArgsFacts ParserSpec.
Local Open Scope list_scope.

Ltac inv H := inversion H; subst; clear H.

Lemma bind_ok : forall A B (r : res A) (f : A -> res B) b, bind r f = Ok b -> exists a, r = Ok a /\ f a = Ok b.
Proof. intros A B [a| | |] f b H; cbn in H; try discriminate. eauto. Qed.

Lemma reads_shorter : forall m t k r, next_token m t = Ok (Some (k, r)) -> length r < length t.
Proof.
  intros m t k r H. apply next_token_ok in H as (w & w' & _ & _ & T & NE & _).
  rewrite T, !app_length. destruct (raw k); [easy|]. cbn. lia.
Qed.

(** A result, when there is one, is that of any greater amount of fuel. *)
Definition refines {A} (r r' : res A) : Prop := r <> Fuel -> r' = r.

Lemma refines_refl : forall A (r : res A), refines r r.
Proof. intros A r _. reflexivity. Qed.

Lemma refines_bind : forall A B (r r' : res A) (f f' : A -> res B),
  refines r r' -> (forall a, r = Ok a -> refines (f a) (f' a)) -> refines (bind r f) (bind r' f').
Proof.
  intros A B r r' f f' H1 H2 N. destruct r; cbn in *; try (rewrite H1 by discriminate; cbn; auto).
  - apply H2; auto.
  - easy.
Qed.

Ltac refine_step :=
  first
    [ apply refines_refl
    | assumption
    | match goal with
      | |- refines (bind _ _) (bind _ _) => apply refines_bind; [|intros ? ?]
      | |- refines (match ?x with _ => _ end) (match ?x with _ => _ end) => destruct x
      | |- refines (let '_ := ?x in _) (let '_ := ?x in _) => destruct x
      | H : forall t, refines (?F _ t) (?F _ t) |- refines (?F _ _) (?F _ _) => apply H
      | H : forall m t, refines (?F _ m t) (?F _ m t) |- refines (?F _ _ _) (?F _ _ _) => apply H
      end ].

Section Fuel.
Variable shell_args : text -> bool.
Notation pipeline := (pipeline shell_args).
Notation op_sequence := (op_sequence shell_args).
Notation arguments := (arguments shell_args).
Notation argument := (argument shell_args).

Lemma fuel_step : forall f,
  (forall t, refines (pipeline f t) (pipeline (S f) t)) /\
  (forall t, refines (op_sequence f t) (op_sequence (S f) t)) /\
  (forall m t, refines (arguments f m t) (arguments (S f) m t)) /\
  (forall m t, refines (argument f m t) (argument (S f) m t)).
Proof.
  induction f as [|f (IP & IS & IAS & IA)].
  - repeat split; intros; intros N; exfalso; now apply N.
  - split; [|split; [|split]]; intros.
    + change (refines (pipeline_body (op_sequence f) t) (pipeline_body (op_sequence (S f)) t)).
      unfold pipeline_body, pipeline_ops. repeat refine_step.
    + change (refines (sequence_body shell_args (arguments f) (op_sequence f) t) (sequence_body shell_args (arguments (S f)) (op_sequence (S f)) t)).
      unfold sequence_body, op_args. repeat refine_step.
    + change (refines (arguments_body (argument f) (arguments f) m t) (arguments_body (argument (S f)) (arguments (S f)) m t)).
      unfold arguments_body. repeat refine_step.
    + change (refines (argument_body (pipeline f) m t) (argument_body (pipeline (S f)) m t)).
      unfold argument_body. repeat refine_step.
Qed.

Lemma fuel_mono : forall f f', f <= f' ->
  (forall t, refines (pipeline f t) (pipeline f' t)) /\
  (forall t, refines (op_sequence f t) (op_sequence f' t)) /\
  (forall m t, refines (arguments f m t) (arguments f' m t)) /\
  (forall m t, refines (argument f m t) (argument f' m t)).
Proof.
  assert (T : forall A (a b c : res A), refines a b -> refines b c -> refines a c).
  { intros A a b c H1 H2 N. rewrite H2; rewrite H1; auto. }
  induction 1 as [|f' L (IP & IS & IAS & IA)].
  - repeat split; intros; apply refines_refl.
  - destruct (fuel_step f') as (P & S & AS & A). repeat split; intros; eapply T; eauto.
Qed.
End Fuel.

(** ** What looking for tokens says *)
Lemma tok1_some : forall m w t k r, tok1 m w t = Ok (Some (k, r)) <-> Reads m t k r /\ w k = true.
Proof.
  intros m w t k r. unfold tok1, Reads. split.
  - intros H. apply bind_ok in H as ([[k0 r0]|] & E & H); [|discriminate]. destruct (w k0) eqn:W; inv H. auto.
  - intros [E W]. rewrite E. cbn. now rewrite W.
Qed.

Lemma tok1_none : forall m w t, tok1 m w t = Ok None <->
  next_token m t = Ok None \/ exists k r, Reads m t k r /\ w k = false.
Proof.
  intros m w t. unfold tok1, Reads. split.
  - intros H. apply bind_ok in H as ([[k0 r0]|] & E & H); [|auto]. destruct (w k0) eqn:W; inv H. right; eauto.
  - intros [E|(k & r & E & W)]; rewrite E; cbn; auto. now rewrite W.
Qed.

Lemma look2_true : forall a b t, look2 a b t = Ok true <->
  exists k r k' r', Reads false t k r /\ a k = true /\ Reads false r k' r' /\ b k' = true.
Proof.
  intros a b t. unfold look2, Reads. split.
  - intros H. apply bind_ok in H as ([[k r]|] & E & H); [|discriminate].
    apply bind_ok in H as ([[k' r']|] & E' & H); [|discriminate].
    assert (AB : (a k && b k')%bool = true) by congruence. apply andb_true_iff in AB as [A B]. exists k, r, k', r'. auto.
  - intros (k & r & k' & r' & E & A & E' & B). rewrite E. cbn. rewrite E'. cbn. now rewrite A, B.
Qed.

Lemma look2_false : forall a b t, look2 a b t = Ok false <->
  Nothing t \/ exists k r, Reads false t k r /\
    (Nothing r \/ exists k' r', Reads false r k' r' /\ (a k && b k')%bool = false).
Proof.
  intros a b t. unfold look2, Reads, Nothing. split.
  - intros H. apply bind_ok in H as ([[k r]|] & E & H); [|auto].
    apply bind_ok in H as ([[k' r']|] & E' & H).
    + right. exists k, r. split; auto. right. exists k', r'. split; auto. congruence.
    + right. exists k, r. auto.
  - intros [E|(k & r & E & [N|(k' & r' & E' & F)])]; rewrite E; cbn; auto.
    + rewrite N. auto.
    + rewrite E'. cbn. now rewrite F.
Qed.

Lemma reads_fun : forall m t k r k' r', Reads m t k r -> Reads m t k' r' -> k = k' /\ r = r'.
Proof. unfold Reads. intros. rewrite H in H0. inv H0. auto. Qed.

Lemma reads_nothing : forall t k r, Reads false t k r -> Nothing t -> False.
Proof. unfold Reads, Nothing. intros. rewrite H in H0. discriminate. Qed.

Lemma writing_redirect : forall gt target, is_gt gt = true -> writing gt target = redirect_out gt target.
Proof.
  intros gt target H. unfold writing, redirect_out, is_append, is_var_arrow, is_gt in *.
  destruct (tkind gt); try discriminate. cbn [txt list_ascii_of_string].
  destruct (teqb sym [">"; "$"]%char) eqn:A; cbn [orb].
  - assert (sym = [">"; "$"]%char) as -> by now apply teqb_eq. reflexivity.
  - destruct (teqb sym [">"; ">"; "$"]%char) eqn:B; cbn [orb]; [now rewrite orb_true_r|].
    rewrite orb_false_r. now destruct (teqb sym [">"; ">"]%char).
Qed.

Lemma reading_redirect : forall lt source, is_lt lt = true -> reading lt source = redirect_in lt source.
Proof.
  intros lt source H. unfold reading, redirect_in, is_var_arrow, is_lt in *.
  destruct (tkind lt); try discriminate. reflexivity.
Qed.

Lemma redirected_ok : forall ops t ops' r, redirected ops t = Ok (ops', r) ->
  (ops' = ops /\ r = t /\ look2 is_gt is_word t = Ok false) \/
  exists w, Redirect t w r /\ ops' = ops ++ [w].
Proof.
  intros ops t ops' r H. unfold redirected in H. apply bind_ok in H as ([|] & E & H); [|inv H; auto].
  apply look2_true in E as (gt & t1 & target & t2 & R & G & R2 & W). unfold Reads in *. rewrite R in H. cbn in H.
  rewrite R2 in H. cbn in H. inv H. right. exists (writing gt target). split; [econstructor; eauto|].
  now rewrite writing_redirect.
Qed.

Lemma redirected_does : forall ops t w r, Redirect t w r -> redirected ops t = Ok (ops ++ [w], r).
Proof.
  intros ops t w r H. inv H. unfold redirected.
  assert (L : look2 is_gt is_word t = Ok true) by (apply look2_true; eauto 10). rewrite L. unfold Reads in *.
  cbn. rewrite H0. cbn. rewrite H2. cbn. now rewrite writing_redirect.
Qed.

(** ** vars *)
Lemma vars_loop_sound : forall f k t vs r, vars_loop f k t = Ok (vs, r) ->
  (is_word k = true -> forall t0, Reads false t0 k t -> Vars true t0 vs r) /\
  (is_word k = false -> is_colon k = true /\ vs = [] /\ r = t).
Proof.
  induction f as [|f IH]; intros k t vs r H; [discriminate|]. cbn [vars_loop] in H.
  destruct (is_word k) eqn:W.
  - split; [intros _ t0 R0|discriminate].
    apply bind_ok in H as ([[c t1]|] & E & H).
    + apply tok1_some in E as [E C]. apply bind_ok in H as ([[k' t2]|] & E' & H); [|discriminate].
      apply tok1_some in E' as [E' W']. apply bind_ok in H as ((vs' & t3) & E2 & H). inv H.
      eapply VMore; eauto. eapply IH; eauto.
    + apply bind_ok in H as ([[k' t1]|] & E' & H); [|discriminate].
      apply bind_ok in H as ((vs' & t3) & E2 & H). inv H. apply IH in E2 as [A B].
      destruct (is_word k') eqn:W'.
      * eapply VLax; eauto.
      * destruct (B eq_refl) as (C & -> & ->). eapply VLast; eauto.
  - split; [discriminate|intros _]. destruct (is_colon k); inv H. auto.
Qed.

Lemma vars_sound : forall t vs r k r0, Reads false t k r0 -> is_word k = true -> vars t = Ok (vs, r) ->
  Vars true t vs r.
Proof.
  intros t vs r k r0 R W H. unfold vars in H. unfold Reads in R. rewrite R in H. cbn [bind] in H.
  apply vars_loop_sound in H as [A _]. now apply A.
Qed.

Lemma vars_loop_fuel : forall f k t, length t < f -> vars_loop f k t <> Fuel.
Proof.
  induction f as [|f IH]; intros k t L; [lia|]. cbn [vars_loop].
  destruct (is_word k); [|destruct (is_colon k); discriminate].
  unfold tok1. pose proof (next_token_no_fuel false t) as N.
  destruct (next_token false t) as [[[k1 t1]|]| | |] eqn:E; cbn; try easy.
  apply reads_shorter in E.
  destruct (is_comma k1) eqn:C; cbn.
  - pose proof (next_token_no_fuel false t1) as N1.
    destruct (next_token false t1) as [[[k2 t2]|]| | |] eqn:E2; cbn; try easy.
    apply reads_shorter in E2. destruct (is_word k2); cbn; [|easy].
    specialize (IH k2 t2 ltac:(lia)). destruct (vars_loop f k2 t2) as [[? ?]| | |]; cbn; easy.
  - specialize (IH k1 t1 ltac:(lia)). destruct (vars_loop f k1 t1) as [[? ?]| | |]; cbn; easy.
Qed.

Lemma vars_nonempty : forall lax t vs r, Vars lax t vs r -> vs <> [].
Proof. intros lax t vs r H. inv H; discriminate. Qed.

Lemma vars_starts : forall lax t vs r, Vars lax t vs r -> exists k r', Reads false t k r' /\ is_word k = true.
Proof. intros lax t vs r H. inv H; eauto. Qed.

Lemma word_not_comma : forall k, is_word k = true -> is_comma k = false /\ is_colon k = false /\ is_assign k = false /\
  is_lt k = false /\ is_gt k = false /\ is_pipe k = false /\ is_end k = false /\ is_expr k = false /\ is_begin k = false.
Proof. intros k H. unfold is_word, is_comma, is_colon, is_assign, is_lt, is_gt, is_pipe, is_end, is_expr, is_begin in *. destruct (tkind k); easy. Qed.

Lemma vars_complete : forall lax t vs r, Vars lax t vs r -> forall k r0, Reads false t k r0 ->
  exists f0, forall f, f0 <= f -> vars_loop f k r0 = Ok (vs, r).
Proof.
  induction 1; intros k1 r1 R1; (destruct (reads_fun _ _ _ _ _ _ H R1) as [<- <-] || destruct (reads_fun _ _ _ _ _ _ H0 R1) as [<- <-]).
  - exists 2. intros f L. destruct f as [|[|f]]; try lia. cbn [vars_loop]. rewrite H0.
    assert (E : tok1 false is_comma r = Ok None).
    { apply tok1_none. right. exists colon, r'. split; auto. unfold is_comma, is_colon in *. now destruct (tkind colon). }
    rewrite E. cbn [bind]. unfold Reads in H1. rewrite H1. cbn [bind].
    replace (is_word colon) with false by (unfold is_word, is_colon in *; now destruct (tkind colon)).
    now rewrite H2.
  - destruct (vars_starts _ _ _ _ H3) as (k2 & r2 & R2 & W2). destruct (IHVars _ _ R2) as [f0 IH].
    exists (S f0). intros f L. destruct f as [|f]; try lia. cbn [vars_loop]. rewrite H0.
    assert (E : tok1 false is_comma r = Ok (Some (comma, r'))) by (now apply tok1_some). rewrite E. cbn [bind].
    assert (E' : tok1 false is_word r' = Ok (Some (k2, r2))) by (now apply tok1_some). rewrite E'. cbn [bind].
    rewrite IH by lia. reflexivity.
  - destruct (vars_starts _ _ _ _ H2) as (k2 & r2 & R2 & W2). destruct (IHVars _ _ R2) as [f0 IH].
    exists (S f0). intros f L. destruct f as [|f]; try lia. cbn [vars_loop]. rewrite H1.
    assert (E : tok1 false is_comma r = Ok None).
    { apply tok1_none. right. exists k2, r2. split; auto. now apply word_not_comma. }
    rewrite E. cbn [bind]. unfold Reads in R2. rewrite R2. cbn [bind]. rewrite IH by lia. reflexivity.
Qed.
