(** Where the parser of Syntax/Parser.v succeeds, the one with a state does the same. *)
From Verif.Syntax Require Export Tab.
From Verif.Syntax Require Import LexerFacts LexerFacts2 LexerProps ParserSpec ParserFacts ParserSound ParserComplete ParserProps.
Local Open Scope char_scope.
Local Open Scope list_scope.

Section Facts.
Variable line : text.
Variable shell_args : text -> bool.
Variable creates : call -> bool.

(** Nested pipelines, whose operators are created at once *)
Inductive able_arg : arg -> Prop :=
| able_token : forall k, able_arg (AToken k)
| able_made : forall s, able_arg (AMade s)
| able_pipe : forall ps ops src, Forall able_call ops -> able_arg (APipe ps ops src)
with able_call : call -> Prop :=
| able_op : forall o l, creates (Call o l) = true -> Forall able_arg l -> able_call (Call o l).
Definition call_args (c : call) : list arg := match c with Call _ l => l end.
Definition able_args (c : call) : Prop := Forall able_arg (call_args c).
Lemma able_weak : forall c, able_call c -> able_args c.
Proof. intros c []. exact H0. Qed.

Notation consume := (consume line).
Notation accept := (accept line).
Notation accept2 := (accept2 line).
Notation variables := (variables line).
Notation redirection := (redirection line).
Notation tab_pipeline := (tab_pipeline line shell_args creates).
Notation tab_op_sequence := (tab_op_sequence line shell_args creates).
Notation tab_arguments := (tab_arguments line shell_args creates).
Notation tab_argument := (tab_argument line shell_args creates).
Notation pipeline := (pipeline shell_args).
Notation op_sequence := (op_sequence shell_args).
Notation arguments := (arguments shell_args).
Notation argument := (argument shell_args).

Lemma mbind_done : forall A B (x : M A) (f : A -> M B) s a s', x s = (Done a, s') -> mbind x f s = f a s'.
Proof. intros. unfold mbind. now rewrite H. Qed.

Lemma mbind_inv : forall A B (x : M A) (f : A -> M B) s b s', mbind x f s = (Done b, s') -> exists a s1, x s = (Done a, s1) /\ f a s1 = (Done b, s').
Proof. intros A B x f s b s' H. unfold mbind in H. destruct (x s) as [[a| | |] s1]; try discriminate. eauto. Qed.

Lemma peek_ok : forall m s x, next_token m (pos s) = Ok x -> peek m s = (Done x, s).
Proof. intros. unfold peek, of_res. now rewrite H. Qed.
Definition at_token (m : bool) (s : state) (k : token) (r : text) : state := St r (Some (k, is_terminal line (pos s) k)) (ctx s) (stack s).
Lemma consume_some : forall m s k r, next_token m (pos s) = Ok (Some (k, r)) -> consume m s = (Done (Some k), at_token m s k r).
Proof. intros. unfold Tab.consume. erewrite mbind_done by (apply peek_ok; eauto). reflexivity. Qed.
Lemma accept_some : forall m w s k r, Reads m (pos s) k r -> w k = true -> accept m w s = (Done (Some k), at_token m s k r).
Proof.
  intros m w s k r R W. unfold Tab.accept. erewrite mbind_done by (apply peek_ok; exact R). cbv beta iota. rewrite W.
  now apply consume_some.
Qed.
Lemma accept_tok : forall m w s k r, tok1 m w (pos s) = Ok (Some (k, r)) -> accept m w s = (Done (Some k), at_token m s k r).
Proof. intros m w s k r H. apply tok1_some in H as [R W]. now apply accept_some. Qed.
Lemma accept_none : forall m w s, tok1 m w (pos s) = Ok None -> accept m w s = (Done None, s).
Proof.
  intros m w s H. apply tok1_none in H as [N|(k & r & R & W)]; unfold Tab.accept.
  - erewrite mbind_done by (apply peek_ok; exact N). reflexivity.
  - erewrite mbind_done by (apply peek_ok; exact R). cbv beta iota. now rewrite W.
Qed.
Lemma peek2_ok : forall a b s x, look2 a b (pos s) = Ok x -> peek2 a b s = (Done x, s).
Proof.
  intros a b s x H. unfold look2 in H. unfold peek2. destruct (next_token false (pos s)) as [[[k r]|]| | |]; cbn in H; try discriminate; [|congruence].
  destruct (next_token false r) as [[[k' r']|]| | |]; cbn in H; try discriminate; congruence.
Qed.
Lemma accept2_false : forall a b s, look2 a b (pos s) = Ok false -> accept2 a b s = (Done false, s).
Proof. intros. unfold Tab.accept2. erewrite mbind_done by (apply peek2_ok; eauto). reflexivity. Qed.
Lemma accept2_true : forall a b s, look2 a b (pos s) = Ok true -> exists k r k' r', Reads false (pos s) k r /\ a k = true /\
  Reads false r k' r' /\ b k' = true /\ accept2 a b s = (Done true, at_token false s k r).
Proof.
  intros a b s H. pose proof H as L. apply look2_true in L as (k & r & k' & r' & R & A & R' & B). exists k, r, k', r'. repeat split; auto.
  unfold Tab.accept2. erewrite mbind_done by (apply peek2_ok; eauto). cbv beta iota.
  erewrite mbind_done by (apply consume_some; exact R). reflexivity.
Qed.

Lemma variables_ok : forall f k t vs r, vars_loop f k t = Ok (vs, r) -> forall s b, cur s = Some (k, b) -> pos s = t ->
  exists s', variables f s = (Done vs, s') /\ pos s' = r /\ ctx s' = ctx s /\ stack s' = stack s.
Proof.
  induction f as [|f IH]; intros k t vs r H s b C P; [discriminate|]. cbn [vars_loop] in H. cbn [Tab.variables]. rewrite C.
  destruct (is_word k).
  - apply bind_ok in H as ([[c t1]|] & E & H).
    + apply bind_ok in H as ([[w t2]|] & W & H); [|discriminate]. apply bind_ok in H as ((vs' & t3) & V & H). injection H as <- <-.
      subst t. erewrite mbind_done by (apply accept_tok; exact E). cbv beta iota.
      erewrite mbind_done by (apply accept_tok; exact W). cbn [is_some].
      destruct (IH _ _ _ _ V (at_token false (at_token false s c t1) w t2) _ eq_refl eq_refl) as (s' & X & P' & C' & S').
      exists s'. erewrite mbind_done by exact X. repeat split; auto.
    + apply bind_ok in H as ([[w t2]|] & W & H); [|discriminate]. apply bind_ok in H as ((vs' & t3) & V & H). injection H as <- <-.
      subst t. erewrite mbind_done by (apply accept_none; exact E). cbv beta iota.
      erewrite mbind_done by (apply consume_some; exact W).
      destruct (IH _ _ _ _ V (at_token false s w t2) _ eq_refl eq_refl) as (s' & X & P' & C' & S').
      exists s'. erewrite mbind_done by exact X. repeat split; auto.
  - destruct (is_colon k); [|discriminate]. injection H as <- <-. exists s. auto.
Qed.

Lemma redirection_ok : forall ops t ops' r, redirected ops t = Ok (ops', r) -> forall s, pos s = t ->
  exists s', redirection ops s = (Done ops', s') /\ pos s' = r /\ stack s' = stack s.
Proof.
  intros ops t ops' r H s P. unfold redirected in H. apply bind_ok in H as ([|] & L & H); subst t; unfold Tab.redirection.
  - destruct (accept2_true _ _ _ L) as (gt & t1 & target & t2 & R & G & R' & W & X). erewrite mbind_done by exact X. cbv beta iota.
    unfold Reads in R, R'. rewrite R in H. cbn [bind] in H. rewrite R' in H. cbn [bind] in H. injection H as <- <-.
    cbn [cur at_token]. erewrite mbind_done by (apply consume_some; exact R'). eexists; repeat split.
  - injection H as <- <-. erewrite mbind_done by (apply accept2_false; exact L). exists s. auto.
Qed.

Lemma create_ok : forall ops s, Forall able_call ops -> create_all creates ops s = (Done tt, s).
Proof. intros ops s H. induction H as [|c cs A H IH]; [reflexivity|]. destruct A as [o l C _]. cbn [create_all]. now rewrite C. Qed.

Lemma op_ops : forall ops t ops' r, redirected ops t = Ok (ops', r) -> forall (P : call -> Prop), Forall P ops' -> Forall P ops.
Proof.
  intros ops t ops' r H P F. apply redirected_ok in H as [(-> & _)|(w & _ & ->)]; auto. apply Forall_app in F. tauto.
Qed.

Lemma simulation : forall f,
  (forall t ps ops r, pipeline f t = Ok (ps, ops, r) -> Forall able_call ops -> (exists k r', Reads false r k r') ->
     forall s, pos s = t -> exists s', tab_pipeline f s = (Done (ps, ops), s') /\ pos s' = r /\ stack s' = stack s) /\
  (forall t ops r, op_sequence f t = Ok (ops, r) -> Forall able_args ops -> forall s x l, pos s = t -> stack s = x :: l ->
     exists s' y, tab_op_sequence f s = (Done ops, s') /\ pos s' = r /\ stack s' = y :: l) /\
  (forall m t l r, arguments f m t = Ok (l, r) -> Forall able_arg l -> forall s, pos s = t ->
     exists s', tab_arguments f m s = (Done l, s') /\ pos s' = r /\ stack s' = stack s) /\
  (forall m t x, argument f m t = Ok x -> (forall a r, x = Some (a, r) -> able_arg a) -> forall s, pos s = t ->
     exists s', tab_argument f m s = (Done (option_map fst x), s') /\ pos s' = match x with Some (_, r) => r | None => t end /\ stack s' = stack s).
Proof.
  induction f as [|f (IP & IS & IAS & IA)]; [repeat split; intros; discriminate|]. repeat split.
  - intros t ps ops r H AB (ke & re & RE) s P.
    change (pipeline (S f) t) with (pipeline_body (op_sequence f) t) in H.
    change (tab_pipeline (S f) s) with (tab_pipeline_body line creates (tab_op_sequence f) s).
    unfold pipeline_body in H. unfold tab_pipeline_body, tracked.
    set (s0 := St (pos s) (cur s) OP (None :: stack s)).
    enough (exists s' y, (let! c1 <- accept2 is_word is_comma;
       let! c2 <- (if c1 : bool then ret true else accept2 is_word is_colon);
       let! params <- (if c2 : bool then variables (S (length (pos s0))) else ret []);
       let! ops <- redirected_pipeline line (tab_op_sequence f);
       let! _ <- create_all creates ops;
       ret (params, ops)) s0 = (Done (ps, ops), s') /\ pos s' = r /\ stack s' = y :: stack s) as (s' & y & E & P' & S').
    { rewrite E, P'. unfold Reads in RE. rewrite RE. eexists; split; [reflexivity|]. cbn [pos stack]. rewrite S'. auto. }
    apply bind_ok in H as (c1 & C1 & H). apply bind_ok in H as (c2 & C2 & H). apply bind_ok in H as ((params & t1) & V & H).
    apply bind_ok in H as ((ops' & t2) & B & H). apply bind_ok in H as (x & N & H). injection H as <- <- <-.
    assert (VS : exists s1 y, (let! c1 <- accept2 is_word is_comma;
       let! c2 <- (if c1 : bool then ret true else accept2 is_word is_colon);
       (if c2 : bool then variables (S (length (pos s0))) else ret [])) s0 = (Done params, s1) /\ pos s1 = t1 /\ stack s1 = y :: stack s).
    { assert (P0 : pos s0 = t) by exact P.
      assert (VV : forall k r1, Reads false t k r1 -> vars t = Ok (params, t1) -> forall s', s' = at_token false s0 k r1 ->
         exists s1, variables (S (length (pos s0))) s' = (Done params, s1) /\ pos s1 = t1 /\ stack s1 = None :: stack s).
      { intros k r1 R VT s' ->. unfold vars in VT. unfold Reads in R. rewrite R in VT. cbn [bind] in VT. rewrite P0.
        destruct (variables_ok _ _ _ _ _ VT (at_token false s0 k r1) _ eq_refl eq_refl) as (s1 & X & PX & _ & SX). exists s1. auto. }
      destruct c1.
      - injection C2 as <-. rewrite <- P0 in C1. destruct (accept2_true _ _ _ C1) as (k & r1 & k' & r' & R & _ & _ & _ & X).
        erewrite mbind_done by exact X. cbv beta iota. erewrite mbind_done by reflexivity. cbv beta iota.
        rewrite P0 in R. destruct (VV _ _ R V _ eq_refl) as (s1 & X1 & PX & SX). exists s1, None. auto.
      - rewrite <- P0 in C1. erewrite mbind_done by (apply accept2_false; exact C1). cbv beta iota. destruct c2.
        + rewrite <- P0 in C2. destruct (accept2_true _ _ _ C2) as (k & r1 & k' & r' & R & _ & _ & _ & X).
          erewrite mbind_done by exact X. cbv beta iota.
          rewrite P0 in R. destruct (VV _ _ R V _ eq_refl) as (s1 & X1 & PX & SX). exists s1, None. auto.
        + injection V as <- <-. rewrite <- P0 in C2. erewrite mbind_done by (apply accept2_false; exact C2). exists s0, None. auto. }
    destruct VS as (s1 & y & VS & P1 & S1).
    assert (BS : exists s2 z, redirected_pipeline line (tab_op_sequence f) s1 = (Done ops', s2) /\ pos s2 = t2 /\ stack s2 = z :: stack s).
    { assert (AW : Forall able_args ops') by (eapply Forall_impl; [|exact AB]; exact able_weak).
      clear - IS B AW P1 S1. unfold pipeline_ops in B. apply bind_ok in B as ([|] & L & B); unfold redirected_pipeline.
      - rewrite <- P1 in L. destruct (accept2_true _ _ _ L) as (src & r1 & lt & r2 & R & W & R' & LT & X).
        erewrite mbind_done by exact X. cbv beta iota. unfold Reads in R, R'. rewrite P1 in R. rewrite R in B. cbn [bind] in B.
        rewrite R' in B. cbn [bind] in B. erewrite mbind_done by reflexivity. cbn [cur at_token set_ctx].
        erewrite mbind_done by (apply consume_some; exact R'). cbv beta iota.
        apply bind_ok in B as ([[gt t3]|] & G & B).
        + apply bind_ok in B as ([[tg t4]|] & T & B); [|discriminate]. injection B as <- <-.
          erewrite mbind_done by (apply accept_tok; exact G). cbv beta iota.
          erewrite mbind_done by (apply accept_tok; exact T). cbv beta iota. eexists; eexists; repeat split. cbn. exact S1.
        + erewrite mbind_done by (apply accept_none; exact G). cbv beta iota. apply bind_ok in B as ([|] & E & B).
          * injection B as <- <-. erewrite mbind_done by (unfold of_res; cbn [pos at_token]; rewrite E; reflexivity). cbv beta iota.
            eexists; eexists; repeat split. cbn. exact S1.
          * apply bind_ok in B as ((ops & t3) & O & B). erewrite mbind_done by (unfold of_res; cbn [pos at_token]; rewrite E; reflexivity).
            cbv beta iota. pose proof (op_ops _ _ _ _ B _ AW) as AO. inversion AO; subst.
            match goal with |- context [mbind (Tab.tab_op_sequence _ _ _ f) _ ?S] => destruct (IS _ _ _ O H2 S y (stack s) eq_refl S1) as (s3 & z & X3 & P3 & S3) end.
            erewrite mbind_done by exact X3. destruct (redirection_ok _ _ _ _ B s3 P3) as (s4 & X4 & P4 & S4).
            exists s4, z. rewrite X4. repeat split; congruence.
      - rewrite <- P1 in L. erewrite mbind_done by (apply accept2_false; exact L). cbv beta iota.
        apply bind_ok in B as ([|] & L2 & B).
        + rewrite <- P1 in L2. destruct (accept2_true _ _ _ L2) as (gt & r1 & tg & r2 & R & W & R' & LT & X).
          erewrite mbind_done by exact X. cbv beta iota. erewrite mbind_done by reflexivity. cbn [cur at_token set_ctx].
          erewrite mbind_done by (apply accept_some; [exact R'|exact LT]). cbv beta iota.
          unfold redirected in B. rewrite P1 in L2. rewrite L2 in B. cbn [bind] in B. unfold Reads in R, R'. rewrite P1 in R. rewrite R in B. cbn [bind] in B.
          rewrite R' in B. cbn [bind] in B. injection B as <- <-. eexists; eexists; repeat split. cbn. exact S1.
        + rewrite <- P1 in L2. erewrite mbind_done by (apply accept2_false; exact L2). cbv beta iota.
          apply bind_ok in B as ((ops & t3) & O & B). pose proof (op_ops _ _ _ _ B _ AW) as AO.
          destruct (IS _ _ _ O AO s1 y (stack s)) as (s3 & z & X3 & P3 & S3); auto.
          erewrite mbind_done by exact X3. destruct (redirection_ok _ _ _ _ B s3 P3) as (s4 & X4 & P4 & S4).
          exists s4, z. rewrite X4. repeat split; congruence. }
    destruct BS as (s2 & z & BS & P2 & S2). exists s2, z. split; [|auto].
    clear - VS BS AB. apply mbind_inv in VS as (c & s3 & E1 & VS). apply mbind_inv in VS as (c2 & s4 & E2 & VS).
    erewrite mbind_done by exact E1. erewrite mbind_done by exact E2.
    erewrite mbind_done by exact VS. erewrite mbind_done by exact BS. erewrite mbind_done by (now apply create_ok). reflexivity.
  - intros t ops r H AW s x l P S.
    change (op_sequence (Datatypes.S f) t) with (sequence_body shell_args (arguments f) (op_sequence f) t) in H.
    change (tab_op_sequence (Datatypes.S f) s) with (tab_sequence_body line shell_args (tab_arguments f) (tab_op_sequence f) s).
    unfold sequence_body in H. apply bind_ok in H as ((c & t1) & O & H). apply bind_ok in H as (p & PI & H).
    assert (AC : able_args c).
    { destruct p as [[p t2]|]; [apply bind_ok in H as ((cs & t3) & Q & H)|]; injection H as <- <-; now inversion AW. }
    assert (OA : exists s1 y, tab_op_args line shell_args (tab_arguments f) s = (Done c, s1) /\ pos s1 = t1 /\ stack s1 = y :: l).
    { clear - O AC P S IAS. unfold op_args in O. apply bind_ok in O as (e & E & O). unfold tab_op_args. subst t. destruct e as [[k t2]|].
      - injection O as <- <-. erewrite mbind_done by (apply accept_tok; exact E). cbv beta iota. erewrite mbind_done by reflexivity.
        eexists; eexists; repeat split. cbn. rewrite S. reflexivity.
      - apply bind_ok in O as ([[k t2]|] & W & O); [|discriminate]. apply bind_ok in O as ((args & t3) & A & O). injection O as <- <-.
        erewrite mbind_done by (apply accept_none; exact E). cbv beta iota. erewrite mbind_done by reflexivity.
        erewrite mbind_done by (apply accept_tok; exact W). cbv beta iota.
        match goal with |- context [mbind (Tab.tab_arguments _ _ _ f _) _ ?S] => destruct (IAS _ _ _ _ A AC S eq_refl) as (s3 & X & P3 & S3) end. erewrite mbind_done by exact X.
        erewrite mbind_done by reflexivity. eexists; eexists; split; [reflexivity|]. cbn. rewrite S3. cbn. rewrite S. auto. }
    destruct OA as (s1 & y & OA & P1 & S1). unfold tab_sequence_body. erewrite mbind_done by exact OA.
    destruct p as [[p t2]|].
    + apply bind_ok in H as ((cs & t3) & Q & H). injection H as <- <-. rewrite <- P1 in PI. erewrite mbind_done by (apply accept_tok; exact PI).
      cbn [is_some]. inversion AW; subst.
      match goal with HF : Forall able_args cs |- context [mbind (Tab.tab_op_sequence _ _ _ f) _ ?S] => destruct (IS _ _ _ Q HF S y l eq_refl S1) as (s3 & z & X3 & P3 & S3) end.
      erewrite mbind_done by exact X3. exists s3, z. auto.
    + injection H as <- <-. rewrite <- P1 in PI. erewrite mbind_done by (apply accept_none; exact PI). cbn [is_some]. exists s1, y. auto.
  - intros m t l r H AB s P.
    change (arguments (Datatypes.S f) m t) with (arguments_body (argument f) (arguments f) m t) in H.
    change (tab_arguments (Datatypes.S f) m s) with (tab_arguments_body (tab_argument f) (tab_arguments f) m s).
    unfold arguments_body in H. apply bind_ok in H as (x & A & H). unfold tab_arguments_body. destruct x as [[a t1]|].
    + apply bind_ok in H as ((l' & t2) & L & H). injection H as <- <-. inversion AB; subst.
      destruct (IA _ _ _ A) with (s := s) as (s1 & X1 & P1 & S1); [intros ? ? [= <- <-]; assumption|reflexivity|]. erewrite mbind_done by exact X1. cbn [option_map fst].
      destruct (IAS _ _ _ _ L ltac:(assumption) s1 P1) as (s2 & X2 & P2 & S2). erewrite mbind_done by exact X2. exists s2. repeat split; congruence.
    + injection H as <- <-. destruct (IA _ _ _ A) with (s := s) as (s1 & X1 & P1 & S1); [discriminate|exact P|]. erewrite mbind_done by exact X1. exists s1. auto.
  - intros m t x H AB s P.
    change (argument (Datatypes.S f) m t) with (argument_body (pipeline f) m t) in H.
    change (tab_argument (Datatypes.S f) m s) with (tab_argument_body line (tab_pipeline f) m s).
    unfold argument_body in H. apply bind_ok in H as (b & B & H). unfold tab_argument_body.
    assert (N : exists y, next_token m t = Ok y).
    { destruct m; cbn in B.
      - injection B as <-. apply bind_ok in H as (y & Y & _). unfold tok1 in Y. apply bind_ok in Y as (z & Z & _). eauto.
      - unfold tok1 in B. apply bind_ok in B as (z & Z & _). eauto. }
    assert (SC : exists s1, set_context line m s = (Done tt, s1) /\ pos s1 = t /\ stack s1 = stack s).
    { destruct N as (y & N). subst t. unfold set_context. erewrite mbind_done by (apply peek_ok; exact N). destruct y as [[k r]|].
      - destruct (tkind k); eexists; repeat split.
      - destruct (last_blank line); eexists; repeat split. }
    destruct SC as (s1 & SC & P1 & S1). erewrite mbind_done by exact SC. destruct b as [[b t1]|].
    + destruct m; [discriminate|]. rewrite <- P1 in B. erewrite mbind_done by (apply accept_tok; exact B). cbv beta iota.
      apply bind_ok in H as (((ps & ops) & t2) & PP & H). apply bind_ok in H as ([[e t3]|] & E & H); [|discriminate]. injection H as <-.
      pose proof (AB _ _ eq_refl) as AA. inversion AA; subst.
      assert (MO : exists k r', Reads false t2 k r') by (apply tok1_some in E as [E' _]; eauto).
      match goal with HF : Forall able_call ops |- context [mbind (Tab.tab_pipeline _ _ _ f) _ ?S] =>
        destruct (IP _ _ _ _ PP HF MO S eq_refl) as (s2 & X2 & P2 & S2) end.
      erewrite mbind_done by exact X2. cbv beta iota. rewrite <- P2 in E. erewrite mbind_done by (apply accept_tok; exact E). cbn [is_some].
      eexists; split; [rewrite P2; reflexivity|split; [reflexivity|cbn; rewrite S2; cbn; congruence]].
    + assert (AN : (if m then ret None else accept m is_begin) s1 = (Done None, s1)).
      { destruct m; [reflexivity|]. rewrite <- P1 in B. now apply accept_none. }
      erewrite mbind_done by exact AN. cbv beta iota. apply bind_ok in H as (k & K & H). rewrite <- P1 in K. destruct k as [[k t1]|].
      * destruct (missing_quote k) eqn:Q; [discriminate|]. injection H as <-. erewrite mbind_done by (apply accept_tok; exact K). cbv beta iota.
        rewrite Q. eexists; repeat split. cbn. congruence.
      * injection H as <-. erewrite mbind_done by (apply accept_none; exact K). exists s1. auto.
Qed.
End Facts.
