(** Compiling again the text kept for a pipeline or a function.
    The text of a pipeline, nestednamespace.py:197-207 [CompilablePipeline], is that of PipelineSourceTracker
    (parser.py:990-997), here [strip (taken t1 t2)] in Parser.v; it is compiled by [parse_pipeline].
    The text of a function, nestednamespace.py:112-123 [EnvValue.wrap], is the Python expression built for the assignment
    (parser.py:361-372, [FunArgs.compiled _ true]) between parentheses; nestednamespace.py:187-195
    [CompilableFunction.reconstitute] compiles it with parse_function (parser.py:1026-1029), that is as an
    expression that is not being assigned, and calls the result, as the assignment did. *)
From Verif.Syntax Require Import LexerFacts ParserSpec ParserFacts ParserSound ParserComplete ParserModes ParserCut FunArgs.
Local Open Scope char_scope.
Local Open Scope list_scope.

(** nestednamespace.py:123 f'({source})', 189 parse_function: the tokens of the Python expression evaluated by
    [reconstitute], given those of the expression kept. It does not start with a blank (see [compiled]). *)
Definition kept (s : source) : source := Source false (compiled s true).
Definition recompiled (s : source) : list ptok := compiled (kept s) false.

(** ** Blanks at the start do not matter *)
Section Skip.
Variable shell_args : text -> bool.
Notation Pipeline := (Pipeline shell_args true clear).
Notation OpSequence := (OpSequence shell_args true clear).
Notation OpArgs := (OpArgs shell_args true clear).
Notation Body := (Body shell_args true clear).

Lemma reads_skip : forall m t k r, Reads m t k r -> Reads m (skip_ws t) k r.
Proof. intros m t k r H. unfold Reads in *. now rewrite next_skip. Qed.
Lemma vars_skip : forall t vs r, Vars true t vs r -> Vars true (skip_ws t) vs r.
Proof. intros t vs r H. inv H; [eapply VLast|eapply VMore|eapply VLax]; eauto using reads_skip. Qed.
Lemma opargs_skip : forall t c r, OpArgs t c r -> OpArgs (skip_ws t) c r.
Proof. intros t c r H. inv H; econstructor; eauto using reads_skip. Qed.
Lemma sequence_skip : forall t c r, OpSequence t c r -> OpSequence (skip_ws t) c r.
Proof. intros t c r H. inv H; [eapply SeqOne|eapply SeqMore]; eauto using opargs_skip. Qed.
Lemma redirect_skip : forall t c r, Redirect t c r -> Redirect (skip_ws t) c r.
Proof. intros t c r H. inv H; econstructor; eauto using reads_skip. Qed.
Lemma clear_skip : forall p t, clear p t -> clear p (skip_ws t).
Proof. intros p t H k r R W. unfold Reads in R. rewrite next_skip in R. eauto. Qed.
Lemma body_skip : forall p t ops r, Body p t ops r -> Body p (skip_ws t) ops r.
Proof.
  intros p t ops r H. inv H; [eapply BSeq|eapply BSeqGt|eapply BGt|eapply BLt|eapply BLtGt|eapply BLtSeq|eapply BLtSeqGt];
    eauto using reads_skip, sequence_skip, redirect_skip, clear_skip.
Qed.
Lemma pipeline_skip : forall t ps ops r, Pipeline t ps ops r -> Pipeline (skip_ws t) ps ops r.
Proof.
  intros t ps ops r H. inv H. inv H0.
  - econstructor; [constructor|]. now apply body_skip.
  - econstructor; [|eassumption]. eapply PSome; eauto using reads_skip, vars_skip.
Qed.

(** ** What is left is the end of the text *)
Definition tail_of (r t : text) : Prop := exists p, t = p ++ r.
Lemma tail_refl : forall t, tail_of t t.
Proof. intros t. now exists []. Qed.
Lemma tail_trans : forall a b c, tail_of a b -> tail_of b c -> tail_of a c.
Proof. intros a b c [p ->] [q ->]. exists (q ++ p). now rewrite app_assoc. Qed.
Lemma reads_tail : forall m t k r, Reads m t k r -> tail_of r t.
Proof.
  intros m t k r H. apply next_token_ok in H as (x & y & _ & _ & -> & _). exists (x ++ raw k ++ y). now rewrite <- !app_assoc.
Qed.
Lemma vars_tail : forall t vs r, Vars true t vs r -> tail_of r t.
Proof. induction 1; eauto using tail_trans, reads_tail. Qed.
Lemma params_tail : forall t vs r, Params true t vs r -> tail_of r t.
Proof. destruct 1; eauto using tail_refl, vars_tail. Qed.
Lemma redirect_tail : forall t c r, Redirect t c r -> tail_of r t.
Proof. destruct 1. eauto using tail_trans, reads_tail. Qed.
Lemma tails :
  (forall m t a r, Arg shell_args true clear m t a r -> tail_of r t) /\
  (forall m t l r, Args shell_args true clear m t l r -> tail_of r t) /\
  (forall t c r, OpArgs t c r -> tail_of r t) /\
  (forall t ops r, OpSequence t ops r -> tail_of r t) /\
  (forall t ps ops r, Pipeline t ps ops r -> tail_of r t) /\
  (forall p t ops r, Body p t ops r -> tail_of r t).
Proof.
  apply grammar_ind; intros;
    repeat match goal with
    | H : Reads _ _ _ _ |- _ => apply reads_tail in H
    | H : Params _ _ _ _ |- _ => apply params_tail in H
    | H : Redirect _ _ _ |- _ => apply redirect_tail in H
    end; eauto 6 using tail_refl, tail_trans.
Qed.

Lemma pipeline_consumes : forall t ps ops r, Pipeline t ps ops r -> length r < length t.
Proof.
  intros t ps ops r H. inv H. apply params_shorter in H0.
  enough (length r < length t1) by lia. inv H1;
  repeat match goal with
  | H : Reads _ _ _ _ |- _ => apply reads_shorter in H
  | H : Redirect _ _ _ |- _ => apply redirect_shorter in H
  | H : ParserSpec.OpSequence _ _ _ _ _ _ |- _ => apply (proj1 (proj2 (proj2 (proj2 (shorter _))))) in H
  end; lia.
Qed.

Lemma drop_skip : forall t, drop_ws t = skip_ws t.
Proof. induction t as [|c t IH]; [reflexivity|]. cbn [drop_ws skip_ws]. now rewrite IH. Qed.

Lemma strip_parts : forall t, exists a b, blank a /\ blank b /\ t = a ++ strip t ++ b /\
  (forall c u, strip t = c :: u -> isspace c = false) /\ (forall c u, strip t = u ++ [c] -> isspace c = false).
Proof.
  intros t. unfold strip. repeat setoid_rewrite drop_skip. destruct (skip_ws_spec t) as (a & A & T).
  destruct (skip_ws_spec (rev (skip_ws t))) as (b & B & U).
  assert (V : skip_ws t = rev (skip_ws (rev (skip_ws t))) ++ rev b).
  { rewrite <- rev_app_distr. rewrite <- U. now rewrite rev_involutive. }
  exists a, (rev b). split; auto. split; [now apply Forall_rev|]. split; [idtac|]. { rewrite <- V. exact T. } split.
  - intros c u H. rewrite H in V. cbn in V. apply (skip_ws_head t) in V. exact V.
  - intros c u H. apply (f_equal (@rev ascii)) in H. rewrite rev_involutive, rev_app_distr in H. cbn in H.
    apply (skip_ws_head (rev (skip_ws t))) in H. exact H.
Qed.

(** The text kept for a pipeline, compiled again *)
Lemma arg_again : forall t ps ops src r, Arg shell_args true clear false t (APipe ps ops src) r ->
  (forall u c, src = u ++ [c] -> c <> bslash /\ c <> "(") ->
  pipeline shell_args (enough src) src = Ok (ps, ops, []).
Proof.
  intros t ps ops src r H N. inversion H as [|? b t1 ? ? t2 e ? RB HB P RE HE]; subst.
  assert (EE : exists w2 z, blank w2 /\ t2 = w2 ++ "|" :: ")" :: z).
  { apply next_token_ok in RE as (w2 & w3 & B2 & B3 & -> & _ & [F|(ks & _ & _ & _ & _ & s & lost & KS & _)]).
    - exists w2, (w3 ++ r). split; auto. unfold faithful in F. unfold is_end in HE. destruct (tkind e); try discriminate. now rewrite F.
    - unfold is_end in HE. rewrite KS in HE. discriminate. }
  destruct EE as (w2 & z & B2 & ->).
  destruct (proj1 (proj2 (proj2 (proj2 (proj2 tails)))) _ _ _ _ P) as [u U].
  rewrite U in *. rewrite taken_app in *. clear U t1 H RB.
  destruct (strip_parts u) as (a & b' & A & B' & U & HD & TL). set (s := strip u) in *.
  set (w := b' ++ w2). assert (BW : blank w) by (apply Forall_app; auto).
  assert (T1 : u ++ w2 ++ "|" :: ")" :: z = (a ++ s) ++ w ++ "|" :: ")" :: z).
  { rewrite U. unfold w. now rewrite <- !app_assoc. }
  rewrite T1 in P.
  assert (SAFE : safe z (w2 ++ "|" :: ")" :: z)) by (unfold safe; rewrite app_length; lia).
  assert (FOL : follow z (w2 ++ "|" :: ")" :: z)) by (left; eauto).
  destruct s as [|c0 s0] eqn:ES.
  { exfalso. destruct (proj1 (proj2 (proj2 (proj2 (proj2 (cut w z BW shell_args))))) _ _ _ _ P SAFE FOL []) as (r' & P' & _).
    - right. split; auto. exists (a ++ w). rewrite app_nil_r. split; [apply Forall_app; auto|now rewrite <- app_assoc].
    - now left.
    - apply pipeline_consumes in P'. cbn in P'. lia. }
  assert (OK : ok_end w (a ++ c0 :: s0)).
  { right. destruct (exists_last (l := c0 :: s0)) as (v & c & V); [discriminate|]. exists (a ++ v), c.
    rewrite V, app_assoc. split; auto. split; [eapply TL; exact V|]. destruct (N _ _ V). auto. }
  destruct (proj1 (proj2 (proj2 (proj2 (proj2 (cut w z BW shell_args))))) _ _ _ _ P SAFE FOL (a ++ c0 :: s0)) as (r' & P' & HC & _).
  - now left.
  - exact OK.
  - assert (R0 : r' = []).
    { destruct HC as [HC|[HC _]]; auto. apply (f_equal (@length ascii)) in HC. unfold w in HC. rewrite !app_length in HC.
      destruct r'; auto. cbn in HC. lia. }
    subst r'. apply pipeline_skip in P'.
    assert (SK : skip_ws (a ++ c0 :: s0) = c0 :: s0).
    { clear - A HD. induction A as [|x l S A IH]; cbn [app skip_ws]; [now rewrite (HD c0 s0 eq_refl)|now rewrite S]. }
    rewrite SK in P'. eapply pipeline_complete; eauto.
    left. reflexivity.
Qed.
End Skip.

(** ** Expressions, without what follows them and with something in front *)
Definition next_like (z' z : text) : Prop := z' = [] \/ hd_error z' = hd_error z.

Lemma pstr_shorter : forall q tr t r, pstr q tr t = Ok r -> length r < length t.
Proof.
  intros q tr t. remember (length t) as n eqn:L. revert t L.
  induction n as [n IH] using lt_wf_ind; intros t L r H; subst n.
  destruct t as [|c t]; [discriminate|]. cbn [pstr] in H.
  assert (G : forall x, length x < length (c :: t) -> pstr q tr x = Ok r -> length r < length (c :: t)).
  { intros x LX HX. pose proof (IH (length x) LX x eq_refl r HX). lia. }
  destruct (is_quote c).
  - destruct (c =? q); [|eapply G; eauto; cbn; lia]. destruct tr; [|inv H; cbn; lia].
    destruct t as [|a [|b t]]; try (eapply G; [|exact H]; cbn; lia).
    destruct ((a =? q) && (b =? q))%bool; [inv H; cbn; lia|eapply G; [|exact H]; cbn; lia].
  - destruct (c =? bslash); [|eapply G; eauto; cbn; lia]. destruct t as [|a t]; [discriminate|]. eapply G; eauto. cbn; lia.
Qed.
Lemma pstr_triple : forall q t r, pstr q true t = Ok r -> length r + 3 <= length t.
Proof.
  intros q t. remember (length t) as n eqn:L. revert t L.
  induction n as [n IH] using lt_wf_ind; intros t L r H; subst n.
  destruct t as [|c t]; [discriminate|]. cbn [pstr] in H.
  assert (G : forall x, length x < length (c :: t) -> pstr q true x = Ok r -> length r + 3 <= length (c :: t)).
  { intros x LX HX. pose proof (IH (length x) LX x eq_refl r HX). lia. }
  destruct (is_quote c).
  - destruct (c =? q); [|eapply G; eauto; cbn; lia].
    destruct t as [|a [|b t]]; try (eapply G; [|exact H]; cbn; lia).
    destruct ((a =? q) && (b =? q))%bool; [inv H; cbn; lia|eapply G; [|exact H]; cbn; lia].
  - destruct (c =? bslash); [|eapply G; eauto; cbn; lia]. destruct t as [|a t]; [discriminate|]. eapply G; eauto. cbn; lia.
Qed.

Lemma pstr_else : forall q tr n y z, length y <= n -> pstr q tr (y ++ z) = Ok z -> forall z', pstr q tr (y ++ z') = Ok z'.
Proof.
  intros q tr n. induction n as [|n IH]; intros y z L H z'.
  - destruct y; [|cbn in L; lia]. apply pstr_shorter in H. cbn in H. lia.
  - destruct y as [|c y]; [apply pstr_shorter in H; cbn in H; lia|]. cbn in L. cbn [app pstr] in *.
    destruct (is_quote c).
    + destruct (c =? q); [|eapply IH; eauto; lia]. destruct tr.
      * destruct y as [|a [|b y]].
        -- exfalso. cbn [app] in H. destruct z as [|z0 [|z1 z]].
           ++ discriminate.
           ++ apply pstr_shorter in H. cbn in H. lia.
           ++ destruct ((z0 =? q) && (z1 =? q))%bool; [|apply pstr_shorter in H; cbn in H; lia]. inv H. apply (f_equal (@length ascii)) in H1. cbn in H1. lia.
        -- exfalso. cbn [app] in H. destruct z as [|z0 z].
           ++ apply pstr_triple in H. cbn in H. lia.
           ++ destruct ((a =? q) && (z0 =? q))%bool.
              ** inv H. apply (f_equal (@length ascii)) in H1. cbn in H1. lia.
              ** apply pstr_triple in H. cbn in H. lia.
        -- cbn [app] in *. destruct ((a =? q) && (b =? q))%bool.
           ++ inv H. enough (y = []) by (subst y; reflexivity). apply (f_equal (@length ascii)) in H1. rewrite app_length in H1.
              destruct y; auto. cbn in H1. lia.
           ++ change (a :: b :: y ++ z) with ((a :: b :: y) ++ z) in H. change (a :: b :: y ++ z') with ((a :: b :: y) ++ z').
              eapply IH; eauto. lia.
      * inv H. enough (y = []) by (subst y; reflexivity). apply (f_equal (@length ascii)) in H1. rewrite app_length in H1.
        destruct y; auto. cbn in H1. lia.
    + destruct (c =? bslash); [|eapply IH; eauto; lia]. destruct y as [|a y].
      * cbn [app] in H. destruct z as [|z0 z]; [discriminate|]. apply pstr_shorter in H. cbn in H. lia.
      * cbn [app] in *. eapply IH; eauto. cbn in L. lia.
Qed.

Lemma pstr_tail : forall q tr t r, pstr q tr t = Ok r -> exists y, t = y ++ r /\ y <> [].
Proof.
  intros q tr t. remember (length t) as n eqn:L. revert t L.
  induction n as [n IH] using lt_wf_ind; intros t L r H; subst n.
  destruct t as [|c t]; [discriminate|]. cbn [pstr] in H.
  assert (G : forall p x, c :: t = p ++ x -> p <> [] -> pstr q tr x = Ok r -> exists y, c :: t = y ++ r /\ y <> []).
  { intros p x E NE HX. destruct (IH (length x)) with (t := x) (r := r) as (y & -> & _); auto.
    - rewrite E, app_length. destruct p; [easy|cbn; lia].
    - exists (p ++ y). rewrite E, app_assoc. split; auto. destruct p; easy. }
  destruct (is_quote c).
  - destruct (c =? q); [|eapply (G [c]); eauto; easy]. destruct tr; [|inv H; exists [c]; easy].
    destruct t as [|a [|b t]]; try (eapply (G [c]); [| |exact H]; easy).
    destruct ((a =? q) && (b =? q))%bool; [inv H; exists [c; a; b]; easy|eapply (G [c]); [| |exact H]; easy].
  - destruct (c =? bslash); [|eapply (G [c]); eauto; easy]. destruct t as [|a t]; [discriminate|]. eapply (G [c; a]); eauto; easy.
Qed.

Lemma python_string_else : forall q t z, python_string q t = Ok z ->
  exists y, t = y ++ z /\ y <> [] /\ forall z', next_like z' z -> python_string q (y ++ z') = Ok z'.
Proof.
  intros q t z H. unfold python_string in H. destruct (two_quotes q t) as [u|] eqn:TQ.
  - assert (T : t = q :: q :: u).
    { unfold two_quotes in TQ. destruct t as [|a [|b t]]; try discriminate. destruct ((a =? q) && (b =? q))%bool eqn:B; try discriminate.
      inv TQ. apply andb_true_iff in B as [A B]. apply Ascii.eqb_eq in A, B. now subst. }
    destruct (pstr_tail _ _ _ _ H) as (y & -> & NY). subst t. exists (q :: q :: y). split; auto. split; [easy|].
    intros z' _. unfold python_string. cbn [app two_quotes]. rewrite Ascii.eqb_refl. cbn [andb].
    eapply pstr_else; eauto.
  - destruct (pstr_tail _ _ _ _ H) as (y & -> & NY). exists y. split; auto. split; [auto|]. intros z' NL. unfold python_string.
    assert (TN : two_quotes q (y ++ z') = None).
    { destruct y as [|a [|b y]]; [easy| |cbn [app two_quotes] in *; destruct ((a =? q) && (b =? q))%bool; [discriminate|reflexivity]]. cbn [app] in *. destruct z' as [|c z']; [reflexivity|].
      destruct NL as [D|NL]; [discriminate|]. destruct z as [|d z]; [discriminate|]. cbn in NL. inv NL.
      cbn [two_quotes] in *. destruct ((a =? q) && (d =? q))%bool; [discriminate|reflexivity]. }
    rewrite TN. eapply pstr_else; eauto.
Qed.

Lemma escan_else : forall f n prev t rest, 0 < n -> escan f n prev t = Ok rest ->
  exists x, t = x ++ rest /\ ((x = [] /\ prev = ")" /\ rest = []) \/ exists s, x = s ++ [")"]) /\
  forall f', length x <= f' -> escan f' n prev x = Ok [].
Proof.
  induction f as [|f IH]; intros n prev t rest N H; destruct n as [|n]; try lia; cbn [escan] in H.
  - destruct t as [|c t]; [|discriminate]. destruct (prev =? ")") eqn:P; [|discriminate]. inv H.
    exists []. split; auto. split; [left; repeat split; auto; now apply Ascii.eqb_eq|]. intros f' _. destruct f'; cbn; now rewrite P.
  - destruct t as [|c t].
    { destruct (prev =? ")") eqn:P; [|discriminate]. inv H.
      exists []. split; auto. split; [left; repeat split; auto; now apply Ascii.eqb_eq|]. intros f' _. destruct f'; cbn; now rewrite P. }
    assert (G : forall c' m x0, 0 < m -> escan f m c' x0 = Ok rest -> c' <> ")" -> exists x, x0 = x ++ rest /\ (exists s, x = s ++ [")"]) /\
       forall f', length x <= f' -> escan f' m c' x = Ok []).
    { intros c' m x0 M HE NC. destruct (IH _ _ _ _ M HE) as (x & -> & [(_ & D & _)|E] & K); [easy|]. exists x. auto. }
    destruct (c =? "(") eqn:C1.
    { apply Ascii.eqb_eq in C1. subst c. destruct (G _ _ _ (Nat.lt_0_succ _) H ltac:(discriminate)) as (x & -> & (s & ->) & K).
      exists ("(" :: s ++ [")"]). split; auto. split; [right; now exists ("(" :: s)|]. intros f' L. destruct f' as [|f']; [cbn in L; lia|].
      cbn in L. cbn [escan]. change ("(" =? "(") with true. cbv iota. apply K. lia. }
    destruct (c =? ")") eqn:C2.
    { apply Ascii.eqb_eq in C2. subst c. cbn [Nat.sub] in H. rewrite Nat.sub_0_r in H. destruct n as [|n].
      - assert (R : rest = t) by (destruct f; cbn [escan] in H; now inv H). subst rest. exists [")"]. split; auto.
        split; [right; now exists []|]. intros f' L. destruct f' as [|f']; [cbn in L; lia|]. cbn. destruct f'; reflexivity.
      - destruct (IH _ _ _ _ (Nat.lt_0_succ _) H) as (x & -> & E & K). exists (")" :: x). split; auto. split.
        + right. destruct E as [(-> & _ & _)|(s & ->)]; [now exists []|now exists (")" :: s)].
        + intros f' L. destruct f' as [|f']; [cbn in L; lia|]. cbn in L. cbn [escan].
          change (")" =? "(") with false. change (")" =? ")") with true. cbv iota.
          replace (S (S n) - 1) with (S n) by lia. apply K. lia. }
    destruct (is_quote c) eqn:Q.
    { destruct (python_string c t) as [r'| | |] eqn:PS; try discriminate.
      destruct (G _ _ _ (Nat.lt_0_succ _) H) as (x & -> & (s & ->) & K). { intros ->. discriminate. }
      destruct (python_string_else _ _ _ PS) as (y & -> & NY & PY).
      exists (c :: y ++ s ++ [")"]). split; [cbn [app]; now rewrite <- !app_assoc|]. split.
      - right. exists (c :: y ++ s). cbn [app]. now rewrite <- app_assoc.
      - intros f' L. destruct f' as [|f']; [cbn in L; lia|]. cbn in L. cbn [escan]. rewrite C1, C2, Q.
        rewrite PY. + apply K. rewrite !app_length in *. lia.
        + right. rewrite <- app_assoc. destruct s; reflexivity. }
    destruct (G _ _ _ (Nat.lt_0_succ _) H) as (x & -> & (s & ->) & K). { intros ->. discriminate. }
    exists (c :: s ++ [")"]). split; auto. split; [right; now exists (c :: s)|]. intros f' L. destruct f' as [|f']; [cbn in L; lia|].
    cbn in L. cbn [escan]. rewrite C1, C2, Q. apply K. lia.
Qed.

(** A text with neither parentheses nor quotes *)
Definition plain (p : text) : Prop := forall c, In c p -> c <> "(" /\ c <> ")" /\ is_quote c = false.

Lemma escan_prev : forall f n a b x, x <> [] -> escan f n a x = escan f n b x.
Proof. intros f n a b [|c x] NE; [easy|]. destruct f, n; reflexivity. Qed.

Lemma escan_plain : forall p f n prev x, 0 < n -> x <> [] -> plain p -> length p <= f ->
  escan f n prev (p ++ x) = escan (f - length p) n prev x.
Proof.
  induction p as [|c p IH]; intros f n prev x N NE P L; [now rewrite Nat.sub_0_r|].
  destruct (P c (or_introl eq_refl)) as (A & B & Q). cbn in L. destruct f as [|f]; [lia|]. destruct n as [|n]; [lia|].
  cbn [app escan]. apply Ascii.eqb_neq in A, B. rewrite A, B, Q. rewrite IH; auto; try lia.
  - cbn. now apply escan_prev.
  - intros d I. apply P. now right.
Qed.

Lemma expression_again : forall t rest p, expression t = Ok rest -> starts ["("] t = true -> plain p ->
  expression ("(" :: p ++ expr_source t rest ++ [")"]) = Ok [].
Proof.
  intros t rest p H S P. destruct t as [|c t]; [discriminate|].
  assert (C : c = "("). { cbn [starts] in S. rewrite andb_true_r in S. now apply Ascii.eqb_eq in S. } subst c. unfold expression in H.
  destruct (escan_else _ _ _ _ _ (Nat.lt_0_succ _) H) as (x & -> & [(_ & D & _)|(s & ->)] & K); [discriminate|].
  unfold expr_source. change ("(" :: (s ++ [")"]) ++ rest) with (("(" :: s ++ [")"]) ++ rest). rewrite taken_app. cbn [tl].
  rewrite removelast_last. unfold expression. rewrite escan_plain; auto; try lia.
  - apply K. rewrite !app_length. lia.
  - destruct s; discriminate.
  - rewrite app_length. lia.
Qed.

Lemma reads_expr : forall m t k r src, Reads m t k r -> tkind k = KExpr src ->
  exists e rest, expression e = Ok rest /\ starts ["("] e = true /\ src = expr_source e rest.
Proof.
  intros m t k r src H K.
  assert (RAW : forall x k0 r0, raw_token m x = Ok (Some (k0, r0)) -> tkind k0 = KExpr src ->
    exists e rest, expression e = Ok rest /\ starts ["("] e = true /\ src = expr_source e rest).
  { intros x k0 r0 R K0. unfold raw_token in R. destruct x as [|c x]; [discriminate|]. remember (c :: x) as T.
    repeat match type of R with
    | (if ?b then symbol _ _ _ else _) = _ => destruct b; [unfold symbol in R; inv R; discriminate|]
    end.
    destruct (starts ["("] T) eqn:S.
    - destruct (expression T) as [rest| | |] eqn:E; try discriminate. injection R as <- <-. cbn in K0. inv K0. eauto.
    - repeat match type of R with
      | (if ?b then symbol _ _ _ else _) = _ => destruct b; [unfold symbol in R; inv R; discriminate|]
      | (if ?b then Err else _) = _ => destruct b; [discriminate|]
      | (if ?b then Ok None else _) = _ => destruct b; [discriminate|]
      | (if ?b then (if _ then symbol _ _ _ else symbol _ _ _) else _) = _ =>
          destruct b; [match type of R with (if ?b' then _ else _) = _ => destruct b' end; unfold symbol in R; inv R; discriminate|]
      end.
      destruct (scan_string _ None T) as [[cs rr]| | |]; try discriminate. destruct (literal cs); try discriminate.
      injection R as <- <-. discriminate. }
  unfold Reads, next_token in H.
  destruct (unconsolidated m t) as [[[[k0 adj] r1]|]| | |] eqn:E; try discriminate.
  pose proof E as E0. unfold unconsolidated in E0. destruct (raw_token m (skip_ws t)) as [[[k1 r0]|]| | |] eqn:R; try discriminate.
  injection E0 as -> _ _.
  apply unconsolidated_ok in E as (w & w' & B & B' & T & NE & F & HD & A & W0).
  destruct (gather (length r1) m [k0] (adj && consolidatable k0) r1) as [[ks r2]| | |] eqn:G; try discriminate.
  assert (KS : exists extra, ks = k0 :: extra).
  { destruct (adj && consolidatable k0)%bool eqn:AC.
    - apply andb_true_iff in AC as [-> C0]. apply gather_ok in G as (extra & w2 & -> & _); auto. cbn. eauto.
    - rewrite gather_false in G. inv G. cbn. eauto. }
  destruct KS as (extra & ->). destruct extra as [|k2 extra]; [inv H; eauto|].
  unfold consolidate in H. destruct (expression (fstring (k0 :: k2 :: extra))) as [rest| | |] eqn:EX; try discriminate.
  inv H. cbn in K. inv K. exists (fstring (k0 :: k2 :: extra)), rest. split; auto.
Qed.

Lemma function_text : forall m t k r src p, Reads m t k r -> tkind k = KExpr src -> plain p -> hd_error (p ++ src) <> Some "|" ->
  exists k', Reads false ("(" :: p ++ src ++ [")"]) k' [] /\ tkind k' = KExpr (p ++ src).
Proof.
  intros m t k r src p H K P NB. destruct (reads_expr _ _ _ _ _ H K) as (e & rest & EX & S & ->).
  pose proof (expression_again e rest p EX S P) as EA. set (s := expr_source e rest) in *.
  assert (RW : raw_token false ("(" :: p ++ s ++ [")"]) =
    Ok (Some (mktok (KExpr (p ++ s)) ("(" :: p ++ s ++ [")"]), []))).
  { unfold raw_token. cbn [negb andb].
    assert (S1 : starts ["("; "|"] ("(" :: p ++ s ++ [")"]) = false).
    { rewrite app_assoc. cbn [starts]. destruct (p ++ s) as [|c x]; [reflexivity|]. cbn [app starts]. destruct ("|" =? c) eqn:Q; [|reflexivity].
      apply Ascii.eqb_eq in Q. subst c. now exfalso. }
    rewrite S1. change (starts ["|"; ")"] ("(" :: p ++ s ++ [")"])) with false.
    change (starts ["("] ("(" :: p ++ s ++ [")"])) with true. cbv iota. rewrite EA.
    assert (TK : taken ("(" :: p ++ s ++ [")"]) [] = "(" :: p ++ s ++ [")"]).
    { rewrite <- (app_nil_r ("(" :: p ++ s ++ [")"])) at 1. apply taken_app. }
    rewrite TK. unfold expr_source at 1. rewrite TK. cbn [tl]. rewrite app_assoc, removelast_last. reflexivity. }
  eexists. split.
  - unfold Reads, next_token, unconsolidated.
    assert (SK : skip_ws ("(" :: p ++ s ++ [")"]) = "(" :: p ++ s ++ [")"]) by reflexivity.
    rewrite SK, RW. reflexivity.
  - reflexivity.
Qed.

(** ** The tokens of functions *)
Lemma floop_lambda : forall ts q f g, floop q f ts = (FEnd, g) -> explicit_lambda f = true -> explicit_lambda g = true.
Proof.
  induction ts as [|t ts IH]; intros q f g H E; [now inv H|]. cbn [floop] in H.
  assert (T : explicit_lambda (snd (ftrans q (fsym_of t) f)) = true).
  { destruct q, (fsym_of t); cbn; auto. }
  destruct (ftrans q (fsym_of t) f) as [q' f']. cbn in T. destruct (fterminal q'); [now inv H|]. eauto.
Qed.

Lemma recompiled_same : forall s, recompiled s = compiled s true.
Proof.
  intros s. unfold recompiled, kept. set (ts := compiled s true).
  enough (L : explicit_lambda (fparse ts) = true).
  { unfold compiled at 1, fprefix. cbn [stream indented ptoks]. rewrite L, andb_false_r. reflexivity. }
  assert (LC : forall r, explicit_lambda (fparse (lam :: colon :: r)) = true) by reflexivity.
  (* a function whose parameters come after the word lambda *)
  assert (HD : forall l g f0, floop FStart f0 l = (FEnd, g) -> explicit_lambda f0 = false -> explicit_lambda g = false ->
    exists g', floop FArgList (Flags true false false) l = (FEnd, g')).
  { assert (SAME : forall l q g f f', floop q f l = (FEnd, g) -> exists g', floop q f' l = (FEnd, g')).
    { induction l as [|t l IHl]; intros q g f f' H; cbn [floop] in *; [inv H; eauto|].
      assert (Q : fst (ftrans q (fsym_of t) f) = fst (ftrans q (fsym_of t) f')) by (destruct q, (fsym_of t); reflexivity).
      destruct (ftrans q (fsym_of t) f) as [q1 f1]. destruct (ftrans q (fsym_of t) f') as [q2 f2]. cbn in Q. subst q2.
      destruct (fterminal q1); [inv H; eauto|eauto]. }
    intros l g f0 H E G. destruct l as [|t l]; [discriminate|]. cbn [floop] in *.
    destruct (fsym_of t); cbn [ftrans fterminal] in *; try discriminate; try (inv H; eauto; fail); eauto.
    exfalso. apply floop_lambda in H; [congruence|reflexivity]. }
  unfold ts, compiled, fprefix. set (g := fparse (stream s)).
  destruct (explicit_lambda g) eqn:EL.
  - destruct (has_args g && true)%bool; [apply LC|]. cbn [app].
    unfold g in EL. unfold stream in EL. destruct (indented s); [discriminate|exact EL].
  - destruct (has_args g) eqn:HA; [apply LC|]. destruct (explicit_colon g) eqn:EC; [|apply LC].
    unfold g, fparse in EL, EC. destruct (floop FStart (Flags false false false) (stream s)) as [q f] eqn:FL.
    destruct q; try discriminate. cbn [app].
    assert (ST : stream s = ptoks s). { unfold stream in *. destruct (indented s); [discriminate|reflexivity]. }
    rewrite ST in FL. destruct (HD _ _ _ FL eq_refl EL) as (g' & FL').
    unfold fparse. cbn [floop]. change (fsym_of lam) with SLambda. cbn [ftrans fterminal explicit_colon has_args]. rewrite FL'.
    eapply floop_lambda; eauto.
Qed.
