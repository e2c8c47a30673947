(** Whatever is in the language is parsed, to what it stands for. *)
From Verif.Syntax Require Import LexerFacts ParserSpec ParserFacts ParserSound.
Local Open Scope char_scope.
Local Open Scope list_scope.

Definition symbolic (k : token) : bool := (is_pipe k || is_gt k || is_end k || is_lt k)%bool.

(** ** Where arguments end, they end however the text is read *)
Lemma next_simple : forall m t k r, next_token m t = Ok (Some (k, r)) -> consolidatable k = false ->
  exists adj, unconsolidated m t = Ok (Some (k, adj, r)).
Proof.
  intros m t k r H C. unfold next_token in H.
  destruct (unconsolidated m t) as [[[[k0 adj] r1]|]| | |] eqn:E; try discriminate.
  destruct (gather (length r1) m [k0] (adj && consolidatable k0) r1) as [[ks r2]| | |] eqn:G; try discriminate.
  destruct (consolidatable k0) eqn:C0.
  - exfalso. apply unconsolidated_ok in E as (w & w' & B & B' & T & NE & F & HD & A & W0). destruct adj; cbn [andb] in G.
    + apply gather_ok in G as (extra & w2 & -> & F2 & C2 & B2 & R1); auto. cbn in H.
      destruct extra as [|k1 extra]; [inv H; congruence|].
      destruct (consolidate (k0 :: k1 :: extra)) eqn:CO; try discriminate. inv H.
      unfold consolidate in CO. destruct (expression (fstring (k0 :: k1 :: extra))); try discriminate. inv CO. discriminate.
    + rewrite gather_false in G. inv G. cbn in H. inv H. congruence.
  - rewrite andb_false_r in G. rewrite gather_false in G. inv G. cbn in H. inv H. eauto.
Qed.

Lemma raw_shell : forall c r, c = "|" \/ c = ">" \/ c = "<" ->
  exists k rest, raw_token true (c :: r) = Ok (Some (k, rest)) /\ consolidatable k = false.
Proof.
  intros c r [->|[->| ->]]; unfold raw_token; cbn -[starts].
  - change (starts ["("] ("|" :: r)) with false. change (starts [")"] ("|" :: r)) with false.
    change (starts ["|"] ("|" :: r)) with true. unfold symbol. eauto.
  - change (starts ["("] (">" :: r)) with false. change (starts [")"] (">" :: r)) with false.
    change (starts ["|"] (">" :: r)) with false. change (starts ["!"] (">" :: r)) with false.
    change (starts ["#"] (">" :: r)) with false.
    destruct (starts [">"; ">"; "$"] (">" :: r)); [unfold symbol; eauto|].
    destruct (starts [">"; "$"] (">" :: r)); [unfold symbol; eauto|].
    destruct (starts [">"; ">"] (">" :: r)); [unfold symbol; eauto|].
    change (starts [">"] (">" :: r)) with true. unfold symbol. eauto.
  - change (starts ["("] ("<" :: r)) with false. change (starts [")"] ("<" :: r)) with false.
    change (starts ["|"] ("<" :: r)) with false. change (starts ["!"] ("<" :: r)) with false.
    change (starts ["#"] ("<" :: r)) with false.
    change (starts [">"; ">"; "$"] ("<" :: r)) with false. change (starts [">"; "$"] ("<" :: r)) with false.
    change (starts [">"; ">"] ("<" :: r)) with false. change (starts [">"] ("<" :: r)) with false.
    destruct (starts ["<"; "$"] ("<" :: r)); [unfold symbol; eauto|].
    change (starts ["<"] ("<" :: r)) with true. unfold symbol. eauto.
Qed.

Lemma raw_gt_start : forall m t k rest, raw_token m t = Ok (Some (k, rest)) -> symbolic k = true ->
  exists c r, t = c :: r /\ (c = "|" \/ c = ">" \/ c = "<").
Proof.
  intros m t k rest H S. unfold raw_token in H. destruct t as [|c r]; [discriminate|].
  exists c, r. split; auto. remember (c :: r) as t.
  repeat match type of H with
  | (if ?b then _ else _) = _ => let S := fresh "S" in destruct b eqn:S
  | symbol _ _ _ = _ => unfold symbol in H
  end; try discriminate H; try (inv H; discriminate S);
  repeat match goal with Q : (_ && _)%bool = true |- _ => apply andb_true_iff in Q as [_ Q] end.
  all: try (destruct (expression t); try discriminate; inv H; discriminate S).
  all: try (destruct (scan_string _ None t) as [[cs ?]| | |]; try discriminate;
            destruct (literal cs); try discriminate; inv H; discriminate S).
  all: subst t;
    match goal with
    | Q : starts ("|" :: _) _ = true |- _ => left; cbn [starts] in Q
    | Q : starts (">" :: _) _ = true |- _ => right; left; cbn [starts] in Q
    | Q : starts ("<" :: _) _ = true |- _ => right; right; cbn [starts] in Q
    end;
    match goal with Q : (_ && _)%bool = true |- _ => apply andb_true_iff in Q as [Q _]; apply Ascii.eqb_eq in Q; now symmetry end.
Qed.

Lemma shell_stops : forall t k r, Reads false t k r -> symbolic k = true ->
  exists k' r', Reads true t k' r' /\ consolidatable k' = false.
Proof.
  intros t k r H S.
  assert (C : consolidatable k = false).
  { unfold symbolic, consolidatable, is_pipe, is_gt, is_end, is_lt in *. now destruct (tkind k). }
  apply next_simple in H as [adj H]; auto. unfold unconsolidated in H.
  destruct (raw_token false (skip_ws t)) as [[[k0 r0]|]| | |] eqn:E; try discriminate. inv H.
  apply raw_gt_start in E as (c & r' & T & CC); auto.
  destruct (raw_shell c r' CC) as (k' & rest & E' & C'). rewrite <- T in E'.
  exists k', (skip_ws rest). split; auto. unfold Reads, next_token, unconsolidated. rewrite E', C', andb_false_r.
  rewrite gather_false. reflexivity.
Qed.

Lemma shell_nothing : forall t, Nothing t -> next_token true t = Ok None.
Proof.
  intros t H. unfold Nothing, next_token in H.
  destruct (unconsolidated false t) as [[[[k0 adj] r1]|]| | |] eqn:E; try discriminate.
  - destruct (gather _ _ _ _ _) as [[[|? [|? ?]] ?]| | |]; try discriminate; destruct (consolidate _); discriminate.
  - unfold unconsolidated in E. destruct (raw_token false (skip_ws t)) as [[[k0 r0]|]| | |] eqn:R; try discriminate.
    apply raw_token_none in R. unfold next_token, unconsolidated.
    destruct R as [-> | [c ->]]; reflexivity.
Qed.

(** ** What follows *)
Definition readable (t : text) : Prop := exists x, next_token false t = Ok x.
Definition stops (t : text) : Prop :=
  Nothing t \/ exists k r, Reads false t k r /\ (is_pipe k || is_gt k || is_end k)%bool = true.
Definition ends (t : text) : Prop :=
  Nothing t \/ exists k r, Reads false t k r /\ (is_gt k || is_end k)%bool = true.
Definition closes (t : text) : Prop :=
  Nothing t \/ exists k r, Reads false t k r /\ is_end k = true /\ readable r.

Lemma ends_stops : forall t, ends t -> stops t.
Proof.
  intros t [N|(k & r & R & E)]; [now left|]. right. exists k, r. split; auto.
  apply orb_true_iff in E as [E|E]; rewrite E; rewrite ?orb_true_r; auto.
Qed.
Lemma closes_ends : forall t, closes t -> ends t.
Proof. intros t [N|(k & r & R & E & _)]; [now left|]. right. exists k, r. split; auto. now rewrite E, orb_true_r. Qed.
Lemma stops_readable : forall t, stops t -> readable t.
Proof. intros t [N|(k & r & R & _)]; eexists; eauto. Qed.
Lemma redirect_ends : forall t w r, Redirect t w r -> ends t.
Proof. intros t w r H. inv H. right. exists gt, t1. rewrite H1. auto. Qed.
Lemma pipe_stops : forall t k r, Reads false t k r -> is_pipe k = true -> stops t.
Proof. intros. right. exists k, r. rewrite H0. auto. Qed.

Ltac kinds := unfold is_word, is_expr, is_comma, is_colon, is_assign, is_pipe, is_begin, is_end, is_gt, is_lt, is_opword, consolidatable in *;
  repeat match goal with |- context [tkind ?k] => destruct (tkind k) | H : context [tkind ?k] |- _ => destruct (tkind k) end; cbn in *; try discriminate; auto.

Lemma stops_no_arg : forall m t, stops t -> tok1 m (fun k => is_word k || is_expr k)%bool t = Ok None.
Proof.
  intros m t H. apply tok1_none. destruct H as [N|(k & r & R & S)].
  - left. destruct m; auto. now apply shell_nothing.
  - right. destruct m.
    + destruct (shell_stops t k r R) as (k' & r' & R' & C).
      { unfold symbolic. now rewrite S. }
      exists k', r'. split; auto. kinds.
    + exists k, r. split; auto. kinds.
Qed.

Lemma stops_no_begin : forall t, stops t -> tok1 false is_begin t = Ok None.
Proof.
  intros t [N|(k & r & R & S)]; apply tok1_none; auto. right. exists k, r. split; auto. kinds.
Qed.

Lemma closes_no_redirect : forall ops t, closes t -> redirected ops t = Ok (ops, t).
Proof.
  intros ops t H. unfold redirected.
  assert (E : look2 is_gt is_word t = Ok false).
  { apply look2_false. destruct H as [N|(k & r & R & E & [[[k' r']|] X])]; auto.
    - right. exists k, r. split; auto. right. exists k', r'. split; auto. kinds.
    - right. exists k, r. split; auto. }
  rewrite E. reflexivity.
Qed.

Lemma vars_loop_step : forall f k t, refines (vars_loop f k t) (vars_loop (S f) k t).
Proof.
  induction f as [|f IH]; intros k t; [intros N; now exfalso|].
  change (refines (if is_word k then
      do c <- tok1 false is_comma t;
      match c with
      | Some (_, t1) =>
        do w <- tok1 false is_word t1;
        match w with
        | Some (k', t2) => do (vs, t3) <- vars_loop f k' t2; Ok (word_value k :: vs, t3)
        | None => Err
        end
      | None =>
        do n <- next_token false t;
        match n with
        | Some (k', t1) => do (vs, t3) <- vars_loop f k' t1; Ok (word_value k :: vs, t3)
        | None => Err
        end
      end
    else if is_colon k then Ok ([], t) else Err) (vars_loop (S (S f)) k t)).
  cbn [vars_loop]. repeat (refine_step || apply IH).
Qed.

Lemma vars_complete' : forall lax t vs r, Vars lax t vs r -> vars t = Ok (vs, r).
Proof.
  intros lax t vs r H. destruct (vars_starts _ _ _ _ H) as (k & r0 & R & W). unfold vars.
  destruct (vars_complete _ _ _ _ H _ _ R) as [f0 C]. unfold Reads in R. rewrite R. cbn [bind].
  pose proof (vars_loop_fuel (S (length t)) k r0) as NF. apply reads_shorter in R. specialize (NF ltac:(lia)).
  assert (M : forall g, refines (vars_loop (S (length t)) k r0) (vars_loop (g + S (length t)) k r0)).
  { induction g; [apply refines_refl|]. intros N. cbn [plus]. rewrite vars_loop_step; auto. now rewrite IHg. }
  rewrite <- (M f0 NF). apply C. lia.
Qed.

Section Complete.
Variable shell_args : text -> bool.
Variable lax : bool.
Variable fine : bool -> text -> Prop.
(** Either the text is clear, or no operator reads its arguments as a shell does. *)
Hypothesis fine_clear : (forall p t, fine p t -> clear p t) \/ (forall w, shell_args w = false).

Notation pipeline := (pipeline shell_args).
Notation op_sequence := (op_sequence shell_args).
Notation arguments := (arguments shell_args).
Notation argument := (argument shell_args).
Notation Pipeline := (Pipeline shell_args lax fine).
Notation OpSequence := (OpSequence shell_args lax fine).
Notation OpArgs := (OpArgs shell_args lax fine).
Notation Args := (Args shell_args lax fine).
Notation Arg := (Arg shell_args lax fine).
Notation Body := (Body shell_args lax fine).

Lemma args_next : forall m t l r, Args m t l r -> stops r ->
  stops t \/ exists k r', Reads m t k r' /\ (is_word k || is_expr k || negb m && is_begin k)%bool = true.
Proof.
  intros m t l r H S. inv H; [now left|]. right. inv H0; [exists k, t1|exists b, t2]; split; auto.
  - apply orb_true_iff in H2 as [H2|H2]; rewrite H2; rewrite ?orb_true_r; auto.
  - rewrite H2. cbn. now rewrite ?orb_true_r.
Qed.

(** The first two tokens of a sequence of operators *)
Lemma seq_second : forall p t ops r, OpSequence t ops r -> ends r -> fine p t ->
  exists k r0, Reads false t k r0 /\ (is_opword k || is_expr k)%bool = true /\
  (Nothing r0 \/ exists k' r', Reads false r0 k' r' /\
     (is_word k = true -> is_lt k' = false /\ (p = false -> is_comma k' = false /\ is_colon k' = false) /\
                          ((forall w, shell_args w = false) -> is_assign k' = false))).
Proof.
  intros p t ops r H E F.
  assert (O : exists c r1, OpArgs t c r1 /\ stops r1).
  { inv H; [exists c, r; split; auto; now apply ends_stops|]. exists c, t1. split; auto. eapply pipe_stops; eauto. }
  destruct O as (c & r1 & O & S). inv O.
  - exists k, r1. split; auto. split; [now rewrite H1, orb_true_r|].
    destruct S as [N|(k' & r' & R' & S)]; auto. right. exists k', r'. split; auto. intros W. kinds.
  - exists k, t1. split; auto. split; [now rewrite H1|].
    destruct (is_word k && shell_args (word_value k))%bool eqn:M.
    + apply andb_true_iff in M as [W M]. destruct fine_clear as [FC|FC]; [|rewrite FC in M; discriminate].
      specialize (FC p t F k t1 H0 W). destruct FC as [N|(k' & r' & R' & C)]; auto.
      right. exists k', r'. split; auto. intros _. split; [|split].
      * destruct (is_lt k') eqn:L; auto. exfalso.
        destruct (shell_stops t1 k' r' R') as (k2 & r2 & R2 & C2); [unfold symbolic; now rewrite L, !orb_true_r|].
        destruct (args_next _ _ _ _ H2 S) as [[N|(k3 & r3 & R3 & S3)]|(k3 & r3 & R3 & S3)].
        -- eapply reads_nothing; eauto.
        -- destruct (reads_fun _ _ _ _ _ _ R3 R') as [-> _]. kinds.
        -- destruct (reads_fun _ _ _ _ _ _ R3 R2) as [-> _]. cbn [negb andb] in S3. rewrite orb_false_r in S3. kinds.
      * exact C.
      * intros Q. rewrite Q in M. discriminate.
    + destruct (args_next _ _ _ _ H2 S) as [[N|(k3 & r3 & R3 & S3)]|(k3 & r3 & R3 & S3)]; auto;
        right; exists k3, r3; (split; [auto|]); intros _; kinds.
Qed.

Definition refine_ok {A} (r r' : res A) (a : A) : refines r r' -> r = Ok a -> r' = Ok a.
Proof. intros R E. rewrite R; rewrite E; auto. discriminate. Qed.

Lemma seq_up : forall f g t x, op_sequence f t = Ok x -> f <= g -> op_sequence g t = Ok x.
Proof. intros. eapply refine_ok; [|eauto]. now apply fuel_mono. Qed.
Lemma args_up : forall f g m t x, arguments f m t = Ok x -> f <= g -> arguments g m t = Ok x.
Proof. intros. eapply refine_ok; [|eauto]. now apply fuel_mono. Qed.
Lemma arg_up : forall f g m t x, argument f m t = Ok x -> f <= g -> argument g m t = Ok x.
Proof. intros. eapply refine_ok; [|eauto]. now apply fuel_mono. Qed.

Lemma complete :
  (forall m t a r, Arg m t a r -> (m = false -> readable r) -> exists f, argument f m t = Ok (Some (a, r))) /\
  (forall m t l r, Args m t l r -> stops r -> exists f, arguments f m t = Ok (l, r)) /\
  (forall t c r, OpArgs t c r -> stops r -> exists f, op_args shell_args (arguments f) t = Ok (c, r)) /\
  (forall t ops r, OpSequence t ops r -> ends r -> exists f, op_sequence f t = Ok (ops, r)) /\
  (forall t ps ops r, Pipeline t ps ops r -> closes r -> exists f, pipeline f t = Ok (ps, ops, r)) /\
  (forall p t ops r, Body p t ops r -> closes r ->
     (exists f, pipeline_ops (op_sequence f) t = Ok (ops, r)) /\
     (p = false -> look2 is_word is_comma t = Ok false /\ look2 is_word is_colon t = Ok false)).
Proof.
  apply grammar_ind.
  - (* ArgWord *) intros m t k r R W Q _. exists 1. change (argument_body (pipeline 0) m t = Ok (Some (AToken k, r))).
    unfold argument_body.
    assert (B : (if m then Ok None else tok1 m is_begin t) = Ok None).
    { destruct m; auto. apply tok1_none. right. exists k, r. split; auto. kinds. }
    rewrite B. cbn [bind]. rewrite (proj2 (tok1_some m (fun k => is_word k || is_expr k)%bool t k r)) by auto.
    cbn [bind]. now rewrite Q.
  - (* ArgPipe *) intros t b t1 ps ops t2 e r R B P IH R2 E RD.
    destruct IH as [f IH]; [right; exists e, r; auto|]. exists (Datatypes.S f).
    change (argument_body (pipeline f) false t = Ok (Some (APipe ps ops (strip (taken t1 t2)), r))).
    unfold argument_body. rewrite (proj2 (tok1_some false is_begin t b t1)) by auto. cbn [bind]. rewrite IH. cbn [bind].
    rewrite (proj2 (tok1_some false is_end t2 e r)) by auto. reflexivity.
  - (* ArgsNone *) intros m t S. exists 2. change (arguments_body (argument 1) (arguments 1) m t = Ok ([], t)).
    unfold arguments_body. change (argument 1 m t) with (argument_body (pipeline 0) m t). unfold argument_body.
    assert (B : (if m then Ok None else tok1 m is_begin t) = Ok None) by (destruct m; auto; now apply stops_no_begin).
    rewrite B. cbn [bind]. rewrite stops_no_arg by auto. reflexivity.
  - (* ArgsMore *) intros m t a t1 l r A IA AS IAS S. destruct IA as [f IA].
    { intros ->. destruct (args_next _ _ _ _ AS S) as [S1|(k & r' & R & _)]; [now apply stops_readable|]. eexists; eauto. }
    destruct (IAS S) as [g IAS']. exists (Datatypes.S (f + g)).
    change (arguments_body (argument (f + g)) (arguments (f + g)) m t = Ok (a :: l, r)). unfold arguments_body.
    rewrite (arg_up f (f + g) _ _ _ IA) by lia. cbn [bind]. rewrite (args_up g (f + g) _ _ _ IAS') by lia. reflexivity.
  - (* OpExpr *) intros t k r R E S. exists 0. unfold op_args. rewrite (proj2 (tok1_some false is_expr t k r)) by auto. reflexivity.
  - (* OpWord *) intros t k t1 l r R W A IA S. destruct (IA S) as [f IA']. exists f. unfold op_args.
    assert (N : tok1 false is_expr t = Ok None).
    { apply tok1_none. right. exists k, t1. split; auto. kinds. }
    rewrite N. cbn [bind]. rewrite (proj2 (tok1_some false is_opword t k t1)) by auto. cbn [bind].
    unfold shell_mode. rewrite IA'. reflexivity.
  - (* SeqOne *) intros t c r O IO E. destruct IO as [f IO]; [now apply ends_stops|]. exists (Datatypes.S f).
    change (sequence_body shell_args (arguments f) (op_sequence f) t = Ok ([c], r)). unfold sequence_body.
    rewrite IO. cbn [bind].
    assert (N : tok1 false is_pipe r = Ok None).
    { apply tok1_none. destruct E as [N|(k & r' & R & E)]; auto. right. exists k, r'. split; auto. kinds. }
    rewrite N. reflexivity.
  - (* SeqMore *) intros t c t1 p t2 cs r O IO R P S IS E. destruct IO as [f IO]; [eapply pipe_stops; eauto|].
    destruct (IS E) as [g IS']. exists (Datatypes.S (f + g)).
    change (sequence_body shell_args (arguments (f + g)) (op_sequence (f + g)) t = Ok (c :: cs, r)). unfold sequence_body.
    assert (IO2 : op_args shell_args (arguments (f + g)) t = Ok (c, t1)).
    { clear - IO. unfold op_args in *. apply bind_ok in IO as ([[k t3]|] & E & IO); rewrite E; cbn [bind]; auto.
      apply bind_ok in IO as ([[k t3]|] & W & IO); rewrite W; cbn [bind]; auto.
      apply bind_ok in IO as ((l & t4) & AR & IO). rewrite (args_up f (f + g) _ _ _ AR) by lia. exact IO. }
    rewrite IO2. cbn [bind]. rewrite (proj2 (tok1_some false is_pipe t1 p t2)) by auto. cbn [bind].
    rewrite (seq_up g (f + g) _ _ IS') by lia. reflexivity.
  - (* Pipe *) intros t ps t1 ops r P B IB C. destruct (IB C) as [[f IB1] IB2]. exists (Datatypes.S f).
    change (pipeline_body (op_sequence f) t = Ok (ps, ops, r)). unfold pipeline_body.
    assert (V : (do c1 <- look2 is_word is_comma t;
                 do c2 <- (if c1 : bool then Ok true else look2 is_word is_colon t);
                 (if c2 : bool then vars t else Ok ([], t))) = Ok (ps, t1)).
    { destruct P as [t|t k r0 sep r' vs rest R W R2 SP V].
      - destruct (IB2 eq_refl) as [E1 E2]. rewrite E1. cbn [bind]. rewrite E2. reflexivity.
      - destruct (is_comma sep) eqn:CM.
        + rewrite (proj2 (look2_true is_word is_comma t)) by eauto 10. cbn [bind]. eapply vars_complete'; eauto.
        + cbn [orb] in SP. rewrite (proj2 (look2_false is_word is_comma t)).
          * cbn [bind]. rewrite (proj2 (look2_true is_word is_colon t)) by eauto 10. cbn [bind]. eapply vars_complete'; eauto.
          * right. exists k, r0. split; auto. right. exists sep, r'. split; auto. now rewrite CM, andb_false_r. }
    apply bind_ok in V as (c1 & E1 & V). apply bind_ok in V as (c2 & E2 & V). rewrite E1. cbn [bind]. rewrite E2. cbn [bind].
    rewrite V. cbn [bind]. rewrite IB1. cbn [bind].
    destruct (stops_readable r (ends_stops r (closes_ends r C))) as [x X]. rewrite X. reflexivity.
  - (* BSeq *) intros p t ops r F S IS C. destruct (IS (closes_ends r C)) as [f IS'].
    destruct (seq_second p t ops r S (closes_ends r C) F) as (k & r0 & R & O & N). split.
    + exists f. unfold pipeline_ops.
      assert (L : look2 is_word is_lt t = Ok false).
      { apply look2_false. right. exists k, r0. split; auto. destruct N as [N|(k' & r' & R' & N)]; auto.
        right. exists k', r'. split; auto. destruct (is_word k) eqn:W; auto. now apply N. }
      assert (G : look2 is_gt is_word t = Ok false).
      { apply look2_false. right. exists k, r0. split; auto. destruct N as [N|(k' & r' & R' & N)]; auto.
        right. exists k', r'. split; auto. assert (is_gt k = false) as -> by (clear - O; kinds). reflexivity. }
      rewrite L. cbn [bind]. rewrite G. cbn [bind]. rewrite IS'. cbn [bind]. now apply closes_no_redirect.
    + intros ->. split; apply look2_false; right; exists k, r0; (split; [auto|]);
        (destruct N as [N|(k' & r' & R' & N)]; [auto|]); right; exists k', r'; (split; [auto|]);
        destruct (is_word k) eqn:W; auto; now apply N.
  - (* BSeqGt *) intros p t ops t1 w r F S IS RD C. pose proof (redirect_ends _ _ _ RD) as E.
    destruct (IS E) as [f IS']. destruct (seq_second p t ops t1 S E F) as (k & r0 & R & O & N). split.
    + exists f. unfold pipeline_ops.
      assert (L : look2 is_word is_lt t = Ok false).
      { apply look2_false. right. exists k, r0. split; auto. destruct N as [N|(k' & r' & R' & N)]; auto.
        right. exists k', r'. split; auto. destruct (is_word k) eqn:W; auto. now apply N. }
      assert (G : look2 is_gt is_word t = Ok false).
      { apply look2_false. right. exists k, r0. split; auto. destruct N as [N|(k' & r' & R' & N)]; auto.
        right. exists k', r'. split; auto. assert (is_gt k = false) as -> by (clear - O; kinds). reflexivity. }
      rewrite L. cbn [bind]. rewrite G. cbn [bind]. rewrite IS'. cbn [bind]. now apply redirected_does.
    + intros ->. split; apply look2_false; right; exists k, r0; (split; [auto|]);
        (destruct N as [N|(k' & r' & R' & N)]; [auto|]); right; exists k', r'; (split; [auto|]);
        destruct (is_word k) eqn:W; auto; now apply N.
  - (* BGt *) intros p t w r RD C. pose proof RD as RD'. inv RD'.
    assert (NW : is_word gt = false) by kinds.
    assert (ALL : forall b, look2 is_word b t = Ok false).
    { intros b. apply look2_false. right. exists gt, t1. split; auto. right. exists target, r. split; auto. now rewrite NW. }
    split; [|intros _; split; apply ALL]. exists 0. unfold pipeline_ops. rewrite ALL. cbn [bind].
    rewrite (proj2 (look2_true is_gt is_word t)) by eauto 10. cbn [bind].
    now rewrite (redirected_does [] t _ r RD).
  - (* BLt *) intros p t s t1 lt r R W R2 L C.
    assert (NC : is_comma lt = false /\ is_colon lt = false) by kinds. destruct NC as [NC1 NC2].
    split; [|intros _; split; apply look2_false; right; exists s, t1; (split; [auto|]); right; exists lt, r; (split; [auto|]);
      now rewrite ?NC1, ?NC2, andb_false_r].
    exists 0. unfold pipeline_ops. rewrite (proj2 (look2_true is_word is_lt t)) by eauto 10. cbn [bind].
    unfold Reads in R, R2. rewrite R. cbn [bind]. rewrite R2. cbn [bind].
    assert (G : tok1 false is_gt r = Ok None).
    { apply tok1_none. destruct C as [N|(k & r' & RR & E & _)]; auto. right. exists k, r'. split; auto. kinds. }
    rewrite G. cbn [bind].
    assert (PE : pipeline_end r = Ok true).
    { unfold pipeline_end. destruct C as [N|(k & r' & RR & E & _)]; [unfold Nothing in N; now rewrite N|].
      unfold Reads in RR. rewrite RR. cbn. now rewrite E. }
    rewrite PE. cbn [bind]. now rewrite reading_redirect.
  - (* BLtGt *) intros p t s t1 lt t2 w r R W R2 L RD C. pose proof RD as RD'. inv RD'.
    assert (NC : is_comma lt = false /\ is_colon lt = false) by kinds. destruct NC as [NC1 NC2].
    split; [|intros _; split; apply look2_false; right; exists s, t1; (split; [auto|]); right; exists lt, t2; (split; [auto|]);
      now rewrite ?NC1, ?NC2, andb_false_r].
    exists 0. unfold pipeline_ops. rewrite (proj2 (look2_true is_word is_lt t)) by eauto 10. cbn [bind].
    unfold Reads in R, R2. rewrite R. cbn [bind]. rewrite R2. cbn [bind].
    rewrite (proj2 (tok1_some false is_gt t2 gt t3)) by auto. cbn [bind].
    rewrite (proj2 (tok1_some false is_word t3 target r)) by auto. cbn [bind].
    now rewrite reading_redirect, writing_redirect.
  - (* BLtSeq *) intros p t s t1 lt t2 ops r R W R2 L S IS C. destruct (IS (closes_ends r C)) as [f IS'].
    assert (NC : is_comma lt = false /\ is_colon lt = false) by kinds. destruct NC as [NC1 NC2].
    split; [|intros _; split; apply look2_false; right; exists s, t1; (split; [auto|]); right; exists lt, t2; (split; [auto|]);
      now rewrite ?NC1, ?NC2, andb_false_r].
    exists f. unfold pipeline_ops. rewrite (proj2 (look2_true is_word is_lt t)) by eauto 10. cbn [bind].
    unfold Reads in R, R2. rewrite R. cbn [bind]. rewrite R2. cbn [bind].
    assert (F : exists k r0, Reads false t2 k r0 /\ (is_opword k || is_expr k)%bool = true).
    { inv S; match goal with H : OpArgs _ _ _ |- _ => inv H end; do 2 eexists; (split; [eassumption|]);
        match goal with H : is_expr _ = true |- _ => rewrite H | H : is_opword _ = true |- _ => rewrite H end; now rewrite ?orb_true_r. }
    destruct F as (k & r0 & RR & O).
    assert (G : tok1 false is_gt t2 = Ok None).
    { apply tok1_none. right. exists k, r0. split; auto. clear - O. kinds. }
    rewrite G. cbn [bind].
    assert (PE : pipeline_end t2 = Ok false).
    { unfold pipeline_end. unfold Reads in RR. rewrite RR. cbn. f_equal. clear - O. kinds. }
    rewrite PE. cbn [bind]. rewrite IS'. cbn [bind]. rewrite closes_no_redirect by auto. now rewrite reading_redirect.
  - (* BLtSeqGt *) intros p t s t1 lt t2 ops t3 w r R W R2 L S IS RD C. destruct (IS (redirect_ends _ _ _ RD)) as [f IS'].
    assert (NC : is_comma lt = false /\ is_colon lt = false) by kinds. destruct NC as [NC1 NC2].
    split; [|intros _; split; apply look2_false; right; exists s, t1; (split; [auto|]); right; exists lt, t2; (split; [auto|]);
      now rewrite ?NC1, ?NC2, andb_false_r].
    exists f. unfold pipeline_ops. rewrite (proj2 (look2_true is_word is_lt t)) by eauto 10. cbn [bind].
    unfold Reads in R, R2. rewrite R. cbn [bind]. rewrite R2. cbn [bind].
    assert (F : exists k r0, Reads false t2 k r0 /\ (is_opword k || is_expr k)%bool = true).
    { inv S; match goal with H : OpArgs _ _ _ |- _ => inv H end; do 2 eexists; (split; [eassumption|]);
        match goal with H : is_expr _ = true |- _ => rewrite H | H : is_opword _ = true |- _ => rewrite H end; now rewrite ?orb_true_r. }
    destruct F as (k & r0 & RR & O).
    assert (G : tok1 false is_gt t2 = Ok None).
    { apply tok1_none. right. exists k, r0. split; auto. clear - O. kinds. }
    rewrite G. cbn [bind].
    assert (PE : pipeline_end t2 = Ok false).
    { unfold pipeline_end. unfold Reads in RR. rewrite RR. cbn. f_equal. clear - O. kinds. }
    rewrite PE. cbn [bind]. rewrite IS'. cbn [bind]. rewrite (redirected_does _ t3 w r RD). now rewrite reading_redirect.
Qed.

Lemma pipeline_complete : forall t ps ops r, Pipeline t ps ops r -> closes r -> pipeline (enough t) t = Ok (ps, ops, r).
Proof.
  intros t ps ops r H C. destruct (proj1 (proj2 (proj2 (proj2 (proj2 complete)))) _ _ _ _ H C) as [f E].
  eapply pipeline_any; eauto. unfold enough. lia.
Qed.

Lemma argument_complete : forall m t a r, Arg m t a r -> (m = false -> readable r) ->
  forall g, 4 * length t + 1 <= g -> argument g m t = Ok (Some (a, r)).
Proof.
  intros m t a r H C g L. destruct (proj1 complete _ _ _ _ H C) as [f E]. eapply argument_any; eauto.
Qed.

Lemma body_starts : forall p t ops r, Body p t ops r -> exists k r0, Reads false t k r0.
Proof.
  assert (O : forall t c r, OpArgs t c r -> exists k r0, Reads false t k r0) by (intros t c r H; inv H; eauto).
  assert (S : forall t ops r, OpSequence t ops r -> exists k r0, Reads false t k r0) by (intros t ops r H; inv H; eauto).
  intros p t ops r H. inv H; eauto. inv H0. eauto.
Qed.

Lemma pipeline_starts : forall t ps ops r, Pipeline t ps ops r -> exists k r0, Reads false t k r0.
Proof. intros t ps ops r H. inv H. inv H0; [eapply body_starts; eauto|eauto]. Qed.

(** A pipeline that is not an assignment: whatever follows the first word is not [=]. *)
Lemma pipeline_no_assign : forall t ps ops r, Pipeline t ps ops r -> closes r ->
  clear_command t \/ (forall w, shell_args w = false) -> look2 is_word is_assign t = Ok false.
Proof.
  intros t ps ops r H C Q. apply look2_false. right. inv H.
  assert (L : forall k r0, Reads false t k r0 -> (Nothing r0 \/ exists k' r', Reads false r0 k' r' /\ (is_word k = true -> is_assign k' = false)) ->
    exists k r0, Reads false t k r0 /\ (Nothing r0 \/ exists k' r', Reads false r0 k' r' /\ (is_word k && is_assign k')%bool = false)).
  { intros k r0 R D. exists k, r0. split; auto. destruct D as [N|(k' & r' & R' & D)]; auto. right. exists k', r'. split; auto.
    destruct (is_word k); auto. }
  destruct H0 as [t|t k r0 sep r' vs rest R W R2 SP V].
  - assert (SEQ : forall ops r, OpSequence t ops r -> ends r -> fine false t ->
      exists k r0, Reads false t k r0 /\ (Nothing r0 \/ exists k' r', Reads false r0 k' r' /\ (is_word k && is_assign k')%bool = false)).
    { intros ops' r' S E F. destruct (seq_second _ _ _ _ S E F) as (k & r0 & R & O & D). apply (L k r0 R).
      destruct D as [N|(k' & r1 & R' & D)]; auto. right. exists k', r1. split; auto. intros W.
      destruct Q as [Q|Q]; [eapply Q; eauto|]. now apply D. }
    inv H1;
      try (match goal with H : Redirect t _ _ |- _ => inv H end; match goal with H : Reads false t ?k ?r0, H' : Reads false ?r0 ?k' ?r1 |- _ => apply (L k r0 H); right; exists k', r1; split; auto; intros; clear Q L SEQ; kinds end);
      try (match goal with H : Reads false t ?k ?r0, H' : Reads false ?r0 ?k' ?r1 |- _ => apply (L k r0 H); right; exists k', r1; split; auto; intros; clear Q L SEQ; kinds end).
    + eapply SEQ; eauto. now apply closes_ends.
    + eapply SEQ; eauto. eapply redirect_ends; eauto.
  - apply (L k r0 R). right. exists sep, r'. split; auto. intros _. clear L Q. kinds.
Qed.

Variable fine_command : text -> Prop.
Hypothesis fine_command_clear : (forall t, fine_command t -> clear_command t) \/ (forall w, shell_args w = false).

Lemma command_complete : forall t c, Command shell_args lax fine fine_command t c -> parse shell_args t = Ok c.
Proof.
  intros t c H. unfold parse, parse_in. inv H.
  - unfold Reads in *. assert (AE : at_end t = Ok false) by (unfold at_end; now rewrite H0). rewrite AE. cbn [bind].
    rewrite (proj2 (look2_true is_word is_assign t)) by (unfold Reads; eauto 10). cbn [bind]. rewrite H0. cbn [bind]. rewrite H2. cbn [bind].
    rewrite (argument_complete _ _ _ _ H4).
    + cbn [bind]. unfold at_end. unfold Nothing in H5. rewrite H5. reflexivity.
    + intros _. eexists; eauto.
    + apply reads_shorter in H0. apply reads_shorter in H2. unfold enough. lia.
  - destruct (pipeline_starts _ _ _ _ H1) as (k & r0 & R). unfold Reads in R. assert (AE : at_end t = Ok false) by (unfold at_end; now rewrite R). rewrite AE. cbn [bind].
    rewrite (pipeline_no_assign _ _ _ _ H1); [|now left|destruct fine_command_clear as [Q|Q]; auto]. cbn [bind].
    rewrite (pipeline_complete _ _ _ _ H1) by now left. cbn [bind]. unfold at_end. unfold Nothing in H2. rewrite H2. reflexivity.
Qed.
End Complete.

Section Exact.
Variable shell_args : text -> bool.

Lemma parse_sound : forall t c, parse shell_args t = Ok c -> Accepted shell_args t c.
Proof.
  intros t c H. unfold parse, parse_in in H. apply bind_ok in H as ([|] & E1 & H); [discriminate|].
  apply bind_ok in H as (b & B & H). apply bind_ok in H as ((c' & t') & P & H).
  apply bind_ok in H as ([|] & E2 & H); [|discriminate]. inv H.
  assert (N : Nothing t').
  { unfold at_end in E2. apply bind_ok in E2 as ([?|] & E2 & F); [discriminate|]. exact E2. }
  destruct b.
  - apply look2_true in B as (k & r & k' & r' & R & W & R' & A). unfold Reads in R, R'. rewrite R in P. cbn [bind] in P.
    rewrite R' in P. cbn [bind] in P. apply bind_ok in P as ([[a t3]|] & AR & P); [|discriminate]. inv P.
    apply sound in AR. econstructor; eauto.
  - apply bind_ok in P as (((ps & ops) & t1) & PP & P). inv P. apply sound in PP as [PP _]. econstructor; eauto.
    intros k r k' r' R W R'. destruct (look2_clear _ _ _ B _ _ R) as [N'|(k1 & r1 & R1 & F1)].
    + exfalso. eapply reads_nothing; eauto.
    + destruct (reads_fun _ _ _ _ _ _ R' R1) as [-> _]. now rewrite W in F1.
Qed.

Lemma parse_no_fuel : forall t, parse shell_args t <> Fuel.
Proof.
  intros t. unfold parse, parse_in.
  assert (AE : forall t, at_end t <> Fuel).
  { intros. unfold at_end. apply bind_no_fuel; [apply next_token_no_fuel|]. easy. }
  apply bind_no_fuel; [apply AE|]. intros [|] _; [easy|].
  apply bind_no_fuel; [apply look2_no_fuel|]. intros b _. apply bind_no_fuel.
  - destruct b.
    + apply bind_no_fuel; [apply next_token_no_fuel|]. intros [[v t1]|] R; [|easy].
      apply bind_no_fuel; [apply next_token_no_fuel|]. intros [[e t2]|] R2; [|easy].
      apply reads_shorter in R. apply reads_shorter in R2.
      apply bind_no_fuel; [apply fuel_enough; unfold enough; lia|]. intros [[a t3]|] _; easy.
    + apply bind_no_fuel; [apply fuel_enough; unfold enough; lia|]. intros ((? & ?) & ?) _. easy.
  - intros (c & t') _. apply bind_no_fuel; [apply AE|]. intros [|] _; easy.
Qed.
End Exact.

(** ** Larger grammars *)
Section Weaken.
Variable shell_args : text -> bool.
Variables lax lax' : bool.
Variables fine fine' : bool -> text -> Prop.
Hypothesis L : lax = true -> lax' = true.
Hypothesis F : forall p t, fine p t -> fine' p t.

Lemma vars_weaken : forall t vs r, Vars lax t vs r -> Vars lax' t vs r.
Proof. induction 1; [eapply VLast|eapply VMore|eapply VLax]; eauto. Qed.

Lemma params_weaken : forall t vs r, Params lax t vs r -> Params lax' t vs r.
Proof. destruct 1; [constructor|]. eapply PSome; eauto. now apply vars_weaken. Qed.

Lemma grammar_weaken :
  (forall m t a r, Arg shell_args lax fine m t a r -> Arg shell_args lax' fine' m t a r) /\
  (forall m t l r, Args shell_args lax fine m t l r -> Args shell_args lax' fine' m t l r) /\
  (forall t c r, OpArgs shell_args lax fine t c r -> OpArgs shell_args lax' fine' t c r) /\
  (forall t ops r, OpSequence shell_args lax fine t ops r -> OpSequence shell_args lax' fine' t ops r) /\
  (forall t ps ops r, Pipeline shell_args lax fine t ps ops r -> Pipeline shell_args lax' fine' t ps ops r) /\
  (forall p t ops r, Body shell_args lax fine p t ops r -> Body shell_args lax' fine' p t ops r).
Proof.
  apply grammar_ind; intros; try (econstructor; eauto; fail).
  - econstructor; eauto. now apply params_weaken.
Qed.

Lemma command_weaken : forall (fc fc' : text -> Prop), (forall t, fc t -> fc' t) ->
  forall t c, Command shell_args lax fine fc t c -> Command shell_args lax' fine' fc' t c.
Proof.
  intros fc fc' FC t c H. inv H; [eapply ComAssign; eauto|eapply ComRun; eauto]; now apply grammar_weaken.
Qed.
End Weaken.
