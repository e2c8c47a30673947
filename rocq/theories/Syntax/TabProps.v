(** C76: the tab key offers the operators or flags that may come next. *)
From Verif.Syntax Require Export TabFacts TabSpec.
From Verif.Syntax Require Import LexerFacts LexerFacts2 LexerProps ParserSpec ParserFacts ParserSound ParserComplete ParserProps ArgsFacts CommandLineFacts1.
From Verif.Syntax Require CompleteProps.
Local Open Scope char_scope.
Local Open Scope list_scope.

Section Props.
Variable line : text.
Variable shell_args : text -> bool.
Variable creates : call -> bool.
Variable valid : list item -> Prop.
Hypothesis valid_creates : forall o c, valid o -> stands_op o c -> creates c = true.

Notation whole_item := (whole_item shell_args valid).
Notation whole_op := (whole_op shell_args valid).
Notation unfinished := (unfinished shell_args valid).
Notation able_arg := (able_arg creates).
Notation able_call := (able_call creates).
Notation consume := (consume line).
Notation accept := (accept line).
Notation accept2 := (accept2 line).
Notation tab_pipeline := (tab_pipeline line shell_args creates).
Notation tab_op_sequence := (tab_op_sequence line shell_args creates).
Notation tab_arguments := (tab_arguments line shell_args creates).
Notation tab_argument := (tab_argument line shell_args creates).

(** ** Complete items *)
Fixpoint whole_plain i (H : whole_item i) : plain_item shell_args i
with whole_plain_op o (H : whole_op o) : plain_op shell_args o.
Proof.
  - destruct H as [w|s|l F V]; constructor. clear V. induction F; constructor; auto.
  - destruct H as [s|w is F S]; constructor; auto. clear S. induction F; constructor; auto.
Qed.

Fixpoint whole_able i (H : whole_item i) : forall a, stands i a -> able_arg a
with whole_able_op o (H : whole_op o) : forall c, stands_op o c -> Forall able_arg (call_args c).
Proof.
  - destruct H as [w|s|l F V]; intros a ST; inversion ST; subst; constructor.
    match goal with Q : Forall2 stands_op l cs |- _ => rename Q into F2 end. clear ST.
    revert cs F2. induction F as [|o os FO F IH]; intros cs F2; inversion F2; subst; constructor; inversion V; subst; auto.
    pose proof (whole_able_op o FO _ H1). destruct y as [on l0]. constructor; auto. eapply valid_creates; eauto.
  - destruct H as [s|w is F S]; intros c ST; inversion ST; subst; cbn [call_args]; [repeat constructor|].
    clear S ST. match goal with Q : Forall2 stands is _ |- _ => rename Q into F2 end. revert as_ F2.
    induction F; intros as_ F2; inversion F2; subst; constructor; eauto.
Qed.


Notation argument_context k := (match tkind k with KString cs => if starts ["-"] cs then FLAG else ARG | _ => OTHER end).
Lemma context_token : forall m s k r, Reads m (pos s) k r -> set_context line m s = (Done tt, set_ctx (argument_context k) s).
Proof. intros m s k r R. unfold set_context. erewrite mbind_done by (apply peek_ok; exact R). cbv beta iota. destruct (tkind k); reflexivity. Qed.

Lemma token_step : forall f m s k r, Reads m (pos s) k r -> (is_word k || is_expr k)%bool = true -> missing_quote k = false ->
  tab_argument (S f) m s = (Done (Some (AToken k)), St r (Some (k, is_terminal line (pos s) k)) (argument_context k) (stack s)).
Proof.
  intros f m s k r R W Q. change (tab_argument (S f) m s) with (tab_argument_body line (tab_pipeline f) m s). unfold tab_argument_body.
  erewrite mbind_done by (eapply context_token; exact R). cbv beta.
  assert (B : (if m then ret None else accept m is_begin) (set_ctx (argument_context k) s) = (Done None, set_ctx (argument_context k) s)).
  { destruct m; [reflexivity|]. apply accept_none. apply tok1_none. right. exists k, r. split; [exact R|]. clear - W. kinds. }
  erewrite mbind_done by exact B. cbv beta iota.
  erewrite mbind_done by (apply (accept_some line m (fun k => is_word k || is_expr k)%bool (set_ctx (argument_context k) s) k r); [exact R|exact W]).
  cbv beta iota. rewrite Q. reflexivity.
Qed.

Lemma plain_quote : forall w r, w <> [] -> Forall ordinary w -> missing_quote (mktok (KString w) r) = false.
Proof.
  intros [|c w] r N F; [easy|]. unfold missing_quote. cbn [tkind]. inversion F; subst. destruct H1 as (_ & _ & Q & _).
  unfold literal. rewrite Q. now destruct (unescape (c :: w)).
Qed.

(** No more arguments *)
Lemma no_more : forall f m s, pos s = [] -> 2 <= f ->
  tab_arguments f m s = (Done [], if last_blank line then set_ctx ARG s else s).
Proof.
  intros [|[|f]] m s P L; try lia.
  change (tab_arguments (S (S f)) m s) with (tab_arguments_body (tab_argument (S f)) (tab_arguments (S f)) m s). unfold tab_arguments_body.
  assert (A : tab_argument (S f) m s = (Done None, if last_blank line then set_ctx ARG s else s)).
  { change (tab_argument (S f) m s) with (tab_argument_body line (tab_pipeline f) m s). unfold tab_argument_body.
    set (s' := if last_blank line then set_ctx ARG s else s). assert (P' : pos s' = []) by (unfold s'; now destruct (last_blank line)).
    assert (C : set_context line m s = (Done tt, s')).
    { unfold set_context. erewrite mbind_done by (apply peek_ok; rewrite P; destruct m; reflexivity). cbv beta iota. unfold s'.
      now destruct (last_blank line). }
    erewrite mbind_done by exact C. cbv beta.
    assert (N : forall w, accept m w s' = (Done None, s')) by (intros w; apply accept_none; rewrite P'; destruct m; reflexivity).
    assert (B : (if m then ret None else accept m is_begin) s' = (Done None, s')) by (destruct m; [reflexivity|apply N]).
    erewrite mbind_done by exact B. cbv beta iota. erewrite mbind_done by apply N. reflexivity. }
  erewrite mbind_done by exact A. reflexivity.
Qed.

Lemma longer_text : forall (t v : text), v <> [] -> teqb (t ++ v) t = false.
Proof.
  intros t v N. destruct (teqb (t ++ v) t) eqn:E; auto. apply teqb_eq in E. apply (f_equal (@length ascii)) in E.
  rewrite app_length in E. destruct v; [easy|]. cbn in E. lia.
Qed.

Lemma starter_skip : forall t, starter t -> skip_ws t = t.
Proof. intros t S. apply (skip_starter [] t); [constructor|auto]. Qed.

(** A complete item, read as an argument *)
Lemma item_step : forall i t m v f s, written_item i t -> whole_item i -> (m = true -> flat i) -> after v -> readable (skip_ws v) ->
  pos s = t ++ v -> 4 * length (t ++ v) + 1 <= f ->
  exists a s', tab_argument f m s = (Done (Some a), s') /\ pos s' = skip_ws v /\ stack s' = stack s /\
    (v <> [] -> exists k, cur s' = Some (k, false)).
Proof.
  intros i t m v f s W WH FL A RD P L. destruct f as [|f]; [lia|].
  pose proof (starter_skip _ (starter_app _ v (item_starter _ _ W))) as SK.
  inversion W; subst.
  - pose proof (read_word_in m t v H H0 A) as R. rewrite <- P in R.
    eexists; eexists; split; [apply token_step; [exact R|reflexivity|now apply plain_quote]|]. cbn [pos stack cur].
    repeat split; auto. intros N. eexists. unfold is_terminal. cbn [tkind raw]. rewrite P, SK, longer_text; auto.
  - pose proof (read_expr_in m s0 v H H0 A) as R. 
    assert (E : "(" :: s0 ++ ")" :: v = ("(" :: s0 ++ [")"]) ++ v) by (cbn [app]; now rewrite <- app_assoc). rewrite E, <- P in R.
    eexists; eexists; split; [apply token_step; [exact R|reflexivity|reflexivity]|]. cbn [pos stack cur].
    repeat split; auto. intros N. eexists. unfold is_terminal. cbn [tkind raw]. rewrite teqb_refl, P, SK, longer_text; auto.
  - destruct m; [now specialize (FL eq_refl)|]. inversion WH; subst.
    assert (CL : closing (b ++ "|" :: ")" :: v)).
    { split; [now apply after_pipe|]. right. exists (mktok KEnd ["|"; ")"]), (skip_ws v). split; auto.
      unfold Reads. rewrite next_blank by auto. apply read_end. }
    assert (PL : Forall (plain_op shell_args) l).
    { match goal with Q : Forall whole_op l |- _ => clear - Q; induction Q; constructor; auto using whole_plain_op end. }
    destruct (proj2 (proj2 (laid_out shell_args)) l t0 ltac:(assumption) PL _ CL) as (cs & OS & ST).
    assert (SB : skip_ws (b ++ "|" :: ")" :: v) = "|" :: ")" :: v) by (rewrite skip_blank by auto; reflexivity). rewrite SB in OS.
    assert (E : pos s = "(" :: "|" :: a ++ t0 ++ b ++ "|" :: ")" :: v).
    { rewrite P. cbn [app]. rewrite <- !app_assoc. reflexivity. }
    set (t1 := t0 ++ b ++ "|" :: ")" :: v) in *.
    assert (S1 : skip_ws (a ++ t1) = t1) by (apply skip_starter; auto; apply starter_app; eapply line_starter; eauto).
    assert (PP : pipeline shell_args f t1 = Ok ([], cs, "|" :: ")" :: v)).
    { assert (G : Pipeline shell_args true clear t1 [] cs ("|" :: ")" :: v)).
      { eapply Pipe; [apply PNone|]. apply BSeq; [|exact OS]. eapply line_clear; eauto. }
      eapply (pipeline_any shell_args); [eapply (pipeline_complete shell_args); [left; intros ? ? Q; exact Q|exact G|]|].
      - right. exists (mktok KEnd ["|"; ")"]), (skip_ws v). split; [apply read_end|]. auto.
      - rewrite P in E. rewrite E in L. cbn [length] in L. rewrite app_length in L. lia. }
    assert (AB : Forall able_call cs).
    { clear - ST H3 H4 valid_creates. revert cs ST. induction H3; intros cs ST; inversion ST; subst; constructor; inversion H4; subst; auto.
      match goal with Q : stands_op x y |- _ => rename Q into SY end. pose proof (whole_able_op _ H _ SY) as AA. destruct y as [on l0]. constructor; auto. eapply valid_creates; eauto. }
    change (tab_argument (S f) false s) with (tab_argument_body line (tab_pipeline f) false s). unfold tab_argument_body.
    assert (RB : Reads false (pos s) (mktok KBegin ["("; "|"]) t1) by (rewrite E; rewrite <- S1 at 2; apply read_begin).
    erewrite mbind_done by (eapply context_token; exact RB). cbv beta iota. cbn [tkind].
    erewrite mbind_done by (apply accept_some; [exact RB|reflexivity]). cbv beta iota.
    match goal with |- context [mbind (Tab.tab_pipeline _ _ _ f) _ ?S] =>
      destruct (proj1 (simulation line shell_args creates f) _ _ _ _ PP AB) with (s := S) as (s2 & X2 & P2 & S2) end.
    + eexists; eexists; apply read_end.
    + reflexivity.
    + erewrite mbind_done by exact X2. cbv beta iota.
      assert (RE : Reads false (pos s2) (mktok KEnd ["|"; ")"]) (skip_ws v)) by (rewrite P2; apply read_end).
      erewrite mbind_done by (apply accept_some; [exact RE|reflexivity]). cbn [is_some].
      eexists; eexists; split; [reflexivity|]. unfold at_token. cbn [pos stack cur]. repeat split; [exact S2|].
      intros N. eexists. unfold is_terminal. cbn [tkind raw]. rewrite P2. cbn [skip_ws]. change (isspace "|") with false. cbv iota.
      change ("|" :: ")" :: v) with (["|"; ")"] ++ v). rewrite longer_text; auto.
Qed.

Definition ended {A} (r : outcome A) : Prop := match r with Done _ | Raised => True | _ => False end.

Definition same {A B} (r : outcome A) (r' : outcome B) : Prop := match r, r' with Done _, Done _ | Raised, Raised => True | _, _ => False end.

(** What the tab key finds *)
Definition lands (x : place) (s : state) : Prop :=
  pos s = [] /\
  match x with
  | AtOperator w => ctx s = OP /\ exists k b, cur s = Some (k, b) /\
      ((if b : bool then token_value k else Some []) = Some w \/ w = [] /\ exists v, token_value k = Some v /\ pipeline_syntax v = true)
  | AtFlag n w => ctx s = FLAG /\ cur s = Some (mktok (KString w) w, true) /\ exists l, stack s = Some (OWord (mktok (KString n) n)) :: l
  | AtArgument n w => ctx s = ARG /\ exists k b, cur s = Some (k, b) /\ (if b : bool then token_value k else Some []) = Some w
  end.

Lemma items_step : forall is t, written_op is t -> Forall whole_item is -> forall m v f s, (m = true -> Forall flat is) -> after v -> v <> [] ->
  readable (skip_ws v) -> pos s = t ++ v -> 4 * length (t ++ v) + 2 <= f ->
  exists f' s', 4 * length (skip_ws v) + 2 <= f' /\ pos s' = skip_ws v /\ stack s' = stack s /\ (exists k, cur s' = Some (k, false)) /\
    forall r s'', tab_arguments f' m s' = (r, s'') -> ended r -> exists r', tab_arguments f m s = (r', s'') /\ same r r'.
Proof.
  assert (ONE : forall f m s a s1, tab_argument f m s = (Done (Some a), s1) -> forall r s'', tab_arguments f m s1 = (r, s'') -> ended r ->
    exists r', tab_arguments (S f) m s = (r', s'') /\ same r r').
  { intros f m s a s1 A r s'' E EN. change (tab_arguments (S f) m s) with (tab_arguments_body (tab_argument f) (tab_arguments f) m s).
    unfold tab_arguments_body. erewrite mbind_done by exact A. cbv beta iota. unfold mbind. rewrite E.
    destruct r as [l| | |]; try easy; [exists (Done (a :: l))|exists Raised]; split; try reflexivity; exact I. }
  assert (LS : forall v, length (skip_ws v) <= length v) by (induction v as [|c v IH]; cbn [skip_ws]; [auto|destruct (isspace c); cbn [length]; lia]).
  intros is t W. induction W as [i t WI|i t w is u WI BW NW WO IH]; intros WH m v f s FL A NV RD P L; destruct f as [|f]; try lia.
  - inversion WH; subst. destruct (item_step i t m v f s) as (a & s1 & X & P1 & S1 & C1); auto; try lia; [intros E; specialize (FL E); now inversion FL|].
    exists f, s1. split; [|split; [|split; [|split]]]; auto.
    + pose proof (LS v). rewrite app_length in L. destruct (item_starter _ _ WI) as (c & t' & -> & _). cbn [length] in L. lia.
    + intros r s'' E EN. eapply ONE; eauto.
  - inversion WH; subst. rewrite <- !app_assoc in P, L.
    assert (ST : skip_ws (w ++ u ++ v) = u ++ v) by (apply skip_starter; auto; apply starter_app; eapply op_starter; eauto).
    destruct (item_step i t m (w ++ u ++ v) f s) as (a & s1 & X & P1 & S1 & C1); auto; try lia.
    + intros E. specialize (FL E). now inversion FL.
    + now apply after_blank.
    + rewrite ST. assert (E : exists i2 t2 u2, written_item i2 t2 /\ after u2 /\ u ++ v = t2 ++ u2).
      { inversion WO; subst; [exists i0, u, v; auto|]. eexists; eexists; exists (w0 ++ u0 ++ v). rewrite <- !app_assoc. repeat split; eauto. now apply after_blank. }
      destruct E as (i2 & t2 & u2 & I2 & A2 & ->). destruct (item_reads _ _ _ I2 A2) as (k2 & r2 & R2 & _). eexists; exact R2.
    + rewrite ST in P1. destruct (IH ltac:(assumption) m v f s1) as (f' & s' & F' & P' & S' & C' & N'); auto.
      * intros E. specialize (FL E). now inversion FL.
      * rewrite app_length in L. rewrite (app_length w) in L. destruct (item_starter _ _ WI) as (c & t' & -> & _). cbn [length] in L. lia.
      * exists f', s'. repeat split; auto; [congruence|]. intros r s'' E EN. destruct (N' r s'' E EN) as (r' & E' & EN').
        destruct (ONE _ _ _ _ _ X r' s'' E') as (r2 & E2 & EN2); [destruct r, r'; easy|]. exists r2. split; auto. destruct r, r', r2; easy.
Qed.

(** An operator, its complete arguments, and more *)
Lemma op_step : forall n is t v f s, written_op (Word n :: is) t -> whole_op (Word n :: is) -> after v -> v <> [] ->
  readable (skip_ws v) -> skip_ws (pos s) = t ++ v -> 4 * length (t ++ v) + 2 <= f ->
  exists f' s', 4 * length (skip_ws v) + 2 <= f' /\ pos s' = skip_ws v /\ stack s' = stack s /\ (exists k, cur s' = Some (k, false)) /\
    forall r s'', tab_arguments f' (shell_args n) s' = (r, s'') -> ended r ->
    exists r', tab_op_args line shell_args (tab_arguments f) s = (r', match r' with Done _ => snd (set_op (OWord (mktok (KString n) n)) s'') | _ => s'' end) /\ same r r'.
Proof.
  assert (LS : forall v, length (skip_ws v) <= length v) by (induction v as [|c v IH]; cbn [skip_ws]; [auto|destruct (isspace c); cbn [length]; lia]).
  intros n is t v f s W WH A NV RD P L. inversion WH; subst.
  assert (FIRST : exists z, t = n ++ z /\ n <> [] /\ Forall ordinary n /\ after (z ++ v) /\
    (z = [] /\ is = [] \/ exists w u, z = w ++ u /\ blank w /\ written_op is u)).
  { inversion W as [i t' I|i t' w is' u' I B N O]; subst; inversion I; subst.
    - exists []. rewrite app_nil_r. repeat split; auto.
    - exists (w ++ u'). rewrite <- !app_assoc. repeat split; auto; [now apply after_blank|]. right. exists w, u'. auto. }
  destruct FIRST as (z & -> & NN & FN & AZ & Z).
  rewrite <- app_assoc in P, L. pose proof (read_word n (z ++ v) NN FN AZ) as R. rewrite <- P in R. apply (proj1 (reads_skip _ _ _ _)) in R.
  set (s1 := at_token line false (set_ctx OP s) (mktok (KString n) n) (skip_ws (z ++ v))).
  assert (OPEN : forall r s'', tab_arguments f (shell_args n) s1 = (r, s'') -> ended r ->
    exists r', tab_op_args line shell_args (tab_arguments f) s = (r', match r' with Done _ => snd (set_op (OWord (mktok (KString n) n)) s'') | _ => s'' end) /\ same r r').
  { intros r s'' E EN. unfold tab_op_args.
    erewrite mbind_done by (apply accept_none; apply tok1_none; right; eexists; eexists; split; [exact R|reflexivity]). cbv beta iota.
    erewrite mbind_done by reflexivity. cbv beta.
    erewrite mbind_done by (apply accept_some; [exact R|reflexivity]). cbv beta iota.
    fold s1. change (shell_mode shell_args (mktok (KString n) n)) with (shell_args n). unfold mbind. rewrite E.
    destruct r as [a| | |]; try easy; [exists (Done (Call (OWord (mktok (KString n) n)) a))|exists Raised]; split; try reflexivity; exact I. }
  assert (C1 : exists k, cur s1 = Some (k, false)).
  { eexists. unfold s1, at_token. cbn [cur]. unfold is_terminal. cbn [tkind raw pos set_ctx]. rewrite P, longer_text; auto. destruct z; [exact NV|discriminate]. }
  destruct Z as [(-> & ->)|(w & u & -> & BW & WO)].
  - exists f, s1. cbn [app] in *. repeat split; auto. pose proof (LS v). rewrite app_length in L. lia.
  - assert (ST : skip_ws ((w ++ u) ++ v) = u ++ v).
    { rewrite <- app_assoc. apply skip_starter; auto. apply starter_app; eapply op_starter; eauto. }
    destruct (items_step is u WO ltac:(assumption) (shell_args n) v f s1) as (f' & s' & F' & P' & S' & C' & N'); auto.
    + rewrite !app_length in L. rewrite app_length. lia.
    + exists f', s'. repeat split; auto. intros r s'' E EN. destruct (N' r s'' E EN) as (r' & E' & EN').
      destruct (OPEN r' s'' E') as (r2 & E2 & EN2); [destruct r, r'; easy|]. exists r2. split; auto. destruct r, r', r2; easy.
Qed.

(** Nothing that could be an argument *)
Lemma stop_here : forall f m s, stops (pos s) -> 2 <= f ->
  exists c, tab_arguments f m s = (Done [], set_ctx c s).
Proof.
  intros [|[|f]] m s P L; try lia.
  change (tab_arguments (S (S f)) m s) with (tab_arguments_body (tab_argument (S f)) (tab_arguments (S f)) m s). unfold tab_arguments_body.
  assert (A : exists c, tab_argument (S f) m s = (Done None, set_ctx c s)).
  { change (tab_argument (S f) m s) with (tab_argument_body line (tab_pipeline f) m s). unfold tab_argument_body.
    pose proof (stops_no_arg m _ P) as NA. pose proof (stops_no_begin _ P) as NB.
    assert (C : exists c, set_context line m s = (Done tt, set_ctx c s)).
    { assert (N : exists y, next_token m (pos s) = Ok y) by (unfold tok1 in NA; apply bind_ok in NA as (z & Z & _); eauto).
      destruct N as (y & N). unfold set_context. erewrite mbind_done by (apply peek_ok; exact N). destruct y as [[k r]|].
      - destruct (tkind k); eexists; reflexivity.
      - destruct (last_blank line); [exists ARG; reflexivity|exists (ctx s); destruct s; reflexivity]. }
    destruct C as (c & C). exists c. erewrite mbind_done by exact C. cbv beta.
    assert (B : (if m then ret None else accept m is_begin) (set_ctx c s) = (Done None, set_ctx c s)).
    { destruct m; [reflexivity|]. apply accept_none. exact NB. }
    erewrite mbind_done by exact B. cbv beta iota. erewrite mbind_done by (apply accept_none; exact NA). reflexivity. }
  destruct A as (c & A). exists c. erewrite mbind_done by exact A. reflexivity.
Qed.

(** A complete operator before a pipe *)
Lemma op_done : forall o t v f s y l, written_op o t -> whole_op o -> after v -> v <> [] -> stops (skip_ws v) -> skip_ws (pos s) = t ++ v -> stack s = y :: l ->
  4 * length (t ++ v) + 2 <= f ->
  exists c s' z, tab_op_args line shell_args (tab_arguments f) s = (Done c, s') /\ pos s' = skip_ws v /\ stack s' = z :: l.
Proof.
  intros o t v f s y l W WH A NV ST P S L. inversion WH; subst.
  - inversion W as [i t' I|i t' w is' u' I B N O]; subst; [|inversion O]. inversion I; subst.
    pose proof (read_expr_in false s0 v ltac:(assumption) ltac:(assumption) A) as R.
    assert (E : "(" :: s0 ++ ")" :: v = ("(" :: s0 ++ [")"]) ++ v) by (cbn [app]; now rewrite <- app_assoc). rewrite E, <- P in R. apply (proj1 (reads_skip _ _ _ _)) in R.
    unfold tab_op_args. erewrite mbind_done by (apply accept_some; [exact R|reflexivity]). cbv beta iota. erewrite mbind_done by reflexivity.
    eexists; eexists; eexists; repeat split. cbn. rewrite S. reflexivity.
  - destruct (op_step w is t v f s W WH A NV (stops_readable _ ST) P L) as (f' & s' & F' & P' & S' & _ & N').
    destruct (stop_here f' (shell_args w) s') as (c & E); [now rewrite P'|lia|].
    destruct (N' _ _ E I) as (r' & E' & SM). destruct r' as [c'| | |]; try easy.
    eexists; eexists; eexists; split; [exact E'|]. cbn. rewrite S', S. auto.
Qed.

(** ** What has been typed *)
Notation tail_ok v := (Nothing (skip_ws v) \/ exists k r, Reads false (skip_ws v) k r /\ calm k).
Definition pair_ok (u : text) : Prop :=
  u = [] \/ exists k r, Reads false u k r /\ is_gt k = false /\ (Nothing r \/ exists k' r', Reads false r k' r' /\ (is_word k = true -> calm k')).

Lemma op_pair : forall o t v, written_op o t -> whole_op o -> after v -> tail_ok v -> pair_ok (t ++ v).
Proof.
  intros o t v W WH A T.
  assert (FST : exists i t1 t2, written_item i t1 /\ after t2 /\ t ++ v = t1 ++ t2 /\ flat i /\ tail_ok t2).
  { inversion W as [i t' I|i t' w is' u' I B N O]; subst.
    - exists i, t, v. inversion WH; subst; repeat split; auto.
    - exists i, t', (w ++ u' ++ v). rewrite <- !app_assoc. inversion WH; subst; [inversion O|].
      repeat split; auto; [now apply after_blank|]. right.
      rewrite skip_starter; auto; [|apply starter_app; eapply op_starter; eauto].
      assert (E : exists i2 t2 u2, written_item i2 t2 /\ after u2 /\ u' ++ v = t2 ++ u2).
      { inversion O; subst; [exists i, u', v; auto|]. eexists; eexists; exists (w1 ++ u ++ v). rewrite <- !app_assoc. repeat split; eauto. now apply after_blank. }
      destruct E as (i2 & t2 & u2 & I2 & A2 & ->). destruct (item_reads _ _ _ I2 A2) as (k2 & r2 & R2 & K).
      exists k2, r2. split; auto. unfold calm. clear - K. kinds. }
  destruct FST as (i & t1 & t2 & I & A2 & -> & FL & T2). right.
  inversion I; subst; [| |easy].
  - eexists; eexists; split; [apply read_word; auto|]. split; [reflexivity|]. destruct T2 as [T2|(k & r & R & C)]; auto. right. eauto.
  - eexists; eexists; split; [cbn [app]; rewrite <- app_assoc; cbn [app]; apply read_expr; auto|]. split; [reflexivity|].
    destruct T2 as [T2|(k & r & R & C)]; auto. right. exists k, r. auto.
Qed.

Lemma blank_after_word : forall w, w <> [] -> Forall ordinary w -> Reads false w (mktok (KString w) w) [].
Proof. intros w N F. rewrite <- (app_nil_r w) at 1. apply (read_word w [] N F). now left. Qed.

Lemma unfinished_start : forall u x, unfinished u x -> u = [] \/ starter u.
Proof.
  intros u x H. destruct H; try (right; apply starter_app; eapply op_starter; eassumption).
  destruct w as [|c w]; auto. right. apply (item_starter (Word (c :: w))). constructor; [discriminate|auto].
Qed.
Lemma skip_unfinished : forall b u x, blank b -> unfinished u x -> skip_ws (b ++ u) = u.
Proof.
  intros b u x B H. destruct (unfinished_start u x H) as [->|S]; [rewrite skip_blank by auto; reflexivity|]. now apply skip_starter.
Qed.
Lemma pipe_token : forall a b u x, blank a -> blank b -> unfinished u x -> Reads false (skip_ws (a ++ "|" :: b ++ u)) (mktok KPipe ["|"]) u.
Proof.
  intros a b u x A B H. rewrite skip_blank by auto. cbn [skip_ws]. change (isspace "|") with false. cbv iota.
  rewrite <- (skip_unfinished b u x B H) at 2. apply read_pipe.
  destruct b as [|c b]; cbn [app hd_error].
  - destruct (unfinished_start u x H) as [->|(c & r & -> & S & N)]; cbn; congruence.
  - inversion B; subst. intros Q. injection Q as ->. discriminate.
Qed.
Lemma begin_token : forall a b u x, blank a -> blank b -> unfinished u x -> Reads false (skip_ws (a ++ "(" :: "|" :: b ++ u)) (mktok KBegin ["("; "|"]) u.
Proof.
  intros a b u x A B H. rewrite skip_blank by auto. cbn [skip_ws]. change (isspace "(") with false. cbv iota.
  rewrite <- (skip_unfinished b u x B H) at 2. apply read_begin.
Qed.
Lemma word_token : forall a w, blank a -> w <> [] -> Forall ordinary w -> Reads false (skip_ws (a ++ w)) (mktok (KString w) w) [] /\ skip_ws (a ++ w) = w.
Proof.
  intros a w B N F. assert (E : skip_ws (a ++ w) = w).
  { apply skip_starter; auto. apply (item_starter (Word w)). now constructor. }
  rewrite E. split; auto. now apply blank_after_word.
Qed.
Lemma dash_ordinary : forall w, Forall ordinary w -> Forall ordinary ("-" :: w).
Proof. intros. constructor; auto. repeat split; discriminate. Qed.

Lemma unfinished_pair : forall u x, unfinished u x -> pair_ok u.
Proof.
  intros u x H. destruct H.
  - destruct w as [|c w]; [now left|]. right. eexists; eexists; split; [apply blank_after_word; auto; discriminate|]. split; [reflexivity|now left].
  - eapply op_pair; eauto; [now apply after_blank|]. right. eexists; eexists; split; [apply word_token; auto; [discriminate|now apply dash_ordinary]|].
    repeat split.
  - eapply op_pair; eauto; [now apply after_blank|]. destruct w as [|c w].
    + left. rewrite skip_blank by auto. reflexivity.
    + right. eexists; eexists; split; [apply word_token; auto; discriminate|]. repeat split.
  - eapply op_pair; eauto; [now apply after_pipe|]. right. eexists; eexists; split; [eapply pipe_token; eauto|]. repeat split.
  - eapply op_pair; eauto; [now apply after_blank|]. right. eexists; eexists; split; [eapply begin_token; eauto|]. repeat split.
Qed.

Lemma pair_look : forall u, pair_ok u -> look2 is_word is_comma u = Ok false /\ look2 is_word is_colon u = Ok false /\ look2 is_word is_lt u = Ok false /\
  look2 is_gt is_word u = Ok false /\ look2 is_word is_assign u = Ok false.
Proof.
  intros u H. rewrite !look2_false. destruct H as [-> |(k & r & R & G & [N|(k' & r' & R' & C)])]; [repeat split; left; reflexivity| |].
  - repeat split; right; exists k, r; auto.
  - destruct (is_word k) eqn:W.
    + destruct (C eq_refl) as (C1 & C2 & C3 & C4).
      repeat split; right; exists k, r; (split; [auto|]); right; exists k', r'; (split; [auto|]); rewrite ?W, ?G, ?C1, ?C2, ?C3, ?C4; auto.
    + repeat split; right; exists k, r; (split; [auto|]); right; exists k', r'; (split; [auto|]); rewrite ?W, ?G; auto.
Qed.

(** A pipeline that is not finished, given its operators *)
Lemma pipeline_lands : forall seq u x s, pair_ok u -> skip_ws (pos s) = u ->
  (forall s0, pos s0 = pos s -> cur s0 = cur s -> (exists y l, stack s0 = y :: l) -> exists r s', seq s0 = (r, s') /\ ended r /\ lands x s') ->
  exists r s', tab_pipeline_body line creates seq s = (r, s') /\ ended r /\ lands x s'.
Proof.
  intros seq u x s PO P SEQ. destruct (pair_look u PO) as (L1 & L2 & L3 & L4 & _).
  unfold tab_pipeline_body, tracked. set (s0 := St (pos s) (cur s) OP (None :: stack s)).
  assert (LS : forall p q, look2 p q (pos s0) = look2 p q u).
  { intros p q. subst u. unfold look2. now rewrite next_skip. }
  destruct (SEQ s0 eq_refl eq_refl) as (r & s' & E & EN & LA); [eexists; eexists; reflexivity|].
  erewrite mbind_done by (apply accept2_false; rewrite LS; exact L1). cbv beta iota.
  erewrite mbind_done by (apply accept2_false; rewrite LS; exact L2). cbv beta iota.
  erewrite mbind_done by reflexivity. cbv beta.
  assert (RP : exists r', redirected_pipeline line seq s0 = (r', s') /\ ended r').
  { unfold redirected_pipeline. erewrite mbind_done by (apply accept2_false; rewrite LS; exact L3). cbv beta iota.
    erewrite mbind_done by (apply accept2_false; rewrite LS; exact L4). cbv beta iota. unfold mbind at 1. rewrite E.
    destruct r as [ops| | |]; try easy; [|eexists; split; [reflexivity|exact I]].
    unfold Tab.redirection. erewrite mbind_done by (apply accept2_false; rewrite (proj1 LA); reflexivity). cbv beta iota.
    eexists; split; [reflexivity|exact I]. }
  destruct RP as (r' & RP & EN'). unfold mbind at 1. rewrite RP. clear RP E.
  assert (T : forall A (o : outcome A), ended o -> exists r s'0, match next_token false (pos s') with
      | Ok (Some _) => (o, St (pos s') (cur s') (ctx s) (tl (stack s')))
      | Ok None => (o, s')
      | Err | Crash => (Raised, s')
      | Fuel => (NoFuel, s')
      end = (r, s'0) /\ ended r /\ lands x s'0).
  { intros A o EO. rewrite (proj1 LA). exists o, s'. auto. }
  destruct r' as [ops| | |]; try easy; [|now apply T].
  assert (C : Tab.create_all creates ops s' = (Done tt, s') \/ Tab.create_all creates ops s' = (Raised, s')).
  { clear. induction ops as [|c cs IH]; [now left|]. cbn [Tab.create_all]. destruct (creates c); [exact IH|now right]. }
  unfold mbind at 1. destruct C as [-> | ->]; now apply T.
Qed.

Lemma blank_last : forall p u, u <> [] -> line = p ++ u -> last_blank line = last_blank u.
Proof.
  intros p u N E. unfold last_blank. rewrite E, rev_app_distr. destruct (rev u) as [|c r] eqn:R; [|reflexivity].
  apply (f_equal (@rev ascii)) in R. rewrite rev_involutive in R. now subst.
Qed.
Lemma word_last : forall w, w <> [] -> Forall ordinary w -> last_blank w = false.
Proof.
  intros w N F. unfold last_blank. destruct (rev w) as [|c r] eqn:R; [reflexivity|].
  rewrite Forall_forall in F. assert (I : In c w) by (apply in_rev; rewrite R; now left). apply F in I. now destruct I as (? & _).
Qed.
Lemma blanks_last : forall a, a <> [] -> blank a -> last_blank a = true.
Proof.
  intros w N F. unfold last_blank. destruct (rev w) as [|c r] eqn:R.
  - apply (f_equal (@rev ascii)) in R. rewrite rev_involutive in R. now subst.
  - unfold blank in F. rewrite Forall_forall in F. assert (I : In c w) by (apply in_rev; rewrite R; now left). now apply F in I.
Qed.

(** The last word of an operator, which is the last of the line *)
Lemma last_word : forall f m s w, w <> [] -> Forall ordinary w -> pos s = w -> last_blank line = false -> 3 <= f ->
  tab_arguments f m s = (Done [AToken (mktok (KString w) w)], St [] (Some (mktok (KString w) w, true)) (if starts ["-"] w then FLAG else ARG) (stack s)).
Proof.
  intros [|[|[|f]]] m s w N F P LB L; try lia.
  change (tab_arguments (S (S (S f))) m s) with (tab_arguments_body (tab_argument (S (S f))) (tab_arguments (S (S f))) m s). unfold tab_arguments_body.
  assert (R : Reads m (pos s) (mktok (KString w) w) []).
  { rewrite P. rewrite <- (app_nil_r w) at 1. apply (read_word_in m w [] N F). now left. }
  erewrite mbind_done by (apply token_step; [exact R|reflexivity|now apply plain_quote]). cbv beta iota. cbn [tkind].
  erewrite mbind_done by (apply no_more; [reflexivity|lia]). rewrite LB.
  assert (T : is_terminal line (pos s) (mktok (KString w) w) = true).
  { unfold is_terminal. cbn [tkind raw]. rewrite P. rewrite starter_skip; [apply teqb_refl|]. apply (item_starter (Word w)). now constructor. }
  rewrite T. reflexivity.
Qed.

Definition opened (s : state) : Prop :=
  exists k b, cur s = Some (k, b) /\ (b = true -> exists v, token_value k = Some v /\ pipeline_syntax v = true).

Lemma sequence_end : forall args seq c s s', tab_op_args line shell_args args s = (Done c, s') -> pos s' = [] ->
  tab_sequence_body line shell_args args seq s = (Done [c], s').
Proof.
  intros args seq c s s' E P. unfold tab_sequence_body. erewrite mbind_done by exact E.
  erewrite mbind_done by (apply accept_none; rewrite P; reflexivity). reflexivity.
Qed.
Lemma sequence_raised : forall args seq s s', tab_op_args line shell_args args s = (Raised, s') ->
  tab_sequence_body line shell_args args seq s = (Raised, s').
Proof. intros. unfold tab_sequence_body, mbind at 1. now rewrite H. Qed.

Lemma sequence_lands : forall u x, unfinished u x -> forall f s p y l, line = p ++ u -> skip_ws (pos s) = u -> stack s = y :: l -> (u = [] -> pos s = [] /\ opened s) ->
  4 * length u + 3 <= f -> exists r s', tab_op_sequence f s = (r, s') /\ ended r /\ lands x s'.
Proof.
  intros u x H. induction H as [w F|n is t a w WO WH BA NA F|n is t a w WO WH BA NA F ND|o t a b u x WO WH BA BB U IH|n is t a b u x WO WH SH BA NA BB U IH];
    intros f s p y l E P S OP L; (destruct f as [|f]; [lia|]);
    change (tab_op_sequence (Datatypes.S f) s) with (tab_sequence_body line shell_args (tab_arguments f) (tab_op_sequence f) s).
  - destruct w as [|c w].
    + clear P. destruct (OP eq_refl) as (P & k & b & C & V). exists Raised, (set_ctx Tab.OP s). split; [|split; [exact I|]].
      * apply sequence_raised. unfold tab_op_args.
        erewrite mbind_done by (apply accept_none; rewrite P; reflexivity). cbv beta iota. erewrite mbind_done by reflexivity. cbv beta.
        erewrite mbind_done by (apply accept_none; cbn [pos set_ctx]; rewrite P; reflexivity). reflexivity.
      * split; [exact P|]. split; [reflexivity|]. exists k, b. split; [exact C|].
        destruct b; [right; split; [auto|now apply V]|now left].
    + assert (NW : c :: w <> []) by discriminate. set (v := c :: w) in *.
      pose proof (blank_after_word v NW F) as R. rewrite <- P in R. apply (proj1 (reads_skip _ _ _ _)) in R.
      assert (LB : last_blank line = false) by (rewrite (blank_last p v NW E); now apply word_last).
      set (s1 := at_token line false (set_ctx Tab.OP s) (mktok (KString v) v) []).
      eexists; eexists; split; [eapply sequence_end|].
      * unfold tab_op_args.
        erewrite mbind_done by (apply accept_none; apply tok1_none; right; eexists; eexists; split; [exact R|reflexivity]). cbv beta iota.
        erewrite mbind_done by reflexivity. cbv beta.
        erewrite mbind_done by (apply accept_some; [exact R|reflexivity]). cbv beta iota. fold s1.
        erewrite mbind_done by (apply no_more; [reflexivity|unfold v in L; cbn [length] in L; lia]). rewrite LB.
        erewrite mbind_done by reflexivity. reflexivity.
      * reflexivity.
      * split; [exact I|]. split; [reflexivity|]. split; [reflexivity|]. eexists; eexists; split; [reflexivity|]. left.
        unfold is_terminal. cbn [tkind raw pos set_ctx]. rewrite P, teqb_refl. reflexivity.
  - assert (NW : "-" :: w <> []) by discriminate. pose proof (dash_ordinary w F) as FW. set (v := "-" :: w) in *.
    destruct (word_token a v BA NW FW) as (R & SK).
    assert (LB : last_blank line = false).
    { rewrite (blank_last (p ++ t ++ a) v NW); [now apply word_last|]. rewrite E. now rewrite <- !app_assoc. }
    destruct (op_step n is t (a ++ v) f s WO WH) as (f' & s' & F' & P' & S' & C' & N'); auto; try lia.
    + now apply after_blank.
    + destruct a; [easy|discriminate].
    + eexists; exact R.
    + rewrite SK in *. destruct (N' _ _ (last_word f' (shell_args n) s' v NW FW P' LB ltac:(unfold v in F'; cbn [length] in F'; lia)) I) as (r' & E' & SM).
      destruct r' as [c'| | |]; try easy.
      eexists; eexists; split; [eapply sequence_end; [exact E'|reflexivity]|]. split; [exact I|]. split; [reflexivity|]. cbn.
      rewrite S', S. split; [reflexivity|]. split; [reflexivity|]. eexists. reflexivity.
  - destruct w as [|c w].
    + rewrite app_nil_r in *. assert (SK : skip_ws a = []) by (rewrite <- (app_nil_r a), skip_blank by auto; reflexivity).
      assert (LB : last_blank line = true).
      { rewrite (blank_last (p ++ t) a NA); [now apply blanks_last|]. rewrite E. now rewrite <- !app_assoc. }
      destruct (op_step n is t a f s WO WH) as (f' & s' & F' & P' & S' & C' & N'); auto; try lia.
      * rewrite <- (app_nil_r a). now apply after_blank.
      * exists None. rewrite SK. reflexivity.
      * rewrite SK in *. destruct (N' _ _ (no_more f' (shell_args n) s' P' ltac:(lia)) I) as (r' & E' & SM).
        destruct r' as [c'| | |]; try easy. rewrite LB in E'.
        eexists; eexists; split; [eapply sequence_end; [exact E'|exact P']|]. split; [exact I|]. split; [exact P'|]. cbn.
        split; [reflexivity|]. destruct C' as (k & C'). exists k, false. auto.
    + assert (NW : c :: w <> []) by discriminate. set (v := c :: w) in *.
      destruct (word_token a v BA NW F) as (R & SK).
      assert (LB : last_blank line = false).
      { rewrite (blank_last (p ++ t ++ a) v NW); [now apply word_last|]. rewrite E. now rewrite <- !app_assoc. }
      destruct (op_step n is t (a ++ v) f s WO WH) as (f' & s' & F' & P' & S' & C' & N'); auto; try lia.
      * now apply after_blank.
      * destruct a; [easy|discriminate].
      * eexists; exact R.
      * rewrite SK in *. destruct (N' _ _ (last_word f' (shell_args n) s' v NW F P' LB ltac:(unfold v in F'; cbn [length] in F'; lia)) I) as (r' & E' & SM).
        destruct r' as [c'| | |]; try easy.
        eexists; eexists; split; [eapply sequence_end; [exact E'|reflexivity]|]. split; [exact I|]. split; [reflexivity|].
        assert (NS : ("-" =? c) = false) by (apply Ascii.eqb_neq; intros <-; now apply ND).
        split; [|eexists; eexists; split; reflexivity]. change ((if starts ["-"] v then FLAG else ARG) = ARG). unfold v.
        rewrite starts_one, NS. reflexivity.
  - pose proof (pipe_token a b u x BA BB U) as R.
    destruct (op_done o t (a ++ "|" :: b ++ u) f s y l WO WH) as (c & s' & z & E' & P' & S'); auto; try lia.
    + now apply after_pipe.
    + destruct a; discriminate.
    + eapply pipe_stops; [exact R|reflexivity].
    + unfold tab_sequence_body. erewrite mbind_done by exact E'. rewrite <- P' in R.
      erewrite mbind_done by (apply accept_some; [exact R|reflexivity]). cbn [is_some].
      set (s1 := at_token line false s' (mktok KPipe ["|"]) u).
      destruct (IH f s1 (p ++ t ++ a ++ "|" :: b) z l) as (r & s2 & E2 & EN & LA); auto.
      * rewrite E, <- !app_assoc. cbn [app]. reflexivity.
      * apply (skip_unfinished [] u x); [constructor|auto].
      * intros ->. split; [reflexivity|]. exists (mktok KPipe ["|"]), (is_terminal line (pos s') (mktok KPipe ["|"])). split; [reflexivity|]. intros _. eexists; split; reflexivity.
      * rewrite !app_length in L. cbn [length] in L. rewrite app_length in L. lia.
      * unfold mbind. rewrite E2. destruct r as [cs| | |]; try easy; eexists; eexists; split; try reflexivity; split; auto; exact I.
  - pose proof (begin_token a b u x BA BB U) as R.
    assert (SK : skip_ws (a ++ "(" :: "|" :: b ++ u) = "(" :: "|" :: b ++ u) by (rewrite skip_blank by auto; reflexivity).
    destruct (op_step n is t (a ++ "(" :: "|" :: b ++ u) f s WO WH) as (f' & s' & F' & P' & S' & C' & N'); auto; try lia.
    + now apply after_blank.
    + destruct a; [easy|discriminate].
    + eexists; exact R.
    + rewrite SH in N'. rewrite <- P' in R. rewrite SK in F'. cbn [length] in F'. rewrite app_length in F'. destruct f' as [|[|[|f']]]; try lia.
      set (s1 := at_token line false (set_ctx OTHER s') (mktok KBegin ["("; "|"]) u).
      destruct (pipeline_lands (tab_op_sequence f') u x s1) as (r & s2 & E2 & EN & LA); [eapply unfinished_pair; eauto|apply (skip_unfinished [] u x); [constructor|auto]| |].
      { intros s0 P0 C0 (y0 & l0 & S0). apply (IH f' s0 (p ++ t ++ a ++ "(" :: "|" :: b) y0 l0); auto.
        - rewrite E, <- !app_assoc. cbn [app]. reflexivity.
        - rewrite P0. apply (skip_unfinished [] u x); [constructor|auto].
        - intros ->. split; [exact P0|]. exists (mktok KBegin ["("; "|"]), (is_terminal line (pos s') (mktok KBegin ["("; "|"])). rewrite C0. split; [reflexivity|].
          intros _. eexists; split; reflexivity.
        - lia. }
      assert (A : tab_arguments (Datatypes.S (Datatypes.S (Datatypes.S f'))) false s' = (Raised, s2)).
      { change (tab_arguments (Datatypes.S (Datatypes.S (Datatypes.S f'))) false s') with
          (tab_arguments_body (tab_argument (Datatypes.S (Datatypes.S f'))) (tab_arguments (Datatypes.S (Datatypes.S f'))) false s').
        unfold tab_arguments_body, mbind at 1.
        change (tab_argument (Datatypes.S (Datatypes.S f')) false s') with (tab_argument_body line (tab_pipeline (Datatypes.S f')) false s').
        unfold tab_argument_body. erewrite mbind_done by (eapply context_token; exact R). cbv beta iota. cbn [tkind].
        erewrite mbind_done by (apply accept_some; [exact R|reflexivity]). cbv beta iota. fold s1.
        change (tab_pipeline (Datatypes.S f')) with (tab_pipeline_body line creates (tab_op_sequence f')). unfold mbind at 1. rewrite E2.
        destruct r as [[ps ops]| | |]; try easy.
        erewrite mbind_done by (apply accept_none; rewrite (proj1 LA); reflexivity). reflexivity. }
      destruct (N' _ _ A I) as (r' & E' & SM). destruct r' as [c'| | |]; try easy.
      exists Raised, s2. split; [now apply sequence_raised|]. auto.
Qed.

(** The whole line *)
Lemma line_lands : forall a u x, line = a ++ u -> blank a -> unfinished u x -> u <> [] ->
  exists r s', parsed line shell_args creates = (r, s') /\ ended r /\ lands x s'.
Proof.
  intros a u x E B U N. unfold parsed, tab_parse. set (s0 := St line None Tab.OP []). set (f := enough line).
  pose proof (unfinished_pair u x U) as PO. destruct (pair_look _ PO) as (_ & _ & _ & _ & LA).
  destruct (unfinished_start u x U) as [->|ST]; [easy|].
  assert (SK : skip_ws line = u) by (rewrite E; now apply skip_starter).
  assert (FU : exists f', f = S f' /\ 4 * length u + 3 <= f').
  { exists (4 * length line + 7). unfold f, enough. split; [lia|]. rewrite E, app_length. lia. }
  destruct FU as (f' & EF & L). clearbody f. subst f.
  destruct (pipeline_lands (tab_op_sequence f') u x s0 PO SK) as (r & s2 & E2 & EN & LX).
  { intros s1 P1 C1 (y & l & S1). eapply (sequence_lands u x U f' s1 a); eauto.
    - rewrite P1. exact SK.
    - easy. }
  assert (PK : exists k, peek false s0 = (Done (Some k), s0)).
  { destruct PO as [N1|(k & r1 & R & _)]; [easy|].
    exists (k, r1). apply peek_ok. cbn [pos s0]. rewrite <- next_skip, SK. exact R. }
  destruct PK as (k & PK). erewrite mbind_done by exact PK. cbn [is_some].
  erewrite mbind_done by (apply accept2_false; cbn [pos s0]; rewrite <- LA; unfold look2; rewrite <- (next_skip false line), SK; reflexivity). cbv beta iota.
  change (tab_pipeline (S f')) with (tab_pipeline_body line creates (tab_op_sequence f')). unfold mbind at 1 2. rewrite E2.
  destruct r as [ops| | |]; try easy; cbv beta iota; [|exists Raised, s2; auto].
  unfold ret at 1. erewrite mbind_done by (apply peek_ok; rewrite (proj1 LX); reflexivity). exists (Done tt), s2. auto.
Qed.

(** ** The names offered *)
Lemma starts_begins : forall w n, starts w n = true <-> begins w n.
Proof.
  induction w as [|c w IH]; intros n; [split; [exists n; reflexivity|destruct n; reflexivity]|]. destruct n as [|d n].
  - split; [discriminate|]. intros (r & E). discriminate.
  - cbn [starts]. rewrite andb_true_iff, IH, Ascii.eqb_eq. split.
    + intros (-> & r & ->). exists r. reflexivity.
    + intros (r & E). injection E as -> ->. split; [auto|now exists r].
Qed.
Lemma completion_completes : forall w n t, begins w n -> (t = string_completion w n <-> completes w t n).
Proof.
  intros w n t (r & ->). unfold string_completion, completes. rewrite skipn_app, skipn_all, Nat.sub_diag. cbn [skipn app]. rewrite <- app_assoc. split.
  - intros ->. reflexivity.
  - intros E. now apply app_inv_head in E.
Qed.
Lemma offered : forall w t l, In t (map (string_completion w) (filter (starts w) l)) <-> exists n, begins w n /\ completes w t n /\ In n l.
Proof.
  intros w t l. rewrite in_map_iff. split.
  - intros (n & E & I). apply filter_In in I as [I S]. apply starts_begins in S. exists n. repeat split; auto. now apply completion_completes.
  - intros (n & B & C & I). exists n. split; [symmetry; now apply completion_completes|]. apply filter_In. split; auto. now apply starts_begins.
Qed.
Lemma inside : forall l l' : list string, forallb (fun s => existsb (String.eqb s) l') l = true -> forall s, In s l -> In s l'.
Proof.
  intros l l' H s I. rewrite forallb_forall in H. apply H in I. apply existsb_exists in I as (s' & I & E). apply String.eqb_eq in E. now subst.
Qed.
Lemma public_operators : forall n, In n public <-> is_operator n.
Proof.
  intros n. unfold is_operator. split.
  - intros I. unfold public in I. apply in_map_iff in I as (s & <- & I). exists s. split; [|reflexivity].
    revert s I. now apply inside.
  - intros (s & I & ->). apply in_map. revert s I. now apply inside.
Qed.

Lemma op_offers : forall executables w t, pipeline_syntax w = false \/ w = [] -> In t (complete_op executables w) <-> operator_offered executables w t.
Proof.
  intros ex w t P. unfold complete_op. assert (E : (if pipeline_syntax w then [] else w) = w) by (destruct P as [-> | ->]; [auto|now destruct (pipeline_syntax [])]).
  rewrite E. clear E P. unfold operator_offered. pose proof public_operators as PO. generalize dependent public. intros pub PO.
  generalize dependent is_operator. intros operator PO. destruct (filter (starts w) pub) as [|o os] eqn:F.
  - assert (N : forall op, operator op -> ~ begins w op).
    { intros op I B. apply PO in I. apply starts_begins in B. assert (X : In op (filter (starts w) pub)) by now apply filter_In.
      now rewrite F in X. }
    rewrite offered. split; intros (n & B & C & I); exists n; repeat split; auto. destruct I as [I|[_ I]]; auto. now apply N in I.
  - rewrite <- F, offered. split; intros (n & B & C & I); exists n; repeat split; auto.
    + left. now apply PO.
    + destruct I as [I|[N _]]; [now apply PO|]. exfalso.
      assert (X : In o (filter (starts w) pub)) by (rewrite F; now left). apply filter_In in X as [X S].
      apply starts_begins in S. apply PO in X. eapply N; eauto.
Qed.

Lemma ordinary_syntax : forall w, Forall ordinary w -> pipeline_syntax w = false.
Proof.
  intros w F. unfold pipeline_syntax.
  assert (T : forall c r, marcel_term c = true -> teqb w (c :: r) = false).
  { intros c r M. destruct (teqb w (c :: r)) eqn:E; auto. apply teqb_eq in E. subst w. inversion F; subst. destruct H1 as (_ & X & _). congruence. }
  rewrite !T by reflexivity. cbn [orb]. induction F as [|c t O F IH]; [reflexivity|].
  assert (C : (c =? ":") = false) by (apply Ascii.eqb_neq; intros ->; destruct O as (_ & X & _); discriminate X).
  cbn [ends_with_colon]. destruct t; [exact C|apply IH].
  intros d r M. destruct (teqb (a :: t) (d :: r)) eqn:E; auto. apply teqb_eq in E. injection E as -> ->. inversion F; subst.
  destruct H1 as (_ & X & _). congruence.
Qed.

Lemma place_ordinary : forall u x, unfinished u x -> match x with AtOperator w | AtFlag _ w | AtArgument _ w => Forall ordinary w end.
Proof. intros u x H. induction H; auto. now apply dash_ordinary. Qed.

(** What the tab key offers *)
Lemma typed_ended : forall r (s : state), ended r -> typed_token (r, s) =
  match cur s with None => inr tt | Some (k, terminal) => inl (if terminal : bool then token_value k else Some []) end.
Proof. intros [u| | |] s E; try easy; reflexivity. Qed.
End Props.

Fixpoint no_repeats (l : list text) : bool := match l with [] => true | t :: l => negb (existsb (teqb t) l) && no_repeats l end.
Lemma lookup_in : forall A (l : list (text * A)) n a, no_repeats (map fst l) = true -> In (n, a) l -> lookup n l = Some a.
Proof.
  intros A l n a D I. induction l as [|(m & b) l IH]; [easy|]. cbn [map fst no_repeats] in D. apply andb_true_iff in D as [D1 D].
  cbn [lookup]. destruct I as [E|I].
  - injection E as -> ->. now rewrite teqb_refl.
  - destruct (teqb n m) eqn:E; [|auto]. apply teqb_eq in E. subst m. exfalso. apply negb_true_iff in D1.
    assert (X : existsb (teqb n) (map fst l) = true); [|congruence]. apply existsb_exists. exists n. split; [|apply teqb_refl].
    apply in_map_iff. exists (n, a). auto.
Qed.
Lemma stripped_begins : forall p b u, blank b -> starter u -> begins p (strip (b ++ u)) -> begins p u.
Proof.
  assert (D : forall t, exists c, t = c ++ drop_ws t).
  { induction t as [|c t (x & IH)]; [now exists []|]. cbn [drop_ws]. destruct (isspace c); [exists (c :: x); cbn; congruence|now exists []]. }
  assert (DS : forall t, drop_ws t = skip_ws t) by (induction t as [|c t IH]; cbn [drop_ws skip_ws]; [auto|destruct (isspace c); auto]).
  intros p b u B S (r & E). unfold strip in E. rewrite (DS (b ++ u)), skip_starter in E by auto. destruct (D (rev u)) as (c & X).
  apply (f_equal (@rev ascii)) in X. rewrite rev_involutive, rev_app_distr, E in X. exists (r ++ rev c). now rewrite app_assoc.
Qed.

Section Claims.
Variable shell_args : text -> bool.
Variable creates : call -> bool.
Variable valid : list item -> Prop.
Variable executables : list text.
Hypothesis valid_creates : forall o c, valid o -> stands_op o c -> creates c = true.
Notation unfinished := (unfinished shell_args valid).
Notation completions := (completions shell_args creates executables).

Theorem c76_operators_partial : forall b u w, blank b -> u <> [] -> unfinished u (AtOperator w) ->
  exists l, completions (b ++ u) = Offers l /\ forall t, In t l <-> operator_offered executables w t.
Proof.
  intros b u w B N U. destruct (line_lands (b ++ u) shell_args creates valid valid_creates b u _ eq_refl B U N) as (r & s & E & EN & P & C & k & bb & CU & V).
  unfold Tab.completions. rewrite E. rewrite (typed_ended r s EN), CU. cbn [snd]. rewrite C.
  pose proof (place_ordinary _ _ _ _ U) as FO. cbn in FO. destruct V as [V|(-> & v & V & S)].
  - rewrite V. eexists; split; [reflexivity|]. intros t. apply op_offers. left. now apply ordinary_syntax.
  - destruct bb.
    + rewrite V. eexists; split; [reflexivity|]. intros t. unfold complete_op. rewrite S.
      rewrite <- (op_offers executables [] t) by now right. reflexivity.
    + eexists; split; [reflexivity|]. intros t. apply op_offers. now right.
Qed.

Theorem c76_flags_partial : forall b u n w d, blank b -> unfinished u (AtFlag n w) -> In (n, Some d) op_modules ->
  exists l, completions (b ++ u) = Offers l /\ forall t, In t l <-> flag_offered d w t.
Proof.
  intros b u n w d B U IN.
  assert (N : u <> []).
  { intros ->. inversion U; subst.
    - match goal with Q : _ ++ _ ++ "-" :: _ = [] |- _ => destruct t; [destruct a; discriminate|discriminate] end.
    - destruct t; [destruct a; discriminate|discriminate].
    - destruct t; [destruct a; discriminate|discriminate]. }
  destruct (line_lands (b ++ u) shell_args creates valid valid_creates b u _ eq_refl B U N) as (r & s & E & EN & P & C & CU & l & S).
  unfold Tab.completions. rewrite E. rewrite (typed_ended r s EN), CU. cbn [snd token_value tkind]. rewrite C.
  assert (L : lookup n op_modules = Some (Some d)) by (apply lookup_in; [vm_compute; reflexivity|exact IN]).
  unfold flags. rewrite S. cbn [op_value token_value tkind]. rewrite L.
  eexists; split; [reflexivity|]. intros t. rewrite offered. unfold flag_offered.
  assert (F : forall m, In m (Complete.sorted (flags_of d)) <-> flag_of d m).
  { intros m. transitivity (In m (flags_of d)).
    - split; apply Permutation.Permutation_in; [|symmetry]; apply CompleteProps.sorted_perm.
    - unfold flags_of, flag_of. rewrite in_flat_map. split; intros (f & I & X); exists f; (split; [auto|]).
      + apply in_app_iff in X as [X|X]; [left; destruct (f_short f)|right; destruct (f_long f)]; destruct X; try easy; congruence.
      + apply in_app_iff. destruct X as [-> | ->]; [left|right]; now left. }
  split; intros (m & BE & CO & I); exists m; repeat split; auto; now apply F.
Qed.

Theorem c76_arguments_partial : forall b u n w, blank b -> unfinished u (AtArgument n w) ->
  ~ begins (txt "help") u -> hd_error w <> Some "~" -> completions (b ++ u) = Files w.
Proof.
  intros b u n w B U NH NT.
  assert (N : u <> []).
  { intros ->. inversion U; subst; (destruct t; [destruct a; discriminate || (now destruct (op_starter _ _ ltac:(eassumption)) as (? & ? & ? & _))|discriminate]). }
  destruct (line_lands (b ++ u) shell_args creates valid valid_creates b u _ eq_refl B U N) as (r & s & E & EN & P & C & k & bb & CU & V).
  unfold Tab.completions. rewrite E. rewrite (typed_ended r s EN), CU. cbn [snd]. rewrite V, C. unfold complete_arg.
  destruct (starts (txt "help") (strip (b ++ u))) eqn:H.
  - exfalso. apply NH. apply starts_begins in H. eapply stripped_begins; eauto. destruct (unfinished_start _ _ _ _ U) as [->|S]; [easy|exact S].
  - pose proof (place_ordinary _ _ _ _ U) as FO. cbn in FO.
    assert (T : starts ["~"] (unquote w) = false).
    { destruct w as [|c w]; [reflexivity|]. unfold unquote. inversion FO; subst. assert (Q : is_quote c = false) by now destruct H2 as (_ & _ & ? & _).
      rewrite Q. assert (QL : forall d y, rev (c :: w) = d :: y -> is_quote d = false).
      { intros d y R. rewrite Forall_forall in FO. assert (I : In d (c :: w)) by (apply in_rev; rewrite R; now left). apply FO in I. now destruct I as (_ & _ & ? & _). }
      destruct (rev (c :: w)) as [|d y] eqn:R; [|rewrite (QL d y eq_refl)]; rewrite starts_one; apply Ascii.eqb_neq; intros <-; now apply NT. }
    rewrite T. reflexivity.
Qed.

(** A flag of anything that is not an operator *)
Theorem c76_other_flags_refuted : forall b u n w, blank b -> unfinished u (AtFlag n w) -> (forall d, ~ In (n, Some d) op_modules) ->
  completions (b ++ u) = Crashed.
Proof.
  intros b u n w B U IN.
  assert (N : u <> []) by (intros ->; inversion U; subst; (destruct t; [destruct a; discriminate|discriminate])).
  destruct (line_lands (b ++ u) shell_args creates valid valid_creates b u _ eq_refl B U N) as (r & s & E & EN & P & C & CU & l & S).
  unfold Tab.completions. rewrite E. rewrite (typed_ended r s EN), CU. cbn [snd token_value tkind]. rewrite C.
  unfold flags. rewrite S. cbn [op_value token_value tkind].
  assert (L : forall d, lookup n op_modules <> Some (Some d)).
  { intros d L. apply (IN d). generalize dependent op_modules. clear. intros t _ L. induction t as [|(m & b) t IH]; [discriminate|].
    cbn [lookup] in L. destruct (teqb n m) eqn:E; [|right; auto]. apply teqb_eq in E. injection L as ->. subst. now left. }
  destruct (lookup n op_modules) as [[d|]|]; [now destruct (L d)| |]; reflexivity.
Qed.

(** A line that starts with a word that starts with help is taken for a question. *)
Theorem c76_help_refuted : forall b u n w, blank b -> unfinished u (AtArgument n w) -> begins (txt "help") u ->
  completions (b ++ u) = Topics w.
Proof.
  intros b u n w B U (h & ->).
  destruct (line_lands (b ++ txt "help" ++ h) shell_args creates valid valid_creates b _ _ eq_refl B U ltac:(discriminate)) as (r & s & E & EN & P & C & k & bb & CU & V).
  unfold Tab.completions. rewrite E. rewrite (typed_ended r s EN), CU. cbn [snd]. rewrite V, C. unfold complete_arg.
  assert (H : starts (txt "help") (strip (b ++ txt "help" ++ h)) = true); [|rewrite H; reflexivity].
  apply starts_begins. unfold strip.
  assert (DS : forall t, drop_ws t = skip_ws t) by (induction t as [|c t IH]; cbn [drop_ws skip_ws]; [auto|destruct (isspace c); auto]).
  rewrite !DS, skip_starter; auto; [|eexists; eexists; repeat split; discriminate].
  rewrite rev_app_distr.
  assert (D : forall t, exists y, skip_ws (t ++ rev (txt "help")) = y ++ rev (txt "help")).
  { induction t as [|c t (y & IH)]; [now exists []|]. cbn [app skip_ws]. destruct (isspace c); [now exists y|]. exists (c :: t). reflexivity. }
  destruct (D (rev h)) as (y & ->). rewrite rev_app_distr, rev_involutive. now exists (rev y).
Qed.
End Claims.
