(** The layout of a command line does not matter to the parser. *)
From Verif.Syntax Require Export CommandLine CommandLineSpec.
From Verif.Syntax Require Import LexerFacts LexerFacts2 LexerProps ParserSpec ParserFacts ParserComplete ParserProps.
Local Open Scope char_scope.
Local Open Scope list_scope.

(** ** Tokens *)
Definition after (u : text) : Prop := u = [] \/ exists c r, u = c :: r /\ (isspace c = true \/ c = "|").

Lemma skip_blank : forall w x, blank w -> skip_ws (w ++ x) = skip_ws x.
Proof. induction w as [|c w IH]; intros x B; auto. inversion B; subst. cbn [app skip_ws]. rewrite H1. now apply IH. Qed.
Lemma skip_skip : forall x, skip_ws (skip_ws x) = skip_ws x.
Proof. intros x. apply skip_ws_id. intros c r E. eapply skip_ws_head; eauto. Qed.
Lemma next_skip : forall m x, next_token m (skip_ws x) = next_token m x.
Proof. intros. unfold next_token, unconsolidated. now rewrite skip_skip. Qed.
Lemma next_blank : forall m w x, blank w -> next_token m (w ++ x) = next_token m x.
Proof. intros m w x B. rewrite <- (next_skip m (w ++ x)), skip_blank, next_skip by auto. reflexivity. Qed.

Lemma scan_word : forall m w u, Forall ordinary w -> after u -> scan_string (if m : bool then shell_term else marcel_term) None (w ++ u) = Ok (w, u).
Proof.
  intros m w u F A. induction F as [|c t O F IH].
  - cbn [app]. destruct A as [->|(c & r & -> & [S| ->])]; [reflexivity| |destruct m; reflexivity]. cbn [scan_string]. now rewrite S.
  - cbn [app scan_string]. destruct O as (S & M & Q & B & _).
    assert (M' : (if m then shell_term else marcel_term) c = false).
    { destruct m; auto. destruct (shell_term c) eqn:E; auto. unfold shell_term, marcel_term in *. cbn [existsb] in *.
      repeat (apply orb_false_iff in M as [? M]). repeat (apply orb_true_iff in E as [E|E]); congruence. }
    rewrite S, M', Q. cbn [orb].
    apply Ascii.eqb_neq in B. rewrite B, IH. reflexivity.
Qed.

Lemma raw_pipe : forall m r, exists k r', raw_token m ("|" :: r) = Ok (Some (k, r')) /\ consolidatable k = false.
Proof.
  intros [] r; [apply raw_shell; auto|]. unfold raw_token. change (starts ["("; "|"] ("|" :: r)) with false. cbn [negb andb].
  destruct (starts ["|"; ")"] ("|" :: r)); [eexists; eexists; split; reflexivity|].
  change (starts ["("] ("|" :: r)) with false. change (starts [")"] ("|" :: r)) with false.
  change (starts ["|"] ("|" :: r)) with true. eexists; eexists; split; reflexivity.
Qed.

(** A raw token that may be joined with the next is not, if what follows is [after] *)
Lemma next_whole : forall m t k u, isspace (hd " " t) = false -> raw_token m t = Ok (Some (k, u)) -> after u ->
  next_token m t = Ok (Some (k, skip_ws u)).
Proof.
  intros m t k u S R A. unfold next_token, unconsolidated.
  assert (E : skip_ws t = t) by (destruct t; auto; cbn in *; now rewrite S).
  rewrite E, R. destruct A as [->|(c & r & -> & [SP| ->])].
  - reflexivity.
  - rewrite SP. cbn [negb andb]. rewrite gather_false. reflexivity.
  - change (isspace "|") with false. change (skip_ws ("|" :: r)) with ("|" :: r). cbn [negb andb length].
    destruct (consolidatable k); [|rewrite gather_false; reflexivity]. cbn [gather].
    destruct (raw_pipe m r) as (k' & r' & RP & C). unfold unconsolidated. change (skip_ws ("|" :: r)) with ("|" :: r).
    rewrite RP, C. reflexivity.
Qed.

Lemma read_word_in : forall m w u, w <> [] -> Forall ordinary w -> after u ->
  Reads m (w ++ u) (mktok (KString w) w) (skip_ws u).
Proof.
  intros m w u N F A. destruct w as [|c w]; [easy|]. assert (O : ordinary c) by now inversion F.
  destruct O as (S & M & Q & B & AT & BG).
  apply next_whole; auto.
  assert (NE : forall a t, marcel_term a = true -> starts (a :: t) ((c :: w) ++ u) = false).
  { intros a t MA. cbn. destruct (a =? c) eqn:E; auto. apply Ascii.eqb_eq in E; subst. congruence. }
  unfold raw_token. cbn [app].
  assert (X1 : starts ["@"] (c :: w ++ u) = false) by (rewrite starts_one; apply Ascii.eqb_neq; congruence).
  assert (X2 : starts ["!"] (c :: w ++ u) = false) by (rewrite starts_one; apply Ascii.eqb_neq; congruence).
  cbn [app] in NE. rewrite X1, X2. rewrite !NE by reflexivity. rewrite !andb_false_r.
  change (c :: w ++ u) with ((c :: w) ++ u). rewrite scan_word by auto.
  assert (L : exists v, literal (c :: w) = Ok v).
  { unfold literal. rewrite Q. rewrite unescape_plain; [eauto|]. intro I.
    rewrite Forall_forall in F. apply F in I. now destruct I as (_ & _ & _ & ? & _). }
  destruct L as [v ->]. now rewrite taken_app.
Qed.
Lemma read_word : forall w u, w <> [] -> Forall ordinary w -> after u -> Reads false (w ++ u) (mktok (KString w) w) (skip_ws u).
Proof. exact (read_word_in false). Qed.

Lemma read_expr_in : forall m s u, balanced s -> hd_error s <> Some "|" -> after u ->
  Reads m ("(" :: s ++ ")" :: u) (mktok (KExpr s) ("(" :: s ++ [")"])) (skip_ws u).
Proof.
  intros m s u B H A. apply next_whole; auto. unfold raw_token.
  assert (S1 : starts ["("; "|"] ("(" :: s ++ ")" :: u) = false).
  { cbn [starts]. destruct s as [|c s]; cbn [app starts]; [reflexivity|]. destruct ("|" =? c) eqn:E; [|now rewrite andb_false_r].
    apply Ascii.eqb_eq in E. subst c. now contradiction H. }
  assert (S2 : starts ["|"; ")"] ("(" :: s ++ ")" :: u) = false) by reflexivity.
  assert (S3 : starts ["("] ("(" :: s ++ ")" :: u) = true) by reflexivity.
  rewrite S1, S2, S3, !andb_false_r, expression_balanced by auto.
  pose proof (expr_source_split (s ++ ")" :: u) u (expression_balanced s u B)) as ES.
  apply app_inv_tail in ES.
  assert (TK : taken ("(" :: s ++ ")" :: u) u = "(" :: s ++ [")"]).
  { replace ("(" :: s ++ ")" :: u) with (("(" :: s ++ [")"]) ++ u) by (cbn; now rewrite <- app_assoc). apply taken_app. }
  now rewrite ES, TK.
Qed.
Lemma read_expr : forall s u, balanced s -> hd_error s <> Some "|" -> after u ->
  Reads false ("(" :: s ++ ")" :: u) (mktok (KExpr s) ("(" :: s ++ [")"])) (skip_ws u).
Proof. exact (read_expr_in false). Qed.

Lemma read_begin : forall u, Reads false ("(" :: "|" :: u) (mktok KBegin ["("; "|"]) (skip_ws u).
Proof.
  intros u. unfold Reads, next_token, unconsolidated. change (skip_ws ("(" :: "|" :: u)) with ("(" :: "|" :: u).
  change (raw_token false ("(" :: "|" :: u)) with (@Ok (option (token * text)) (Some (mktok KBegin ["("; "|"], u))).
  change (consolidatable (mktok KBegin ["("; "|"])) with false. cbv iota beta. rewrite andb_false_r, gather_false. reflexivity.
Qed.
Lemma read_end : forall u, Reads false ("|" :: ")" :: u) (mktok KEnd ["|"; ")"]) (skip_ws u).
Proof.
  intros u. unfold Reads, next_token, unconsolidated. change (skip_ws ("|" :: ")" :: u)) with ("|" :: ")" :: u).
  change (raw_token false ("|" :: ")" :: u)) with (@Ok (option (token * text)) (Some (mktok KEnd ["|"; ")"], u))).
  change (consolidatable (mktok KEnd ["|"; ")"])) with false. cbv iota beta. rewrite andb_false_r, gather_false. reflexivity.
Qed.
Lemma read_pipe : forall u, hd_error u <> Some ")" -> Reads false ("|" :: u) (mktok KPipe ["|"]) (skip_ws u).
Proof.
  intros u H. unfold Reads, next_token, unconsolidated.
  change (skip_ws ("|" :: u)) with ("|" :: u).
  assert (R : raw_token false ("|" :: u) = Ok (Some (mktok KPipe ["|"], u))).
  { unfold raw_token.
    assert (E : starts ["|"; ")"] ("|" :: u) = false).
    { cbn [starts]. destruct u as [|c u]; [reflexivity|]. destruct (")" =? c) eqn:E; [|now rewrite andb_false_r].
      apply Ascii.eqb_eq in E. subst c. now contradiction H. }
    rewrite E. reflexivity. }
  rewrite R. change (consolidatable (mktok KPipe ["|"])) with false. rewrite andb_false_r, gather_false. reflexivity.
Qed.

(** ** The grammar *)
Section Laid_out.
Variable shell_args : text -> bool.

(** Each operator starts with a word, or is an expression; the arguments of executables, and of the operators whose arguments are read in the
    same way, are words and expressions. *)
Definition flat (i : item) : Prop := match i with Nest _ => False | _ => True end.
Inductive plain_item : item -> Prop :=
| pl_word : forall w, plain_item (Word w)
| pl_expr : forall s, plain_item (Expr s)
| pl_nest : forall l, Forall plain_op l -> plain_item (Nest l)
with plain_op : list item -> Prop :=
| pl_bare : forall s, plain_op [Expr s]
| pl_op : forall w is, Forall plain_item is -> (shell_args w = true -> Forall flat is) -> plain_op (Word w :: is).

(** The arguments and calls that items and operators are parsed to *)
Inductive stands : item -> arg -> Prop :=
| st_word : forall w, Forall ordinary w -> stands (Word w) (AToken (mktok (KString w) w))
| st_expr : forall s r, stands (Expr s) (AToken (mktok (KExpr s) r))
| st_nest : forall l cs src, Forall2 stands_op l cs -> stands (Nest l) (APipe [] cs src)
with stands_op : list item -> call -> Prop :=
| st_bare : forall s r, stands_op [Expr s] (Call (OMade "map") [AToken (mktok (KExpr s) r)])
| st_op : forall w is as_, Forall2 stands is as_ -> stands_op (Word w :: is) (Call (OWord (mktok (KString w) w)) as_).

Definition starter (t : text) : Prop := exists c r, t = c :: r /\ isspace c = false /\ c <> ")".
Lemma starter_app : forall t u, starter t -> starter (t ++ u).
Proof. intros t u (c & r & -> & S & N). exists c, (r ++ u). auto. Qed.
Lemma item_starter : forall i t, written_item i t -> starter t.
Proof.
  intros i t H. inversion H; subst.
  - destruct t as [|c t]; [easy|]. exists c, t. inversion H1; subst. destruct H4 as (S & M & _). repeat split; auto.
    intros ->. discriminate M.
  - eexists; eexists; repeat split; discriminate.
  - eexists; eexists; repeat split; discriminate.
Qed.
Lemma op_starter : forall is t, written_op is t -> starter t.
Proof. intros is t H. inversion H; subst; [|apply starter_app]; eapply item_starter; eauto. Qed.
Lemma line_starter : forall l t, written l t -> starter t.
Proof. intros is t H. inversion H; subst; [|apply starter_app]; eapply op_starter; eauto. Qed.
Lemma skip_starter : forall w t, blank w -> starter t -> skip_ws (w ++ t) = t.
Proof. intros w t B (c & r & -> & S & N). rewrite skip_blank by auto. cbn [skip_ws]. now rewrite S. Qed.
Lemma after_blank : forall w u, blank w -> w <> [] -> after (w ++ u).
Proof. intros [|c w] u B N; [easy|]. right. inversion B; subst. exists c, (w ++ u). auto. Qed.
Lemma after_pipe : forall w u, blank w -> after (w ++ "|" :: u).
Proof. intros [|c w] u B; right; [exists "|", u|exists c, (w ++ "|" :: u)]; auto. inversion B; subst. auto. Qed.

Lemma item_reads : forall i t u, written_item i t -> after u ->
  exists k r, Reads false (t ++ u) k r /\ (is_word k || is_expr k || is_begin k)%bool = true.
Proof.
  intros i t u H A. inversion H; subst.
  - eexists; eexists; split; [apply read_word; auto|reflexivity].
  - eexists; eexists; split; [|].
    + cbn [app]. rewrite <- app_assoc. cbn [app]. apply read_expr; auto.
    + reflexivity.
  - eexists; eexists; split; [cbn [app]; apply read_begin|reflexivity].
Qed.
Lemma reads_skip : forall m t k r, Reads m (skip_ws t) k r <-> Reads m t k r.
Proof. intros. unfold Reads. now rewrite next_skip. Qed.
Lemma nothing_skip : forall t, Nothing (skip_ws t) <-> Nothing t.
Proof. intros. unfold Nothing. now rewrite next_skip. Qed.

Definition calm (k : token) : Prop := is_comma k = false /\ is_colon k = false /\ is_assign k = false /\ is_lt k = false.
Definition closing (u : text) : Prop := after u /\ (Nothing u \/ exists k r, Reads false u k r /\ is_end k = true).

Lemma op_first : forall is t u, written_op is t -> after u -> 
  (Nothing (skip_ws u) \/ exists k r, Reads false (skip_ws u) k r /\ calm k) ->
  forall k r, Reads false (t ++ u) k r -> is_word k = true ->
  Nothing r \/ exists k' r', Reads false r k' r' /\ calm k'.
Proof.
  intros is t u H A C k r R W. inversion H as [i t' I|i t' w is' u' I B N O]; subst.
  - inversion I; subst.
    + pose proof (read_word t u H0 H1 A) as R'. destruct (reads_fun _ _ _ _ _ _ R R') as [-> ->]. exact C.
    + cbn [app] in R. rewrite <- app_assoc in R. cbn [app] in R. pose proof (read_expr s u H0 H1 A) as R'.
      destruct (reads_fun _ _ _ _ _ _ R R') as [-> ->]. discriminate.
    + cbn [app] in R. pose proof (read_begin ((a ++ t0 ++ b ++ ["|"; ")"]) ++ u)) as R'.
      destruct (reads_fun _ _ _ _ _ _ R R') as [-> ->]. discriminate.
  - rewrite <- !app_assoc in R.
    assert (A' : after (w ++ u' ++ u)) by now apply after_blank.
    inversion I; subst.
    + pose proof (read_word t' (w ++ u' ++ u) H0 H1 A') as R'. destruct (reads_fun _ _ _ _ _ _ R R') as [-> ->].
      rewrite skip_starter; auto; [|apply starter_app; eapply op_starter; eauto].
      assert (E : exists i2 t2 u2, written_item i2 t2 /\ after u2 /\ u' ++ u = t2 ++ u2).
      { inversion O; subst; [exists i, u', u; auto|]. exists i, t, (w0 ++ u0 ++ u). rewrite <- !app_assoc. repeat split; auto. now apply after_blank. }
      destruct E as (i2 & t2 & u2 & I2 & A2 & ->). right. destruct (item_reads _ _ _ I2 A2) as (k2 & r2 & R2 & K).
      exists k2, r2. split; auto. unfold calm. clear - K. kinds.
    + cbn [app] in R. rewrite <- app_assoc in R. cbn [app] in R. pose proof (read_expr s _ H0 H1 A') as R'.
      destruct (reads_fun _ _ _ _ _ _ R R') as [-> ->]. discriminate.
    + cbn [app] in R. pose proof (read_begin ((a ++ t ++ b ++ ["|"; ")"]) ++ w ++ u' ++ u)) as R'.
      destruct (reads_fun _ _ _ _ _ _ R R') as [-> ->]. discriminate.
Qed.

Lemma pipe_reads : forall a b u, blank a -> blank b -> starter u -> Reads false (skip_ws (a ++ "|" :: b ++ u)) (mktok KPipe ["|"]) u.
Proof.
  intros a b u A B S. rewrite skip_blank by auto. cbn [skip_ws]. change (isspace "|") with false. cbv iota.
  rewrite <- (skip_starter b u) at 2 by auto. apply read_pipe.
  destruct b as [|c b]; cbn [app hd_error].
  - destruct S as (c & r & -> & S & N). cbn. congruence.
  - inversion B; subst. intros Q. injection Q as ->. discriminate.
Qed.

Lemma line_first : forall l t u, written l t -> closing u ->
  forall k r, Reads false (t ++ u) k r -> is_word k = true ->
  Nothing r \/ exists k' r', Reads false r k' r' /\ calm k'.
Proof.
  intros l t u H [A C]. inversion H; subst.
  - apply (op_first o); auto. destruct C as [C|(k & r & R & E)]; [left; now apply nothing_skip|].
    right. exists k, r. rewrite reads_skip. split; auto. unfold calm. kinds.
  - rewrite <- !app_assoc. cbn [app]. rewrite <- !app_assoc. apply (op_first o); auto; [now apply after_pipe|].
    right. exists (mktok KPipe ["|"]), (u0 ++ u). split; [|repeat split].
    apply pipe_reads; auto. apply starter_app. eapply line_starter; eauto.
Qed.

Notation OpSequence := (OpSequence shell_args true clear).
Notation OpArgs := (OpArgs shell_args true clear).
Notation Args := (Args shell_args true clear).
Notation Arg := (Arg shell_args true clear).

Lemma line_clear : forall l t u, written l t -> closing u -> clear false (t ++ u).
Proof.
  intros l t u H C k r R W. destruct (line_first l t u H C k r R W) as [N|(k' & r' & R' & K & K' & _)]; auto.
  right. exists k', r'. auto.
Qed.

Lemma laid_out :
  (forall i t, written_item i t -> plain_item i -> forall m u, (m = true -> flat i) -> after u ->
     exists a, Arg m (t ++ u) a (skip_ws u) /\ stands i a) /\
  (forall is t, written_op is t -> 
     (Forall plain_item is -> forall m u, (m = true -> Forall flat is) -> after u ->
        exists l, Args m (t ++ u) l (skip_ws u) /\ Forall2 stands is l) /\
     (plain_op is -> forall u, after u -> exists c, OpArgs (t ++ u) c (skip_ws u) /\ stands_op is c)) /\
  (forall l t, written l t -> Forall plain_op l -> forall u, closing u -> 
     exists cs, OpSequence (t ++ u) cs (skip_ws u) /\ Forall2 stands_op l cs).
Proof.
  apply layout_ind.
  - intros w N F _ m u _ A. eexists; split; [|constructor; auto]. apply ArgWord; [now apply read_word_in|reflexivity|].
    unfold missing_quote. cbn [tkind]. destruct w as [|c w]; [easy|]. inversion F; subst. destruct H1 as (_ & _ & Q & _).
    unfold literal. rewrite Q. now destruct (unescape (c :: w)).
  - intros s B H _ m u _ A. eexists; split; [|constructor]. cbn [app]. rewrite <- app_assoc. cbn [app].
    apply ArgWord; [apply read_expr_in; auto|reflexivity|reflexivity].
  - intros l a t b BA BB WL IH P m u FL A. inversion P; subst. destruct m; [now specialize (FL eq_refl)|].
    assert (CL : closing (b ++ "|" :: ")" :: u)).
    { split; [now apply after_pipe|]. right. exists (mktok KEnd ["|"; ")"]), (skip_ws u). split; auto.
      unfold Reads. rewrite next_blank by auto. apply read_end. }
    destruct (IH H0 _ CL) as (cs & OS & ST).
    assert (SK : skip_ws (b ++ "|" :: ")" :: u) = "|" :: ")" :: u) by (rewrite skip_blank by auto; reflexivity).
    rewrite SK in OS.
    eexists; split; [|apply st_nest; exact ST].
    replace (("(" :: "|" :: a ++ t ++ b ++ ["|"; ")"]) ++ u) with ("(" :: "|" :: a ++ t ++ b ++ "|" :: ")" :: u)
      by (cbn [app]; now rewrite <- !app_assoc).
    eapply ArgPipe; [apply read_begin|reflexivity| |apply read_end|reflexivity].
    rewrite skip_starter; auto; [|apply starter_app; eapply line_starter; eauto].
    eapply Pipe; [apply PNone|]. apply BSeq; [|exact OS]. eapply line_clear; eauto.
  - intros i t WI IH. split.
    + intros F m u FL A. inversion F; subst. destruct (IH H1 m u) as (a & AR & ST); [intros E; specialize (FL E); now inversion FL|auto|].
      exists [a]. split; [|auto].
      eapply ArgsMore; [exact AR|constructor].
    + intros P u A. inversion P; subst.
      * destruct (IH (pl_expr s) false u ltac:(discriminate) A) as (a & AR & ST). inversion ST; subst. inversion AR; subst.
        eexists; split; [|constructor]. apply OpExpr; [eassumption|reflexivity].
      * inversion WI; subst. eexists; split; [|apply st_op; constructor].
        apply OpWord with (t1 := skip_ws u); [now apply read_word|reflexivity|]. cbn [is_word word_value tkind andb].
        constructor.
  - intros i t w is u WI IH B N WO [IA IO].
    assert (S : forall v, skip_ws (w ++ u ++ v) = u ++ v) by (intros v; apply skip_starter; auto; apply starter_app; eapply op_starter; eauto).
    assert (AW : forall v, after (w ++ u ++ v)) by (intros v; now apply after_blank).
    split.
    + intros F m v FL A. inversion F; subst.
      destruct (IH H1 m (w ++ u ++ v)) as (a & AR & ST); [intros E; specialize (FL E); now inversion FL|apply AW|].
      destruct (IA H2 m v) as (l & ARS & STS); [intros E; specialize (FL E); now inversion FL|auto|]. exists (a :: l). split; [|constructor; auto].
      rewrite <- !app_assoc. rewrite S in AR. eapply ArgsMore; eauto.
    + intros P v A. inversion P; subst.
      * exfalso. inversion WO.
      * match goal with P1 : Forall plain_item is, P2 : _ -> Forall flat is |- _ => destruct (IA P1 (shell_args w0) v P2 A) as (l & ARS & STS) end.
        eexists; split; [|apply st_op; exact STS].
        rewrite <- !app_assoc. inversion WI; subst. eapply OpWord; [apply read_word; auto|reflexivity|].
        cbn [is_word word_value tkind andb].
        rewrite S. exact ARS.
  - intros o t WO [_ IO] F u [A C]. inversion F; subst. destruct (IO H1 u A) as (c & OA & ST). exists [c]. split; [now apply SeqOne|auto].
  - intros o t a b l u WO [_ IO] BA BB WL IH F v C. inversion F; subst. rewrite <- !app_assoc. cbn [app]. rewrite <- !app_assoc.
    destruct (IO H1 (a ++ "|" :: b ++ u ++ v)) as (c & OA & ST); [now apply after_pipe|].
    destruct (IH H2 v C) as (cs & OS & STS). exists (c :: cs). split; [|constructor; auto].
    eapply SeqMore; [exact OA|apply pipe_reads; auto|reflexivity|exact OS]. apply starter_app. eapply line_starter; eauto.
Qed.

Theorem typed_parse : forall l line, Forall plain_op l -> typed l line -> 
  exists cs, parse shell_args line = Ok (CRun [] cs) /\ Forall2 stands_op l cs.
Proof.
  intros l line P (a & t & b & BA & W & BB & E).
  assert (X : exists u, closing u /\ Nothing u /\ line = a ++ t ++ u).
  { assert (NB : Nothing b). { unfold Nothing. rewrite <- (app_nil_r b). rewrite next_blank by auto. reflexivity. }
    destruct E as [->|(comment & N & ->)].
    - exists b. repeat split; auto. destruct b; [now left|]. rewrite <- app_nil_r. apply after_blank; [auto|discriminate].
    - assert (NC : Nothing (b ++ "#" :: comment)). { unfold Nothing. rewrite next_blank by auto. reflexivity. }
      exists (b ++ "#" :: comment). repeat split; auto. now apply after_blank. }
  destruct X as (u & C & N & ->). destruct (proj2 (proj2 laid_out) l t W P u C) as (cs & OS & ST). exists cs. split; auto.
  assert (RB : forall m k r, Reads m (a ++ t ++ u) k r <-> Reads m (t ++ u) k r) by (intros; unfold Reads; now rewrite next_blank).
  apply c47_accepted. apply ComRun with (r := skip_ws u); [| |now apply nothing_skip].
  - intros k r k' r' R W' R'. apply RB in R. destruct (line_first l t u W C k r R W') as [N'|(k2 & r2 & R2 & K & K' & K2 & _)].
    + exfalso. eapply reads_nothing; eauto.
    + destruct (reads_fun _ _ _ _ _ _ R' R2) as [-> _]. exact K2.
  - eapply Pipe; [apply PNone|]. apply BSeq.
    + intros k r R W'. apply RB in R. exact (line_clear l t u W C k r R W').
    + clear - OS RB. inversion OS as [? c ? O|? c t1 p t2 cs' ? O R P S]; subst; [apply SeqOne|eapply SeqMore; eauto];
        (inversion O; subst; [apply OpExpr; auto; now apply RB|eapply OpWord; eauto; now apply RB]).
Qed.
End Laid_out.
