From Verif.Syntax Require Export LexerSpec.
Local Open Scope char_scope.
Local Open Scope list_scope.

Lemma taken_app : forall p rest : text, taken (p ++ rest) rest = p.
Proof.
  intros. unfold taken. rewrite app_length.
  replace (length p + length rest - length rest) with (length p) by lia.
  rewrite firstn_app, Nat.sub_diag, firstn_all. cbn. apply app_nil_r.
Qed.

Ltac inv H := inversion H; subst; clear H.

(** ** Scanning consumes a prefix *)

Lemma scons_ok : forall l r cs rest, scons l r = Ok (cs, rest) ->
  exists cs', r = Ok (cs', rest) /\ cs = l ++ cs'.
Proof. intros l r cs rest H. destruct r as [[a b]| | |]; cbn in H; inv H. eauto. Qed.

Section Strong.
  Variable A : Type.
  Lemma list_len_ind : forall P : list A -> Prop,
    (forall t, (forall u, length u < length t -> P u) -> P t) -> forall t, P t.
  Proof.
    intros P H t. remember (length t) as n eqn:E. revert t E.
    induction n as [n IH] using lt_wf_ind. intros t ->. apply H. intros u L. eapply IH; eauto.
  Qed.
End Strong.

Lemma scan_suffix : forall term t q cs rest, scan_string term q t = Ok (cs, rest) ->
  exists p, t = p ++ rest /\ (~ In bslash p -> cs = p).
Proof.
  intros term. induction t as [t IH] using list_len_ind. intros q cs rest H.
  destruct t as [|c r]; cbn in H.
  - inv H. now exists [].
  - assert (Step : forall q', scons [c] (scan_string term q' r) = Ok (cs, rest) ->
              exists p, c :: r = p ++ rest /\ (~ In bslash p -> cs = p)).
    { intros q' E. apply scons_ok in E as (cs' & E & ->).
      apply IH in E as (p & -> & Q); [|cbn; lia]. exists (c :: p). split; auto.
      intros N. cbn. rewrite Q; auto. intro; apply N; now right. }
    destruct (isspace c || term c).
    + destruct q; eauto. inv H. now exists [].
    + destruct (is_quote c); eauto.
      destruct (c =? bslash) eqn:B.
      * apply Ascii.eqb_eq in B; subst c.
        assert (Step2 : forall l d r', r = d :: r' -> scons l (scan_string term q r') = Ok (cs, rest) ->
              exists p, bslash :: r = p ++ rest /\ (~ In bslash p -> cs = p)).
        { intros l d r' -> E. apply scons_ok in E as (cs' & E & ->).
          apply IH in E as (p & -> & Q); [|cbn; lia]. exists (bslash :: d :: p). split; auto.
          intros N. exfalso. apply N. now left. }
        destruct q as [q0|].
        -- destruct (q0 =? squote); eauto. destruct r as [|d r']; [discriminate|].
           destruct (d =? bslash); eauto.
        -- destruct r as [|d r']; [inv H; exists [bslash]; split; auto | eauto].
      * eauto.
Qed.

Lemma scan_nonempty : forall term q c r cs rest, (isspace c || term c)%bool = false ->
  scan_string term q (c :: r) = Ok (cs, rest) -> length rest < length (c :: r) /\ cs <> [].
Proof.
  intros term q c r cs rest B H. cbn in H. rewrite B in H.
  assert (L : forall l q' u, l <> [] -> length u <= length r -> scons l (scan_string term q' u) = Ok (cs, rest) ->
             length rest < length (c :: r) /\ cs <> []).
  { intros l q' u NE LE E. apply scons_ok in E as (cs' & E & ->).
    apply scan_suffix in E as (p & -> & _). rewrite app_length in LE. split.
    - cbn. lia.
    - destruct l; [easy|discriminate]. }
  destruct (is_quote c). { eapply L; [| |exact H]; [discriminate|cbn; lia]. }
  destruct (c =? bslash).
  - destruct q as [q0|].
    + destruct (q0 =? squote). { eapply L; [| |exact H]; [discriminate|cbn; lia]. }
      destruct r as [|d r']; [discriminate|].
      destruct (d =? bslash); (eapply L; [| |exact H]; [discriminate|cbn; lia]).
    + destruct r as [|d r']; [inv H; cbn; split; [lia|discriminate]|].
      eapply L; [| |exact H]; [discriminate|cbn; lia].
  - eapply L; [| |exact H]; [discriminate|cbn; lia].
Qed.

Lemma pstr_suffix : forall q tr t rest, pstr q tr t = Ok rest -> exists p, t = p ++ rest.
Proof.
  intros q tr. induction t as [t IH] using list_len_ind. intros rest H.
  destruct t as [|c r]; cbn in H; [discriminate|].
  assert (Step : pstr q tr r = Ok rest -> exists p, c :: r = p ++ rest).
  { intros E. apply IH in E as (p & ->); [|cbn; lia]. now exists (c :: p). }
  destruct (is_quote c).
  - destruct (c =? q); auto. destruct tr.
    + destruct r as [|a [|b r']]; auto.
      destruct ((a =? q) && (b =? q)); auto. inv H. now exists [c; a; b].
    + inv H. now exists [c].
  - destruct (c =? bslash); auto. destruct r as [|d r']; [discriminate|].
    apply IH in H as (p & ->); [|cbn; lia]. now exists (c :: d :: p).
Qed.

Lemma two_quotes_some : forall q t r, two_quotes q t = Some r -> t = q :: q :: r.
Proof.
  intros q t r H. destruct t as [|a [|b t]]; cbn in H; try discriminate.
  destruct ((a =? q) && (b =? q)) eqn:E; [|discriminate]. inv H.
  apply andb_true_iff in E as [A B]. apply Ascii.eqb_eq in A, B. now subst.
Qed.

Lemma python_string_suffix : forall q t rest, python_string q t = Ok rest -> exists p, t = p ++ rest.
Proof.
  intros q t rest H. unfold python_string in H. destruct (two_quotes q t) eqn:E.
  - apply two_quotes_some in E. subst. apply pstr_suffix in H as (p & ->). now exists (q :: q :: p).
  - eapply pstr_suffix; eauto.
Qed.

Lemma escan_suffix : forall f n prev t rest, escan f n prev t = Ok rest -> exists p, t = p ++ rest.
Proof.
  induction f as [|f IH]; intros n prev t rest H; destruct n; cbn in H.
  - inv H. now exists [].
  - destruct t; [|discriminate]. destruct (prev =? ")"); inv H. now exists [].
  - inv H. now exists [].
  - destruct t as [|c r]. { destruct (prev =? ")"); inv H. now exists []. }
    destruct (c =? "("). { apply IH in H as (p & ->). now exists (c :: p). }
    destruct (c =? ")"). { apply IH in H as (p & ->). now exists (c :: p). }
    destruct (is_quote c).
    + destruct (python_string c r) eqn:E; try discriminate.
      apply python_string_suffix in E as (p1 & ->). apply IH in H as (p & ->).
      exists (c :: p1 ++ p). cbn. now rewrite app_assoc.
    + apply IH in H as (p & ->). now exists (c :: p).
Qed.

Lemma last_irrel : forall (A : Type) (l : list A) x d d', last (x :: l) d = last (x :: l) d'.
Proof. induction l as [|a l IH]; intros; auto. change (last (a :: l) d = last (a :: l) d'). apply IH. Qed.

Lemma last_app_cons : forall (A : Type) (u : list A) c p d d', last (u ++ c :: p) d = last (c :: p) d'.
Proof.
  induction u as [|a u IH]; intros; cbn [app].
  - apply last_irrel.
  - rewrite <- (IH c p d d'). destruct u; reflexivity.
Qed.

(** An accepted expression ends with a closing parenthesis. *)
Lemma escan_close : forall f n prev t rest, escan f n prev t = Ok rest -> 
  (n = 0 -> prev = ")") ->
  exists p, t = p ++ rest /\ last (prev :: p) prev = ")".
Proof.
  induction f as [|f IH]; intros n prev t rest H HP; destruct n; cbn in H.
  - inv H. exists []. split; [reflexivity|]. cbn. auto.
  - destruct t; [|discriminate]. destruct (prev =? ")") eqn:E; inv H. exists []. split; [reflexivity|].
    now apply Ascii.eqb_eq.
  - inv H. exists []. split; [reflexivity|]. cbn. auto.
  - destruct t as [|c r].
    { destruct (prev =? ")") eqn:E; inv H. exists []. split; [reflexivity|]. now apply Ascii.eqb_eq. }
    assert (Fix : forall p u, last (c :: p) c = ")" -> last (prev :: u ++ c :: p) prev = ")").
    { intros p u L. change (prev :: u ++ c :: p) with ((prev :: u) ++ c :: p).
      now rewrite (last_app_cons _ _ _ _ _ c). }
    destruct (c =? "(") eqn:EO.
    { apply IH in H as (p & -> & L); [|discriminate]. exists (c :: p). split; auto. now apply (Fix p []). }
    destruct (c =? ")") eqn:EC.
    { apply IH in H as (p & -> & L); [|intros; now apply Ascii.eqb_eq]. exists (c :: p). split; auto. now apply (Fix p []). }
    destruct (is_quote c) eqn:EQ.
    + destruct (python_string c r) eqn:E; try discriminate.
      apply python_string_suffix in E as (p1 & ->). apply IH in H as (p & -> & L); [|discriminate].
      exists (c :: p1 ++ p). split; [cbn; now rewrite app_assoc|].
      destruct p as [|x p].
      * exfalso. cbn in L. subst c. discriminate.
      * change (last ((prev :: c :: p1) ++ x :: p) prev = ")").
        now rewrite (last_app_cons _ _ _ _ _ c).
    + apply IH in H as (p & -> & L); [|discriminate]. exists (c :: p). split; auto. now apply (Fix p []).
Qed.

(** ** Fuel is enough *)

Lemma scan_no_fuel : forall term t q, scan_string term q t <> Fuel.
Proof.
  intros term. induction t as [t IH] using list_len_ind. intros q.
  assert (K : forall l q' u, length u < length t -> scons l (scan_string term q' u) <> Fuel).
  { intros l q' u L E. specialize (IH u L q'). destruct (scan_string term q' u) as [[? ?]| | |]; cbn in E; congruence. }
  destruct t as [|c r]; cbn; [discriminate|].
  destruct (isspace c || term c). { destruct q; [apply K; cbn; lia|discriminate]. }
  destruct (is_quote c). { apply K; cbn; lia. }
  destruct (c =? bslash); [|apply K; cbn; lia].
  destruct q as [q0|].
  - destruct (q0 =? squote). { apply K; cbn; lia. }
    destruct r as [|d r']; [discriminate|]. destruct (d =? bslash); apply K; cbn; lia.
  - destruct r as [|d r']; [discriminate|]. apply K; cbn; lia.
Qed.

Lemma pstr_no_fuel : forall q tr t, pstr q tr t <> Fuel.
Proof.
  intros q tr. induction t as [t IH] using list_len_ind.
  destruct t as [|c r]; cbn; [discriminate|].
  assert (K : pstr q tr r <> Fuel) by (apply IH; cbn; lia).
  destruct (is_quote c).
  - destruct (c =? q); auto. destruct tr; [|discriminate].
    destruct r as [|a [|b r']]; auto. destruct ((a =? q) && (b =? q)); auto. discriminate.
  - destruct (c =? bslash); auto. destruct r as [|d r']; [discriminate|]. apply IH; cbn; lia.
Qed.

Lemma escan_fuel : forall f n prev t, length t <= f -> escan f n prev t <> Fuel.
Proof.
  induction f as [|f IH]; intros n prev t L; destruct n; cbn; try discriminate.
  - destruct t; [destruct (prev =? ")"); discriminate|cbn in L; lia].
  - destruct t as [|c r]; [destruct (prev =? ")"); discriminate|]. cbn in L.
    destruct (c =? "("). { apply IH; lia. }
    destruct (c =? ")"). { apply IH; lia. }
    destruct (is_quote c); [|apply IH; lia].
    destruct (python_string c r) eqn:E; try discriminate.
    + apply python_string_suffix in E as (p & ->). rewrite app_length in L. apply IH; lia.
    + unfold python_string in E. exfalso. destruct (two_quotes c r); eapply pstr_no_fuel; eauto.
Qed.

Lemma expression_no_fuel : forall t, expression t <> Fuel.
Proof. intros [|c r]; cbn; [discriminate|]. apply escan_fuel. lia. Qed.

Lemma unescape_no_fuel : forall t, unescape t <> Fuel.
Proof.
  induction t as [t IH] using list_len_ind. destruct t as [|c r]; cbn; [discriminate|].
  destruct (c =? bslash).
  - destruct r as [|d r']; [discriminate|].
    assert (K : unescape r' <> Fuel) by (apply IH; cbn; lia). now destruct (unescape r').
  - assert (K : unescape r <> Fuel) by (apply IH; cbn; lia). now destruct (unescape r).
Qed.

Lemma unescape_no_err : forall t, unescape t <> Err.
Proof.
  induction t as [t IH] using list_len_ind. destruct t as [|c r]; cbn; [discriminate|].
  destruct (c =? bslash).
  - destruct r as [|d r']; [discriminate|].
    assert (K : unescape r' <> Err) by (apply IH; cbn; lia). now destruct (unescape r').
  - assert (K : unescape r <> Err) by (apply IH; cbn; lia). now destruct (unescape r).
Qed.

Lemma literal_no_fuel : forall t, literal t <> Fuel.
Proof.
  intros [|c r]; unfold literal; [discriminate|]. destruct (is_quote c); [discriminate|].
  pose proof (unescape_no_fuel (c :: r)). now destruct (unescape (c :: r)).
Qed.

(** ** One token *)

Lemma starts_app : forall p t, starts p t = true -> t = p ++ skipn (length p) t.
Proof.
  induction p as [|a p IH]; intros t H; cbn in *; auto.
  destruct t as [|b t]; [discriminate|]. apply andb_true_iff in H as [A B].
  apply Ascii.eqb_eq in A; subst. cbn. f_equal. auto.
Qed.

Lemma symbol_ok : forall k n t k' rest p, starts p t = true -> n = length p ->
  symbol k n t = Ok (Some (k', rest)) -> t = raw k' ++ rest /\ raw k' = p /\ tkind k' = k.
Proof.
  intros k n t k' rest p S -> H. unfold symbol in H. inv H. cbn.
  apply starts_app in S. repeat split.
  - symmetry. apply firstn_skipn.
  - rewrite S at 1. rewrite firstn_app, Nat.sub_diag, firstn_all. cbn. apply app_nil_r.
Qed.

Lemma starts_one : forall c a t, starts [a] (c :: t) = (a =? c).
Proof. intros. cbn. now rewrite andb_true_r. Qed.

Lemma last_snoc : forall (A : Type) (l : list A) d, l <> [] -> l = removelast l ++ [last l d].
Proof. intros. now apply app_removelast_last. Qed.

Lemma raw_token_ok : forall shell t k rest, raw_token shell t = Ok (Some (k, rest)) ->
  (forall c r, t = c :: r -> isspace c = false) ->
  t = raw k ++ rest /\ raw k <> [] /\ faithful k.
Proof.
  intros shell t k rest H NS. unfold raw_token in H. destruct t as [|c r]; [discriminate|].
  remember (c :: r) as t eqn:T.
  assert (SYM : forall kk n p, n = length p -> p <> [] -> starts p t = true -> symbol kk n t = Ok (Some (k, rest)) ->
     (forall kx, tkind kx = kk -> raw kx = p -> faithful kx) ->
     t = raw k ++ rest /\ raw k <> [] /\ faithful k).
  { intros kk n p En NE S E F. destruct (symbol_ok _ _ _ _ _ _ S En E) as (A & B & C).
    repeat split; auto. now rewrite B. }
  assert (FA : forall kk p, match kk with
      | KBegin => p = ["("; "|"] | KEnd => p = ["|"; ")"] | KPipe => p = ["|"] | KRemote => p = ["@"]
      | KBang true => p = ["!"; "!"] | KBang false => p = ["!"] | KAssign => p = ["="] | KComma => p = [","]
      | KColon => p = [":"] | KGt s | KLt s => p = s | _ => False end ->
      forall kx, tkind kx = kk -> raw kx = p -> faithful kx).
  { intros kk p M kx E R. unfold faithful. rewrite E, R. destruct kk; try destruct double; try exact M; destruct M. }
  Ltac symcase H SYM FA p :=
    match type of H with
    | (if ?b then _ else _) = _ => destruct b eqn:?SS
    end.
  destruct (negb shell && starts ["("; "|"] t) eqn:S1.
  { apply andb_true_iff in S1 as [_ S1]. eapply SYM with (p := ["("; "|"]); eauto; [discriminate|]. apply FA; reflexivity. }
  destruct (negb shell && starts ["|"; ")"] t) eqn:S2.
  { apply andb_true_iff in S2 as [_ S2]. eapply SYM with (p := ["|"; ")"]); eauto; [discriminate|]. apply FA; reflexivity. }
  destruct (starts ["("] t) eqn:S3.
  { destruct (expression t) as [rest'| | |] eqn:E; try discriminate. inv H.
    rewrite starts_one in S3. apply Ascii.eqb_eq in S3; subst c.
    cbn [expression] in E. apply escan_close in E as (p & -> & L); [|discriminate].
    change ("(" :: p ++ rest) with (("(" :: p) ++ rest). cbn [raw].
    assert (TK : taken (("(" :: p) ++ rest) rest = "(" :: p) by apply taken_app.
    rewrite TK.
    repeat split; try discriminate.
    unfold faithful, expr_source. cbn [tkind raw]. rewrite TK. cbn [tl].
    destruct p as [|x p]; [discriminate L|].
    f_equal. rewrite (last_snoc _ (x :: p) "(") at 1 by discriminate. f_equal. f_equal.
    cbn in L |- *. exact L. }
  destruct (starts [")"] t) eqn:S4; [discriminate|].
  destruct (starts ["|"] t) eqn:S5.
  { eapply SYM with (p := ["|"]); eauto; [discriminate|]. apply FA; reflexivity. }
  destruct (negb shell && starts ["@"] t) eqn:S6.
  { apply andb_true_iff in S6 as [_ S6]. eapply SYM with (p := ["@"]); eauto; [discriminate|]. apply FA; reflexivity. }
  destruct (starts ["!"] t) eqn:S7.
  { destruct (starts ["!"; "!"] t) eqn:S8.
    - eapply SYM with (p := ["!"; "!"]); eauto; [discriminate|]. apply FA; reflexivity.
    - eapply SYM with (p := ["!"]); eauto; [discriminate|]. apply FA; reflexivity. }
  destruct (negb shell && starts ["="] t) eqn:S9.
  { apply andb_true_iff in S9 as [_ S9]. eapply SYM with (p := ["="]); eauto; [discriminate|]. apply FA; reflexivity. }
  destruct (negb shell && starts [","] t) eqn:S10.
  { apply andb_true_iff in S10 as [_ S10]. eapply SYM with (p := [","]); eauto; [discriminate|]. apply FA; reflexivity. }
  destruct (negb shell && starts [":"] t) eqn:S11.
  { apply andb_true_iff in S11 as [_ S11]. eapply SYM with (p := [":"]); eauto; [discriminate|]. apply FA; reflexivity. }
  destruct (starts ["#"] t) eqn:S12; [discriminate|].
  destruct (starts [">"; ">"; "$"] t) eqn:S13.
  { eapply SYM with (p := [">"; ">"; "$"]); eauto; [discriminate|]. apply FA; reflexivity. }
  destruct (starts [">"; "$"] t) eqn:S14.
  { eapply SYM with (p := [">"; "$"]); eauto; [discriminate|]. apply FA; reflexivity. }
  destruct (starts [">"; ">"] t) eqn:S15.
  { eapply SYM with (p := [">"; ">"]); eauto; [discriminate|]. apply FA; reflexivity. }
  destruct (starts [">"] t) eqn:S16.
  { eapply SYM with (p := [">"]); eauto; [discriminate|]. apply FA; reflexivity. }
  destruct (starts ["<"; "$"] t) eqn:S17.
  { eapply SYM with (p := ["<"; "$"]); eauto; [discriminate|]. apply FA; reflexivity. }
  destruct (starts ["<"] t) eqn:S18.
  { eapply SYM with (p := ["<"]); eauto; [discriminate|]. apply FA; reflexivity. }
  subst t. rewrite starts_one in *.
  assert (NT : (isspace c || (if shell then shell_term else marcel_term) c)%bool = false).
  { rewrite (NS c r eq_refl). cbn [orb].
    destruct shell; unfold shell_term, marcel_term; cbn [existsb].
    - rewrite !(Ascii.eqb_sym c). now rewrite S3, S4, S5, S16, S18.
    - cbn [negb andb] in *. rewrite !(Ascii.eqb_sym c).
      now rewrite S3, S4, S5, S9, S10, S11, S12, S16, S18. }
  destruct (scan_string (if shell then shell_term else marcel_term) None (c :: r)) as [[cs rest']| | |] eqn:E; try discriminate.
  destruct (literal cs); try discriminate. inv H. cbn [raw].
  destruct (scan_nonempty _ _ _ _ _ _ NT E) as [Len NE].
  apply scan_suffix in E as (p & TE & Q). rewrite TE in *. rewrite taken_app in *.
  split; [reflexivity|]. split.
  - intros ->. cbn in Len. lia.
  - unfold faithful. cbn [tkind raw]. rewrite ?taken_app. exact Q.
Qed.

Lemma raw_token_none : forall shell t, raw_token shell t = Ok None -> t = [] \/ exists c, t = "#" :: c.
Proof.
  intros shell t H. unfold raw_token in H. destruct t as [|c r]; auto. right.
  remember (c :: r) as t.
  repeat match type of H with
  | (if ?b then _ else _) = _ => let S := fresh "S" in destruct b eqn:S; try discriminate H
  end.
  - destruct (expression t); discriminate.
  - subst t. rewrite starts_one in *.
    match goal with Q : ("#" =? c) = true |- _ => apply Ascii.eqb_eq in Q; subst c end. now exists r.
  - destruct (scan_string _ None t) as [[cs rest]| | |]; try discriminate.
    destruct (literal cs); discriminate.
Qed.

Lemma raw_token_no_fuel : forall shell t, raw_token shell t <> Fuel.
Proof.
  intros shell t. unfold raw_token. destruct t as [|c r]; [discriminate|].
  remember (c :: r) as t.
  repeat match goal with
  | |- (if ?b then _ else _) <> _ => destruct b
  | |- symbol _ _ _ <> _ => discriminate
  end; try discriminate.
  - pose proof (expression_no_fuel t). now destruct (expression t).
  - pose proof (scan_no_fuel (if shell then shell_term else marcel_term) t None).
    destruct (scan_string _ None t) as [[cs rest]| | |]; try easy.
    pose proof (literal_no_fuel cs). now destruct (literal cs).
Qed.

(** ** White space *)

Lemma skip_ws_spec : forall t, exists w, blank w /\ t = w ++ skip_ws t.
Proof.
  induction t as [|c r (w & B & E)]; cbn.
  - exists []. split; constructor.
  - destruct (isspace c) eqn:S.
    + exists (c :: w). split; [now constructor|]. cbn. now rewrite <- E.
    + exists []. split; [constructor|reflexivity].
Qed.

Lemma skip_ws_head : forall t c r, skip_ws t = c :: r -> isspace c = false.
Proof.
  induction t as [|a t IH]; cbn; intros c r H; [discriminate|].
  destruct (isspace a) eqn:S; eauto. congruence.
Qed.

Lemma skip_ws_id : forall t, (forall c r, t = c :: r -> isspace c = false) -> skip_ws t = t.
Proof. intros [|c r] H; cbn; auto. now rewrite (H c r eq_refl). Qed.

Lemma unconsolidated_ok : forall shell t k adj rest, unconsolidated shell t = Ok (Some (k, adj, rest)) ->
  exists w w', blank w /\ blank w' /\ t = w ++ raw k ++ w' ++ rest /\ raw k <> [] /\ faithful k /\
               (forall c r, rest = c :: r -> isspace c = false) /\
               (adj = true -> w' = [] /\ rest <> []) /\
               ((forall c r, t = c :: r -> isspace c = false) -> w = []).
Proof.
  intros shell t k adj rest H. unfold unconsolidated in H.
  destruct (raw_token shell (skip_ws t)) as [[[k0 r0]|]| | |] eqn:E; try discriminate. inv H.
  apply raw_token_ok in E as (E & NE & F); [|apply skip_ws_head].
  destruct (skip_ws_spec t) as (w & B & T). destruct (skip_ws_spec r0) as (w' & B' & R).
  destruct r0 as [|c r0'].
  - exists w, []. split; auto. split; [constructor|]. split; [|split; [|split; [|split; [|split]]]]; auto.
    + rewrite T at 1. rewrite E. reflexivity.
    + intros c r Q. discriminate Q.
    + intros Q; discriminate Q.
    + intros Q. rewrite (skip_ws_id t Q) in T. apply (f_equal (@length ascii)) in T.
      rewrite app_length in T. destruct w; auto. cbn in T. lia.
  - exists w, w'. split; auto. split; auto. split; [|split; [|split; [|split; [|split]]]]; auto.
    + rewrite T at 1. rewrite E, R at 1. reflexivity.
    + apply skip_ws_head.
    + intros A. apply negb_true_iff in A. cbn [skip_ws] in R |- *. rewrite A in R |- *.
      split; [|discriminate].
      apply (f_equal (@length ascii)) in R. rewrite app_length in R. destruct w'; auto. cbn in R. lia.
    + intros Q. rewrite (skip_ws_id t Q) in T. apply (f_equal (@length ascii)) in T.
      rewrite app_length in T. destruct w; auto. cbn in T. lia.
Qed.

Lemma unconsolidated_no_fuel : forall shell t, unconsolidated shell t <> Fuel.
Proof.
  intros. unfold unconsolidated. pose proof (raw_token_no_fuel shell (skip_ws t)).
  destruct (raw_token shell (skip_ws t)) as [[[? ?]|]| | |]; try discriminate. easy.
Qed.

Lemma unconsolidated_none : forall shell t, unconsolidated shell t = Ok None ->
  exists w, blank w /\ (t = w \/ exists c, t = w ++ "#" :: c).
Proof.
  intros shell t H. unfold unconsolidated in H.
  destruct (raw_token shell (skip_ws t)) as [[[? ?]|]| | |] eqn:E; try discriminate.
  destruct (skip_ws_spec t) as (w & B & T). exists w. split; auto.
  apply raw_token_none in E as [E|[c E]]; rewrite E in T; [left; now rewrite app_nil_r in T|].
  right. now exists c.
Qed.

(** ** Adjacent tokens *)

Lemma gather_false : forall f shell acc t, gather f shell acc false t = Ok (rev acc, t).
Proof. intros [|f]; reflexivity. Qed.

Lemma gather_ok : forall f shell acc adj t ks rest,
  gather f shell acc adj t = Ok (ks, rest) ->
  (forall c r, t = c :: r -> isspace c = false) ->
  exists extra w, ks = rev acc ++ extra /\ Forall faithful extra /\
    Forall (fun k => consolidatable k = true) extra /\
    blank w /\ t = concat (map raw extra) ++ w ++ rest.
Proof.
  induction f as [|f IH]; intros shell acc adj t ks rest H NS; destruct adj; try discriminate.
  - rewrite gather_false in H. inv H. exists [], []. rewrite app_nil_r. repeat split; auto; constructor.
  - cbn in H. destruct (unconsolidated shell t) as [[[[k adj'] r1]|]| | |] eqn:E; try discriminate.
    apply unconsolidated_ok in E as (w & w' & B & B' & T & NE & F & HD & A & W0).
    rewrite (W0 NS) in T. cbn in T. clear W0 B w.
    destruct (consolidatable k) eqn:C.
    + destruct adj'.
      * destruct (A eq_refl) as [-> _]. apply IH in H; [|auto].
        destruct H as (extra & w2 & -> & F2 & C2 & B2 & R1).
        exists (k :: extra), w2. cbn [rev]. rewrite <- app_assoc.
        repeat split; auto.
        cbn. rewrite T. cbn. rewrite <- app_assoc. now rewrite <- R1.
      * rewrite gather_false in H. inv H. exists [k], w'. cbn. repeat split; auto.
        now rewrite app_nil_r.
    + inv H. exists [], []. rewrite app_nil_r. repeat split; auto; constructor.
  - rewrite gather_false in H. inv H. exists [], []. rewrite app_nil_r. repeat split; auto; constructor.
Qed.

Lemma gather_fuel : forall f shell acc adj t, length t <= f ->
  (adj = true -> t <> []) ->
  (forall c r, t = c :: r -> isspace c = false) -> gather f shell acc adj t <> Fuel.
Proof.
  induction f as [|f IH]; intros shell acc adj t L NE NS; destruct adj; try (rewrite gather_false; discriminate).
  - destruct t; [exfalso; now apply NE | cbn in L; lia].
  - cbn. pose proof (unconsolidated_no_fuel shell t) as NF.
    destruct (unconsolidated shell t) as [[[[k adj'] r1]|]| | |] eqn:E; try discriminate; [|easy].
    apply unconsolidated_ok in E as (w & w' & B & B' & T & NE' & F & HD & A & W0).
    destruct (consolidatable k); [|discriminate]. apply IH; auto.
    + rewrite T, !app_length in L. destruct (raw k); [easy|]. cbn in L. lia.
    + intros ->. now apply A.
Qed.

Lemma expr_source_split : forall t rest, expression ("(" :: t) = Ok rest ->
  expr_source ("(" :: t) rest ++ ")" :: rest = t.
Proof.
  intros t rest E. cbn [expression] in E. apply escan_close in E as (p & -> & L); [|discriminate].
  unfold expr_source. change ("(" :: p ++ rest) with (("(" :: p) ++ rest). rewrite taken_app. cbn [tl].
  destruct p as [|x p]; [discriminate L|].
  rewrite (last_snoc _ (x :: p) "(") at 2 by discriminate.
  change (last ("(" :: x :: p) "(") with (last (x :: p) "(") in L. rewrite L. now rewrite <- app_assoc.
Qed.

Lemma fstring_formatted : forall ks, fstring ks = "(" :: formatted ks ++ [")"].
Proof.
  intros. unfold fstring, formatted. change (txt "(f'''") with ("(" :: txt "f'''").
  change (txt "''')") with (txt "'''" ++ [")"]). rewrite <- !app_assoc. cbn [app]. now rewrite <- ?app_assoc.
Qed.

Lemma consolidate_prefix : forall ks rest, expression (fstring ks) = Ok rest ->
  exists lost, formatted ks = expr_source (fstring ks) rest ++ lost.
Proof.
  intros ks rest E. rewrite fstring_formatted in *. apply expr_source_split in E.
  destruct rest as [|c r].
  - exists []. rewrite app_nil_r. apply app_inj_tail in E as [E _]. congruence.
  - remember (c :: r) as rr eqn:R. assert (NE : rr <> []) by (subst; discriminate). clear R.
    remember (expr_source ("(" :: formatted ks ++ [")"]) rr) as src eqn:SRC. clear SRC.
    rewrite (last_snoc _ rr ")" NE) in E.
    change (")" :: removelast rr ++ [last rr ")"]) with ((")" :: removelast rr) ++ [last rr ")"]) in E.
    rewrite app_assoc in E. apply app_inj_tail in E as [E _]. eexists; symmetry; exact E.
Qed.

Lemma next_token_ok : forall shell t k rest, next_token shell t = Ok (Some (k, rest)) ->
  exists w w', blank w /\ blank w' /\ t = w ++ raw k ++ w' ++ rest /\ raw k <> [] /\
               (faithful k \/ exists ks, joined k ks).
Proof.
  intros shell t k rest H. unfold next_token in H.
  destruct (unconsolidated shell t) as [[[[k0 adj] r1]|]| | |] eqn:E; try discriminate.
  apply unconsolidated_ok in E as (w & w' & B & B' & T & NE & F & HD & A & W0).
  destruct (gather (length r1) shell [k0] (adj && consolidatable k0) r1) as [[ks r2]| | |] eqn:G; try discriminate.
  destruct (consolidatable k0) eqn:C0.
  - destruct adj; cbn [andb] in G.
    + destruct (A eq_refl) as [-> _].
      apply gather_ok in G as (extra & w2 & -> & F2 & C2 & B2 & R1); auto. cbn in H.
      destruct extra as [|k1 extra].
      * inv H. exists w, w2. repeat split; auto.
      * destruct (consolidate (k0 :: k1 :: extra)) eqn:CO; try discriminate. inv H.
        unfold consolidate in CO. destruct (expression (fstring (k0 :: k1 :: extra))) as [r0| | |] eqn:EX; try discriminate.
        inv CO. exists w, w2. repeat split; auto.
        -- cbn. rewrite <- !app_assoc. reflexivity.
        -- cbn. destruct (raw k0); [easy|discriminate].
        -- right. exists (k0 :: k1 :: extra). repeat split; auto.
           ++ cbn. lia.
           ++ destruct (consolidate_prefix _ _ EX) as [lost FL]. exists (expr_source (fstring (k0 :: k1 :: extra)) r0), lost. split; auto.
    + rewrite gather_false in G. inv G. cbn in H. inv H. exists w, w'. repeat split; auto.
  - rewrite andb_false_r in G. rewrite gather_false in G. inv G. cbn in H. inv H. exists w, w'. repeat split; auto.
Qed.

Lemma next_token_no_fuel : forall shell t, next_token shell t <> Fuel.
Proof.
  intros shell t. unfold next_token. pose proof (unconsolidated_no_fuel shell t).
  destruct (unconsolidated shell t) as [[[[k0 adj] r1]|]| | |] eqn:E; try discriminate; [|easy].
  apply unconsolidated_ok in E as (w & w' & B & B' & T & NE & F & HD & A & W0).
  pose proof (gather_fuel (length r1) shell [k0] (adj && consolidatable k0) r1 (le_n _)) as GF.
  destruct (gather (length r1) shell [k0] (adj && consolidatable k0) r1) as [[ks r2]| | |] eqn:G; try discriminate.
  - destruct ks as [|k1 [|k2 ks]]; try discriminate;
      unfold consolidate; match goal with |- context [expression ?x] => pose proof (expression_no_fuel x); destruct (expression x) end; try discriminate; easy.
  - exfalso. apply GF; auto. intros Q. apply andb_true_iff in Q as [-> _]. now apply A.
Qed.

Lemma next_token_none : forall shell t, next_token shell t = Ok None ->
  exists w, blank w /\ (t = w \/ exists c, t = w ++ "#" :: c).
Proof.
  intros shell t H. unfold next_token in H.
  destruct (unconsolidated shell t) as [[[[k0 adj] r1]|]| | |] eqn:E; try discriminate.
  - destruct (gather _ _ _ _ _) as [[[|? [|? ?]] ?]| | |]; try discriminate;
      destruct (consolidate _); discriminate.
  - eapply unconsolidated_none; eauto.
Qed.

Lemma blank_app : forall a b, blank a -> blank b -> blank (a ++ b).
Proof. intros. unfold blank in *. apply Forall_app. auto. Qed.

Lemma tiles_blank : forall w t rs, blank w -> tiles t rs -> tiles (w ++ t) rs.
Proof.
  intros w t rs B T. inversion T; subst.
  - constructor. now apply blank_app.
  - rewrite app_assoc. apply tiles_comment. now apply blank_app.
  - rewrite app_assoc. constructor; auto. now apply blank_app.
Qed.

Lemma lex_tiles : forall f modes n t ks, lex f modes n t = Ok ks ->
  tiles t (map raw ks) /\ Forall (fun k => faithful k \/ exists js, joined k js) ks.
Proof.
  induction f as [|f IH]; intros modes n t ks H; cbn in H; [discriminate|].
  destruct (next_token (modes n) t) as [[[k rest]|]| | |] eqn:E; try discriminate.
  - apply next_token_ok in E as (w & w' & B & B' & T & NE & F).
    destruct (lex f modes (S n) rest) as [ks'| | |] eqn:L; try discriminate. inv H.
    apply IH in L as [L1 L2]. split; [|constructor; auto].
    cbn. apply tiles_piece; auto. now apply tiles_blank.
  - inv H. apply next_token_none in E as (w & B & [->|[c ->]]); (split; [|constructor]); [now apply tiles_end | now apply tiles_comment].
Qed.

Lemma lex_fuel : forall f modes n t, length t < f -> lex f modes n t <> Fuel.
Proof.
  induction f as [|f IH]; intros modes n t L; [lia|]. cbn.
  pose proof (next_token_no_fuel (modes n) t) as NF.
  destruct (next_token (modes n) t) as [[[k rest]|]| | |] eqn:E; try discriminate; [|easy].
  apply next_token_ok in E as (w & w' & B & B' & T & NE & F).
  assert (K : lex f modes (S n) rest <> Fuel).
  { apply IH. rewrite T, !app_length in L. destruct (raw k); [easy|]. cbn in L. lia. }
  destruct (lex f modes (S n) rest); easy.
Qed.
