(** C52: an external command reaches bash as it was typed. *)
From Verif.Syntax Require Import External ExternalSpec LexerSpec LexerFacts ArgsFacts.
Local Open Scope char_scope.
Local Open Scope list_scope.

(** ** Reading a word *)
Lemma blank_space : forall c, bash_blank c -> isspace c = true.
Proof. intros c [-> | ->]; reflexivity. Qed.

Lemma plain_shell : forall c, plain c -> (isspace c || shell_term c)%bool = false /\ is_quote c = false /\ (c =? bslash) = false.
Proof.
  intros c (A & B & C & D & E & F & G & H & I). rewrite A. cbn [orb]. unfold shell_term, is_quote. cbn [existsb].
  repeat split; repeat (match goal with |- context [c =? ?d] => replace (c =? d) with false by (symmetry; apply Ascii.eqb_neq; assumption) end); reflexivity.
Qed.

Lemma unescape_quoted : forall (n : nat) (s : text) (q : ascii) r v, length s <= n -> q <> bslash -> unescape r = Ok v ->
  exists v', unescape (s ++ q :: r) = Ok v'.
Proof.
  induction n; intros s q r v Hn Hq Hr.
  - destruct s; [ | simpl in Hn; lia]. cbn [app unescape]. apply Ascii.eqb_neq in Hq. rewrite Hq, Hr. eauto.
  - destruct s as [ | c s]; cbn [app unescape].
    + apply Ascii.eqb_neq in Hq. rewrite Hq, Hr. eauto.
    + destruct (c =? bslash).
      * destruct s as [ | d s]; cbn [app]; [rewrite Hr; eauto | ].
        destruct (IHn s q r v) as [v' E]; [simpl in Hn; lia | assumption | assumption | ]. rewrite E. eauto.
      * destruct (IHn s q r v) as [v' E]; [simpl in Hn; lia | assumption | assumption | ]. rewrite E. eauto.
Qed.

(** What can follow a word: nothing, white space, an operator. *)
Definition stops (r : text) : Prop := r = [] \/ exists c r', r = c :: r' /\ (isspace c || shell_term c)%bool = true.

Lemma scan_stops : forall r, stops r -> scan_string shell_term None r = Ok ([], r).
Proof. intros r [-> | (c & r' & -> & H)]; [reflexivity | ]. cbn [scan_string]. rewrite H. reflexivity. Qed.

Lemma scan_in_single : forall s r, ~ In squote s ->
  scan_string shell_term (Some squote) (s ++ squote :: r) = scons (s ++ [squote]) (scan_string shell_term None r).
Proof.
  induction s as [ | c s IH]; intros r H; [reflexivity | ].
  cbn [app scan_string].
  assert (Hc : (c =? squote) = false) by (apply Ascii.eqb_neq; intro E; apply H; left; exact E).
  rewrite Hc. change (squote =? squote) with true. cbv match.
  rewrite (IH r) by (intro; apply H; right; assumption).
  assert (Hs : forall x, scons [c] (scons (s ++ [squote]) x) = scons (c :: s ++ [squote]) x)
    by (intros [[cs rest] | | | ]; reflexivity).
  rewrite Hs.
  destruct (isspace c || shell_term c)%bool; [reflexivity | ]. destruct (is_quote c); [reflexivity | ].
  destruct (c =? bslash); reflexivity.
Qed.

Lemma scan_in_double : forall s r, in_double s -> exists s',
  scan_string shell_term (Some dquote) (s ++ dquote :: r) = scons (s' ++ [dquote]) (scan_string shell_term None r).
Proof.
  induction 1 as [ | c t Hd Hb H (s' & IH) | c t H (s' & IH)].
  - exists []. reflexivity.
  - exists (c :: s'). cbn [app scan_string].
    apply Ascii.eqb_neq in Hd. apply Ascii.eqb_neq in Hb. rewrite Hd, Hb, IH.
    assert (Hs : forall x, scons [c] (scons (s' ++ [dquote]) x) = scons (c :: s' ++ [dquote]) x)
      by (intros [[cs rest] | | | ]; reflexivity).
    rewrite Hs. destruct (isspace c || shell_term c)%bool; [reflexivity | ]. destruct (is_quote c); reflexivity.
  - cbn [app scan_string]. change (isspace bslash || shell_term bslash)%bool with false.
    change (is_quote bslash) with false. change (bslash =? bslash) with true. change (dquote =? squote) with false. cbv match.
    rewrite IH. destruct (c =? bslash).
    + exists (c :: s'). destruct (scan_string shell_term None r) as [[cs rest] | | | ]; reflexivity.
    + exists (bslash :: c :: s'). destruct (scan_string shell_term None r) as [[cs rest] | | | ]; reflexivity.
Qed.

(** The characters collected from a word: they can be unescaped, and begin and end as the word does. *)
Lemma scan_parts : forall w, parts w -> forall r, stops r -> exists cs v,
  scan_string shell_term None (w ++ r) = Ok (cs, r) /\ unescape cs = Ok v /\
  (forall d, last cs d = last w d) /\ hd_error cs = hd_error w.
Proof.
  assert (L : forall (x : ascii) (a b : text) d, last (a ++ x :: b) d = last (x :: b) d)
    by (intros x a b d; induction a as [ | y a IH]; [reflexivity | ]; rewrite <- IH; cbn [app]; destruct a; reflexivity).
  assert (L2 : forall (x : ascii) (cs w : text), (forall d, last cs d = last w d) -> forall d, last (x :: cs) d = last (x :: w) d).
  { intros x cs w H d. assert (forall l : text, last (x :: l) d = last l x).
    { destruct l; [reflexivity | ]. cbn [last]. apply (last_irrel _ l a). }
    rewrite !H0. apply H. }
  induction 1 as [ | c w P H IH | c w H IH | s w Hs H IH | s w Hs H IH]; intros r Hr.
  - exists [], []. rewrite scan_stops by assumption. repeat split; reflexivity.
  - destruct (IH r Hr) as (cs & v & E & U & La & He). destruct (plain_shell c P) as (A & B & C).
    cbn [app scan_string]. rewrite A, B, C, E. exists (c :: cs). exists (c :: v).
    cbn [scons app unescape]. rewrite C, U. repeat split; try reflexivity. apply L2; assumption.
  - destruct (IH r Hr) as (cs & v & E & U & La & He).
    cbn [app scan_string]. change (isspace bslash || shell_term bslash)%bool with false.
    change (is_quote bslash) with false. change (bslash =? bslash) with true. cbv match. rewrite E.
    exists (bslash :: c :: cs), (c :: v). cbn [scons app unescape]. change (bslash =? bslash) with true. cbv match. rewrite U.
    repeat split; try reflexivity. apply (L2 bslash (c :: cs) (c :: w)). apply L2. assumption.
  - destruct (IH r Hr) as (cs & v & E & U & La & He).
    replace ((squote :: s ++ squote :: w) ++ r) with (squote :: (s ++ squote :: (w ++ r))) by (cbn [app]; rewrite <- app_assoc; reflexivity).
    cbn [scan_string]. change (isspace squote || shell_term squote)%bool with false. change (is_quote squote) with true. cbv match.
    rewrite scan_in_single by assumption. rewrite E.
    exists (squote :: s ++ squote :: cs). cbn [scons app]. rewrite <- app_assoc. cbn [app].
    destruct (unescape_quoted _ (squote :: s) squote cs v (le_n _) ltac:(discriminate) U) as [v' E'].
    exists v'. repeat split; try assumption; try reflexivity.
    intro d. rewrite !app_comm_cons, !L. apply L2. assumption.
  - destruct (IH r Hr) as (cs & v & E & U & La & He).
    replace ((dquote :: s ++ dquote :: w) ++ r) with (dquote :: (s ++ dquote :: (w ++ r))) by (cbn [app]; rewrite <- app_assoc; reflexivity).
    cbn [scan_string]. change (isspace dquote || shell_term dquote)%bool with false. change (is_quote dquote) with true. cbv match.
    destruct (scan_in_double s (w ++ r) Hs) as [s' ->]. rewrite E.
    exists (dquote :: s' ++ dquote :: cs). cbn [scons app]. rewrite <- app_assoc. cbn [app].
    destruct (unescape_quoted _ (dquote :: s') dquote cs v (le_n _) ltac:(discriminate) U) as [v' E'].
    exists v'. repeat split; try assumption; try reflexivity.
    intro d. rewrite !app_comm_cons, !L. apply L2. assumption.
Qed.

(** ** One argument *)

Lemma ends_last : forall (w : text) c d, ends_in w c -> last w d = c.
Proof. intros w c d [u ->]. apply last_last. Qed.

Lemma word_start : forall w, word w -> exists c r, w = c :: r /\
  (isspace c || shell_term c)%bool = false /\ c <> "#" /\ c <> "!".
Proof.
  intros w (P & c & r & -> & A & B). exists c, r. repeat split; try assumption.
  inversion P; subst; try reflexivity. apply plain_shell; assumption.
Qed.

Lemma starts_no : forall (a : ascii) p c (t : text), a <> c -> starts (a :: p) (c :: t) = false.
Proof. intros a p c t H. cbn [starts]. apply Ascii.eqb_neq in H. rewrite H. reflexivity. Qed.

Lemma raw_word : forall w r, word w -> regular w -> stops r -> exists cs, 
  raw_token true (w ++ r) = Ok (Some (mktok (KString cs) w, r)) /\ missing_quote (mktok (KString cs) w) = false.
Proof.
  intros w r W [R1 R2] S. destruct (scan_parts w (proj1 W) r S) as (cs & v & E & U & La & He).
  destruct (word_start w W) as (c & w' & -> & T & Hh & Hb). exists cs.
  destruct cs as [ | c' cs]; [discriminate He | ]. assert (c' = c) by (inversion He; reflexivity). subst c'.
  assert (Lit : exists u, literal (c :: cs) = Ok (u, false)).
  { unfold literal. destruct (is_quote c) eqn:Q.
    - rewrite La. rewrite (ends_last _ c c (R2 c w' eq_refl Q)). rewrite Ascii.eqb_refl. cbn [negb]. eauto.
    - rewrite U. eauto. }
  destruct Lit as [u Lit].
  assert (N : forall d, (isspace d || shell_term d)%bool = true -> d <> c) by (intros d Hd Ed; rewrite Ed, T in Hd; discriminate).
  split.
  - cbn [app raw_token] in *. cbn [negb andb].
    rewrite (starts_no "("), (starts_no ")"), (starts_no "|"), (starts_no "!"), (starts_no "#"),
      !(starts_no ">"), !(starts_no "<") by first [ apply N; reflexivity | (intro XX; symmetry in XX; contradiction) ].
    rewrite E, Lit. change (c :: w' ++ r) with ((c :: w') ++ r). rewrite taken_app. reflexivity.
  - unfold missing_quote, tkind. rewrite Lit. reflexivity.
Qed.

Lemma skip_blanks : forall b t, blanks b -> skip_ws (b ++ t) = skip_ws t.
Proof. induction 1 as [ | c b H _ IH]; [reflexivity | ]. cbn [app skip_ws]. rewrite (blank_space c H). exact IH. Qed.

Lemma skip_word : forall w t, word w -> skip_ws (w ++ t) = w ++ t.
Proof.
  intros w t W. destruct (word_start w W) as (c & r & -> & T & _). cbn [app skip_ws].
  apply orb_false_iff in T. destruct T as [-> _]. reflexivity.
Qed.

Lemma skip_idem : forall t, skip_ws (skip_ws t) = skip_ws t.
Proof. induction t as [ | c t IH]; [reflexivity | ]. cbn [skip_ws]. destruct (isspace c) eqn:E; [exact IH | ]. cbn [skip_ws]. rewrite E. reflexivity. Qed.

(** An operator, or a redirection. *)
Definition op_start (c : ascii) : Prop := c = "|" \/ c = "<" \/ c = ">".

Lemma op_token : forall c r, op_start c -> exists k rest, raw_token true (c :: r) = Ok (Some (k, rest)) /\ consolidatable k = false.
Proof.
  intros c r [-> | [-> | ->]]; unfold raw_token; cbn [negb andb].
  - change (starts ["("] ("|" :: r)) with false. change (starts [")"] ("|" :: r)) with false.
    change (starts ["|"] ("|" :: r)) with true. cbv match. eexists _, _. split; reflexivity.
  - rewrite (starts_no "("), (starts_no ")"), (starts_no "|"), (starts_no "!"), (starts_no "#"), !(starts_no ">") by discriminate.
    destruct (starts ["<"; "$"] ("<" :: r)); [eexists _, _; split; reflexivity | ].
    change (starts ["<"] ("<" :: r)) with true. cbv match. eexists _, _. split; reflexivity.
  - rewrite (starts_no "("), (starts_no ")"), (starts_no "|"), (starts_no "!"), (starts_no "#") by discriminate.
    destruct (starts [">"; ">"; "$"] (">" :: r)); [eexists _, _; split; reflexivity | ].
    destruct (starts [">"; "$"] (">" :: r)); [eexists _, _; split; reflexivity | ].
    destruct (starts [">"; ">"] (">" :: r)); [eexists _, _; split; reflexivity | ].
    change (starts [">"] (">" :: r)) with true. cbv match. eexists _, _. split; reflexivity.
Qed.

Lemma op_space : forall c, op_start c -> isspace c = false.
Proof. intros c [-> | [-> | ->]]; reflexivity. Qed.

(** The word, and nothing more, is one argument. *)
Lemma next_word : forall b w r, blanks b -> word w -> regular w ->
  (r = [] \/ exists c r', r = c :: r' /\ (bash_blank c \/ op_start c)) -> exists cs,
  next_token true (b ++ w ++ r) = Ok (Some (mktok (KString cs) w, skip_ws r)) /\ missing_quote (mktok (KString cs) w) = false.
Proof.
  intros b w r B W R Hr.
  assert (S : stops r).
  { destruct Hr as [-> | (c & r' & -> & H)]; [left; reflexivity | right; exists c, r'; split; [reflexivity | ]].
    destruct H as [H | H]; [rewrite (blank_space c H); reflexivity | ]. destruct H as [-> | [-> | ->]]; reflexivity. }
  destruct (raw_word w r W R S) as (cs & E & M). exists cs. split; [ | exact M].
  unfold next_token, unconsolidated at 1. rewrite skip_blanks, skip_word, E by assumption.
  destruct Hr as [-> | (c & r' & -> & [H | H])].
  - reflexivity.
  - rewrite (blank_space c H). cbn [negb andb]. rewrite gather_false. reflexivity.
  - rewrite (op_space c H). cbn [negb andb consolidatable tkind].
    assert (Hs : skip_ws (c :: r') = c :: r') by (cbn [skip_ws]; rewrite (op_space c H); reflexivity). rewrite Hs.
    cbn [length gather]. unfold unconsolidated. rewrite Hs. destruct (op_token c r' H) as (k & rest & -> & ->). reflexivity.
Qed.

Lemma ends_stop : forall r, ends r -> hd "|" r <> "#" -> r = [] \/ exists c r', r = c :: r' /\ (bash_blank c \/ op_start c).
Proof.
  intros r [-> | (c & r' & -> & H)] N; [left; reflexivity | right; exists c, r'; split; [reflexivity | right]].
  cbn [hd] in N. unfold op_start. destruct H as [H | [H | [H | H]]]; auto. congruence.
Qed.

Section Args.
Variable sa : text -> bool.

Lemma arguments_S : forall f m t, arguments sa (S f) m t = arguments_body (argument sa f) (arguments sa f) m t.
Proof. reflexivity. Qed.

Lemma argument_end : forall f b r, blanks b -> ends r -> argument sa (S f) true (b ++ r) = Ok None.
Proof.
  intros f b r B E. cbn [argument]. unfold argument_body. cbn [bind]. unfold tok1, next_token, unconsolidated.
  rewrite skip_blanks by assumption. destruct E as [-> | (c & r' & -> & H)]; [reflexivity | ].
  destruct (Ascii.eqb_spec c "#") as [-> | N]; [reflexivity | ].
  assert (O : op_start c) by (unfold op_start; destruct H as [H | [H | [H | H]]]; auto; congruence).
  assert (Hs : skip_ws (c :: r') = c :: r') by (cbn [skip_ws]; rewrite (op_space c O); reflexivity). rewrite Hs.
  destruct (op_token c r' O) as (k & rest & -> & Hk).
  rewrite Hk. rewrite andb_false_r. rewrite gather_false. cbn [rev app bind].
  unfold consolidatable in Hk. unfold is_word, is_expr. destruct (tkind k); try discriminate; reflexivity.
Qed.

Lemma argument_word : forall f b w r, blanks b -> word w -> regular w ->
  (r = [] \/ exists c r', r = c :: r' /\ (bash_blank c \/ op_start c)) -> exists cs,
  argument sa (S f) true (b ++ w ++ r) = Ok (Some (AToken (mktok (KString cs) w), skip_ws r)).
Proof.
  intros f b w r B W R Hr. destruct (next_word b w r B W R Hr) as (cs & E & M). exists cs.
  cbn [argument]. unfold argument_body. cbn [bind]. unfold tok1. rewrite E. cbn [bind is_word tkind orb]. rewrite M. reflexivity.
Qed.

(** [words] does not mind white space before. *)
Lemma words_skip : forall t ws r, words t ws r -> words (skip_ws t) ws r.
Proof.
  intros t ws r H. inversion H; subst.
  - rewrite skip_blanks by assumption. assert (E : skip_ws r = r).
    { destruct H1 as [-> | (c & r' & -> & [-> | [-> | [-> | ->]]])]; reflexivity. }
    rewrite E. apply (words_end []); [constructor | assumption].
  - rewrite skip_blanks, skip_word by assumption. apply (words_last []); try assumption. constructor.
  - rewrite skip_blanks, skip_word by assumption. apply (words_more []); try assumption. constructor.
Qed.

Lemma arguments_words : forall ws t r f, words t ws r -> Forall regular ws -> length ws + 2 <= f -> exists ks r',
  arguments sa f true t = Ok (map AToken ks, r') /\ map raw ks = ws /\ Forall (fun k => is_word k = true) ks /\ skip_ws r' = r.
Proof.
  assert (Z : forall r, ends r -> skip_ws r = r).
  { intros r [-> | (c & r' & -> & [-> | [-> | [-> | ->]]])]; reflexivity. }
  assert (A1 : forall f b r, blanks b -> ends r -> arguments sa (S (S f)) true (b ++ r) = Ok ([], b ++ r)).
  { intros f b r B E. rewrite arguments_S. unfold arguments_body. rewrite argument_end by assumption. reflexivity. }
  induction ws as [ | w ws IH]; intros t r f H R F; inversion H; subst.
  - destruct f as [ | [ | f]]; [simpl in F; lia | simpl in F; lia | ]. exists [], (b ++ r).
    rewrite A1 by assumption. repeat split; try constructor. rewrite skip_blanks by assumption. apply Z; assumption.
  - destruct f as [ | [ | [ | f]]]; [simpl in F; lia | simpl in F; lia | simpl in F; lia | ].
    inversion R; subst.
    destruct (argument_word (S f) b w r) as (cs & E); try assumption; [apply ends_stop; assumption | ].
    exists [mktok (KString cs) w], (skip_ws r). rewrite arguments_S. unfold arguments_body. rewrite E. cbn [bind].
    rewrite (Z r) by assumption. rewrite (A1 f [] r ltac:(constructor) ltac:(assumption) : arguments sa (S (S f)) true r = _). cbn [bind map raw]. repeat split; auto.
  - destruct f as [ | [ | [ | f]]]; [simpl in F; lia | simpl in F; lia | simpl in F; lia | ].
    inversion R; subst.
    destruct (argument_word (S f) b w (c :: t0)) as (cs & E); try assumption; [right; exists c, t0; auto | ].
    assert (Hsk : skip_ws (c :: t0) = skip_ws t0) by (cbn [skip_ws]; rewrite (blank_space c) by assumption; reflexivity).
    destruct (IH (skip_ws t0) r (S (S f))) as (ks & r' & E2 & Hk & Hw & Hr); [apply words_skip; assumption | assumption | simpl in F; lia | ].
    exists (mktok (KString cs) w :: ks), r'. rewrite arguments_S. unfold arguments_body. rewrite E. cbn [bind].
    rewrite Hsk. rewrite E2. cbn [bind map raw]. rewrite Hk. repeat split; auto.
Qed.
End Args.

(** ** The command *)
Lemma forallb_i : forall l : text, 
  forallb (fun f => match find_flag op_bash f with Some _ => true | None => false end) (map (fun x => OStr ["-"; x]) l) = true ->
  l = repeat "i" (length l).
Proof.
  induction l as [ | x l IH]; intro H; [reflexivity | ]. cbn [map forallb] in H. apply andb_true_iff in H. destruct H as [H1 H2].
  cbn [length repeat]. rewrite <- IH by assumption. f_equal.
  unfold find_flag in H1. cbn [d_flags op_bash find] in H1. unfold is_symbol in H1. cbn [symbols f_short f_long app existsb] in H1.
  destruct (teqb ["-"; x] (txt "-i")) eqn:E1; [apply teqb_eq in E1; inversion E1; reflexivity | ].
  destruct (teqb ["-"; x] (txt "--interactive")) eqn:E2; [apply teqb_eq in E2; discriminate E2 | ]. discriminate H1.
Qed.

Lemma no_flag_expand : forall w, no_flag w -> expand_arg op_bash (OStr w) = [OStr w] /\ find_flag op_bash (OStr w) = None.
Proof.
  intros w [A B]. split.
  - destruct w as [ | a [ | b [ | c r]]]; try reflexivity. unfold expand_arg.
    destruct ((a =? "-") && negb (b =? "-"))%bool eqn:E; [ | reflexivity].
    destruct (forallb _ _) eqn:F; [ | reflexivity]. apply forallb_i in F. apply andb_true_iff in E. destruct E as [E _].
    apply Ascii.eqb_eq in E. subst a. exfalso. apply B. exists (S (length r)). rewrite F. reflexivity.
  - unfold find_flag. cbn [d_flags op_bash find]. unfold is_symbol. cbn [symbols f_short f_long app existsb].
    rewrite teqb_neq; [ | intro E; apply B; exists 0; exact E]. rewrite teqb_neq by assumption. reflexivity.
Qed.

Lemma extract_words : forall ws l, Forall no_flag ws ->
  extract check_str op_bash (mkps [] [] l None false) (map OStr ws) = Some (mkps [] [] (l ++ map OStr ws) None false).
Proof.
  induction ws as [ | w ws IH]; intros l H; cbn [map extract].
  - rewrite app_nil_r. reflexivity.
  - inversion H; subst. unfold extract_one. rewrite (proj2 (no_flag_expand w H2)). cbn [ps_ok]. rewrite andb_false_r.
    cbn [ps_cur d_anons op_bash length ps_anon d_list check_str ps_flags ps_list Nat.leb].
    rewrite IH by assumption. rewrite <- app_assoc. reflexivity.
Qed.

Lemma expand_words : forall ws, Forall no_flag ws -> flat_map (expand_arg op_bash) (map OStr ws) = map OStr ws.
Proof.
  induction 1 as [ | w ws H _ IH]; [reflexivity | ]. cbn [map flat_map]. rewrite (proj1 (no_flag_expand w H)), IH. reflexivity.
Qed.

Lemma drop_last_ws : forall w : text, (forall c, ends_in w c -> isspace c = false) -> drop_ws (rev w) = rev w.
Proof.
  intros w H. destruct (rev w) as [ | c r] eqn:E; [reflexivity | ]. cbn [drop_ws].
  rewrite (H c); [reflexivity | ]. exists (rev r). rewrite <- (rev_involutive w), E. reflexivity.
Qed.

Lemma strip_word : forall w, word w -> (forall c, ends_in w c -> isspace c = false) -> strip w = w.
Proof.
  intros w W H. unfold strip. destruct (word_start w W) as (c & r & -> & T & _).
  assert (E : drop_ws (c :: r) = c :: r) by (cbn [drop_ws]; apply orb_false_iff in T; destruct T as [-> _]; reflexivity).
  rewrite E, drop_last_ws by assumption. apply rev_involutive.
Qed.

Lemma plain_word : forall name, plain_name name -> word name /\ (forall c, ends_in name c -> isspace c = false) /\ no_flag name.
Proof.
  intros name (N & P & D & Hh & Hb). repeat split.
  - clear - P. induction P; constructor; assumption.
  - destruct name as [ | c r]; [congruence | ]. exists c, r. auto.
  - intros c [u ->]. apply Forall_app in P. destruct P as [_ P]. inversion P; subst. apply H1.
  - intros ->. apply D. reflexivity.
  - intros [n ->]. apply D. reflexivity.
Qed.

Lemma command_of : forall str_of function_no name ws ks, plain_name name -> Forall word ws -> 
  Forall (fun w => forall c, ends_in w c -> isspace c = false) ws ->
  Forall no_flag ws -> map raw ks = ws -> Forall (fun k => is_word k = true) ks ->
  bash_command str_of function_no name (map AToken ks) = Some (join_blank (name :: ws)).
Proof.
  intros str_of function_no name ws ks N W L F Hr Hk. destruct (plain_word name N) as (WN & LN & FN).
  assert (E : map (executable_arg function_no) (map AToken ks) = map OStr ws).
  { subst ws. clear - Hk. induction Hk as [ | k ks H _ IH]; [reflexivity | ]. cbn [map executable_arg]. rewrite H, IH. reflexivity. }
  unfold bash_command. rewrite E. unfold Args.parse. cbn [d_flags op_bash length Nat.eqb negb flat_map].
  rewrite (proj1 (no_flag_expand name FN)). rewrite expand_words by assumption. cbn [app extract].
  assert (P : plausible (OStr name) = false).
  { destruct N as (N & _ & D & _). destruct name as [ | c [ | d r]]; [congruence | reflexivity | ]. apply Ascii.eqb_neq. exact D. }
  unfold extract_one at 1. rewrite (proj2 (no_flag_expand name FN)). rewrite P. cbn [andb].
  cbn [ps_cur d_anons op_bash length ps_anon d_list check_str ps_flags ps_list Nat.leb app].
  rewrite extract_words by assumption. cbn [ps_flags ps_anon ps_list map app value_counts_ok forallb d_at_most d_exactly op_bash andb
    length skipn d_anons fill d_list].
  change (fold_left _ _ []) with [(txt "args_arg", OList (OStr name :: map OStr ws))].
  cbn [dget]. rewrite teqb_refl. f_equal. f_equal. cbn [map arg_text]. rewrite strip_word by assumption. f_equal.
  rewrite map_map. cbn [arg_text]. clear - W L. induction W as [ | w ws Hw _ IH]; [reflexivity | ].
  inversion L; subst. cbn [map]. rewrite strip_word by assumption. f_equal. apply IH. assumption.
Qed.

Lemma words_word : forall t ws r, words t ws r -> Forall word ws.
Proof. induction 1; auto. Qed.

Lemma words_join : forall ws w, word w -> Forall word ws -> words (join_blank (w :: ws)) (w :: ws) [].
Proof.
  induction ws as [ | v ws IH]; intros w Hw H.
  - cbn [join_blank]. rewrite <- (app_nil_r w) at 1. apply (words_last []); [constructor | assumption | left; reflexivity | discriminate].
  - inversion H; subst. cbn [join_blank]. apply (words_more [] w " "); [constructor | assumption | left; reflexivity | ]. apply IH; assumption.
Qed.

(** The division into words is unambiguous. *)
Lemma word_split : forall w w' r r', word w -> word w' -> stops r -> stops r' -> w ++ r = w' ++ r' -> w = w' /\ r = r'.
Proof.
  intros w w' r r' [P _] [P' _] S S' E.
  destruct (scan_parts w P r S) as (cs & v & E1 & _). destruct (scan_parts w' P' r' S') as (cs' & v' & E2 & _).
  rewrite E, E2 in E1. inversion E1; subst. split; [ | reflexivity]. apply app_inv_tail in E. exact E.
Qed.

Lemma blank_stops : forall c t, bash_blank c -> stops (c :: t).
Proof. intros c t H. right. exists c, t. split; [reflexivity | ]. rewrite (blank_space c H). reflexivity. Qed.
Lemma ends_stops : forall r, ends r -> hd "|" r <> "#" -> stops r.
Proof.
  intros r [-> | (c & r' & -> & H)] N; [left; reflexivity | right; exists c, r'; split; [reflexivity | ]].
  destruct H as [-> | [-> | [-> | ->]]]; try reflexivity. exfalso. apply N. reflexivity.
Qed.

Lemma words_det : forall t ws r, words t ws r -> forall t' ws' r', words t' ws' r' -> skip_ws t = skip_ws t' -> ws = ws' /\ r = r'.
Proof.
  assert (Z : forall r, ends r -> skip_ws r = r).
  { intros r [-> | (c & r' & -> & [-> | [-> | [-> | ->]]])]; reflexivity. }
  assert (X : forall w (t r : text), word w -> ends r -> w ++ t <> r).
  { intros w t r W [-> | (c & r' & -> & H)] E; destruct (word_start w W) as (d & u & -> & T & Nh & Nb); [discriminate E | ].
    inversion E; subst. destruct H as [-> | [-> | [-> | ->]]]; [discriminate T | discriminate T | discriminate T | congruence]. }
  induction 1 as [b r B E | b w r B W E N | b w c t ws r B W C H IH]; intros t' ws' r' H' S';
    inversion H'; subst; repeat match goal with K : blanks ?x |- _ => rewrite (skip_blanks x) in S' by exact K; revert K end; intros; rewrite ?skip_word in S' by assumption; rewrite ?Z in S' by assumption.
  - auto.
  - exfalso. eapply X; [ | | symmetry; exact S']; assumption.
  - exfalso. eapply X; [ | | symmetry; exact S']; assumption.
  - exfalso. eapply X; [ | | exact S']; assumption.
  - apply word_split in S'; try assumption; [ | apply ends_stops; assumption | apply ends_stops; assumption]. destruct S'; subst; auto.
  - apply word_split in S'; try assumption; [ | apply ends_stops; assumption | apply blank_stops; assumption].
    destruct S' as [_ ->]. destruct E as [E | (d & u & E & H4)]; [discriminate E | ]. inversion E; subst.
    match goal with K : bash_blank _ |- _ => exfalso; apply blank_space in K; destruct H4 as [-> | [-> | [-> | ->]]]; discriminate K end.
  - exfalso. eapply X; [ | | exact S']; assumption.
  - apply word_split in S'; try assumption; [ | apply blank_stops; assumption | apply ends_stops; assumption].
    destruct S' as [_ E]. subst. match goal with K : ends _ |- _ => destruct K as [E | (d & u & E & H4)] end; [discriminate E | ]. inversion E; subst.
    exfalso. apply blank_space in C. destruct H4 as [-> | [-> | [-> | ->]]]; discriminate C.
  - apply word_split in S'; try assumption; [ | apply blank_stops; assumption | apply blank_stops; assumption].
    destruct S' as [-> E]. inversion E; subst. match goal with K : words _ ws0 r' |- _ => destruct (IH _ _ _ K eq_refl) end. subst. auto.
Qed.

Theorem c52_words_unique : forall t ws r ws' r', words t ws r -> words t ws' r' -> ws = ws' /\ r = r'.
Proof. intros t ws r ws' r' H H'. exact (words_det t ws r H t ws' r' H' eq_refl). Qed.

(** An external command's arguments, quoted or not, reach bash as the words they were typed as, in their order, and the
    reading of the line goes on at what ended them.
    Missing: words affected by the defects below; function arguments; names written with quotes. *)
Theorem c52_as_typed_partial : forall sa str_of function_no f name t ws r,
  words t ws r ->
  plain_name name ->
  Forall regular ws ->
  Forall no_flag ws ->
  length ws + 2 <= f ->
  exists args r' cmd,
    arguments sa f true t = Ok (args, r') /\ skip_ws r' = r /\
    bash_command str_of function_no name args = Some cmd /\
    words cmd (name :: ws) [].
Proof.
  intros sa str_of function_no f name t ws r H N R F Hf.
  destruct (arguments_words sa ws t r f H R Hf) as (ks & r' & E & Hk & Hw & Hr).
  pose proof (words_word _ _ _ H) as W. destruct (plain_word name N) as (WN & _).
  exists (map AToken ks), r', (join_blank (name :: ws)). repeat split; try assumption.
  - apply command_of; try assumption. revert R. apply Forall_impl. intros w [X _]; exact X.
  - apply words_join; assumption.
Qed.

Ltac prove_plain := repeat split; discriminate.
Ltac prove_parts := cbn; repeat first [ apply parts_end | apply parts_plain; [prove_plain | ] ].

(** [grep -v 'a b' x\ y | ...] *)
Example c52_example : exists t ws,
  t = txt " -v 'a b' x\ y| head" /\ words t ws (txt "| head") /\ Forall regular ws /\ Forall no_flag ws /\ plain_name (txt "grep") /\
  exists args, arguments (fun _ => true) 10 true t = Ok (args, txt "| head") /\
               bash_command (fun _ => []) (fun _ => 0) (txt "grep") args = Some (txt "grep -v 'a b' x\ y").
Proof.
  eexists _, [txt "-v"; txt "'a b'"; txt "x\ y"]. split; [reflexivity | ]. 
  assert (W1 : word (txt "-v")) by (split; [prove_parts | eexists _, _; split; [reflexivity | split; discriminate]]).
  assert (W2 : word (txt "'a b'")).
  { split; [ | eexists _, _; split; [reflexivity | split; discriminate]].
    apply (parts_single (txt "a b") []); [ | constructor]. cbn. intros [H | [H | [H | []]]]; discriminate H. }
  assert (W3 : word (txt "x\ y")).
  { split; [ | eexists _, _; split; [reflexivity | split; discriminate]].
    cbn. apply parts_plain; [prove_plain | ]. apply parts_escape. prove_parts. }
  split; [ | split; [ | split; [ | split]]].
  - apply (words_more [" "] (txt "-v") " " (txt "'a b' x\ y| head")); [repeat constructor | exact W1 | left; reflexivity | ].
    apply (words_more [] (txt "'a b'") " " (txt "x\ y| head")); [constructor | exact W2 | left; reflexivity | ].
    apply (words_last [] (txt "x\ y") (txt "| head")); [constructor | exact W3 | right; eexists _, _; split; [reflexivity | auto] | discriminate].
  - assert (X : forall u v (c d : ascii), u ++ [c] = v ++ [d] -> c = d) by (intros u v c d E; apply app_inj_tail in E; tauto).
    constructor; [ | constructor; [ | constructor; [ | constructor]]]; split.
    + intros c [u E]. apply (X ["-"]) in E. subst. reflexivity.
    + intros c r E Q. inversion E; subst. discriminate Q.
    + intros c [u E]. apply (X (txt "'a b")) in E. subst. reflexivity.
    + intros c r E Q. exists (txt "'a b"). inversion E; subst. reflexivity.
    + intros c [u E]. apply (X (txt "x\ ")) in E. subst. reflexivity.
    + intros c r E Q. inversion E; subst. discriminate Q.
  - constructor; [ | constructor; [ | constructor; [ | constructor]]]; split; try discriminate; intros [n E]; cbn in E; discriminate E.
  - split; [discriminate | split; [ | split; [discriminate | split; discriminate]]]. cbn. repeat constructor; discriminate.
  - eexists. split; reflexivity.
Qed.

(** Where it fails. *)

(** [-i] anywhere among the arguments is taken to be marcel's own flag: [grep -i x], [sed -i ...], [rm -i x] are refused. *)
Theorem c52_interactive_refuted : forall str_of function_no name before after, plain_name name ->
  Forall word before -> Forall no_flag before ->
  forall ks, map raw ks = before ++ txt "-i" :: after -> Forall (fun k => is_word k = true) ks ->
  bash_command str_of function_no name (map AToken ks) = None.
Proof.
  intros str_of function_no name before after N W F ks Hr Hk. destruct (plain_word name N) as (WN & LN & FN).
  assert (E : map (executable_arg function_no) (map AToken ks) = map OStr (before ++ txt "-i" :: after)).
  { rewrite <- Hr. clear - Hk. induction Hk as [ | k ks H _ IH]; [reflexivity | ]. cbn [map executable_arg]. rewrite H, IH. reflexivity. }
  unfold bash_command. rewrite E. unfold Args.parse. cbn [d_flags op_bash length Nat.eqb negb flat_map].
  rewrite (proj1 (no_flag_expand name FN)). rewrite map_app, flat_map_app, expand_words by assumption. cbn [app extract].
  assert (P : plausible (OStr name) = false).
  { destruct N as (N & _ & D & _). destruct name as [ | c [ | d r]]; [congruence | reflexivity | ]. apply Ascii.eqb_neq. exact D. }
  unfold extract_one at 1. rewrite (proj2 (no_flag_expand name FN)). rewrite P. cbn [andb].
  cbn [ps_cur d_anons op_bash length ps_anon d_list check_str ps_flags ps_list Nat.leb app].
  assert (X : forall ws l rest, Forall no_flag ws -> extract check_str op_bash (mkps [] [] l None false) (map OStr ws ++ OStr (txt "-i") :: rest) = None).
  { clear. induction ws as [ | w ws IH]; intros l rest H; [reflexivity | ]. inversion H; subst. cbn [map app extract]. unfold extract_one at 1. rewrite (proj2 (no_flag_expand w H2)). cbn [ps_ok]. rewrite andb_false_r.
    cbn [ps_cur d_anons op_bash length ps_anon d_list check_str ps_flags ps_list Nat.leb]. apply IH. assumption. }
  cbn [map flat_map]. change (expand_arg op_bash (OStr (txt "-i"))) with [OStr (txt "-i")]. cbn [app].
  change ["-"; "i"] with (txt "-i"). rewrite X by assumption. reflexivity.
Qed.

(** A line on which bash would see the words [ws], with marcel's outcome: what it passes on, if anything. *)
Definition passed (name : string) (line : string) : option text :=
  match arguments (fun _ => true) (length (txt line) + 2) true (txt line) with
  | Ok (args, []) => bash_command (fun _ => []) (fun _ => 0) (txt name) args
  | _ => None
  end.

Example c52_grep_i : words (txt " -i x") [txt "-i"; txt "x"] [] /\ passed "grep" " -i x" = None.
Proof.
  split; [ | reflexivity].
  apply (words_more [" "] (txt "-i") " " (txt "x")); [repeat constructor | | left; reflexivity | ].
  - split; [prove_parts | eexists _, _; split; [reflexivity | split; discriminate]].
  - apply (words_last [] (txt "x") []); [constructor | | left; reflexivity | discriminate].
    split; [prove_parts | eexists _, _; split; [reflexivity | split; discriminate]].
Qed.

(** The blank at the end of [a\ ] is stripped, and the backslash then protects the blank before the next word: two words
    have become one, [a b]. *)
Theorem c52_escaped_blank_refuted : exists t w1 w2 cmd, words (txt t) [w1; w2] [] /\ passed "ls" t = Some cmd /\
  words cmd [txt "ls"; w1 ++ w2] [].
Proof.
  exists "a\  b"%string, (txt "a\ "), (txt "b"), (txt "ls a\ b").
  assert (W : word (txt "a\ b")).
  { split; [ | eexists _, _; split; [reflexivity | split; discriminate]].
    cbn. apply parts_plain; [prove_plain | ]. apply parts_escape. prove_parts. }
  split; [ | split; [reflexivity | ]].
  - apply (words_more [] (txt "a\ ") " " (txt "b")); [constructor | | left; reflexivity | ].
    + split; [ | eexists _, _; split; [reflexivity | split; discriminate]].
      cbn. apply parts_plain; [prove_plain | ]. apply parts_escape. constructor.
    + apply (words_last [] (txt "b") []); [constructor | | left; reflexivity | discriminate].
      split; [prove_parts | eexists _, _; split; [reflexivity | split; discriminate]].
  - apply (words_more [] (txt "ls") " " (txt "a\ b")); [constructor | | left; reflexivity | ].
    + split; [prove_parts | eexists _, _; split; [reflexivity | split; discriminate]].
    + apply (words_last [] (txt "a\ b") []); [constructor | exact W | left; reflexivity | discriminate].
Qed.

(** A word that starts with a quote and ends otherwise is refused, as if the quote were not closed. *)
Theorem c52_missing_quote_refuted : exists t w, words (txt t) [w] [] /\ passed "ls" t = None.
Proof.
  exists "'a b'c"%string, (txt "'a b'c"). split; [ | reflexivity].
  apply (words_last [] (txt "'a b'c") []); [constructor | | left; reflexivity | discriminate].
  split; [ | eexists _, _; split; [reflexivity | split; discriminate]].
  apply (parts_single (txt "a b") (txt "c")); [ | prove_parts]. cbn. intros [H | [H | [H | []]]]; discriminate H.
Qed.

(** White space that is not a blank to bash divides words all the same: a no-break space is part of a word for bash. *)
Theorem c52_other_space_refuted : exists c (t : text), ~ bash_blank c /\ c <> "010" /\ t = ["a"; c; "b"] /\
  exists args cmd, arguments (fun _ => true) 10 true t = Ok (args, []) /\
    bash_command (fun _ => []) (fun _ => 0) (txt "ls") args = Some cmd /\ words cmd [txt "ls"; txt "a"; txt "b"] [].
Proof.
  exists "160", ["a"; "160"; "b"]. split; [intros [H | H]; discriminate H | ]. split; [discriminate | ]. split; [reflexivity | ].
  eexists _, _. split; [reflexivity | ]. split; [reflexivity | ].
  apply (words_join [txt "a"; txt "b"] (txt "ls")); [ | constructor; [ | constructor; [ | constructor]]];
    (split; [prove_parts | eexists _, _; split; [reflexivity | split; discriminate]]).
Qed.
