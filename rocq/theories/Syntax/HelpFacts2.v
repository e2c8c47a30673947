(** C59: wrapping. *)
From Coq Require Import Lia.
From Verif.Syntax Require Import HelpSpec HelpFacts1 ScriptsProps.
Local Open Scope char_scope.
Local Open Scope list_scope.

(** ** Words *)
Definition flush (w : text) : list text := match w with [] => [] | _ => [w] end.
Lemma words_from_nil : forall w, words_from w [] = flush w.
Proof. destruct w; reflexivity. Qed.
Lemma words_from_space : forall w c t, isspace c = true -> words_from w (c :: t) = flush w ++ words t.
Proof. intros w c t E. cbn. rewrite E. destruct w; reflexivity. Qed.
Lemma words_from_char : forall w c t, isspace c = false -> words_from w (c :: t) = words_from (w ++ [c]) t.
Proof. intros w c t E. cbn. now rewrite E. Qed.
Lemma words_from_app_space : forall a w c b, isspace c = true -> words_from w (a ++ c :: b) = words_from w a ++ words b.
Proof.
  induction a as [|x a IH]; intros w c b E; cbn [app].
  - now rewrite words_from_space, words_from_nil.
  - destruct (isspace x) eqn:X.
    + rewrite !words_from_space, <- app_assoc by auto. f_equal. now apply IH.
    + rewrite !words_from_char by auto. now apply IH.
Qed.
Lemma words_cons_space : forall c t, isspace c = true -> words (c :: t) = words t.
Proof. intros c t E. unfold words. now rewrite words_from_space. Qed.
Lemma words_app_space_l : forall a c b, isspace c = true -> words ((a ++ [c]) ++ b) = words (a ++ [c]) ++ words b.
Proof.
  intros a c b E. rewrite <- app_assoc. cbn [app]. unfold words. rewrite words_from_app_space by auto.
  rewrite words_from_app_space by auto. cbn. now rewrite app_nil_r.
Qed.
Lemma words_app_space_r : forall a c b, isspace c = true -> words (a ++ c :: b) = words a ++ words (c :: b).
Proof. intros a c b E. rewrite (words_cons_space c b E). unfold words. now apply words_from_app_space. Qed.
Lemma words_blank : forall t, nonblank t = false -> words t = [].
Proof.
  induction t as [|c t IH]; intros E; [reflexivity|]. cbn in E. apply orb_false_iff in E. destruct E as [A B].
  apply negb_false_iff in A. rewrite words_cons_space; auto.
Qed.
Lemma nonws_words : forall t w, concat (words_from w t) = w ++ nonws t.
Proof.
  induction t as [|c t IH]; intros w; cbn [words_from].
  - destruct w; cbn; now rewrite ?app_nil_r.
  - cbn [nonws filter]. destruct (isspace c); cbn [negb].
    + destruct w; cbn; rewrite IH; reflexivity.
    + rewrite IH. now rewrite <- app_assoc.
Qed.
Lemma words_repeat : forall n t, words (repeat space n ++ t) = words t.
Proof. induction n; intros t; cbn [repeat app]; [auto|]. now rewrite words_cons_space. Qed.
Lemma words_from_repeat : forall n w t, (0 < n)%nat -> words_from w (repeat space n ++ t) = flush w ++ words t.
Proof.
  intros [|n] w t L; [lia|]. cbn [repeat app]. rewrite words_from_space by reflexivity. now rewrite words_repeat.
Qed.

(** ** Whitespace replaced by whitespace *)
Lemma words_expandtabs : forall t j w, words_from w (expandtabs j t) = words_from w t.
Proof.
  induction t as [|c t IH]; intros j w; [reflexivity|]. cbn [expandtabs]. destruct (c =? tab) eqn:T.
  - apply Ascii.eqb_eq in T. subst c. rewrite words_from_repeat.
    2:{ assert (j mod 8 < 8)%nat by (apply Nat.mod_upper_bound; lia). lia. }
    rewrite words_from_space by reflexivity. f_equal. apply IH.
  - assert (G : forall k, words_from w (c :: expandtabs k t) = words_from w (c :: t)).
    { intros k. destruct (isspace c) eqn:S; [rewrite !words_from_space by auto; f_equal; apply IH|rewrite !words_from_char by auto; apply IH]. }
    destruct ((c =? newline) || (c =? creturn)); apply G.
Qed.
Lemma tw_space_isspace : forall c, tw_space c = true -> isspace c = true.
Proof.
  intros c H. unfold tw_space, isspace in *. apply orb_true_iff in H. destruct H as [H|H].
  - now rewrite H.
  - apply Nat.eqb_eq in H. rewrite H. reflexivity.
Qed.
Lemma words_map_space : forall t w, words_from w (map (fun c => if tw_space c then space else c) t) = words_from w t.
Proof.
  induction t as [|c t IH]; intros w; [reflexivity|]. cbn [map]. destruct (tw_space c) eqn:T.
  - rewrite !words_from_space by (reflexivity || now apply tw_space_isspace). f_equal. apply IH.
  - destruct (isspace c) eqn:S; [rewrite !words_from_space by auto; f_equal; apply IH|rewrite !words_from_char by auto; apply IH].
Qed.
Lemma words_munge : forall t, words (munge t) = words t.
Proof. intros t. unfold munge, words. now rewrite words_map_space, words_expandtabs. Qed.

Lemma words_drop_ws : forall t, words (drop_ws t) = words t.
Proof. induction t as [|c t IH]; [reflexivity|]. cbn [drop_ws]. destruct (isspace c) eqn:S; [now rewrite words_cons_space|reflexivity]. Qed.
Lemma words_trail : forall t, words (rev (drop_ws (rev t))) = words t.
Proof.
  intros t. rewrite <- (rev_involutive t) at 2. generalize (rev t). induction l as [|c l IH]; [reflexivity|].
  cbn [drop_ws]. destruct (isspace c) eqn:S; [|reflexivity]. cbn [rev]. rewrite words_app_space_r, IH by auto.
  rewrite (words_blank [c]); [now rewrite app_nil_r|]. cbn. now rewrite S.
Qed.
Lemma words_strip : forall t, words (strip t) = words t.
Proof. intros t. unfold strip. now rewrite words_trail, words_drop_ws. Qed.

Lemma words_join_lines : forall ls, words (join_lines ls) = concat (map words ls).
Proof.
  induction ls as [|l ls IH]; [reflexivity|]. destruct ls as [|l' ls]; [cbn; now rewrite app_nil_r|].
  change (join_lines (l :: l' :: ls)) with (l ++ newline :: join_lines (l' :: ls)). rewrite words_app_space_r, words_cons_space, IH by reflexivity. reflexivity.
Qed.
Lemma words_join_spaces : forall ls, words (join_spaces ls) = concat (map words ls).
Proof.
  induction ls as [|l ls IH]; [reflexivity|]. destruct ls as [|l' ls]; [cbn; now rewrite app_nil_r|].
  change (join_spaces (l :: l' :: ls)) with (l ++ space :: join_spaces (l' :: ls)). rewrite words_app_space_r, words_cons_space, IH by reflexivity. reflexivity.
Qed.
Lemma words_trim : forall t, words (trim_lines t) = words t.
Proof.
  intros t. unfold trim_lines. rewrite words_join_spaces, map_map. rewrite (map_ext _ words) by apply words_strip.
  destruct (split_spec t) as (_ & J & _). rewrite <- J at 2. now rewrite words_join_lines.
Qed.

(** ** Chunks *)
Definition uniform (c : text) : Prop := c <> [] /\ exists s, Forall (fun x => tw_space x = s) c.
Definition apart (c d : text) : Prop := exists x, (Forall (fun y => tw_space y = x) c) /\ Forall (fun y => tw_space y = negb x) d.
Inductive alternate : list text -> Prop :=
| alt_nil : alternate []
| alt_one : forall c, uniform c -> alternate [c]
| alt_cons : forall c d cs, uniform c -> apart c d -> alternate (d :: cs) -> alternate (c :: d :: cs).

Lemma chunks_ok : forall t, concat (chunks t) = t /\ alternate (chunks t).
Proof.
  induction t as [|c t IH]; [split; [reflexivity|constructor]|]. cbn [chunks]. destruct IH as (C & A).
  destruct (chunks t) as [|[|d x] cs] eqn:E.
  - cbn in *. subst t. split; auto. apply alt_one. split; [discriminate|]. exists (tw_space c). auto.
  - exfalso. inversion A as [|q U|q q' qs U]; subst; destruct U; easy.
  - destruct (Bool.eqb (tw_space c) (tw_space d)) eqn:Q.
    + apply Bool.eqb_prop in Q. split; [cbn in *; congruence|].
      assert (Hu : forall s, Forall (fun z => tw_space z = s) (d :: x) -> Forall (fun z => tw_space z = s) (c :: d :: x)).
      { intros s F. constructor; auto. inversion F; congruence. }
      inversion A as [|q (N & s & U)|q q' qs (N & s & U) (y & P1 & P2) A']; subst.
      * apply alt_one. split; [discriminate|]. exists s. auto.
      * apply alt_cons; auto; [split; [discriminate|exists s; auto]|]. exists y. auto.
    + split; [cbn in *; congruence|]. apply alt_cons; auto.
      * split; [discriminate|]. exists (tw_space c). auto.
      * assert (U : exists s, Forall (fun z => tw_space z = s) (d :: x)) by (inversion A as [|q (N & U)|q q' qs (N & U)]; subst; auto).
        destruct U as (s & U). exists (tw_space c). split; auto. eapply Forall_impl; [|exact U]. intros z Z. cbv beta in *. inversion U; subst.
        rewrite <- H1. destruct (tw_space c), (tw_space d); cbn in *; congruence.
Qed.

Lemma alternate_tail : forall c cs, alternate (c :: cs) -> uniform c /\ alternate cs.
Proof. intros c cs H. inversion H; subst; auto. split; auto. constructor. Qed.
Lemma alternate_app : forall a b, alternate (a ++ b) -> alternate a /\ alternate b.
Proof.
  induction a as [|c a IH]; intros b H; [split; auto; constructor|]. cbn [app] in H.
  destruct (alternate_tail _ _ H) as (U & T). destruct (IH b T) as (A & B). split; auto.
  destruct a as [|d a]; [now apply alt_one|]. cbn [app] in H. inversion H; subst. apply alt_cons; auto.
Qed.
Lemma alternate_words : forall cs, alternate cs -> words (concat cs) = concat (map words cs).
Proof.
  intros cs H. induction H as [|c U|c d cs (N & s & U) (x & P1 & P2) A IH].
  - reflexivity.
  - cbn. now rewrite !app_nil_r.
  - cbn [map concat] in *. rewrite <- IH. destruct x.
    + destruct (exists_last N) as (c' & z & ->). apply words_app_space_l. apply tw_space_isspace.
      rewrite Forall_forall in P1. apply P1. apply in_or_app. right. now left.
    + assert (Nd : d <> []) by (apply alternate_tail in A; destruct A as ((Nd & _) & _); auto).
      destruct d as [|z d]; [easy|]. cbn [app]. apply words_app_space_r. apply tw_space_isspace. now inversion P2.
Qed.

Lemma fill_ok : forall w cs len l r, fill w len cs = (l, r) -> cs = l ++ r /\ (l = [] \/ len + length (concat l) <= w)%nat /\
  match r with [] => True | d :: _ => (w < len + length (concat l) + length d)%nat end.
Proof.
  intros w. induction cs as [|c cs IH]; intros len l r H; cbn in H.
  - inversion H; subst. auto.
  - destruct (len + length c <=? w)%nat eqn:E.
    + apply Nat.leb_le in E. destruct (fill w (len + length c) cs) as [l' r'] eqn:F. inversion H; subst.
      destruct (IH _ _ _ F) as (-> & A & B). split; auto. cbn [concat]. rewrite app_length. split.
      * right. destruct A as [->|A]; cbn; lia.
      * destruct r; auto. lia.
    + inversion H; subst. apply Nat.leb_gt in E. repeat split; auto. cbn. lia.
Qed.

Lemma drop_last_blank_ok : forall l l', drop_last_blank l = l' ->
  l = l' \/ exists c, l = l' ++ [c] /\ nonblank c = false.
Proof.
  intros l l' H. unfold drop_last_blank in H. destruct (rev l) as [|c r] eqn:R; [now left|].
  assert (E : l = rev r ++ [c]) by (rewrite <- (rev_involutive l), R; reflexivity).
  destruct (nonblank c) eqn:N; [now left|]. right. exists c. now rewrite E, H.
Qed.
Lemma drop_last_blank_end : forall l c, drop_last_blank l = l -> In c l -> l = [c] -> nonblank c = true.
Proof.
  intros l c H I E. subst l. unfold drop_last_blank in H. cbn in H. destruct (nonblank c); auto. discriminate.
Qed.

Lemma concat_words_split : forall a b : list text, concat (map words (a ++ b)) = concat (map words a) ++ concat (map words b).
Proof. intros. now rewrite map_app, concat_app. Qed.

Lemma wrap_chunks_ok : forall width i1 i2 fuel cs started, alternate cs -> (length cs <= fuel)%nat ->
  let ls := wrap_chunks fuel width i1 i2 started cs in
  concat (map words ls) = concat (map words cs) /\
  (if started then Forall (line_ok width i2) ls else lines_ok width i1 i2 ls).
Proof.
  intros width i1 i2. induction fuel as [|f IH]; intros cs started A L ls.
  - destruct cs; [|cbn in L; lia]. subst ls. cbn. destruct started; split; cbn; auto.
  - destruct cs as [|c r]. { subst ls. cbn. destruct started; split; cbn; auto. }
    set (ind := if started then i2 else i1) in *.
    unfold ls; clear ls. cbn [wrap_chunks]. fold ind. rewrite repeat_length.
    set (cs1 := if negb (nonblank c) && started then r else c :: r).
    assert (A1 : alternate cs1) by (unfold cs1; destruct (negb (nonblank c) && started); auto; now apply alternate_tail in A).
    assert (L1 : (length cs1 <= S f)%nat) by (unfold cs1; destruct (negb (nonblank c) && started); cbn in *; lia).
    assert (L2 : (length cs1 <= f)%nat \/ cs1 <> []) by (unfold cs1; destruct (negb (nonblank c) && started); [left; cbn in *; lia|right; discriminate]).
    assert (W1 : concat (map words (c :: r)) = concat (map words cs1)).
    { unfold cs1. destruct (nonblank c) eqn:N; auto. destruct started; cbn [negb andb]; auto. cbn [map concat]. now rewrite words_blank. }
    rewrite W1. clearbody cs1. clear W1 A L c r.
    destruct (fill (width - ind) 0 cs1) as [line0 rest0] eqn:F. destruct (fill_ok _ _ _ _ _ F) as (E & B & D). cbn [Nat.add] in *.
    (* the line and the rest, after a long word has been taken *)
    set (lr := match line0, rest0 with [], d :: rs => if (width - ind <? length d)%nat then ([d], rs) else (line0, rest0) | _, _ => (line0, rest0) end).
    assert (H : exists line rest, lr = (line, rest) /\ cs1 = line ++ rest /\ (length rest <= f)%nat /\
      ((line = [] \/ length (concat line) <= width - ind)%nat \/ exists d, line = [d])).
    { unfold lr. destruct line0 as [|d0 l0].
      - destruct rest0 as [|d rs].
        + exists [], []. repeat split; auto. cbn. lia.
        + cbn in D. destruct (width - ind <? length d)%nat eqn:Q; [|apply Nat.ltb_ge in Q; lia].
          exists [d], rs. repeat split; auto; [cbn in E; subst cs1; cbn in L1; lia|]. right. now exists d.
      - exists (d0 :: l0), rest0. repeat split; auto. subst cs1. rewrite app_length in L1. cbn in L1. lia. }
    clearbody lr. destruct H as (line & rest & -> & E' & Lr & Bd). clear E B D F line0 rest0. subst cs1.
    destruct (alternate_app _ _ A1) as (Al & Ar). rewrite concat_words_split.
    destruct (drop_last_blank line) as [|d0 l0] eqn:DL.
    + destruct (IH rest started Ar Lr) as (P & Q). rewrite P. split; auto.
      destruct (drop_last_blank_ok _ _ DL) as [->|(c & -> & Bc)]; [reflexivity|]. cbn. now rewrite words_blank.
    + destruct (IH rest true Ar Lr) as (P & Q).
      assert (WL : words (concat (d0 :: l0)) = concat (map words line)).
      { destruct (drop_last_blank_ok _ _ DL) as [E|(c & E & Bc)].
        - rewrite <- E. now apply alternate_words.
        - rewrite E in *. apply alternate_app in Al. destruct Al as (Al & _). rewrite alternate_words by auto.
          rewrite concat_words_split. cbn [map concat]. rewrite (words_blank c) by auto. now rewrite !app_nil_r. }
      assert (OK : line_ok width ind (repeat space ind ++ concat (d0 :: l0))).
      { assert (NE : concat (d0 :: l0) <> []).
        { assert (A0 : alternate (d0 :: l0)). { destruct (drop_last_blank_ok _ _ DL) as [E|(c & E & Bc)]; rewrite E in Al; auto. apply alternate_app in Al. tauto. }
          apply alternate_tail in A0. destruct A0 as ((N0 & _) & _). cbn. destruct d0; [easy|discriminate]. }
        exists (concat (d0 :: l0)). split; auto. split; auto.
        assert (P1 : forall x, (length (concat (d0 :: l0)) <= x -> x <= width - ind -> length (repeat space ind ++ concat (d0 :: l0)) <= width)%nat).
        { intros x X1 X2. rewrite app_length, repeat_length. destruct (concat (d0 :: l0)) as [|z zs]; [easy|]. cbn [length] in *. lia. }
        destruct Bd as [[Bd|Bd]|(d & Bd)].
        - subst line. discriminate.
        - left. apply (P1 (length (concat line))); auto. destruct (drop_last_blank_ok _ _ DL) as [E|(c & E & Bc)]; rewrite E; [auto|].
          rewrite concat_app, app_length. lia.
        - subst line. unfold drop_last_blank in DL. cbn in DL. destruct (nonblank d) eqn:Nd; [|discriminate]. inversion DL; subst. right.
          cbn [concat]. rewrite app_nil_r. apply alternate_tail in Al. destruct Al as ((_ & s & U) & _). destruct s; auto.
          exfalso. assert (nonblank d0 = false); [|congruence]. clear - U. induction U as [|x xs X U IHU]; [reflexivity|]. cbn. rewrite (tw_space_isspace x X). auto. }
      rewrite map_cons, concat_cons, words_repeat, WL. split; [f_equal; exact P|]. unfold ind in OK. destruct started; cbn; auto.
Qed.

Lemma textwrap_ok : forall columns i1 i2 t, (0 < columns)%nat ->
  exists ls, textwrap columns i1 i2 t = HOk ls /\ concat (map words ls) = words t /\ lines_ok columns i1 i2 ls.
Proof.
  intros columns i1 i2 t C. unfold textwrap. destruct (columns =? 0)%nat eqn:E; [apply Nat.eqb_eq in E; lia|].
  eexists. split; [reflexivity|]. destruct (chunks_ok (munge t)) as (Q & A).
  destruct (wrap_chunks_ok columns i1 i2 _ _ false A (le_n _)) as (P & R). split; auto. rewrite P.
  rewrite <- alternate_words by auto. now rewrite Q, words_munge.
Qed.

(** ** Paragraphs *)
Lemma nonws_join : forall ls, nonws (join_lines ls) = concat (map nonws ls).
Proof.
  induction ls as [|l ls IH]; [reflexivity|]. destruct ls as [|l' ls]; [cbn; now rewrite app_nil_r|].
  change (join_lines (l :: l' :: ls)) with (l ++ newline :: join_lines (l' :: ls)). rewrite nonws_app. cbn [map concat]. f_equal. exact IH.
Qed.
Lemma nonws_repeat : forall n t, nonws (repeat space n ++ t) = nonws t.
Proof. induction n; intros t; [reflexivity|]. cbn [repeat app]. apply IHn. Qed.
Lemma nonws_of_words : forall a b, words a = words b -> nonws a = nonws b.
Proof. intros a b H. pose proof (nonws_words a []) as A. pose proof (nonws_words b []) as B. cbn in *. unfold words in H. rewrite H in A. congruence. Qed.

Lemma wrap_paragraph_ok : forall columns f t, (0 < columns)%nat ->
  exists w, wrap_paragraph columns f t = HOk w /\ nonws w = nonws t /\
  if wrap f then exists lines, w = join_lines lines /\ words w = words t /\ lines_ok columns (indent1 f) (indent2 f) lines
  else exists l r, lines_of t (l :: r) /\
    w = join_lines ((repeat space (indent1 f) ++ l) :: map (fun x => repeat space (indent2 f) ++ x) r).
Proof.
  intros columns f t C. unfold wrap_paragraph. destruct (wrap f).
  - destruct (textwrap_ok columns (indent1 f) (indent2 f) (trim_lines t) C) as (ls & -> & W & O). cbn [hbind].
    assert (WW : words (join_lines ls) = words t) by (rewrite words_join_lines, W; apply words_trim).
    eexists. split; [reflexivity|]. split; [now apply nonws_of_words|]. eauto.
  - destruct (split_lines t) as [|l r] eqn:S; [now destruct (split_nonempty t)|]. eexists. split; [reflexivity|].
    destruct (split_spec t) as (N & J & X). rewrite S in *. split.
    + cbn [indent_lines]. rewrite nonws_join. cbn [map concat]. rewrite nonws_repeat, map_map. rewrite (map_ext _ nonws) by (intros; apply nonws_repeat).
      rewrite <- J, nonws_join. reflexivity.
    + exists l, r. split; auto. split; auto.
Qed.
