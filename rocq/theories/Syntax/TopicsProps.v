(** C88: help topics, and completion of help topics and user names. *)
From Coq Require Import Ascii String List Bool Arith Lia Permutation Sorted.
From Verif.Syntax Require Import Lexer LexerFacts Complete CompleteProps Topics TopicsSpec.
From Verif.Syntax Require Tab.
From Verif.Sys Require Import Glob.
From Verif.Sys Require Csv CsvProps HistoryProps.
Import ListNotations.
Local Open Scope char_scope.
Local Open Scope list_scope.

Lemma text_eqb_ok : forall a b, text_eqb a b = true <-> a = b.
Proof. intros a b. unfold text_eqb. destruct (list_eq_dec ascii_dec a b); split; congruence. Qed.
Lemma member_ok : forall t l, member t l = true <-> In t l.
Proof.
  intros t l. unfold member. rewrite existsb_exists. split.
  - intros (x & I1 & E). apply text_eqb_ok in E. now subst.
  - intros I1. exists t. split; auto. now apply text_eqb_ok.
Qed.
Lemma member_no : forall t l, ~ In t l -> member t l = false.
Proof. intros t l N. destruct (member t l) eqn:E; auto. now apply member_ok in E. Qed.

(** help NAME shows the page of the operator or topic NAME, in upper or lower case; for other names the user is told. *)
Theorem c88_help : forall argument t, t = lower (match argument with Some x => x | None => txt "marcel" end) ->
  (In t all_operators -> ~ In t no_help -> help argument = Sends (Some (OperatorPage t))) /\
  (In t doc_modules -> help argument = Sends (Some (TopicPage t))) /\
  (~ In t all_operators -> ~ In t doc_modules -> help argument = Told).
Proof.
  intros argument t E. unfold help. rewrite <- E. split; [|split].
  - intros O N. rewrite (proj2 (member_ok _ _) O). now rewrite member_no.
  - intros D. assert (N : ~ In t all_operators).
    { intros O. assert (X : forallb (fun n => negb (member n all_operators)) doc_modules = true) by (vm_compute; reflexivity).
      rewrite forallb_forall in X. specialize (X t D). apply member_ok in O. rewrite O in X. discriminate. }
    rewrite (member_no _ _ N). now rewrite (proj2 (member_ok _ _) D).
  - intros O D. now rewrite !member_no.
Qed.

(** ---- the tab key after help ---- *)
Lemma unesc_plain : forall w, plain w -> unesc w = w.
Proof.
  induction w as [|c w IH]; intros P; auto. simpl. destruct (P c (or_introl eq_refl)) as (N & _).
  rewrite (proj2 (Ascii.eqb_neq c bslash) N). f_equal. apply IH. intros x H. apply P. now right.
Qed.
Lemma topics_In : forall n, In n help_topics <-> In n (doc_topics ++ Tab.public).
Proof. intros n. unfold help_topics. split; apply Permutation_in; [|symmetry]; apply sorted_perm. Qed.

(** After a plain word w: what is offered are the rests of the topics of the list that begin with w, each once *)
Theorem c88_offers : forall w r, plain w -> (In r (topic_offers w) <-> In (w ++ r) (doc_topics ++ Tab.public)).
Proof.
  intros w r P. unfold topic_offers. rewrite unesc_plain by auto. rewrite in_map_iff. setoid_rewrite filter_In. split.
  - intros (n & E & H & S). apply starts_exists in S as (r' & ->). apply topics_In in H.
    rewrite skipn_app, Nat.sub_diag, skipn_all in E. simpl in E. now subst.
  - intros H. exists (w ++ r). rewrite skipn_app, Nat.sub_diag, skipn_all. split; auto. split; [now apply topics_In|]. apply starts_exists. eauto.
Qed.
Theorem c88_offers_once : forall w, plain w -> NoDup (topic_offers w).
Proof.
  intros w P. unfold topic_offers. rewrite unesc_plain by auto.
  assert (N : NoDup (filter (starts w) help_topics)).
  { apply NoDup_filter. eapply Permutation_NoDup; [symmetry; apply sorted_perm|].
    assert (X : Args.distinct (doc_topics ++ Tab.public) = true) by (vm_compute; reflexivity).
    revert X. generalize (doc_topics ++ Tab.public). induction l as [|x l IH]; intros X; constructor; simpl in X; apply andb_prop in X as (X1 & X2); auto.
    intros I1. apply negb_true_iff in X1. rewrite <- not_true_iff_false in X1. apply X1. apply existsb_exists. exists x. split; auto.
    unfold Args.teqb. destruct (list_eq_dec ascii_dec x x); congruence. }
  assert (A : Forall (fun n => exists r, n = w ++ r) (filter (starts w) help_topics)).
  { apply Forall_forall. intros n H. apply filter_In in H as (_ & S). now apply starts_exists. }
  revert N A. generalize (filter (starts w) help_topics). induction l as [|x l IH]; intros N A; simpl; constructor.
  - inversion N; subst. inversion A as [|? ? (r & ->) A2]; subst. rewrite in_map_iff. intros (y & E & Y).
    rewrite Forall_forall in A2. destruct (A2 y Y) as (r' & ->).
    rewrite !skipn_app, Nat.sub_diag, skipn_all in E. simpl in E. subst. auto.
  - inversion N; inversion A; subst; auto.
Qed.

(** Every name that is offered, but one, has a page. *)
Theorem c88_offered_partial : forall w r, plain w -> In r (topic_offers w) -> w ++ r <> txt "assign" -> has_page (w ++ r).
Proof.
  intros w r P H N. apply c88_offers in H; auto. revert H N. generalize (w ++ r). intros n H N.
  assert (X : forallb (fun n => text_eqb n (txt "assign") || match help (Some n) with Sends (Some _) => true | _ => false end)
    (doc_topics ++ Tab.public) = true) by (vm_compute; reflexivity).
  rewrite forallb_forall in X. specialize (X n H). apply orb_prop in X as [X|X]; [now apply text_eqb_ok in X|].
  unfold has_page. unfold text, Csv.text in *. destruct (help (Some n)) as [[p|]|]; try discriminate. eauto.
Qed.
Theorem c88_assign_refuted : In (txt "ssign") (topic_offers (txt "a")) /\ help (Some (txt "assign")) = Sends None.
Proof. split; [apply c88_offers; [|]|]; try reflexivity.
  - intros c H. simpl in H. destruct H as [<-|[]]. split; [discriminate|reflexivity].
  - apply member_ok. reflexivity.
Qed.

(** Every operator with a page is offered; of the topics, six are never offered although they have a page *)
Theorem c88_operators : forall w r, plain w -> In (w ++ r) Tab.public -> In r (topic_offers w).
Proof. intros w r P H. apply c88_offers; auto. apply in_or_app. now right. Qed.
Theorem c88_unlisted_refuted : forall n, In n (map txt ["builtin"; "file"; "history_record"; "interaction"; "process"; "startup"]%string) ->
  has_page n /\ forall w r, plain w -> n = w ++ r -> ~ In r (topic_offers w).
Proof.
  intros n H. split.
  - simpl in H. repeat (destruct H as [<-|H]; [eexists; reflexivity|]). destruct H.
  - intros w r P E X. apply c88_offers in X; auto. rewrite <- E in X. apply member_ok in X.
    simpl in H. repeat (destruct H as [<-|H]; [discriminate X|]). destruct H.
Qed.
(** A page says: Run help out for more information (doc/help_operator.py:99) *)
Theorem c88_mentioned_refuted : help (Some (txt "out")) = Told.
Proof. reflexivity. Qed.

(** Nothing is offered after a quote, ... *)
Theorem c88_quoted_refuted : forall q w, is_quote q = true -> topic_offers (q :: w) = [].
Proof.
  intros q w Q. assert (NB : q <> bslash) by (intros ->; discriminate). unfold topic_offers. simpl unesc.
  rewrite (proj2 (Ascii.eqb_neq q bslash) NB).
  assert (X : forallb (fun n => match n with c :: _ => negb (is_quote c) | [] => true end) help_topics = true) by (vm_compute; reflexivity).
  rewrite forallb_forall in X.
  enough (F : filter (starts (q :: unesc w)) help_topics = []) by now rewrite F.
  revert X. generalize help_topics. induction l as [|n l IH]; intros X; auto. simpl.
  assert (S : match n with c :: t => (q =? c) && starts (unesc w) t | [] => false end = false).
  { destruct n as [|c t]; auto. specialize (X (c :: t) (or_introl eq_refl)). simpl in X.
    destruct (Ascii.eqb_spec q c); auto. subst. rewrite Q in X. discriminate. }
  destruct n as [|c t]; simpl in S |- *; try rewrite S; apply IH; intros; apply X; now right.
Qed.
(** ... and after an escaped character, a character is lost: the line then names another topic, or none. *)
Theorem c88_escaped_refuted : forall p r, plain p -> r <> [] -> In (p ++ r) (doc_topics ++ Tab.public) ->
  let w := bslash :: p in
  p <> [] ->
  In (skipn 1 r) (topic_offers w) /\ unesc (w ++ skipn 1 r) <> p ++ r.
Proof.
  intros p r P R H w N. destruct p as [|c p]; [congruence|].
  assert (U : forall t, unesc (w ++ t) = c :: unesc (p ++ t)) by reflexivity.
  assert (P' : plain p) by (intros x Hx; apply P; now right).
  assert (G : forall q t, plain q -> unesc (q ++ t) = q ++ unesc t).
  { induction q as [|x q IH]; intros t Q; auto. simpl. destruct (Q x (or_introl eq_refl)) as (NX & _).
    rewrite (proj2 (Ascii.eqb_neq x bslash) NX). f_equal. apply IH. intros y Hy. apply Q. now right. }
  split.
  - unfold topic_offers. apply in_map_iff. exists ((c :: p) ++ r). split.
    + unfold w. change (length (bslash :: c :: p)) with (S (length (c :: p))).
      rewrite skipn_app. rewrite skipn_all2 by lia. replace (S (length (c :: p)) - length (c :: p)) with 1 by lia. reflexivity.
    + apply filter_In. split; [now apply topics_In|]. rewrite <- (app_nil_r w), U, G by auto. simpl. rewrite app_nil_r.
      rewrite Ascii.eqb_refl. apply starts_exists. eauto.
  - rewrite U, G by auto. intros E. assert (L : length (c :: p ++ unesc (skipn 1 r)) = length ((c :: p) ++ r)) by now rewrite E.
    assert (LU : forall n t, length t <= n -> length (unesc t) <= length t).
    { induction n as [|n IH]; intros [|x t] Ln; simpl in *; try lia. destruct (x =? bslash).
      - destruct t as [|y t]; simpl in *; [lia|]. specialize (IH t). lia.
      - specialize (IH t). simpl. lia. }
    destruct r as [|x r]; [congruence|]. simpl in L. rewrite !app_length in L. simpl in L.
    pose proof (LU _ r (le_n _)). lia.
Qed.

(** ---- the tab key after ~ ---- *)
Lemma upto_app : forall n r, (forall c, In c n -> c <> ":") -> upto_colon (n ++ ":" :: r) = n.
Proof.
  induction n as [|c n IH]; intros r H; auto. simpl. rewrite (proj2 (Ascii.eqb_neq c ":") (H c (or_introl eq_refl))).
  f_equal. apply IH. intros x X. apply H. now right.
Qed.
Lemma usernames_of : forall ns f, passwd_of ns f -> usernames f = ns.
Proof.
  intros ns f H. induction H as [|n ns rest f N R H IH]; auto. unfold usernames in *.
  replace ((n ++ ":" :: rest ++ [Csv.LF]) ++ f) with ((n ++ ":" :: rest) ++ Csv.LF :: f) by (repeat (rewrite <- app_assoc; simpl); reflexivity).
  rewrite HistoryProps.readlines_cons.
  - simpl. rewrite IH. f_equal. replace ((n ++ ":" :: rest) ++ [Csv.LF]) with (n ++ ":" :: rest ++ [Csv.LF]) by (rewrite <- app_assoc; reflexivity).
    apply upto_app. intros c X. now apply N.
  - intros X. apply in_app_or in X as [X|[X|X]]; [now apply N in X|discriminate|now apply R in X].
Qed.
(** After ~p: the line becomes ~NAME/ for each user whose name begins with p, in the order of the names *)
Theorem c88_users : forall ns f p, passwd_of ns f -> plain p -> exists us,
  map (fun o => ("~" :: p) ++ o) (user_offers f ("~" :: p)) = map (fun u => "~" :: u ++ ["/"]) us /\
  Permutation us (filter (starts p) ns) /\ Sorted (fun a b => text_leb a b = true) us.
Proof.
  intros ns f p H P. exists (filter (starts p) (sorted ns)). unfold user_offers. cbn [skipn]. rewrite unesc_plain by auto.
  rewrite (usernames_of _ _ H). split; [|split].
  - rewrite map_map. apply map_ext_in. intros u X. apply filter_In in X as (_ & S). apply starts_exists in S as (r & ->).
    rewrite skipn_app, Nat.sub_diag, skipn_all. simpl. now rewrite <- app_assoc.
  - assert (X : forall a b, Permutation a b -> Permutation (filter (starts p) a) (filter (starts p) b)).
    { intros a b Q. induction Q; simpl; auto.
      - destruct (starts p x); auto.
      - destruct (starts p x), (starts p y); auto. constructor.
      - etransitivity; eauto. }
    apply X, sorted_perm.
  - assert (T : forall a b c, text_leb a b = true -> text_leb b c = true -> text_leb a c = true).
    { induction a as [|x a IH]; intros [|y b] [|z c]; simpl; auto; try discriminate.
      destruct (Ascii.eqb_spec x y), (Ascii.eqb_spec y z), (Ascii.eqb_spec x z); subst; try congruence; eauto.
      - intros L1 L2. apply Nat.leb_le in L1, L2. exfalso. apply n. 
        rewrite <- (ascii_nat_embedding z), <- (ascii_nat_embedding y). f_equal. lia.
      - intros L1 L2. apply Nat.leb_le in L1, L2. apply Nat.leb_le. lia. }
    apply StronglySorted_Sorted. pose proof (sorted_sorted ns) as S. apply Sorted_StronglySorted in S; [|intros a b c; apply T].
    induction S as [|x l S IH F]; simpl; [constructor|]. destruct (starts p x); auto. constructor; auto.
    rewrite Forall_forall in *. intros y Y. apply filter_In in Y as (Y & _). auto.
Qed.
(** Inside quotes nothing is offered, unless the name of a user begins with ~ ... *)
Theorem c88_users_quoted_refuted : forall ns f q p, passwd_of ns f -> is_quote q = true -> (forall u, In u ns -> starts ["~"] u = false) ->
  user_offers f (q :: "~" :: p) = [].
Proof.
  intros ns f q p H Q N. unfold user_offers. cbn [skipn]. change (unesc ("~" :: p)) with ("~" :: unesc p). rewrite (usernames_of _ _ H).
  enough (F : filter (starts ("~" :: unesc p)) (sorted ns) = []) by now rewrite F.
  assert (N' : forall u, In u (sorted ns) -> starts ["~"] u = false) by (intros u X; apply N; eapply Permutation_in; [apply sorted_perm|auto]).
  revert N'. generalize (sorted ns). induction l as [|u l IH]; intros N'; auto. simpl.
  specialize (N' u (or_introl eq_refl)) as U. destruct u as [|c u]; simpl in U |- *; [apply IH; intros; apply N'; now right|].
  rewrite andb_true_r in U. rewrite U. apply IH. intros. apply N'. now right.
Qed.
(** ... and a line without a colon, such as a comment or an empty line, is offered with its line end. *)
Theorem c88_users_line_refuted : forall l f, (forall c, In c l -> c <> ":" /\ c <> Csv.LF) ->
  In (l ++ [Csv.LF; "/"]) (user_offers (l ++ Csv.LF :: f) ["~"]).
Proof.
  intros l f H. unfold user_offers. cbn [skipn unesc length]. apply in_map_iff. exists (l ++ [Csv.LF]). split.
  - cbn [skipn]. now rewrite <- app_assoc.
  - apply filter_In. split; [|reflexivity]. eapply Permutation_in; [symmetry; apply sorted_perm|].
    unfold usernames. rewrite HistoryProps.readlines_cons by (intros X; now apply H in X). simpl. left.
    clear f. induction l as [|c l IH]; [reflexivity|]. simpl. rewrite (proj2 (Ascii.eqb_neq c ":")) by now apply (H c (or_introl eq_refl)).
    f_equal. apply IH. intros x X. apply H. now right.
Qed.

(** Examples *)
Example help_upper : help (Some (txt "LS")) = Sends (Some (OperatorPage (txt "ls"))) /\ help None = Sends (Some (TopicPage (txt "marcel"))) /\
  help (Some (txt "nonsense")) = Told.
Proof. repeat split. Qed.
Example topics_pr : plain (txt "pr") /\ topic_offers (txt "pr") = [txt "ompt"] /\ topic_offers (txt "\pr") = [txt "mpt"] /\
  topic_offers (txt "op") = [txt "erator"].
Proof. split; [|vm_compute; auto]. intros c H. simpl in H. destruct H as [<-|[<-|[]]]; split; try discriminate; reflexivity. Qed.
Definition two_users : text := txt "root:x:0" ++ [Csv.LF] ++ txt "ann:x:7" ++ [Csv.LF].
Example two_users_ok : passwd_of [txt "root"; txt "ann"] two_users /\ user_offers two_users (txt "~") = [txt "ann/"; txt "root/"] /\
  user_offers two_users (txt "~r") = [txt "oot/"].
Proof.
  split; [|vm_compute; auto]. change two_users with ((txt "root" ++ ":" :: txt "x:0" ++ [Csv.LF]) ++ (txt "ann" ++ ":" :: txt "x:7" ++ [Csv.LF]) ++ []).
  constructor; [| |constructor; [| |constructor]]; intros c H; simpl in H; repeat (destruct H as [<-|H]; [try split; discriminate|]); destruct H.
Qed.

Print Assumptions c88_help.
Print Assumptions c88_offers.
Print Assumptions c88_offers_once.
Print Assumptions c88_offered_partial.
Print Assumptions c88_assign_refuted.
Print Assumptions c88_operators.
Print Assumptions c88_unlisted_refuted.
Print Assumptions c88_mentioned_refuted.
Print Assumptions c88_quoted_refuted.
Print Assumptions c88_escaped_refuted.
Print Assumptions c88_users.
Print Assumptions c88_users_quoted_refuted.
Print Assumptions c88_users_line_refuted.
