(** C55: the files named in upload and download reach scp as they are. *)
From Verif.Py Require Import Dec.
From Verif.Syntax Require Import Scripts.
From Verif.Sys Require Export Scp ScpSpec.
Local Open Scope char_scope.
Local Open Scope list_scope.

(** * Ordinary characters *)
Definition ordinaryb (c : ascii) : bool :=
  existsb (Ascii.eqb c) (txt "ABCDEFGHIJKLMNOPQRSTUVWXYZabcdefghijklmnopqrstuvwxyz0123456789_@%+=:,./-").
Lemma ordinaryb_iff : forall c, ordinaryb c = true <-> ordinary c.
Proof.
  intros c. unfold ordinaryb, ordinary. rewrite existsb_exists. split.
  - intros (x & I & E). apply Ascii.eqb_eq in E. now subst.
  - intros I. exists c. split; [exact I | apply Ascii.eqb_refl].
Qed.
Lemma safe_ordinaryb : forall c, safe c = ordinaryb c.
Proof. intros [b0 b1 b2 b3 b4 b5 b6 b7]. destruct b0, b1, b2, b3, b4, b5, b6, b7; reflexivity. Qed.
Lemma safe_ordinary : forall c, safe c = true <-> ordinary c.
Proof. intros. rewrite safe_ordinaryb. apply ordinaryb_iff. Qed.
Lemma ordinary_facts : forall c, ordinary c -> isspace c = false /\ c <> squote /\ c <> dquote /\ c <> " ".
Proof.
  intros c H. apply ordinaryb_iff in H.
  assert (isspace c = false) by
    (revert H; destruct c as [b0 b1 b2 b3 b4 b5 b6 b7]; destruct b0, b1, b2, b3, b4, b5, b6, b7; intros H; try reflexivity; discriminate H).
  split; [assumption | ]. repeat split; intros ->; discriminate H.
Qed.

(** * Strings *)
Lemma sf_app : forall w v w' v', stands_for w v -> stands_for w' v' -> stands_for (w ++ w') (v ++ v').
Proof.
  induction 1; intros H'; cbn [app]; [assumption | | | ].
  - constructor; auto.
  - rewrite <- !app_assoc. cbn [app]. constructor; auto.
  - rewrite <- !app_assoc. cbn [app]. constructor; auto.
Qed.
Lemma sf_ordinary : forall t, ordinary_text t -> stands_for t t.
Proof. induction 1; constructor; assumption. Qed.

Lemma sf_escaped : forall s u, ~ In squote u -> stands_for (squote :: u ++ escape_quotes s ++ [squote]) (u ++ s).
Proof.
  induction s as [ | c s IH]; intros u U; cbn [escape_quotes flat_map].
  - change (stands_for (squote :: u ++ squote :: []) (u ++ [])). constructor; [assumption | constructor].
  - destruct (c =? squote) eqn:E.
    + apply Ascii.eqb_eq in E. subst c.
      change (stands_for (squote :: u ++ squote :: (dquote :: [squote] ++ dquote :: (squote :: [] ++ escape_quotes s ++ [squote])))
                (u ++ [squote] ++ [] ++ s)).
      constructor; [assumption | ]. constructor; [ | apply IH; intros []].
      constructor; [ | constructor]. cbn. intuition discriminate.
    + change (stands_for (squote :: u ++ [c] ++ escape_quotes s ++ [squote]) (u ++ [c] ++ s)).
      rewrite (app_assoc u [c]), (app_assoc u [c] s). apply IH. rewrite in_app_iff. intros [ | [ | []]]; [auto | ].
      subst. rewrite Ascii.eqb_refl in E. discriminate.
Qed.

Theorem c55_quote : forall s, quote s <> [] /\ stands_for (quote s) s.
Proof.
  intros s. unfold quote. destruct s as [ | c s'] eqn:E.
  - split; [discriminate | ]. apply (sf_single [] [] []); [intros [] | constructor].
  - rewrite <- E. destruct (forallb safe s) eqn:F.
    + split; [subst; discriminate | ]. apply sf_ordinary. apply Forall_forall. intros x I. apply safe_ordinary.
      rewrite forallb_forall in F. auto.
    + split; [discriminate | ]. apply (sf_escaped s []). intros [].
Qed.
Example c55_quote_case : quote (txt "/it's") = txt "'/it'""'""'s'".
Proof. reflexivity. Qed.

(** * bash reads a command in one way only *)
Definition stops (r : text) : Prop := r = [] \/ exists r', r = " " :: r'.
Lemma stops_facts : forall c r, stops (c :: r) -> c = " ".
Proof. intros c r [H | [r' H]]; congruence. Qed.

Lemma until_unique : forall q (a a' b b' : text), ~ In q a -> ~ In q a' -> a ++ q :: b = a' ++ q :: b' -> a = a' /\ b = b'.
Proof.
  induction a as [ | x a IH]; intros a' b b' N N' E; destruct a' as [ | y a']; cbn in E.
  - injection E as ->. auto.
  - injection E as <- _. destruct N'. left. reflexivity.
  - injection E as -> _. destruct N. left. reflexivity.
  - injection E as <- E. destruct (IH a' b b') as [-> ->]; auto; intros I; [apply N | apply N']; right; assumption.
Qed.
Lemma no_dquote : forall s, Forall (fun c => ~ In c [dquote; bslash; "$"; "`"; "!"]) s -> ~ In dquote s.
Proof. intros s F I. rewrite Forall_forall in F. apply (F dquote I). left. reflexivity. Qed.

Lemma sf_unique : forall w v, stands_for w v -> forall w' v' r r', stands_for w' v' -> stops r -> stops r' ->
  w ++ r = w' ++ r' -> w = w' /\ v = v' /\ r = r'.
Proof.
  induction 1 as [ | c w v O S IH | s w v N S IH | s w v N S IH]; intros w' v' r r' S' P P' E; cbn [app] in E.
  - subst r. destruct S' as [ | c w' v' O S' | | ]; [auto | | | ]; cbn [app] in P; apply stops_facts in P; try discriminate P.
    destruct (ordinary_facts c O) as (_ & _ & _ & X). congruence.
  - destruct (ordinary_facts c O) as (_ & X1 & X2 & X3).
    destruct S' as [ | c' w' v' O' S' | | ]; cbn [app] in E; try (exfalso; congruence).
    + subst r'. apply stops_facts in P'. congruence.
    + injection E as <- E. destruct (IH w' v' r r' S' P P' E) as (-> & -> & ->). auto.
  - rewrite <- app_assoc in E. cbn [app] in E.
    destruct S' as [ | c' w' v' O' S' | s' w' v' N' S' | ]; cbn [app] in E; try discriminate E.
    + subst r'. apply stops_facts in P'. discriminate P'.
    + injection E as E _. destruct (ordinary_facts _ O') as (_ & X & _). congruence.
    + injection E as E. rewrite <- app_assoc in E. cbn [app] in E.
      destruct (until_unique squote s s' _ _ N N' E) as [-> E'].
      destruct (IH w' v' r r' S' P P' E') as (-> & -> & ->). auto.
  - rewrite <- app_assoc in E. cbn [app] in E.
    destruct S' as [ | c' w' v' O' S' | | s' w' v' N' S']; cbn [app] in E; try discriminate E.
    + subst r'. apply stops_facts in P'. discriminate P'.
    + injection E as E _. destruct (ordinary_facts _ O') as (_ & _ & X & _). congruence.
    + injection E as E. rewrite <- app_assoc in E. cbn [app] in E.
      destruct (until_unique dquote s s' _ _ (no_dquote s N) (no_dquote s' N') E) as [-> E'].
      destruct (IH w' v' r r' S' P P' E') as (-> & -> & ->). auto.
Qed.

Theorem c55_one_reading : forall t vs vs', command t vs -> command t vs' -> vs = vs'.
Proof.
  intros t vs vs' C. revert vs'. induction C as [w v N S | w v t vs N S C IH]; intros vs' C'.
  - inversion C' as [w' v' N' S' | w' v' t' vs'' N' S' C'' E]; subst.
    + destruct (sf_unique w v S w v' [] [] S') as (_ & -> & _); auto; left; reflexivity.
    + destruct (sf_unique w' v' S' (w' ++ " " :: t') v (" " :: t') [] S) as (_ & _ & X);
        [right; eexists; reflexivity | left; reflexivity | now rewrite app_nil_r | discriminate].
  - inversion C' as [w' v' N' S' E | w' v' t' vs'' N' S' C'' E]; subst.
    + destruct (sf_unique w v S (w ++ " " :: t) v' (" " :: t) [] S') as (_ & _ & X);
        [right; eexists; reflexivity | left; reflexivity | now rewrite app_nil_r | discriminate].
    + destruct (sf_unique w' v' S' w v (" " :: t') (" " :: t) S) as (_ & -> & X);
        [right; eexists; reflexivity | right; eexists; reflexivity | assumption | ].
      injection X as ->. f_equal. auto.
Qed.

(** * Commands built from words *)
Lemma command_join : forall ws vs, ws <> [] -> Forall (fun w => w <> []) ws -> Forall2 stands_for ws vs -> command (join_blank ws) vs.
Proof.
  intros ws vs N F F2. revert N F. induction F2 as [ | w v ws vs S F2 IH]; intros N F; [now destruct N | ].
  inversion F; subst. destruct ws as [ | x ws].
  - inversion F2; subst. apply command_last; assumption.
  - apply command_more; [assumption | assumption | apply IH; [discriminate | assumption]].
Qed.

Lemma join_app : forall a b, a <> [] -> b <> [] -> join_blank (a ++ b) = join_blank a ++ " " :: join_blank b.
Proof.
  induction a as [ | x a IH]; intros b N M; [congruence | ]. destruct a as [ | y a].
  - destruct b; [congruence | reflexivity].
  - change (x ++ " " :: join_blank ((y :: a) ++ b) = (x ++ " " :: join_blank (y :: a)) ++ " " :: join_blank b).
    rewrite IH by (try assumption; discriminate). now rewrite <- app_assoc.
Qed.
Lemma join_nested : forall a m b, m <> [] -> join_blank (a ++ join_blank m :: b) = join_blank (a ++ m ++ b).
Proof.
  intros a m b M.
  assert (E : join_blank (join_blank m :: b) = join_blank (m ++ b)).
  { destruct b as [ | y b]; [now rewrite app_nil_r | ]. rewrite (join_app m (y :: b)) by (assumption || discriminate). reflexivity. }
  destruct a as [ | x a]; [exact E | ].
  rewrite (join_app (x :: a) (join_blank m :: b)), (join_app (x :: a) (m ++ b)) by (discriminate || (destruct m; [congruence | discriminate])).
  now rewrite E.
Qed.

Lemma strip_ends : forall t, hd "a" t <> " " -> isspace (hd "a" t) = false -> isspace (last t "a") = false -> strip t = t.
Proof.
  intros t _ H1 H2. unfold strip. destruct t as [ | c r]; [reflexivity | ].
  assert (E : drop_ws (c :: r) = c :: r) by (cbn [drop_ws]; cbn [hd] in H1; now rewrite H1).
  rewrite E. destruct (rev (c :: r)) as [ | d u] eqn:R.
  - apply (f_equal (@rev ascii)) in R. rewrite rev_involutive in R. discriminate.
  - assert (L : last (c :: r) "a" = d).
    { apply (f_equal (@rev ascii)) in R. rewrite rev_involutive in R. rewrite R. cbn [rev]. apply last_last. }
    rewrite L in H2. cbn [drop_ws]. rewrite H2. rewrite <- R. apply rev_involutive.
Qed.
Lemma last_app_ne : forall (a b : text) d, b <> [] -> last (a ++ b) d = last b d.
Proof.
  induction a as [ | x a IH]; intros b d N; [reflexivity | ]. cbn [app]. destruct (a ++ b) eqn:E.
  - destruct a; [cbn in E; congruence | discriminate].
  - rewrite <- E. rewrite <- (IH b d N). rewrite E. reflexivity.
Qed.
Lemma last_join : forall ws (w : text), w <> [] -> last (join_blank (ws ++ [w])) "a" = last w "a".
Proof.
  intros [ | x ws] w N; [reflexivity | ]. rewrite join_app by discriminate.
  rewrite last_app_ne by discriminate. cbn [join_blank]. destruct w; [congruence | reflexivity].
Qed.
Lemma ordinary_last : forall t, ordinary_text t -> isspace (last t "a") = false.
Proof.
  intros t F. destruct t as [ | c r]; [reflexivity | ].
  destruct (exists_last (l := c :: r)) as (u & x & E); [discriminate | ]. rewrite E in *. rewrite last_last.
  apply Forall_app in F. destruct F as [_ F]. inversion F; subst. now apply ordinary_facts.
Qed.

Lemma ordinary_digit : forall d, Dec.is_digit d -> ordinary (Dec.digit d).
Proof.
  intros d D. apply ordinaryb_iff. unfold Dec.is_digit in D.
  assert (d = 0 \/ d = 1 \/ d = 2 \/ d = 3 \/ d = 4 \/ d = 5 \/ d = 6 \/ d = 7 \/ d = 8 \/ d = 9)%Z as H by lia.
  repeat destruct H as [-> | H]; try reflexivity. subst. reflexivity.
Qed.
Lemma ordinary_number : forall n, ordinary_text (str_of_nat n) /\ str_of_nat n <> [].
Proof.
  intros n. unfold str_of_nat, dec. destruct (Z.ltb_spec (Z.of_nat n) 0); [lia | ].
  destruct (Dec.digits_spec (n := Z.of_nat n)) as (F & _ & N & _); [lia | ]. revert F N. generalize (digits (Z.of_nat n)).
  intros l F N. split; [ | destruct l; [congruence | discriminate]].
  clear N. induction F; [constructor | ]. constructor; [now apply ordinary_digit | assumption].
Qed.

Ltac ord := apply ordinaryb_iff; reflexivity.
Lemma ordinary_login : forall u a, ordinary_text u -> ordinary_text a -> ordinary_text (u ++ "@" :: a).
Proof. intros. apply Forall_app. split; [assumption | ]. constructor; [ord | assumption]. Qed.

Lemma quotes_sf : forall l, Forall (fun w => w <> []) (map quote l) /\ Forall2 stands_for (map quote l) l.
Proof. induction l as [ | x l [IH1 IH2]]; split; try constructor; try assumption; apply c55_quote. Qed.

Lemma sf_txt : forall s, forallb ordinaryb (txt s) = true -> stands_for (txt s) (txt s).
Proof. intros s F. apply sf_ordinary. apply Forall_forall. rewrite forallb_forall in F. intros. apply ordinaryb_iff. auto. Qed.
Lemma ordinary_sf_list : forall l, Forall ordinary_text l -> Forall2 stands_for l l.
Proof. induction 1; constructor; [now apply sf_ordinary | assumption]. Qed.
Lemma scp_words : forall l, join_blank (txt "scp -Cpqr" :: l) = join_blank (txt "scp" :: txt "-Cpqr" :: l).
Proof. intros l. apply (join_nested [] [txt "scp"; txt "-Cpqr"] l). discriminate. Qed.

Definition port_option (p : option nat) : list text :=
  match p with Some p => [txt "-P"; txt (dec (Z.of_nat p))] | None => [] end.

Lemma options_ok : forall i p, ordinary_text i -> i <> [] ->
  Forall ordinary_text ([txt "scp"; txt "-Cpqr"; txt "-i"; i] ++ port_option p) /\
  Forall (fun w => w <> []) ([txt "scp"; txt "-Cpqr"; txt "-i"; i] ++ port_option p).
Proof.
  intros i p I N. destruct (ordinary_number (match p with Some n => n | None => 0 end)) as [O M]. unfold str_of_nat in *.
  assert (T : forall s, forallb ordinaryb (txt s) = true -> ordinary_text (txt s)).
  { intros s F. apply Forall_forall. rewrite forallb_forall in F. intros. apply ordinaryb_iff. auto. }
  split; apply Forall_app; split; try (destruct p); cbn [port_option];
    repeat match goal with |- Forall _ (_ :: _) => apply Forall_cons | |- Forall _ [] => apply Forall_nil end; try assumption; try discriminate; try (apply T; reflexivity).
Qed.

(** upload runs scp with exactly the given files and the given target, whatever the names of the files.  Missing: a target
    directory, key file or user whose name has other characters than the ordinary ones. *)
Theorem c55_upload_partial : forall u i a n p sources dest,
  ordinary_text u -> ordinary_text i -> i <> [] -> ordinary_text a -> ordinary_text dest -> hd " " dest = "/" ->
  sources <> [] ->
  exists line, upload (mkhost u i a n p) sources dest = Some line /\
    command line ([txt "scp"; txt "-Cpqr"; txt "-i"; i] ++ port_option p ++ sources ++ [u ++ "@" :: a ++ ":" :: dest]).
Proof.
  intros u i a n p sources dest U I NI A D AD NS.
  destruct (options_ok i p I NI) as [O1 O2]. destruct (quotes_sf sources) as [Q1 Q2].
  set (target := u ++ "@" :: a ++ ":" :: dest).
  assert (OT : ordinary_text target).
  { apply Forall_app. split; [assumption | ]. constructor; [ord | ]. apply Forall_app. split; [assumption | ].
    constructor; [ord | assumption]. }
  assert (NT : target <> []) by (intros X; apply app_eq_nil in X; destruct X; discriminate).
  set (ws := [txt "scp"; txt "-Cpqr"; txt "-i"; i] ++ port_option p ++ map quote sources ++ [target]).
  assert (L : upload_command (mkhost u i a n p) sources dest = join_blank ws).
  { unfold upload_command. cbn [identity user addr port]. fold target. change (txt (dec (Z.of_nat ?n))) with (str_of_nat n).
    destruct i as [ | ic ir]; [congruence | ]. set (i := ic :: ir) in *. unfold quote_files.
    change ([txt "scp -Cpqr"] ++ ?x) with (txt "scp -Cpqr" :: x). rewrite scp_words.
    change (join_blank (([txt "scp"; txt "-Cpqr"; txt "-i"; i] ++ port_option p ++ [join_blank (map quote sources); target])) = join_blank ws).
    unfold ws. rewrite !app_assoc. change [join_blank (map quote sources); target] with (join_blank (map quote sources) :: [target]).
    rewrite join_nested; [now rewrite !app_assoc | ]. destruct sources; [congruence | discriminate]. }
  assert (SL : strip (join_blank ws) = join_blank ws).
  { apply strip_ends; [discriminate | reflexivity | ]. unfold ws. rewrite !app_assoc. rewrite last_join by assumption.
    now apply ordinary_last. }
  exists (join_blank ws). split.
  - unfold upload. destruct dest as [ | d0 dest']; [discriminate AD | ]. cbn [hd] in AD. subst d0. cbn [absolute negb Ascii.eqb Bool.eqb].
    destruct sources as [ | s0 sources']; [congruence | ]. unfold bash_line. rewrite L, SL. reflexivity.
  - apply command_join.
    + discriminate.
    + unfold ws. rewrite app_assoc. apply Forall_app. split; [assumption | ]. apply Forall_app. split; [assumption | ]. repeat constructor; assumption.
    + unfold ws. rewrite app_assoc, (app_assoc _ (port_option p) (sources ++ _)). apply Forall2_app; [now apply ordinary_sf_list | ].
      apply Forall2_app; [assumption | ]. repeat constructor. now apply sf_ordinary.
Qed.

(** download runs scp with exactly the given remote files and, as target, the directory named after the host.  Missing: as
    above; and the port. *)
Theorem c55_download_partial : forall u i a n p sources dest,
  ordinary_text u -> ordinary_text i -> i <> [] -> ordinary_text a -> ordinary_text dest -> dest <> [] -> dest <> ["/"] -> ordinary_text n ->
  sources <> [] -> Forall (fun s => hd " " s = "/") sources ->
  exists line, download (mkhost u i a n p) sources dest = Some line /\
    command line ([txt "scp"; txt "-Cpqr"; txt "-i"; i] ++ map (fun s => u ++ "@" :: a ++ ":" :: s) sources ++ [dest ++ "/" :: n]).
Proof.
  intros u i a n p sources dest U I NI A D ND DR ON NS AS.
  destruct (options_ok i None I NI) as [O1 O2]. cbn [port_option] in *. rewrite app_nil_r in O1, O2.
  set (target := dest ++ "/" :: n).
  assert (OT : ordinary_text target).
  { apply Forall_app. split; [assumption | ]. constructor; [ord | assumption]. }
  assert (NT : target <> []) by (intros X; apply app_eq_nil in X; destruct X; discriminate).
  set (login := u ++ "@" :: a ++ [":"]).
  assert (OL : ordinary_text login).
  { apply Forall_app. split; [assumption | ]. constructor; [ord | ]. apply Forall_app. split; [assumption | ]. constructor; [ord | constructor]. }
  assert (EL : forall s, u ++ "@" :: a ++ ":" :: s = login ++ s).
  { intros s. unfold login. rewrite <- app_assoc. cbn [app]. now rewrite <- app_assoc. }
  set (ws := [txt "scp"; txt "-Cpqr"; txt "-i"; i] ++ map (fun s => login ++ quote s) sources ++ [target]).
  assert (L : download_command (mkhost u i a n p) sources dest = join_blank ws).
  { unfold download_command. cbn [identity user addr name].
    assert (path_join dest n = target) as ->.
    { unfold path_join. destruct dest as [ | x [ | y d]]; [congruence | | ].
      - destruct (Ascii.eqb_spec x "/"); [subst; congruence | ].
        destruct x as [[] [] [] [] [] [] [] []]; try reflexivity; congruence.
      - destruct x as [[] [] [] [] [] [] [] []]; reflexivity. }
    destruct i as [ | ic ir]; [congruence | ]. set (i := ic :: ir) in *.
    change ([txt "scp -Cpqr"] ++ ?x) with (txt "scp -Cpqr" :: x). rewrite scp_words.
    unfold ws. cbn [app]. do 4 f_equal. f_equal. f_equal. apply map_ext. intros s. rewrite EL. reflexivity. }
  assert (SL : strip (join_blank ws) = join_blank ws).
  { apply strip_ends; [discriminate | reflexivity | ]. unfold ws. rewrite !app_assoc. rewrite last_join by assumption.
    now apply ordinary_last. }
  exists (join_blank ws). split.
  - unfold download. destruct sources as [ | s0 sources'] eqn:E; [congruence | ]. rewrite <- E in *.
    assert (forallb absolute sources = true) as ->.
    { clear - AS. induction AS as [ | s l H AS IH]; [reflexivity | ]. cbn [forallb]. rewrite IH.
      destruct s as [ | c r]; [discriminate H | ]. cbn [hd] in H. subst. reflexivity. }
    unfold bash_line. rewrite L, SL. reflexivity.
  - apply command_join.
    + discriminate.
    + apply Forall_app. split; [assumption | ]. apply Forall_app. split; [ | repeat constructor; assumption].
      apply Forall_forall. intros x X. apply in_map_iff in X. destruct X as (s & <- & _). intros Y. apply app_eq_nil in Y.
      now apply (c55_quote s).
    + apply Forall2_app; [now apply ordinary_sf_list | ]. apply Forall2_app; [ | repeat constructor; now apply sf_ordinary].
      clear - OL EL. induction sources as [ | s l IH]; constructor; [ | assumption].
      rewrite EL. apply sf_app; [now apply sf_ordinary | apply c55_quote].
Qed.

(** * scp *)
(** scp takes an argument for one thing only. *)
Theorem c55_scp_one_reading : forall t p q, scp_reads t p -> scp_reads t q -> p = q.
Proof.
  assert (G : forall login file u f, ~ In ":" login -> ~ In "/" login -> ~ In ":" u -> login ++ ":" :: file = u ++ "/" :: f -> False).
  { intros login. induction login as [ | x l IH]; intros file u f A B C E; destruct u as [ | y u]; cbn in E.
    - discriminate.
    - injection E as <- _. apply C. left. reflexivity.
    - injection E as -> _. apply B. left. reflexivity.
    - injection E as <- E. apply (IH file u f); auto; intros X; [apply A | apply B | apply C]; right; assumption. }
  intros t p q H1 H2. destruct H1 as [l f N A B | u f A | f A]; inversion H2 as [l' f' N' A' B' E | u' f' A' E | f' A' E]; subst.
  - destruct (until_unique ":" l' l f' f) as [-> ->]; auto.
  - exfalso. exact (G l f u' f' A B A' (eq_sym E)).
  - exfalso. apply A'. apply in_or_app. right. left. reflexivity.
  - exfalso. exact (G l' f' u f A' B' A E).
  - reflexivity.
  - reflexivity.
  - exfalso. apply A. apply in_or_app. right. left. reflexivity.
  - congruence.
  - reflexivity.
Qed.

(** scp takes what upload and download pass to it as intended: absolute paths for files here, whatever they contain, and
    the rest for files on the host.  Missing: hosts with an IPv6 address. *)
Theorem c55_scp_partial : forall u a file, ~ In ":" u -> ~ In "/" u -> ~ In ":" a -> ~ In "/" a ->
  scp_reads ("/" :: file) (Here ("/" :: file)) /\
  scp_reads (u ++ "@" :: a ++ ":" :: file) (There (u ++ "@" :: a) file).
Proof.
  intros u a file U1 U2 A1 A2. split.
  - apply (sr_here []). intros [].
  - assert (E : u ++ "@" :: a ++ ":" :: file = (u ++ "@" :: a) ++ ":" :: file) by now rewrite <- app_assoc.
    rewrite E. apply sr_there.
    + intros X. apply app_eq_nil in X. destruct X; discriminate.
    + rewrite in_app_iff. intros [X | [X | X]]; [auto | discriminate | auto].
    + rewrite in_app_iff. intros [X | [X | X]]; [auto | discriminate | auto].
Qed.

(** * A case *)
Definition sample : host := mkhost (txt "jao") (txt "/home/jao/id") (txt "10.0.0.7") (txt "h1") (Some 2222).
Example c55_upload_case : upload sample [txt "/a b"; txt "/c$d"] (txt "/tmp") =
  Some (txt "scp -Cpqr -i /home/jao/id -P 2222 '/a b' '/c$d' jao@10.0.0.7:/tmp").
Proof. vm_compute. reflexivity. Qed.
Example c55_download_case : download sample [txt "/a b"; txt "/c"] (txt "/tmp") =
  Some (txt "scp -Cpqr -i /home/jao/id jao@10.0.0.7:'/a b' jao@10.0.0.7:/c /tmp/h1").
Proof. vm_compute. reflexivity. Qed.
Example c55_case_hypotheses :
  ordinary_text (user sample) /\ ordinary_text (identity sample) /\ ordinary_text (addr sample) /\ ordinary_text (name sample).
Proof. repeat split; repeat (constructor; [ord | ]); constructor. Qed.

(** * What fails *)

(** The target directory is not quoted: a blank in it makes two arguments of it. *)
Theorem c55_refuted_directory : exists line,
  upload sample [txt "/a"] (txt "/my files") = Some line /\
  command line (map txt ["scp"; "-Cpqr"; "-i"; "/home/jao/id"; "-P"; "2222"; "/a"; "jao@10.0.0.7:/my"; "files"]%string) /\
  ~ command line (map txt ["scp"; "-Cpqr"; "-i"; "/home/jao/id"; "-P"; "2222"; "/a"; "jao@10.0.0.7:/my files"]%string).
Proof.
  exists (txt "scp -Cpqr -i /home/jao/id -P 2222 /a jao@10.0.0.7:/my files").
  assert (C : command (txt "scp -Cpqr -i /home/jao/id -P 2222 /a jao@10.0.0.7:/my files")
     (map txt ["scp"; "-Cpqr"; "-i"; "/home/jao/id"; "-P"; "2222"; "/a"; "jao@10.0.0.7:/my"; "files"]%string)).
  { apply (command_join (map txt ["scp"; "-Cpqr"; "-i"; "/home/jao/id"; "-P"; "2222"; "/a"; "jao@10.0.0.7:/my"; "files"]%string)).
    - discriminate.
    - repeat constructor; discriminate.
    - cbn [map]. repeat (constructor; [apply sf_txt; reflexivity | ]). constructor. }
  split; [vm_compute; reflexivity | ]. split; [exact C | ].
  intros C'. pose proof (c55_one_reading _ _ _ C C') as X. discriminate X.
Qed.

(** The same in download: the files go to a directory that was not named. *)
Theorem c55_refuted_download_directory : exists line,
  download sample [txt "/a"] (txt "/my files") = Some line /\
  command line (map txt ["scp"; "-Cpqr"; "-i"; "/home/jao/id"; "jao@10.0.0.7:/a"; "/my"; "files/h1"]%string).
Proof.
  exists (txt "scp -Cpqr -i /home/jao/id jao@10.0.0.7:/a /my files/h1"). split; [vm_compute; reflexivity | ].
  apply (command_join (map txt ["scp"; "-Cpqr"; "-i"; "/home/jao/id"; "jao@10.0.0.7:/a"; "/my"; "files/h1"]%string)).
  - discriminate.
  - repeat constructor; discriminate.
  - cbn [map]. repeat (constructor; [apply sf_txt; reflexivity | ]). constructor.
Qed.

(** download ignores the port of the host. *)
Theorem c55_refuted_port : forall u i a n p p' sources dest,
  download (mkhost u i a n p) sources dest = download (mkhost u i a n p') sources dest.
Proof. reflexivity. Qed.

(** An IPv6 address is cut at its first colon. *)
Theorem c55_refuted_ipv6 : scp_reads (txt "u@fe80::1:/tmp") (There (txt "u@fe80") (txt ":1:/tmp")) /\
  ~ scp_reads (txt "u@fe80::1:/tmp") (There (txt "u@fe80::1") (txt "/tmp")).
Proof.
  assert (S : scp_reads (txt "u@fe80::1:/tmp") (There (txt "u@fe80") (txt ":1:/tmp"))).
  { apply (sr_there (txt "u@fe80")); [discriminate | | ]; cbn; intuition discriminate. }
  split; [exact S | ]. intros S'. pose proof (c55_scp_one_reading _ _ _ S S') as X. discriminate X.
Qed.
Example c55_ipv6_case : upload (mkhost (txt "u") (txt "k") (txt "fe80::1") (txt "h") None) [txt "/a"] (txt "/tmp") =
  Some (txt "scp -Cpqr -i k /a u@fe80::1:/tmp").
Proof. vm_compute. reflexivity. Qed.
