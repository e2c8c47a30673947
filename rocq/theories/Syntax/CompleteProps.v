(* C50: completing a filename gives a word that designates the file. *)
From Coq Require Import Ascii String List Bool Arith Lia Permutation Sorted.
From Verif.Syntax Require Import Lexer LexerFacts Complete CompleteSpec.
From Verif.Sys Require Import Glob GlobSpec GlobFacts GlobProps GlobRefuted.
Import ListNotations.
Local Open Scope char_scope.
Local Open Scope list_scope.

(* ---- reading words ---- *)
Lemma typed_app : forall sh a u b v, typed sh a u -> typed sh b v -> typed sh (a ++ b) (u ++ v).
Proof. intros sh a u b v T. revert b v. induction T; intros b u' T2; cbn [app]; [auto|constructor; auto|constructor; auto]. Qed.
Lemma typed_unesc : forall sh w v, typed sh w v -> unesc w = v.
Proof.
  induction 1 as [|c w v T IH|c w v S K Q B T IH]; auto.
  - cbn [unesc]. change (bslash =? bslash) with true. cbv iota. now rewrite IH.
  - cbn [unesc]. apply Ascii.eqb_neq in B. now rewrite B, IH.
Qed.
Lemma typed_literal : forall sh w v, typed sh w v -> w <> [] -> literal w = Ok (v, false).
Proof.
  intros sh w v T N. assert (U : forall w v, typed sh w v -> unescape w = Ok v).
  { induction 1 as [|c w' v' T' IH|c w' v' S K Q B T' IH]; auto.
    - cbn [unescape]. change (bslash =? bslash) with true. cbv iota. now rewrite IH.
    - cbn [unescape]. apply Ascii.eqb_neq in B. now rewrite B, IH. }
  apply U in T as E. unfold literal. destruct T as [|c w v T|c w v S K Q B T]; [congruence| |].
  - change (is_quote bslash) with false. now rewrite E.
  - now rewrite Q, E.
Qed.
Lemma typed_scan : forall sh w v, typed sh w v -> forall rest, scan_string (terminator sh) None (w ++ " " :: rest) = Ok (w, " " :: rest).
Proof.
  induction 1 as [|c w v T IH|c w v S K Q B T IH]; intros rest; cbn [app scan_string].
  - reflexivity.
  - change (isspace bslash) with false. replace (terminator sh bslash) with false by (destruct sh; reflexivity).
    change (is_quote bslash) with false. change (bslash =? bslash) with true. cbv iota. cbn [orb]. now rewrite IH.
  - rewrite S, K, Q. apply Ascii.eqb_neq in B. rewrite B. cbn [orb]. now rewrite IH.
Qed.

Lemma one_word : forall sh c w chars v rest,
  isspace c = false -> marcel_term c = false -> c <> "@" -> c <> "!" ->
  scan_string (terminator sh) None (c :: w ++ " " :: rest) = Ok (chars, " " :: rest) ->
  literal chars = Ok v ->
  next_token sh (c :: w ++ " " :: rest) = Ok (Some (mktok (KString chars) (c :: w), skip_ws rest)).
Proof.
  intros sh c w chars v rest SP M A BG E L.
  assert (NE : forall a t, marcel_term a = true -> starts (a :: t) (c :: w ++ " " :: rest) = false).
  { intros a t MA. cbn. destruct (a =? c) eqn:Q; auto. apply Ascii.eqb_eq in Q; subst. congruence. }
  assert (R : raw_token sh (c :: w ++ " " :: rest) = Ok (Some (mktok (KString chars) (c :: w), " " :: rest))).
  { unfold raw_token.
    assert (X1 : starts ["@"] (c :: w ++ " " :: rest) = false) by (rewrite starts_one; apply Ascii.eqb_neq; congruence).
    assert (X2 : starts ["!"] (c :: w ++ " " :: rest) = false) by (rewrite starts_one; apply Ascii.eqb_neq; congruence).
    rewrite X1, X2, !andb_false_r. rewrite !NE by reflexivity. rewrite ?andb_false_r. unfold terminator in E. rewrite E, L.
    change (c :: w ++ " " :: rest) with ((c :: w) ++ " " :: rest). now rewrite taken_app. }
  unfold next_token, unconsolidated. cbn [skip_ws]. rewrite SP, R. change (negb (isspace " ")) with false. cbn [andb]. rewrite gather_false. reflexivity.
Qed.

Lemma typed_stands : forall sh w v, typed sh w v -> w <> [] -> starts_word w -> stands_for sh w v.
Proof.
  intros sh w v T N S. exists w. split; [eapply typed_literal; eauto|]. intros rest. destruct w as [|c w]; [congruence|].
  destruct S as (A & B & C & D & E). cbn [app]. eapply one_word; eauto.
  - exact (typed_scan sh (c :: w) v T rest).
  - eapply typed_literal; eauto.
Qed.

(* ---- escaping ---- *)
Lemma needs_not_term : forall c, needs_escape c = false -> is_quote c = false /\ c <> bslash.
Proof.
  intros c N. unfold needs_escape in N. apply orb_false_iff in N as (_ & N). split.
  - unfold is_quote. cbn in N. apply orb_false_iff. rewrite !orb_false_iff in N. tauto.
  - intros ->. cbn in N. discriminate.
Qed.
Lemma escape_typed : forall sh t, no_separator sh t -> typed sh (escape t) t.
Proof.
  induction 1 as [|c t S F IH]; cbn [escape]; [constructor|]. destruct (needs_escape c) eqn:N; [now constructor|].
  destruct (needs_not_term c) as (Q & B); auto.
  unfold separator in S. constructor; auto.
  - destruct (isspace c); auto. exfalso. apply S. auto.
  - destruct (terminator sh c); auto. exfalso. apply S. auto.
Qed.

(* the last character typed, if it is to be escaped *)
Lemma typed_snoc : forall sh w0 v, typed sh w0 v -> forall w c, w0 = w ++ [c] -> last w " " <> bslash ->
  c <> bslash /\ exists v', v = v' ++ [c] /\ typed sh w v'.
Proof.
  intros sh w0 v T. induction T as [|d w0 v T IH|d w0 v S K Q B T IH]; intros w c E L.
  - destruct w; discriminate.
  - destruct w as [|x [|y w]]; cbn [app] in E.
    + injection E as E1 E2. discriminate.
    + injection E as E1 E2 E3. subst x. exfalso. now apply L.
    + injection E as E1 E2 E3. subst x y. destruct (IH w c E3) as (N & v' & -> & T').
      { destruct w; [cbn; discriminate|]. exact L. }
      split; auto. exists (d :: v'). split; auto. now constructor.
  - destruct w as [|x w]; cbn [app] in E; injection E as E1 E2.
    + subst w0 d. inversion T; subst. split; auto. exists []. split; [reflexivity|constructor].
    + subst x. destruct (IH w c E2) as (N & v' & -> & T').
      { destruct w; [cbn; discriminate|]. exact L. }
      split; auto. exists (d :: v'). split; auto. now constructor.
Qed.

(* ---- the handler ---- *)
Lemma rsplit_some : forall t a b, rsplit t = Some (a, b) -> t = a ++ SLASH :: b /\ ~ In SLASH b.
Proof.
  induction t as [|c t IH]; intros a b E; cbn [rsplit] in E; [discriminate|]. destruct (rsplit t) as [(x, y)|] eqn:R.
  - injection E as <- <-. destruct (IH x y eq_refl) as (-> & H). auto.
  - destruct (Ascii.eqb_spec c SLASH) as [->|N]; [|discriminate]. injection E as <- <-. split; auto.
    clear -R. induction t as [|d t IH]; [intros []|]. cbn [rsplit] in R. destruct (rsplit t) as [(?, ?)|]; [discriminate|].
    destruct (Ascii.eqb_spec d SLASH) as [->|N]; [discriminate|]. intros [H|H]; [congruence|]. now apply IH.
Qed.
Lemma rsplit_none : forall t, rsplit t = None -> ~ In SLASH t.
Proof.
  induction t as [|c t IH]; intros R; [intros []|]. cbn [rsplit] in R. destruct (rsplit t) as [(?, ?)|]; [discriminate|].
  destruct (Ascii.eqb_spec c SLASH) as [->|N]; [discriminate|]. intros [H|H]; [congruence|]. now apply IH.
Qed.
(* a slash always separates, escaped or not *)
Lemma unesc_slash : forall a b, unesc (a ++ SLASH :: b) = unesc a ++ SLASH :: unesc b.
Proof.
  assert (X : forall n a b, length a <= n -> unesc (a ++ SLASH :: b) = unesc a ++ SLASH :: unesc b).
  { induction n as [|n IH]; intros a b L.
    - destruct a; [reflexivity|cbn in L; lia].
    - destruct a as [|c a]; [reflexivity|]. cbn in L. cbn [app unesc]. destruct (c =? bslash).
      + destruct a as [|d a]; [reflexivity|]. cbn [app]. rewrite IH; [reflexivity|cbn in L; lia].
      + rewrite IH by lia. reflexivity. }
  intros a b. eapply X. apply le_n.
Qed.

Lemma rsplit_app : forall a b, ~ In SLASH b -> rsplit (a ++ SLASH :: b) = Some (a, b).
Proof.
  assert (Z : forall b, ~ In SLASH b -> rsplit b = None).
  { induction b as [|c b IH]; intros N; auto. cbn [rsplit]. rewrite IH by (intros H; apply N; now right).
    destruct (Ascii.eqb_spec c SLASH) as [->|D]; [exfalso; apply N; now left|reflexivity]. }
  induction a as [|c a IH]; intros b N; cbn [app rsplit].
  - rewrite Z by auto. now rewrite Ascii.eqb_refl.
  - now rewrite IH.
Qed.
Lemma unesc_no_slash : forall t, ~ In SLASH t -> ~ In SLASH (unesc t).
Proof.
  assert (Y : forall n (t : text), length t <= n -> forall x, In x (unesc t) -> In x t).
  { induction n as [|n IH]; intros t L x H; destruct t as [|c t]; auto; cbn in L; [lia|]. cbn [unesc] in H.
    destruct (c =? bslash).
    - destruct t as [|d t]; [destruct H|]. destruct H as [->|H]; [right; now left|]. right. right. apply IH; auto. cbn in L. lia.
    - destruct H as [->|H]; [now left|]. right. apply IH; auto. lia. }
  intros t N H. apply N. eapply Y; eauto.
Qed.

Definition unquoted (w : text) : Prop := match w with c :: _ => is_quote c = false | [] => True end.
Lemma handler_none : forall w, unquoted w -> ~ In SLASH w -> filename_handler w = mkhandler None None w w.
Proof.
  intros w Q N. unfold filename_handler. assert (S : split_leading_quote w = (None, w)). { unfold split_leading_quote. destruct w as [|c w]; auto. cbn in Q. now rewrite Q. }
  rewrite S. destruct (rsplit w) as [(a, b)|] eqn:R; auto. apply rsplit_some in R as (-> & _). exfalso. apply N. apply in_or_app. right. now left.
Qed.
Lemma handler_some : forall a b, unquoted (a ++ SLASH :: b) -> ~ In SLASH b ->
  filename_handler (a ++ SLASH :: b) = mkhandler None (Some (match a with [] => [SLASH] | _ => a end)) b (a ++ SLASH :: b).
Proof.
  intros a b Q N. unfold filename_handler.
  assert (S : split_leading_quote (a ++ SLASH :: b) = (None, a ++ SLASH :: b)).
  { unfold split_leading_quote. destruct a as [|c a]; auto. cbn in *. now rewrite Q. }
  rewrite S, rsplit_app by auto. now destruct a.
Qed.

(* ---- what is offered ---- *)
Lemma last_slash_unique : forall v d1 n1 d2 n2, last_slash v d1 n1 -> last_slash v d2 n2 -> d1 = d2 /\ n1 = n2.
Proof.
  assert (X : forall v d n, last_slash v d n -> match rsplit v with Some (a, b) => d = a ++ [SLASH] /\ n = b | None => d = [] /\ n = v end).
  { intros v d n (E & N & K). destruct K as [->|(a & ->)].
    - cbn in E. subst. destruct (rsplit n) as [(a, b)|] eqn:R; auto. apply rsplit_some in R as (-> & _). exfalso. apply N. apply in_or_app. right. now left.
    - rewrite <- app_assoc in E. cbn in E. subst. now rewrite rsplit_app. }
  intros v d1 n1 d2 n2 A B. apply X in A. apply X in B. destruct (rsplit v) as [(a, b)|]; destruct A, B; subst; auto.
Qed.
Lemma split_slash_some : forall t, split_slash t <> [].
Proof. intros [|x t]; cbn [split_slash]; [discriminate|]. destruct (x =? SLASH); [discriminate|]. destruct (split_slash t); discriminate. Qed.
Lemma split_slash_end : forall t, split_slash (t ++ [SLASH]) = split_slash t ++ [[]].
Proof.
  induction t as [|c t IH]; cbn [app split_slash].
  - now rewrite Ascii.eqb_refl.
  - rewrite IH. destruct (c =? SLASH); [reflexivity|]. pose proof (split_slash_some t). destruct (split_slash t) as [|x l]; [congruence|reflexivity].
Qed.
Lemma path_comps_end : forall t, path_comps (t ++ [SLASH]) = path_comps t.
Proof. intros t. unfold path_comps. rewrite split_slash_end, filter_app. cbn. apply app_nil_r. Qed.
Lemma os_path_end : forall s cwd e t, t <> [] -> os_path s cwd e (t ++ [SLASH]) = os_path s cwd e t.
Proof.
  intros s cwd e t N. unfold os_path. rewrite path_comps_end. destruct t as [|c t]; [congruence|]. reflexivity.
Qed.
Lemma insert_perm : forall x l, Permutation (insert x l) (x :: l).
Proof.
  intros x. induction l as [|y l IH]; cbn [insert]; auto. destruct (text_leb x y); auto. rewrite IH. constructor.
Qed.
Lemma sorted_perm : forall l, Permutation (sorted l) l.
Proof. induction l as [|x l IH]; cbn [sorted]; auto. rewrite insert_perm. now constructor. Qed.
Lemma text_leb_total : forall a b, text_leb a b = false -> text_leb b a = true.
Proof.
  induction a as [|x a IH]; intros [|y b] H; cbn [text_leb] in *; try discriminate; auto. rewrite Ascii.eqb_sym. destruct (x =? y); auto.
  apply Nat.leb_gt in H. apply Nat.leb_le. lia.
Qed.
Lemma insert_sorted : forall x l, Sorted (fun a b => text_leb a b = true) l -> Sorted (fun a b => text_leb a b = true) (insert x l).
Proof.
  intros x. induction 1 as [|y l S IH H]; cbn [insert]; [repeat constructor|]. destruct (text_leb x y) eqn:E.
  - constructor; [constructor; auto|]. now constructor.
  - constructor; auto. destruct H as [|z l H]; cbn [insert]; [constructor; now apply text_leb_total|].
    destruct (text_leb x z); constructor; auto. now apply text_leb_total.
Qed.
Lemma sorted_sorted : forall l, Sorted (fun a b => text_leb a b = true) (sorted l).
Proof. induction l as [|x l IH]; cbn [sorted]; [constructor|]. now apply insert_sorted. Qed.
Lemma starts_exists : forall p t, starts p t = true <-> exists r, t = p ++ r.
Proof.
  induction p as [|a p IH]; intros t; cbn [starts].
  - split; auto. intros _. now exists t.
  - destruct t as [|b t]; [split; [discriminate|intros (r & H); discriminate]|]. split.
    + intros H. apply andb_true_iff in H as (H & K). apply Ascii.eqb_eq in H. apply IH in K as (r & ->). subst. now exists r.
    + intros (r & H). injection H as -> ->. rewrite Ascii.eqb_refl. apply IH. now exists r.
Qed.

(* the directory and the prefix, from the value of the word *)
Lemma handler_dir : forall s cwd sh w v dir prefix, typed sh w v -> unquoted w -> starts [bslash; SLASH] w = false ->
  last_slash v dir prefix ->
  let h := filename_handler w in
  h_quote h = None /\ h_unquoted h = w /\ unesc (h_prefix h) = prefix /\
  candidates s cwd h = match directory s cwd dir with Some d => sorted (filter (starts prefix) (listdir s d)) | None => [] end.
Proof.
  intros s cwd sh w v dir prefix T Q NB L. apply typed_unesc in T. cbv zeta. destruct (rsplit w) as [(a, b)|] eqn:R.
  - apply rsplit_some in R as (-> & N). rewrite unesc_slash in T.
    assert (L' : last_slash v (unesc a ++ [SLASH]) (unesc b)).
    { split; [rewrite <- app_assoc; auto|]. split; [now apply unesc_no_slash|]. right. eauto. }
    destruct (last_slash_unique _ _ _ _ _ L L') as (-> & ->). rewrite handler_some by auto. cbn [h_quote h_unquoted h_prefix].
    repeat split; auto. unfold candidates. cbn [h_quote h_basedir h_prefix]. unfold directory.
    destruct a as [|x a]; [reflexivity|]. destruct (unesc (x :: a)) as [|y u] eqn:U.
    + exfalso. cbn [unesc] in U. destruct (Ascii.eqb_spec x bslash) as [->|NX]; [|discriminate]. destruct a; [|discriminate].
      cbn in NB. discriminate.
    + rewrite os_path_end by discriminate. reflexivity.
  - apply rsplit_none in R. rewrite handler_none by auto. cbn [h_quote h_unquoted h_prefix].
    assert (L' : last_slash v [] (unesc w)). { split; [auto|]. split; [now apply unesc_no_slash|auto]. }
    destruct (last_slash_unique _ _ _ _ _ L L') as (-> & ->). repeat split; auto.
    unfold candidates, directory, os_path. cbn. now rewrite app_nil_r.
Qed.

(* The names offered are those in the directory that start like what was typed, each once, in order. *)
Theorem c50_offered : forall s cwd sh w v dir prefix, typed sh w v -> unquoted w -> starts [bslash; SLASH] w = false ->
  last_slash v dir prefix ->
  let l := candidates s cwd (filename_handler w) in
  (forall name, In name l <-> exists d suffix, directory s cwd dir = Some d /\ In name (listdir s d) /\ name = prefix ++ suffix) /\
  ((forall d, NoDup (listdir s d)) -> NoDup l) /\ Sorted (fun a b => text_leb a b = true) l.
Proof.
  intros s cwd sh w v dir prefix T Q NB L l. destruct (handler_dir s cwd sh w v dir prefix T Q NB L) as (_ & _ & _ & E).
  fold l in E. rewrite E. destruct (directory s cwd dir) as [d|].
  - split; [|split].
    + intros name. split.
      * intros I. apply (Permutation_in _ (sorted_perm _)) in I. apply filter_In in I as (I & S). apply starts_exists in S as (r & ->). eauto.
      * intros (d' & r & D & I & ->). injection D as <-. apply (Permutation_in _ (Permutation_sym (sorted_perm _))). apply filter_In. split; auto.
        apply starts_exists. eauto.
    + intros N. eapply Permutation_NoDup; [apply Permutation_sym, sorted_perm|]. apply NoDup_filter. auto.
    + apply sorted_sorted.
  - split; [|split; constructor]. intros name. split; [intros []|]. intros (d & r & D & _). discriminate.
Qed.
Print Assumptions c50_offered.

(* ---- the word ---- *)
Lemma completed_typed : forall sh w v name prefix, typed sh w v -> unquoted w ->
  unesc (h_prefix (filename_handler w)) = prefix -> h_quote (filename_handler w) = None -> h_unquoted (filename_handler w) = w ->
  no_separator sh (skipn (length prefix) name) ->
  typed sh (completed w w name) (v ++ skipn (length prefix) name) /\
  (completed w w name = w ++ escape (skipn (length prefix) name) \/
   exists w' c, w = w' ++ [c] /\ completed w w name = w' ++ bslash :: c :: escape (skipn (length prefix) name)).
Proof.
  intros sh w v name prefix T Q P HQ HU S. unfold completed, completion_text. rewrite P, HQ, HU.
  assert (D : typed sh (firstn (length w - 0) w ++ escape (skipn (length prefix) name)) (v ++ skipn (length prefix) name) /\
     (firstn (length w - 0) w ++ escape (skipn (length prefix) name) = w ++ escape (skipn (length prefix) name) \/
      exists w' c, w = w' ++ [c] /\ firstn (length w - 0) w ++ escape (skipn (length prefix) name) = w' ++ bslash :: c :: escape (skipn (length prefix) name))).
  { rewrite Nat.sub_0_r, firstn_all. split; auto. apply typed_app; auto. now apply escape_typed. }
  unfold last_char_replacement. destruct (rev w) as [|c r] eqn:R; auto.
  assert (W : w = rev r ++ [c]). { rewrite <- (rev_involutive w), R. reflexivity. }
  destruct (needs_escape c) eqn:NE; auto.
  assert (Y : last (rev r) " " <> bslash -> typed sh (firstn (length w - 1) w ++ [bslash; c] ++ escape (skipn (length prefix) name)) (v ++ skipn (length prefix) name) /\
     (firstn (length w - 1) w ++ [bslash; c] ++ escape (skipn (length prefix) name) = w ++ escape (skipn (length prefix) name) \/
      exists w' c0, w = w' ++ [c0] /\ firstn (length w - 1) w ++ [bslash; c] ++ escape (skipn (length prefix) name) = w' ++ bslash :: c0 :: escape (skipn (length prefix) name))).
  { intros LB. destruct (typed_snoc sh w v T (rev r) c W LB) as (NB & v' & -> & T').
    assert (F : firstn (length w - 1) w = rev r).
    { rewrite W, app_length. cbn [length]. rewrite Nat.add_sub. rewrite firstn_app, Nat.sub_diag. cbn. rewrite app_nil_r. apply firstn_all. }
    rewrite F. split.
    - rewrite <- app_assoc. apply typed_app; auto. cbn [app]. constructor. now apply escape_typed.
    - right. exists (rev r), c. split; auto. }
  destruct r as [|d r]; [apply Y; cbn; discriminate|]. destruct (Ascii.eqb_spec d bslash) as [->|ND]; auto.
  apply Y. cbn [rev]. now rewrite last_last.
Qed.

Lemma completed_word : forall sh w v dir prefix name suffix,
  typed sh w v -> starts_word w -> starts [bslash; SLASH] w = false -> last_slash v dir prefix ->
  name = prefix ++ suffix -> name <> [] -> no_separator sh suffix -> (w = [] -> no_separator false suffix) ->
  typed sh (completed w w name) (dir ++ name) /\ completed w w name <> [] /\ starts_word (completed w w name).
Proof.
  intros sh w v dir prefix name suffix T SW NB L -> NN S S0.
  assert (Q : unquoted w). { destruct w; [exact I|]. now destruct SW as (_ & _ & H & _). }
  destruct (handler_dir (mkfsys (fun _ => false) (fun _ => false) (fun _ => false) (fun _ => []) (fun _ => None)) [] sh w v dir prefix T Q NB L) as (H1 & H2 & H3 & _).
  assert (E : skipn (length prefix) (prefix ++ suffix) = suffix) by (rewrite skipn_app, Nat.sub_diag, skipn_all; reflexivity).
  destruct (completed_typed sh w v (prefix ++ suffix) prefix T Q H3 H1 H2) as (TC & K); [now rewrite E|]. rewrite E in *.
  destruct L as (LV & _). rewrite app_assoc, <- LV.
  assert (first : forall c t, needs_escape c = false -> no_separator false (c :: t) -> starts_word (c :: t)).
  { intros c t NE F. inversion F as [|? ? NS _]; subst. destruct (needs_not_term c NE) as (A & B). cbn. repeat split; auto.
    - destruct (isspace c) eqn:X; auto. exfalso. apply NS. split; auto.
    - destruct (marcel_term c) eqn:X; auto. exfalso. apply NS. split; auto.
    - intros ->. discriminate.
    - intros ->. discriminate. }
  assert (bs : forall t, starts_word (bslash :: t)) by (intros t; cbn; repeat split; auto; discriminate).
  split; auto. split.
  - destruct K as [->|(w' & c & -> & ->)]; [|destruct w'; discriminate]. intros Z. apply app_eq_nil in Z as (-> & Z).
    assert (V : v = []) by (now inversion T). rewrite V in LV. symmetry in LV. apply app_eq_nil in LV as (-> & ->). cbn in NN. destruct suffix as [|x r]; [congruence|]. cbn in Z. destruct (needs_escape x); discriminate.
  - destruct K as [->|(w' & c & -> & ->)].
    + destruct w as [|x w]; [|exact SW]. cbn [app]. specialize (S0 eq_refl). destruct suffix as [|x r]; [exact I|]. cbn [escape].
      destruct (needs_escape x) eqn:NE; [apply bs|]. cbn. apply (first x r) in S0; auto.
    + destruct w' as [|x w']; [apply bs|exact SW].
Qed.
Theorem c50_word_partial : forall sh w v dir prefix name suffix,
  typed sh w v -> starts_word w -> starts [bslash; SLASH] w = false -> last_slash v dir prefix ->
  name = prefix ++ suffix -> name <> [] -> no_separator sh suffix -> (w = [] -> no_separator false suffix) ->
  stands_for sh (completed w w name) (dir ++ name).
Proof.
  intros sh w v dir prefix name suffix T SW NB L E N S S0.
  destruct (completed_word sh w v dir prefix name suffix T SW NB L E N S S0) as (A & B & C). now apply typed_stands.
Qed.
Print Assumptions c50_word_partial.

(* ---- the file ---- *)
Lemma simple_parts : forall q, Forall simple q -> Forall ordinary q /\ Forall (fun c : text => ~ In SLASH c) q /\ Forall (fun c : text => ~ In bslash c) q.
Proof. intros q F. repeat split; eapply Forall_impl; [|exact F| |exact F| |exact F]; intros c (O & B & W); auto. now destruct O as (_ & _ & _ & H). Qed.
Lemma filter_ordinary : forall q, Forall ordinary q -> filter (fun c => negb (text_eqb c [] || text_eqb c DOT)) q = q.
Proof.
  induction 1 as [|c q (A & B & _) F IH]; auto. cbn [filter]. destruct (text_eqb_spec c []); [congruence|]. destruct (text_eqb_spec c DOT); [congruence|].
  cbn [orb negb]. now rewrite IH.
Qed.
Lemma comps_posix : forall c q, Forall simple (c :: q) -> path_comps (posix (c :: q)) = c :: q.
Proof.
  intros c q F. apply simple_parts in F as (O & S & _). unfold path_comps, posix. rewrite split_join by auto. cbn [filter].
  change (negb (text_eqb [] [] || text_eqb [] DOT)) with false. cbv iota. exact (filter_ordinary (c :: q) O).
Qed.
Lemma comps_relative : forall c q, Forall simple (c :: q) -> path_comps (relative (c :: q)) = c :: q.
Proof.
  intros c q F. apply simple_parts in F as (O & S & _). unfold path_comps. rewrite split_relative by auto. now apply filter_ordinary.
Qed.
Lemma join_snoc : forall q n, join_slash (q ++ [n]) = join_slash q ++ SLASH :: n.
Proof. induction q as [|c q IH]; intros n; cbn [app join_slash]. { now rewrite app_nil_r. } rewrite IH, <- app_assoc. reflexivity. Qed.
Lemma relative_snoc : forall c q n, relative (c :: q) ++ SLASH :: n = relative (c :: q ++ [n]).
Proof. intros c q n. unfold relative, posix. cbn [join_slash tl]. rewrite join_snoc. now rewrite <- app_assoc. Qed.
Lemma posix_snoc : forall c q n, posix (c :: q) ++ SLASH :: n = posix (c :: q ++ [n]).
Proof. intros c q n. unfold posix. cbn [join_slash]. rewrite join_snoc. cbn [app]. now rewrite <- app_assoc. Qed.
Lemma starts_slash_relative : forall c q, ordinary c -> starts [SLASH] (relative (c :: q)) = false.
Proof.
  intros c q (N & _ & _ & S). destruct c as [|a c]; [congruence|]. unfold relative, posix. cbn [join_slash tl app starts].
  destruct (Ascii.eqb_spec SLASH a) as [<-|D]; [exfalso; apply S; now left|reflexivity].
Qed.

Lemma norm_end : forall s cwd t, ~ In bslash t -> starts [SLASH; SLASH] (t ++ [SLASH]) = false -> t <> [] ->
  normalized s cwd (FnStr (t ++ [SLASH])) = normalized s cwd (FnStr t).
Proof.
  intros s cwd t B S N. unfold normalized, filename_text, normpath. rewrite unesc_slash, (unesc_plain t) by auto. cbn [unesc].
  assert (I : initial_slashes (t ++ [SLASH]) = initial_slashes t).
  { unfold initial_slashes. rewrite S. destruct t as [|a t]; [congruence|].
    assert (S' : starts [SLASH; SLASH] (a :: t) = false). { destruct t; [apply andb_false_r|exact S]. }
    rewrite S'. reflexivity. }
  rewrite I, split_slash_end.
  pose proof (proj1 (proj2 (c51_dots (initial_slashes t) (split_slash t) [] []))) as Z. rewrite app_nil_r in Z.
  match goal with |- context [norm_comps ?n ?a ?l] => replace (norm_comps n a l) with (norm_comps (initial_slashes t) [] (split_slash t)) by (symmetry; exact Z) end.
  reflexivity.
Qed.

Lemma one_normalized : forall s fuel cwd f f', normalized s cwd f = normalized s cwd f' -> normalize s fuel cwd [f] = normalize s fuel cwd [f'].
Proof. intros s fuel cwd f f' E. unfold normalize. cbn [normalize_paths]. now rewrite E. Qed.

(* a file in a place: how it is written *)
Lemma place_text : forall cwd T D name, place cwd T D -> simple name -> hd_error (T ++ name) <> Some TILDE ->
  exists c p, Forall simple (c :: p) /\
    ((T ++ name = posix (c :: p) /\ D ++ [name] = c :: p) \/
     (T ++ name = relative (c :: p) /\ D ++ [name] = cwd ++ c :: p /\ hd_error c <> Some TILDE)).
Proof.
  intros cwd T D name P SN NT. destruct P as [| |c p F|c p F NC].
  - exists name, []. split; [constructor; auto|]. right. split; [|split; auto]. unfold relative, posix. cbn. now rewrite app_nil_r.
  - exists name, []. split; [constructor; auto|]. left. split; auto. unfold posix. cbn. now rewrite app_nil_r.
  - exists c, (p ++ [name]). split. { inversion F; subst. constructor; auto. apply Forall_app. auto. }
    left. split; auto. rewrite <- app_assoc. apply posix_snoc.
  - exists c, (p ++ [name]). split. { inversion F; subst. constructor; auto. apply Forall_app. auto. }
    right. split; [rewrite <- app_assoc; apply relative_snoc|]. split; auto. now rewrite <- app_assoc.
Qed.
Lemma text_not_double : forall c p t, Forall simple (c :: p) -> t = posix (c :: p) \/ t = relative (c :: p) ->
  starts [SLASH; SLASH] (t ++ [SLASH]) = false /\ ~ In bslash t /\ t <> [].
Proof.
  intros c p t F K. apply simple_parts in F as (O & S & B). inversion O as [|? ? (N & _) _]; subst. inversion S as [|? ? NS _]; subst.
  destruct c as [|a c]; [congruence|]. assert (NA : (SLASH =? a) = false). { apply Ascii.eqb_neq. intros <-. apply NS. now left. }
  pose proof (no_bslash_posix _ B) as NB. unfold relative, posix in *. cbn [join_slash tl app] in *. destruct K as [->| ->]; cbn [app starts].
  - rewrite NA. rewrite andb_false_r. split; auto. split; auto. discriminate.
  - rewrite NA. split; auto. split; [|discriminate]. intros H. apply NB. now right.
Qed.
Lemma place_file : forall s fuel cwd T D name e, place cwd T D -> simple name -> hd_error (T ++ name) <> Some TILDE ->
  Forall (fun c => ~ wild c) cwd -> depth s fuel -> consistent s -> dirs_exist s -> exists_ s (D ++ [name]) = true -> e = [] \/ e = [SLASH] ->
  normalize s fuel cwd [FnStr (T ++ name ++ e)] = Done [D ++ [name]].
Proof.
  intros s fuel cwd T D name e P SN NT WC DE C E X K. destruct (place_text cwd T D name P SN NT) as (c & p & F & Q).
  destruct (c51_itself_partial s fuel cwd c p DE C E F) as (_ & A1 & A2).
  assert (Y : normalize s fuel cwd [FnStr (T ++ name)] = Done [D ++ [name]]).
  { destruct Q as [(Q1 & Q2)|(Q1 & Q2 & Q3)]; rewrite Q1, Q2 in *; [rewrite A1, X|rewrite A2, X]; auto. }
  destruct K as [->| ->]; [now rewrite app_nil_r|]. rewrite <- Y. apply one_normalized. rewrite app_assoc.
  destruct (text_not_double c p (T ++ name) F) as (Z1 & Z2 & Z3); [tauto|]. now apply norm_end.
Qed.

Lemma os_text : forall s cwd c p t, Forall simple (c :: p) ->
  (t = posix (c :: p) -> os_path s cwd true t = Some (c :: p)) /\
  (t = relative (c :: p) -> hd_error c <> Some TILDE -> os_path s cwd true t = Some (cwd ++ c :: p)).
Proof.
  intros s cwd c p t F. split.
  - intros ->. unfold os_path. rewrite comps_posix by auto. reflexivity.
  - intros -> NT. unfold os_path. rewrite comps_relative by auto. inversion F as [|? ? (O & _) _]; subst. rewrite starts_slash_relative by auto.
    destruct c as [|a u]; [now destruct O|]. destruct (Ascii.eqb_spec a TILDE) as [->|]; [now destruct NT|]. reflexivity.
Qed.

(* Completing with a name in the directory that was typed: the word now stands for that file, and as a filename argument
   it designates that file and nothing else. *)
Theorem c50_designates_partial : forall s fuel (cwd : path) sh (T : text) (D : path) (last prefix name suffix : text),
  depth s fuel -> consistent s -> dirs_exist s -> Forall (fun c => ~ wild c) cwd ->
  place cwd T D -> typed sh (T ++ last) (T ++ prefix) -> starts_word (T ++ last) -> ~ In SLASH last ->
  name = prefix ++ suffix -> simple name -> hd_error (T ++ name) <> Some TILDE -> exists_ s (D ++ [name]) = true ->
  no_separator sh suffix -> (T ++ last = [] -> no_separator false suffix) ->
  exists word, completed_line s cwd (T ++ last) (T ++ last) name = word ++ (if is_dir s (D ++ [name]) then [] else [" "]) /\
    exists value, stands_for sh word value /\ normalize s fuel cwd [FnStr value] = Done [D ++ [name]].
Proof.
  intros s fuel cwd sh T D last prefix name suffix DE C E WC P TY SW NS EN SN NT X S S0.
  assert (UQ : unquoted (T ++ last)). { destruct (T ++ last); [exact I|]. now destruct SW as (_ & _ & H & _). }
  assert (NSL : ~ In SLASH prefix). { destruct SN as ((_ & _ & _ & H) & _). intros K. apply H. rewrite EN. apply in_or_app. now left. }
  assert (LS : last_slash (T ++ prefix) T prefix).
  { split; auto. split; auto. destruct P; auto; right; [now exists []|eauto|eauto]. }
  assert (NBS : starts [bslash; SLASH] (T ++ last) = false).
  { destruct P as [| |c p F|c p F NC]; cbn [app].
    - destruct last as [|a [|b l]]; cbn [starts]; try reflexivity; [apply andb_false_r|]. destruct (Ascii.eqb_spec SLASH b) as [<-|]; [exfalso; apply NS; right; now left|].
      cbn [andb]. apply andb_false_r.
    - reflexivity.
    - reflexivity.
    - apply simple_parts in F as (O & _ & B). inversion O as [|? ? (N & _) _]; inversion B as [|? ? NB _]; subst. destruct c as [|a c]; [congruence|].
      unfold relative, posix. cbn [join_slash tl app starts]. destruct (Ascii.eqb_spec bslash a) as [<-|]; [exfalso; apply NB; now left|reflexivity]. }
  assert (NN : name <> []). { now destruct SN as ((H & _) & _). }
  pose proof (c50_word_partial sh (T ++ last) (T ++ prefix) T prefix name suffix TY SW NBS LS EN NN S S0) as W.
  destruct (place_text cwd T D name P SN NT) as (c & p & F & Q).
  assert (EW : ends_with s cwd (filename_handler (T ++ last)) name = if is_dir s (D ++ [name]) then [SLASH] else [" "]).
  { assert (OP : os_path s cwd true (T ++ name) = Some (D ++ [name])).
    { destruct (os_text s cwd c p (T ++ name) F) as (O1 & O2). destruct Q as [(Q1 & Q2)|(Q1 & Q2 & Q3)]; rewrite Q2; auto. }
    unfold ends_with. assert (H : h_quote (filename_handler (T ++ last)) = None /\
       match h_basedir (filename_handler (T ++ last)) with None => name | Some b => if text_eqb b [SLASH] then SLASH :: name else b ++ SLASH :: name end = T ++ name).
    { destruct P as [| |c' p' F'|c' p' F' NC'].
      - cbn [app] in *. rewrite handler_none by auto. auto.
      - change ([SLASH] ++ last) with ([] ++ SLASH :: last) in *. rewrite handler_some by auto. auto.
      - rewrite <- app_assoc in *. cbn [app] in *. rewrite handler_some by auto. split; auto. cbn [h_basedir].
        apply simple_parts in F' as (O & _). inversion O as [|? ? (N & _) _]; subst. destruct c' as [|a c']; [congruence|].
        unfold posix. cbn [join_slash app]. cbn [text_eqb]. destruct (text_eqb_spec (SLASH :: a :: c' ++ join_slash p') [SLASH]); [discriminate|]. now rewrite <- !app_assoc.
      - rewrite <- app_assoc in *. cbn [app] in *. rewrite handler_some by auto. split; auto. cbn [h_basedir].
        apply simple_parts in F' as (O & S' & _). inversion O as [|? ? (N & _) _]; inversion S' as [|? ? NS' _]; subst. destruct c' as [|a c']; [congruence|].
        unfold relative, posix. cbn [join_slash tl app]. destruct (text_eqb_spec (a :: c' ++ join_slash p') [SLASH]) as [Z|Z].
        + injection Z as -> _. exfalso. apply NS'. now left.
        + now rewrite <- !app_assoc. }
    destruct H as (H1 & H2). rewrite H2, OP, H1. reflexivity. }
  unfold completed_line. rewrite EW. destruct (is_dir s (D ++ [name])) eqn:ID.
  - exists (completed (T ++ last) (T ++ last) name ++ [SLASH]). rewrite app_nil_r. split; auto. exists (T ++ name ++ [SLASH]). split; [|apply place_file; auto].
    destruct (completed_word sh (T ++ last) (T ++ prefix) T prefix name suffix TY SW NBS LS EN NN S S0) as (TC & CN' & CN). rewrite app_assoc.
    apply typed_stands.
    + apply typed_app; auto. apply typed_char; try (destruct sh; reflexivity); [discriminate|constructor].
    + destruct (completed (T ++ last) (T ++ last) name); discriminate.
    + destruct (completed (T ++ last) (T ++ last) name); [congruence|exact CN].
  - exists (completed (T ++ last) (T ++ last) name). split; auto. exists (T ++ name). split; auto. pose proof (place_file s fuel cwd T D name [] P SN NT WC DE C E X) as Z.
    rewrite app_nil_r in Z. apply Z. auto.
Qed.
Print Assumptions c50_designates_partial.
