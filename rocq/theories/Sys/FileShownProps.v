(** C67: columns, colors, paths, metadata. *)
From Verif.Sys Require Import FileLineSpec FileLineProps.
Local Open Scope list_scope.

(** ** Columns *)
Lemma ends_blanks n s pos : word_ends pos (repeat blank n ++ s) = word_ends (pos + n) s.
Proof.
  revert pos. induction n as [|n IH]; intros pos; [cbn; f_equal; lia|]. cbn [repeat app]. rewrite <- (Nat.add_succ_comm pos n), <- IH.
  cbn [word_ends]. destruct (repeat blank n ++ s); reflexivity.
Qed.
Lemma ends_word w r pos : is_word w -> word_ends pos (w ++ blank :: r) = (pos + length w) :: word_ends (pos + length w) (blank :: r).
Proof.
  intros [N I]. revert pos N I. induction w as [|a w IH]; intros pos N I; [congruence|].
  assert (A : Ascii.eqb a blank = false) by (apply Ascii.eqb_neq; intros ->; apply I; now left).
  destruct w as [|b w].
  - cbn [app length]. cbn [word_ends]. rewrite A. rewrite Nat.add_1_r. reflexivity.
  - assert (B : Ascii.eqb b blank = false) by (apply Ascii.eqb_neq; intros ->; apply I; right; now left).
    change (word_ends pos ((a :: b :: w) ++ blank :: r)) with
      (if negb (Ascii.eqb a blank) && Ascii.eqb b blank then S pos :: word_ends (S pos) ((b :: w) ++ blank :: r) else word_ends (S pos) ((b :: w) ++ blank :: r)).
    rewrite A, B. cbn [negb andb]. rewrite IH; [|discriminate|intros J; apply I; now right]. cbn [length]. now rewrite !Nat.add_succ_r.
Qed.
Lemma ends_aligned n w r pos : is_word w ->
  word_ends pos (right_aligned n w ++ blank :: r) = (pos + max n (length w)) :: word_ends (pos + max n (length w)) (blank :: r).
Proof.
  intros W. unfold right_aligned. rewrite <- app_assoc, ends_blanks, ends_word by exact W.
  replace (pos + (n - length w) + length w) with (pos + max n (length w)) by lia. reflexivity.
Qed.
Lemma ends_two r pos : word_ends pos (blank :: blank :: r) = word_ends (pos + 2) r.
Proof. exact (ends_blanks 2 r pos). Qed.
Lemma ends_one r pos : word_ends pos (blank :: r) = word_ends (pos + 1) r.
Proof. exact (ends_blanks 1 r pos). Qed.

Definition profile (a b c : nat) (d : list nat) : list nat :=
  let p0 := 10 in let p1 := p0 + 2 + a in let p2 := p1 + 2 + b in let p3 := p2 + 2 + c in
  let q1 := p3 + 2 + nth 0 d 0 in let q2 := q1 + 1 + nth 1 d 0 in let q3 := q2 + 1 + nth 2 d 0 in let q4 := q3 + 1 + nth 3 d 0 in
  [p0; p1; p2; p3; q1; q2; q3; q4].
Lemma columns_front db f s w r : ordinary_names db -> length w = 4 -> (forall x, In x w -> is_word x) ->
  columns (front db f s (join [blank] w) ++ r) =
  profile (max (username_width f) (length (username db (st_uid s)))) (max (username_width f) (length (groupname db (st_gid s))))
    (max (size_width f) (length (decimal (st_size s)))) (map (@length _) w).
Proof.
  intros O L W. pose proof (mode_word (st_mode s)) as (M & _ & LM). pose proof (username_word db (st_uid s) O) as [U _].
  pose proof (groupname_word db (st_gid s) O) as [G _]. pose proof (decimal_word (st_size s)) as [Z _].
  destruct w as [|d1 [|d2 [|d3 [|d4 [|]]]]]; try discriminate L. clear L.
  assert (W1 : is_word d1) by (apply W; cbn; auto). assert (W2 : is_word d2) by (apply W; cbn; auto).
  assert (W3 : is_word d3) by (apply W; cbn; auto). assert (W4 : is_word d4) by (apply W; cbn; auto). clear W.
  unfold columns, front, format_username, format_groupname, format_size. cbn [join]. rewrite <- !app_assoc.
  set (u := username db _) in *. set (g := groupname db _) in *. set (z := decimal _) in *. set (m := mode_string _) in *.
  change (tx "  ") with [blank; blank]. cbn [app].
  rewrite (ends_word m) by exact M. rewrite ends_two, ends_aligned by exact U. rewrite ends_two, ends_aligned by exact G.
  rewrite ends_two, ends_aligned by exact Z. rewrite ends_two, ends_word by exact W1. rewrite ends_one, ends_word by exact W2.
  rewrite ends_one, ends_word by exact W3. rewrite ends_one, ends_word by exact W4. rewrite LM. reflexivity.
Qed.

(** All dates have the same shape *)
Definition uniform (date : N -> text) (d : list nat) : Prop := forall t, exists w, ordinary_date (date t) w /\ map (@length _) w = d.
Lemma columns_line db date d f e : ordinary_names db -> uniform date d ->
  columns (line db date f e) =
  profile (max (username_width f) (length (username db (st_uid (fst e))))) (max (username_width f) (length (groupname db (st_gid (fst e)))))
    (max (size_width f) (length (decimal (st_size (fst e))))) d.
Proof.
  intros O D. unfold line. rewrite render_eq. destruct (D (st_mtime (fst e))) as (w & (L & W & ->) & <-).
  apply columns_front; auto. intros x I. now apply W.
Qed.

(** Names of at most six letters, sizes below a million: all lines are aligned. *)
Theorem c67_aligned_partial : forall db date d l, ordinary_names db -> uniform date d ->
  (forall e, In e l -> length (username db (st_uid (fst e))) <= 6 /\ length (groupname db (st_gid (fst e))) <= 6 /\ length (decimal (st_size (fst e))) <= 6) ->
  aligned (at_once db date default_formatting l) /\ aligned (afterwards db date l).
Proof.
  intros db date d l O D S.
  assert (H : forall l f, username_width f = 6 -> size_width f = 6 ->
    (forall e, In e l -> length (username db (st_uid (fst e))) <= 6 /\ length (groupname db (st_gid (fst e))) <= 6 /\ length (decimal (st_size (fst e))) <= 6) ->
    (forall x, In x (map columns (at_once db date f l)) -> x = profile 6 6 6 d) /\
    let g := fold_left (fun f e => adjust_formatting db (fst e) f) l f in username_width g = 6 /\ size_width g = 6).
  { clear S l. induction l as [|e l IH]; intros f F1 F3 S; cbn [at_once fold_left].
    - cbn. tauto.
    - destruct (S e (or_introl eq_refl)) as (U & G & Z). set (g := adjust_formatting db (fst e) f).
      assert (G1 : username_width g = 6) by (cbn; lia). assert (G3 : size_width g = 6) by (cbn; lia).
      destruct (IH g G1 G3) as [A B]; [intros e' I; apply S; now right|]. split; [|exact B].
      intros x [<-|I]; [|auto]. rewrite (columns_line _ _ _ _ _ O D), G1, G3. f_equal; lia. }
  destruct (H l default_formatting eq_refl eq_refl S) as [A [B1 B3]]. split.
  - intros x y X Y. apply A in X, Y. congruence.
  - assert (C : forall x, In x (map columns (afterwards db date l)) -> x = profile 6 6 6 d).
    { unfold afterwards. intros x I. rewrite map_map in I. apply in_map_iff in I as (e & <- & I). rewrite (columns_line _ _ _ _ _ O D).
      destruct (S e I) as (U & G & Z). unfold widths. cbn zeta in B1, B3. rewrite B1, B3. f_equal; lia. }
    intros x y X Y. apply C in X, Y. congruence.
Qed.

Lemma widths_bound db l f : let g := fold_left (fun f e => adjust_formatting db (fst e) f) l f in
  username_width f <= username_width g /\ size_width f <= size_width g /\
  forall e : entry, In e l -> length (username db (st_uid (fst e))) <= username_width g /\ length (decimal (st_size (fst e))) <= size_width g.
Proof.
  revert f. induction l as [|e l IH]; intros f; cbn [fold_left]; [cbn; repeat split; auto; contradiction|].
  destruct (IH (adjust_formatting db (fst e) f)) as (A & B & C). cbn [adjust_formatting username_width size_width] in A, B.
  set (g := fold_left _ l _) in *. cbn zeta. split; [lia|]. split; [lia|]. intros e' [<-|I]; [lia|auto].
Qed.
(** If all files are found before any is shown (ls | sort), lines are aligned if no group has a longer name than all users (and 6). *)
Theorem c67_sorted_aligned_partial : forall db date d l, ordinary_names db -> uniform date d ->
  (forall e, In e l -> length (groupname db (st_gid (fst e))) <= 6 \/
     exists e', In e' l /\ length (groupname db (st_gid (fst e))) <= length (username db (st_uid (fst e')))) ->
  aligned (afterwards db date l).
Proof.
  intros db date d l O D G. destruct (widths_bound db l default_formatting) as (A & _ & C). unfold aligned, afterwards. fold (widths db l) in A, C.
  cbn [default_formatting username_width] in A. set (w := widths db l) in *.
  assert (E : forall x, In x (map columns (map (line db date w) l)) -> x = profile (username_width w) (username_width w) (size_width w) d).
  { intros x I. rewrite map_map in I. apply in_map_iff in I as (e & <- & I). rewrite (columns_line _ _ _ _ _ O D). destruct (C e I) as [U Z].
    assert (length (groupname db (st_gid (fst e))) <= username_width w).
    { destruct (G e I) as [|(e' & I' & L)]; [lia|]. destruct (C e' I') as [U' _]. lia. }
    f_equal; lia. }
  intros x y X Y. apply E in X, Y. congruence.
Qed.
Print Assumptions c67_aligned_partial.
Print Assumptions c67_sorted_aligned_partial.

(** A group with a longer name (the width of groups is not used), and at the prompt a user with a longer name: not aligned. *)
Definition a_date (_ : N) : text := tx "2024 Jan 02 03:04:05".
Definition db1 : names := mknames (fun u => if N.eqb u 0 then Some (tx "root") else if N.eqb u 1 then Some (tx "longername") else None)
                                  (fun g => if N.eqb g 0 then Some (tx "root") else if N.eqb g 1 then Some (tx "longgroup") else None).
Definition file1 (u g : N) : entry := (mkstat 33188 u g 17 0, (tx "f", [])).
Theorem c67_aligned_refuted :
  ~ aligned (afterwards db1 a_date [file1 0 0; file1 0 1]) /\ ~ aligned (at_once db1 a_date default_formatting [file1 0 0; file1 1 0]).
Proof.
  split; intros A; specialize (A _ _ (or_introl eq_refl) (or_intror (or_introl eq_refl))); vm_compute in A; discriminate.
Qed.
Print Assumptions c67_aligned_refuted.

(** ** Colors *)
Lemma rfind_spec c s : match rfind c s with
  | Some i => exists a b, s = a ++ c :: b /\ length a = i /\ ~ In c b
  | None => ~ In c s end.
Proof.
  induction s as [|x s IH]; cbn; [tauto|]. destruct (rfind c s) as [i|].
  - destruct IH as (a & b & -> & <- & N). exists (x :: a), b. auto.
  - destruct (Ascii.eqb_spec x c) as [->|N].
    + exists [], s. auto.
    + intros [E|I]; auto.
Qed.
Lemma skipn_length {A} (a b : list A) : skipn (length a) (a ++ b) = b.
Proof. induction a; cbn; auto. Qed.
Lemma split_last (c : ascii) a b a' b' : a ++ c :: b = a' ++ c :: b' -> ~ In c b -> ~ In c b' -> a = a' /\ b = b'.
Proof.
  revert a'. induction a as [|x a IH]; intros [|y a'] E N N'; cbn in E.
  - injection E as ->. auto.
  - injection E as <- ->. elim N. apply in_app_iff. right. now left.
  - injection E as -> <-. elim N'. apply in_app_iff. right. now left.
  - injection E as <- E. destruct (IH _ E N N') as [-> ->]. auto.
Qed.
Lemma suffix_extension name e : extension name e <-> skipn 1 (suffix name) = e.
Proof.
  unfold suffix. pose proof (rfind_spec "."%char name) as R. destruct (rfind "."%char name) as [i|].
  - destruct R as (a & b & E & L & N). subst i. rewrite E.
    assert (T : (length (a ++ "."%char :: b) - 1) = length a + length b) by (rewrite app_length; cbn; lia). rewrite T.
    destruct ((0 <? length a) && (length a <? length a + length b)) eqn:C.
    + rewrite skipn_length. apply andb_prop in C as [C1 C2]. apply Nat.ltb_lt in C1, C2. cbn [skipn]. split.
      * intros [(_ & N' & stem & _ & E')|[-> Q]].
        -- now apply (split_last _ _ _ _ _ E' N N').
        -- destruct (Q a b eq_refl N) as [-> | ->]; cbn in C1, C2; lia.
      * intros <-. left. split; [intros ->; cbn in C2; lia|]. split; [exact N|]. exists a. split; [intros ->; cbn in C1; lia|reflexivity].
    + assert (Q : a = [] \/ b = []).
      { apply andb_false_iff in C as [C|C]; [left|right]; apply Nat.ltb_ge in C; [destruct a|destruct b]; cbn in C; auto; lia. }
      cbn [skipn]. split.
      * intros [(Z & N' & stem & S & E')|[-> _]]; [|reflexivity]. destruct (split_last _ _ _ _ _ E' N N') as [-> ->]. destruct Q; congruence.
      * intros <-. right. split; [reflexivity|]. intros stem e' E' N'. destruct (split_last _ _ _ _ _ E' N N') as [<- <-]. exact Q.
  - cbn [skipn]. split.
    + intros [(_ & _ & stem & _ & E)|[-> _]]; [|reflexivity]. elim R. rewrite E. apply in_app_iff. right. now left.
    + intros <-. right. split; [reflexivity|]. intros stem e' E. elim R. rewrite E. apply in_app_iff. right. now left.
Qed.
Lemma skipn_map1 {A B} (f : A -> B) l : skipn 1 (map f l) = map f (skipn 1 l).
Proof. now destruct l. Qed.

(** The color is that of the extension, or else of the kind of file, if a relative link is in the current directory. *)
Theorem c67_color_partial : forall sc d cwd p mode link colored,
  (match link with Absolute _ => True | Relative _ => cwd = parent p end) ->
  (forall c, by_extension sc (final colored) c -> highlight (Some sc) d cwd p mode link colored = Some c) /\
  ((forall c, ~ by_extension sc (final colored) c) -> highlight (Some sc) d cwd p mode link colored = by_type sc d p mode link).
Proof.
  intros sc d cwd p mode link colored K.
  assert (F : from cwd link = from (parent p) link) by (destruct link; [reflexivity|cbn; now rewrite K]).
  assert (X : extension (final colored) (skipn 1 (suffix (final colored)))) by now apply suffix_extension.
  unfold highlight. rewrite skipn_map1, islnk_type, isdir_type, F. split.
  - intros c (table & e & T & E & C). apply suffix_extension in E. rewrite T, E, C. reflexivity.
  - intros N. destruct (file_extension sc) as [table|] eqn:T; [|reflexivity].
    destruct (table _) as [c|] eqn:C; [|reflexivity]. elim (N c). exists table. eauto.
Qed.
Print Assumptions c67_color_partial.
(** A link elsewhere, to a file beside it, is shown as broken; and a broken one as good, if the current directory has a file of that name. *)
Theorem c67_color_refuted : forall sc d cwd p mode t, (forall c, ~ by_extension sc (final p) c) -> file_type mode = LINK ->
  file_link sc <> file_link_broken sc -> exists_ d (cwd ++ t) <> exists_ d (parent p ++ t) ->
  highlight (Some sc) d cwd p mode (Relative t) p <> by_type sc d p mode (Relative t).
Proof.
  intros sc d cwd p mode t N L C E.
  assert (H : highlight (Some sc) d cwd p mode (Relative t) p = if exists_ d (cwd ++ t) then file_link sc else file_link_broken sc).
  { unfold highlight. rewrite skipn_map1, islnk_type, L. cbn [N.eqb from].
    destruct (file_extension sc) as [table|] eqn:T; [|reflexivity]. destruct (table _) as [c|] eqn:Q; [|reflexivity].
    elim (N c). exists table. eexists. split; [exact T|]. split; [|exact Q]. now apply suffix_extension. }
  rewrite H. unfold by_type. rewrite L. cbn [N.eqb from]. change (LINK =? LINK)%N with true. cbn iota.
  destruct (exists_ d (cwd ++ t)), (exists_ d (parent p ++ t)); congruence.
Qed.
Print Assumptions c67_color_refuted.

(** ** Paths *)
Lemma agree_prefix p q : prefix (firstn (agree p q) p) q /\ (forall x, prefix x p -> prefix x q -> prefix x (firstn (agree p q) p)).
Proof.
  revert q. induction p as [|a p IH]; intros q; cbn [agree firstn].
  - split; [now exists q|]. intros x P _. exact P.
  - destruct q as [|b q].
    + split; [now exists []|]. intros x _ P. exact P.
    + destruct (list_eq_dec ascii_dec a b) as [->|N].
      * destruct (IH q) as [[r R] M]. split; [exists r; cbn; congruence|]. intros [|y x] [u U] [v W]; [now eexists|]. cbn in U, W.
        injection U as <- U. injection W as W. destruct (M x) as [t T]; [now exists u|now exists v|]. exists t. cbn. now rewrite T.
      * split; [now eexists|]. intros [|y x] [u U] [v W]; [now eexists|]. cbn in U, W. congruence.
Qed.
Lemma firstn_agree p q : agree p q <= length p.
Proof. revert q. induction p as [|a p IH]; intros [|b q]; cbn; try lia. destruct (list_eq_dec _ a b); [|lia]. specialize (IH q). lia. Qed.
Lemma prefix_trans a b c : prefix a b -> prefix b c -> prefix a c.
Proof. intros [x ->] [y ->]. exists (x ++ y). now rewrite app_assoc. Qed.
Lemma nca_prefix parts roots n : n <= length parts ->
  let b := firstn (nca parts n roots) parts in
  prefix b (firstn n parts) /\ (forall r, In r roots -> prefix b r) /\
  (forall x, prefix x (firstn n parts) -> (forall r, In r roots -> prefix x r) -> prefix x b).
Proof.
  revert n. induction roots as [|r roots IH]; intros n L; cbn [nca].
  - split; [now exists []; rewrite app_nil_r|]. split; [contradiction|auto].
  - pose proof (firstn_agree (firstn n parts) r) as A. rewrite firstn_length_le in A by exact L.
    destruct (agree_prefix (firstn n parts) r) as [P M]. rewrite firstn_firstn, Nat.min_l in P, M by lia.
    destruct (IH (agree (firstn n parts) r)) as (B1 & B2 & B3); [lia|]. cbn zeta in B1, B2, B3. set (k := nca _ _ _) in *.
    split; [|split].
    + apply (prefix_trans _ _ _ B1). replace (firstn (agree (firstn n parts) r) parts) with (firstn (agree (firstn n parts) r) (firstn n parts)).
      * exists (skipn (agree (firstn n parts) r) (firstn n parts)). now rewrite firstn_skipn.
      * rewrite firstn_firstn. f_equal. lia.
    + intros r' [<-|I]; [apply (prefix_trans _ _ _ B1 P)|auto].
    + intros x X R. apply B3; [|intros r' I; apply R; now right]. apply M; [exact X|apply R; now left].
Qed.
Lemma removelast_prefix {A} (p : list A) : exists r, p = removelast p ++ r.
Proof. destruct p as [|a p] using rev_ind; [now exists []|]. exists [a]. now rewrite removelast_last. Qed.
Lemma relative_app b r : relative_to b (b ++ r) = Some r.
Proof. induction b as [|a b IH]; cbn; [reflexivity|]. destruct (list_eq_dec ascii_dec a a); [exact IH|congruence]. Qed.
Lemma relative_inv b p r : relative_to b p = Some r -> p = b ++ r.
Proof.
  revert p. induction b as [|a b IH]; intros p E; cbn in E; [now injection E as ->|]. destruct p as [|c p]; [discriminate|].
  destruct (list_eq_dec ascii_dec a c) as [->|]; [|discriminate]. cbn. f_equal. auto.
Qed.
Lemma base_prefix is_file roots r : In r roots -> prefix (determine_base is_file roots) r.
Proof.
  destruct roots as [|r0 roots]; [contradiction|]. intros I. unfold determine_base.
  destruct (nca_prefix r0 roots (length r0) (le_n _)) as (B1 & B2 & _). cbn zeta in B1, B2. rewrite firstn_all in B1.
  set (b := firstn _ r0) in *. assert (P : prefix b r) by (destruct I as [<-|I]; auto).
  destruct (is_file b); [|exact P]. apply (prefix_trans _ b); [apply removelast_prefix|exact P].
Qed.

Lemma join_inj p q : p <> [] -> q <> [] -> proper p -> proper q -> join (tx "/") p = join (tx "/") q -> p = q.
Proof.
  revert q. induction p as [|a p IH]; intros [|b q] P Q PP PQ E; try congruence. clear P Q.
  assert (A : ~ In "/"%char a) by now apply PP; left. assert (B : ~ In "/"%char b) by now apply PQ; left.
  assert (SPL : forall x y u v : text, ~ In "/"%char x -> ~ In "/"%char y -> x ++ "/"%char :: u = y ++ "/"%char :: v -> x = y /\ u = v).
  { induction x as [|c x IHx]; intros [|e y] u v X Y H; cbn in H.
    - injection H as ->. auto.
    - injection H as <- _. elim Y. now left.
    - injection H as -> _. elim X. now left.
    - injection H as <- H. destruct (IHx y u v) as [-> ->]; auto; intros J; [apply X|apply Y]; now right. }
  destruct p as [|a' p], q as [|b' q]; cbn [join] in E.
  - congruence.
  - elim A. rewrite E. apply in_app_iff. right. now left.
  - elim B. rewrite <- E. apply in_app_iff. right. now left.
  - destruct (SPL _ _ _ _ A B E) as [-> E']. f_equal. apply (IH (b' :: q)); try discriminate; auto; intros x J; [apply PP|apply PQ]; now right.
Qed.
Lemma join_dot p : p <> [] -> proper p -> join (tx "/") p <> tx ".".
Proof.
  destruct p as [|a [|b p]]; intros N P; [congruence|apply P; now left|]. cbn [join]. intros E.
  destruct (P a (or_introl eq_refl)) as (A & _ & _). destruct a as [|c [|c' a]]; [congruence|discriminate|discriminate].
Qed.

(** Every file found below a root has a name in the listing; different files have different names; and the directory that
    names are relative to is the nearest that contains (or is) all the roots. *)
Theorem c67_path : forall is_file roots, roots <> [] -> let base := determine_base is_file roots in
  (forall r p, In r roots -> prefix r p -> exists rest, relative_to base p = Some rest /\ p = base ++ rest /\ compact base p <> None) /\
  (forall p q, proper p -> proper q -> compact base p <> None -> compact base p = compact base q -> p = q) /\
  (is_file base = false -> forall x, (forall r, In r roots -> prefix x r) -> prefix x base \/ is_file x = true).
Proof.
  intros is_file roots NE base. split; [|split].
  - intros r p I P. destruct (prefix_trans _ _ _ (base_prefix is_file roots r I) P) as [rest E]. fold base in E. exists rest.
    rewrite E, relative_app. repeat split. unfold compact. rewrite relative_app. destruct rest; discriminate.
  - intros p q PP PQ N E. unfold compact in *. destruct (relative_to base p) as [u|] eqn:U; [|congruence].
    apply relative_inv in U. destruct (relative_to base q) as [v|] eqn:W; [|destruct u; discriminate]. apply relative_inv in W.
    assert (QU : proper u) by (intros x J; apply PP; rewrite U; apply in_app_iff; now right).
    assert (QV : proper v) by (intros x J; apply PQ; rewrite W; apply in_app_iff; now right).
    assert (u = v); [|congruence].
    assert (J : forall t, proper t -> (match t with [] => Some (tx ".") | _ :: _ => Some (join (tx "/") t) end) = Some (match t with [] => tx "." | _ :: _ => join (tx "/") t end))
      by now intros [|]. rewrite !J in E by assumption. injection E as E. destruct u as [|a u], v as [|b v]; [reflexivity|..].
    + symmetry in E. elim (join_dot (b :: v)); [discriminate|exact QV|exact E].
    + elim (join_dot (a :: u)); [discriminate|exact QU|exact E].
    + apply join_inj in E; congruence || assumption.
  - destruct roots as [|r0 roots]; [congruence|]. unfold base, determine_base.
    destruct (nca_prefix r0 roots (length r0) (le_n _)) as (B1 & B2 & B3). cbn zeta in *. rewrite firstn_all in B1, B3. set (b := firstn _ r0) in *.
    intros F x X. assert (P : prefix x b) by (apply B3; [apply X; now left|intros r I; apply X; now right]).
    destruct (is_file b) eqn:FB; [|now left]. destruct P as [y Y]. destruct y as [|z y] using rev_ind.
    + right. rewrite app_nil_r in Y. congruence.
    + left. exists y. rewrite Y. unfold parent. rewrite app_assoc. now rewrite removelast_last.
Qed.
Print Assumptions c67_path.

(** A single file is shown by its name, if it is a regular file (or a link to one); other files, devices for example, are shown as a dot. *)
Theorem c67_name_partial : forall is_file p, p <> [] -> is_file p = true -> compact (determine_base is_file [p]) p = Some (final p).
Proof.
  intros is_file p N F. unfold determine_base. cbn [nca]. rewrite firstn_all, F. destruct p as [|a p] using rev_ind; [congruence|].
  unfold parent, final, compact. rewrite removelast_last, relative_app, last_last. reflexivity.
Qed.
Theorem c67_name_refuted : forall is_file p, is_file p = false -> compact (determine_base is_file [p]) p = Some (tx ".").
Proof.
  intros is_file p F. unfold determine_base. cbn [nca]. rewrite firstn_all, F. unfold compact.
  rewrite <- (app_nil_r p) at 2. now rewrite relative_app.
Qed.
Print Assumptions c67_name_partial.
Print Assumptions c67_name_refuted.

(** ** Metadata *)
Lemma history_seen s h : forall f, lstat f = Some s -> forall r, In r (history f h) -> r = Some s.
Proof.
  induction h as [|[m u] h IH]; cbn [history]; intros f F r I; [contradiction|]. destruct u.
  - unfold examine in I. rewrite F in I. destruct I as [<-|I]; [reflexivity|]. now apply (IH f).
  - unfold check_executable in I. destruct (can_execute f); revert I; apply IH; exact F.
  - unfold send, check_executable, examine in I. destruct (can_execute f); cbn [lstat] in I; rewrite F in I; revert I; apply IH; exact F || reflexivity.
Qed.
(** All that is said about a file is of one moment, in whichever process it is asked; and for a file found by ls this is when it was found. *)
Theorem c67_snapshot : forall h r, In r (history new_file h) -> r = None \/ r = first_seen h.
Proof.
  assert (G : forall h f, lstat f = None -> forall r, In r (history f h) -> r = None \/ r = first_seen h).
  { induction h as [|[m u] h IH]; cbn [history first_seen]; intros f F r I; [contradiction|]. destruct u.
    - unfold examine in I. rewrite F in I. destruct (now_stat m) as [s|] eqn:M.
      + right. destruct I as [<-|I]; [reflexivity|]. revert I. now apply history_seen.
      + destruct I as [<-|I]; [now left|]. now apply (IH f).
    - unfold check_executable in I. destruct (can_execute f); revert I; apply IH; exact F.
    - unfold send, check_executable, examine in I. destruct (can_execute f); cbn [lstat] in I; rewrite F in I; destruct (now_stat m) as [s|] eqn:M;
        try (right; revert I; now apply history_seen); revert I; apply IH; assumption || reflexivity. }
  intros h. now apply G.
Qed.
Theorem c67_ls_snapshot : forall o m1 m2 f h r, ls_one o m1 m2 = Some f -> In r (history f h) -> r <> None /\ r = now_stat m1.
Proof.
  intros o m1 m2 f h r L I. unfold ls_one, examine in L. cbn [lstat new_file] in L. destruct (now_stat m1) as [s|]; [|discriminate].
  destruct (now_stat m2) as [s2|]; [|discriminate]. destruct (_ || _); [|discriminate]. injection L as <-.
  apply history_seen with (s := s) in I; [|reflexivity]. subst r. split; [discriminate|reflexivity].
Qed.
(** ls passes on a file if and only if it is of a wanted kind: provided that it stays the same while ls looks at it. *)
Theorem c67_wanted_partial : forall o m1 m2, now_stat m1 = now_stat m2 ->
  ((exists f, ls_one o m1 m2 = Some f) <-> exists s, now_stat m1 = Some s /\ wanted o s).
Proof.
  intros o m1 m2 E. unfold ls_one, examine. cbn [lstat new_file]. rewrite E. destruct (now_stat m2) as [s|].
  - rewrite islnk_type, isreg_type, isdir_type.
    assert (W : wanted o s <-> (o_file o && ((file_type (st_mode s) =? REGULAR)%N && negb (file_type (st_mode s) =? LINK)%N)
       || o_dir o && ((file_type (st_mode s) =? DIRECTORY)%N && negb (file_type (st_mode s) =? LINK)%N)
       || o_symlink o && (file_type (st_mode s) =? LINK)%N) = true).
    { unfold wanted. rewrite !orb_true_iff, !andb_true_iff, !negb_true_iff, !N.eqb_eq, !N.eqb_neq. unfold REGULAR, DIRECTORY, LINK.
      intuition (try (left; left; split; [assumption|split; [assumption|lia]]); try (left; right; split; [assumption|split; [assumption|lia]])). }
    split.
    + intros [f F]. exists s. split; [reflexivity|]. apply W. destruct (_ || _); [reflexivity|discriminate].
    + intros (s' & [= <-] & Q). apply W in Q. rewrite Q. eauto.
  - split; [intros [f F]; discriminate|intros (s & F & _); discriminate].
Qed.
(** ls -f can pass on what says it is a directory: replaced between the two looks. *)
Theorem c67_wanted_refuted : let o := mkoptions true false false in
  let m1 := mkmoment (Some (mkstat 16877 0 0 4096 0)) false in let m2 := mkmoment (Some (mkstat 33188 0 0 1 1)) false in
  exists f s, ls_one o m1 m2 = Some f /\ history f [(m2, Read)] = [Some s] /\ file_type (st_mode s) = DIRECTORY.
Proof. do 2 eexists. split; [reflexivity|]. split; reflexivity. Qed.
Print Assumptions c67_snapshot.
Print Assumptions c67_ls_snapshot.
Print Assumptions c67_wanted_partial.
Print Assumptions c67_wanted_refuted.

(** An example: a link and a directory, displayed and read. *)
Theorem c67_example :
  ordinary_names db1 /\ uniform a_date [4; 3; 2; 8] /\ ordinary_date (a_date 7) [tx "2024"; tx "Jan"; tx "02"; tx "03:04:05"] /\
  let s := mkstat 41471 0 501 11 7 in
  render_full db1 a_date default_formatting s (tx "my file") (tx "a b") None None = tx "lrwxrwxrwx    root     501      11  2024 Jan 02 03:04:05  my file  ->  a b" /\
  at_once db1 a_date default_formatting [(s, (tx "x", tx "y")); (mkstat 16877 0 0 4096 7, (tx "d", []))] =
    [tx "lrwxrwxrwx    root     501      11  2024 Jan 02 03:04:05  x  ->  y"; tx "drwxr-xr-x    root    root    4096  2024 Jan 02 03:04:05  d"] /\
  determine_base (fun _ => false) [[tx "home"; tx "me"; tx "a"]; [tx "home"; tx "me"; tx "b"; tx "c"]] = [tx "home"; tx "me"].
Proof.
  assert (O : forall u, ordinary_date (a_date u) [tx "2024"; tx "Jan"; tx "02"; tx "03:04:05"]).
  { intros u. split; [reflexivity|]. split; [|reflexivity]. intros x I.
    repeat (destruct I as [<-|I]; [split; [split; [discriminate|]|]; intros J; repeat (destruct J as [J|J]; [discriminate|]); contradiction|]). contradiction. }
  split.
  { split; intros i n E; cbn in E; repeat (destruct (N.eqb i _); [injection E as <-; split; [split; [discriminate|]|]; intros J;
      repeat (destruct J as [J|J]; [discriminate|]); contradiction|]); discriminate. }
  split; [intros t; exists [tx "2024"; tx "Jan"; tx "02"; tx "03:04:05"]; split; [apply O|reflexivity]|].
  split; [apply O|]. repeat split.
Qed.
Print Assumptions c67_example.
