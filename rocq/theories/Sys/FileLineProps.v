(** C67: proofs. *)
From Verif.Sys Require Import FileLineSpec.
From Coq Require Import DecimalString DecimalN DecimalPos.
Local Open Scope list_scope.

(** ** Type and permissions *)
Lemma land_bit x k : N.eqb (N.land x (2 ^ k)) 0 = negb (N.testbit x k).
Proof.
  destruct (N.testbit x k) eqn:T; cbn.
  - apply N.eqb_neq. intros E. assert (B : N.testbit (N.land x (2 ^ k)) k = true) by (rewrite N.land_spec, T, N.pow2_bits_true; reflexivity).
    rewrite E, N.bits_0 in B. discriminate.
  - apply N.eqb_eq. apply N.bits_inj. intros i. rewrite N.land_spec, N.bits_0.
    destruct (N.eq_dec i k) as [->|N']; [now rewrite T|]. rewrite N.pow2_bits_false; [now rewrite andb_false_r|congruence].
Qed.
Lemma rwx_spec m : rwx m = [letter m 2 "r"; letter m 1 "w"; letter m 0 "x"]%char.
Proof.
  unfold rwx, letter. change 4%N with (2 ^ 2)%N. change (N.land m 2) with (N.land m (2 ^ 1))%N. change (N.land m 1) with (N.land m (2 ^ 0))%N.
  rewrite !land_bit. now destruct (N.testbit m 2), (N.testbit m 1), (N.testbit m 0).
Qed.
Lemma land_type mode k : N.land mode (N.shiftl k 12) = N.shiftl (N.land (N.shiftr mode 12) k) 12.
Proof.
  apply N.bits_inj. intros i. rewrite N.land_spec. destruct (N.lt_ge_cases i 12) as [L|G].
  - rewrite !N.shiftl_spec_low by lia. now rewrite andb_false_r.
  - rewrite !N.shiftl_spec_high' by lia. rewrite N.land_spec, N.shiftr_spec'. now replace (i - 12 + 12)%N with i by lia.
Qed.
Lemma land_mod16 x k : (k < 16)%N -> N.land x k = N.land (x mod 16) k.
Proof.
  intros L. assert (K : k = N.land k (N.ones 4)) by (rewrite N.land_ones; symmetry; now apply N.mod_small).
  rewrite K at 1. rewrite (N.land_comm k), N.land_assoc, N.land_ones. reflexivity.
Qed.
Lemma mode_type mode k : (k < 16)%N -> N.land mode (N.shiftl k 12) = N.shiftl (N.land (file_type mode) k) 12.
Proof.
  intros L. rewrite land_type, (land_mod16 _ _ L). unfold file_type. now rewrite N.shiftr_div_pow2.
Qed.
Lemma type_range mode : (file_type mode < 16)%N.
Proof. unfold file_type. apply N.mod_lt. discriminate. Qed.
Ltac type_cases mode :=
  pose proof (type_range mode); generalize dependent (file_type mode); let t := fresh "t" in intros t; intros;
  assert (t = 0 \/ t = 1 \/ t = 2 \/ t = 3 \/ t = 4 \/ t = 5 \/ t = 6 \/ t = 7 \/ t = 8 \/ t = 9 \/ t = 10 \/ t = 11 \/ t = 12 \/ t = 13 \/ t = 14 \/ t = 15)%N by lia.
Lemma islnk_type mode : S_ISLNK mode = N.eqb (file_type mode) LINK.
Proof. unfold S_ISLNK. change 61440%N with (N.shiftl 15 12). rewrite mode_type by reflexivity. type_cases mode. intuition (subst; reflexivity). Qed.
Lemma isdir_type mode : S_ISDIR mode = N.eqb (file_type mode) DIRECTORY.
Proof. unfold S_ISDIR. change 61440%N with (N.shiftl 15 12). rewrite mode_type by reflexivity. type_cases mode. intuition (subst; reflexivity). Qed.
Lemma isreg_type mode : S_ISREG mode = N.eqb (file_type mode) REGULAR.
Proof. unfold S_ISREG. change 61440%N with (N.shiftl 15 12). rewrite mode_type by reflexivity. type_cases mode. intuition (subst; reflexivity). Qed.

(** The first character of the mode string, for all types *)
Lemma type_char mode : exists r, mode_string mode = r :: permissions mode /\
  r = (if existsb (N.eqb (file_type mode)) [10; 11; 14; 15] then "l" else if existsb (N.eqb (file_type mode)) [4; 5; 6; 7; 12; 13] then "d" else "-")%N%char.
Proof.
  eexists. split.
  - unfold mode_string. f_equal. rewrite !rwx_spec. unfold permissions, letter. cbn [app].
    assert (B : forall k i m, N.testbit (N.shiftr (N.land mode m) k) i = N.testbit mode (i + k) && N.testbit m (i + k)).
    { intros. now rewrite N.shiftr_spec', N.land_spec. }
    rewrite !B, !N.land_spec. cbn. now rewrite !andb_true_r.
  - unfold LINK_MASK, DIR_MASK. change 40960%N with (N.shiftl 10 12). change 16384%N with (N.shiftl 4 12).
    rewrite !mode_type by reflexivity. type_cases mode. intuition (subst; reflexivity).
Qed.
Theorem c67_mode_partial : forall mode, In (file_type mode) [REGULAR; DIRECTORY; LINK] ->
  mode_string mode = type_letter mode :: permissions mode.
Proof.
  intros mode I. destruct (type_char mode) as (r & -> & ->). f_equal. unfold type_letter.
  destruct I as [<-|[<-|[<-|[]]]]; reflexivity.
Qed.
(** A block device and a socket look like directories, a pipe and a character device like regular files. *)
Theorem c67_mode_refuted : forall mode,
  (file_type mode = BLOCK \/ file_type mode = SOCKET -> hd_error (mode_string mode) = Some "d"%char) /\
  (file_type mode = FIFO \/ file_type mode = CHARACTER -> hd_error (mode_string mode) = Some "-"%char).
Proof. intros mode. destruct (type_char mode) as (r & -> & ->). split; intros [-> | ->]; reflexivity. Qed.
Print Assumptions c67_mode_partial.
Print Assumptions c67_mode_refuted.

(** ** Words *)
Lemma decimal_word n : is_word (decimal n) /\ plain (decimal n).
Proof.
  unfold decimal. assert (D : forall u c, In c (tx (NilEmpty.string_of_uint u)) -> c <> blank /\ c <> ESC).
  { induction u; cbn; intros c I; [contradiction|..]; (destruct I as [<-|I]; [split; discriminate|auto]). }
  assert (N0 : tx (NilZero.string_of_uint (N.to_uint n)) <> []).
  { unfold NilZero.string_of_uint. destruct (N.to_uint n); discriminate. }
  assert (C : forall c, In c (tx (NilZero.string_of_uint (N.to_uint n))) -> c <> blank /\ c <> ESC).
  { unfold NilZero.string_of_uint. destruct (N.to_uint n) eqn:E; try (intros c; apply D). intros c [<-|[]]. split; discriminate. }
  split; [split; [exact N0|]|]; intros I; apply C in I; tauto.
Qed.

Lemma word_app w r : ~ In blank w -> (match r with c :: _ => c = blank | [] => True end) -> word (w ++ r) = (w, r).
Proof.
  intros NI R. induction w as [|c w IH]; cbn.
  - destruct r as [|c r]; [reflexivity|]. subst c. reflexivity.
  - destruct (Ascii.eqb_spec c blank) as [->|N]; [elim NI; now left|]. rewrite IH; [reflexivity|]. intros I. apply NI. now right.
Qed.
Lemma skip_repeat n s : skip_blanks (repeat blank n ++ s) = skip_blanks s.
Proof. induction n; cbn; auto. Qed.
Lemma skip_word w r : is_word w -> skip_blanks (w ++ r) = w ++ r.
Proof.
  intros [N I]. destruct w as [|c w]; [congruence|]. cbn. destruct (Ascii.eqb_spec c blank) as [->|]; [elim I; now left|reflexivity].
Qed.
Lemma next_word n w r : is_word w -> (match r with c :: _ => c = blank | [] => True end) -> next (repeat blank n ++ w ++ r) = (w, r).
Proof. intros W R. unfold next. rewrite skip_repeat, (skip_word w r W). apply word_app; [apply W|exact R]. Qed.
Lemma next_word0 w r : is_word w -> (match r with c :: _ => c = blank | [] => True end) -> next (w ++ r) = (w, r).
Proof. exact (next_word 0 w r). Qed.
Lemma mode_word m : is_word (mode_string m) /\ plain (mode_string m) /\ length (mode_string m) = 10.
Proof.
  assert (L : length (mode_string m) = 10) by reflexivity.
  assert (C : forall c, In c (mode_string m) -> c <> blank /\ c <> ESC).
  { destruct (type_char m) as (r & -> & ->). unfold permissions, letter. intros c I.
    destruct I as [<-|I]; [destruct (existsb _ _); [|destruct (existsb _ _)]; split; discriminate|].
    repeat (destruct I as [<-|I]; [match goal with |- context [if ?b then _ else _] => destruct b end; split; discriminate|]). contradiction. }
  repeat split; [|intros I; apply C in I; tauto|intros I; apply C in I; tauto]. intros E. rewrite E in L. discriminate.
Qed.
Lemma username_word db i : ordinary_names db -> is_word (username db i) /\ plain (username db i).
Proof. intros [U _]. unfold username. destruct (user_name db i) eqn:E; [eauto|apply decimal_word]. Qed.
Lemma groupname_word db i : ordinary_names db -> is_word (groupname db i) /\ plain (groupname db i).
Proof. intros [_ G]. unfold groupname. destruct (group_name db i) eqn:E; [eauto|apply decimal_word]. Qed.

(** The line, in one piece *)
Definition tail (s : stat) (target : text) (c' : option color) : text :=
  if S_ISLNK (st_mode s) then tx "  ->  " ++ colorize target c' else [].
Definition front (db : names) (f : formatting) (s : stat) (d : text) : text :=
  mode_string (st_mode s) ++ tx "  " ++ format_username f (username db (st_uid s)) ++ tx "  " ++ format_groupname f (groupname db (st_gid s)) ++
  tx "  " ++ format_size f (st_size s) ++ tx "  " ++ d ++ tx "  ".
Lemma render_eq db date f s shown target c c' :
  render_full db date f s shown target c c' = front db f s (date (st_mtime s)) ++ colorize shown c ++ tail s target c'.
Proof.
  unfold render_full, front, tail, formatted_metadata. set (m := mode_string _). set (u := format_username _ _). set (g := format_groupname _ _).
  set (z := format_size _ _). set (d := date _). cbn [removelast last app].
  destruct (S_ISLNK (st_mode s)); cbn [join app]; rewrite <- ?app_assoc, ?app_nil_r; cbn [join app]; rewrite <- ?app_assoc; reflexivity.
Qed.

Lemma displayed_plain s r : plain s -> displayed false (s ++ r) = s ++ displayed false r.
Proof.
  intros P. induction s as [|c s IH]; [reflexivity|]. cbn [displayed app]. destruct (Ascii.eqb_spec c ESC) as [->|]; [elim P; now left|].
  rewrite IH; [reflexivity|]. intros I. apply P. now right.
Qed.
Lemma displayed_digits n r : displayed true (decimal n ++ tx "m" ++ r) = displayed false r.
Proof.
  assert (D : forall u, displayed true (tx (NilEmpty.string_of_uint u) ++ tx "m" ++ r) = displayed false r) by (induction u; cbn; auto).
  unfold decimal, NilZero.string_of_uint. destruct (N.to_uint n); [reflexivity|apply (D (Decimal.D0 u))|apply (D (Decimal.D1 u))|apply (D (Decimal.D2 u))
    |apply (D (Decimal.D3 u))|apply (D (Decimal.D4 u))|apply (D (Decimal.D5 u))|apply (D (Decimal.D6 u))|apply (D (Decimal.D7 u))
    |apply (D (Decimal.D8 u))|apply (D (Decimal.D9 u))].
Qed.
Lemma displayed_colorize s c r : plain s -> displayed false (colorize s c ++ r) = s ++ displayed false r.
Proof.
  intros P. destruct c as [c|]; [|now apply displayed_plain]. unfold colorize.
  assert (G : forall t, displayed false ((ESC :: tx "[38;5;" ++ decimal (code c) ++ tx "m" ++ s ++ ESC :: tx "[0m") ++ t) = s ++ displayed false t).
  { intros t. replace ((ESC :: tx "[38;5;" ++ decimal (code c) ++ tx "m" ++ s ++ ESC :: tx "[0m") ++ t)
      with (ESC :: tx "[38;5;" ++ decimal (code c) ++ tx "m" ++ s ++ (ESC :: tx "[0m") ++ t)
      by (cbn [app]; rewrite <- !app_assoc; reflexivity).
    transitivity (displayed true (decimal (code c) ++ tx "m" ++ s ++ (ESC :: tx "[0m") ++ t)); [reflexivity|].
    rewrite displayed_digits, displayed_plain by exact P. reflexivity. }
  destruct (bold c), (italic c); rewrite <- app_assoc; cbn [app]; exact (G r).
Qed.

(** What is displayed does not depend on the colors, and says what the file is: all fields can be read off. *)
Lemma front_plain db f s d : ordinary_names db -> plain d -> plain (front db f s d).
Proof.
  intros O D. pose proof (mode_word (st_mode s)) as (_ & M & _). pose proof (username_word db (st_uid s) O) as [_ U].
  pose proof (groupname_word db (st_gid s) O) as [_ G]. pose proof (decimal_word (st_size s)) as [_ Z].
  assert (R : forall n x, plain x -> plain (repeat blank n ++ x)).
  { intros n x P I. apply in_app_or in I as [I|I]; [apply repeat_spec in I; discriminate|auto]. }
  assert (B : plain (tx "  ")) by (intros [E|[E|[]]]; discriminate).
  unfold front, format_username, format_groupname, format_size, right_aligned. intros I.
  repeat (apply in_app_or in I as [I|I]; [revert I; try (apply R); assumption|]). now apply B in I.
Qed.
Lemma front_read db f s w r : ordinary_names db -> length w = 4 -> (forall x, In x w -> is_word x) ->
  read_line (front db f s (join [blank] w) ++ r) =
  mkfields (mode_string (st_mode s)) (username db (st_uid s)) (groupname db (st_gid s)) (decimal (st_size s)) w r.
Proof.
  intros O L W. pose proof (mode_word (st_mode s)) as (M & _ & _). pose proof (username_word db (st_uid s) O) as [U _].
  pose proof (groupname_word db (st_gid s) O) as [G _]. pose proof (decimal_word (st_size s)) as [Z _].
  destruct w as [|d1 [|d2 [|d3 [|d4 [|]]]]]; try discriminate L. clear L.
  assert (W1 : is_word d1) by (apply W; cbn; auto). assert (W2 : is_word d2) by (apply W; cbn; auto).
  assert (W3 : is_word d3) by (apply W; cbn; auto). assert (W4 : is_word d4) by (apply W; cbn; auto). clear W.
  unfold front, format_username, format_groupname, format_size, right_aligned. cbn [join]. rewrite <- !app_assoc.
  set (nu := username_width f - _). set (ng := username_width f - _). set (nz := size_width f - _).
  assert (A : forall n x, tx "  " ++ repeat blank n ++ x = repeat blank (2 + n) ++ x) by reflexivity.
  unfold read_line.
  rewrite next_word0 by (cbn; auto).
  rewrite !A. rewrite (next_word (2 + nu)) by (cbn; auto). rewrite (next_word (2 + ng)) by (cbn; auto).
  rewrite (next_word (2 + nz)) by (cbn; auto). change (tx "  ") with (repeat blank 2). rewrite (next_word 2) by (cbn; auto).
  change [blank] with (repeat blank 1). rewrite (next_word 1) by (cbn; auto). rewrite (next_word 1) by (cbn; auto).
  rewrite (next_word 1) by (cbn; auto). reflexivity.
Qed.
Lemma decimal_number n : is_number (decimal n) n.
Proof.
  unfold is_number, decimal, tx. rewrite string_of_list_ascii_of_string, NilZero.usu; [cbn; now rewrite DecimalN.Unsigned.of_to|].
  intros E. destruct n; [discriminate|]. cbn in E. revert E. apply DecimalPos.Unsigned.to_uint_nonnil.
Qed.
Theorem c67_line_partial : forall db date w f s shown target c c', ordinary_names db -> ordinary_date (date (st_mtime s)) w ->
  plain shown -> plain target -> In (file_type (st_mode s)) [REGULAR; DIRECTORY; LINK] ->
  let line := displayed false (render_full db date f s shown target c c') in
  line = displayed false (render_full db date f s shown target None None) /\
  exists user group size,
    read_line line = mkfields (type_letter (st_mode s) :: permissions (st_mode s)) user group size w
      (if N.eqb (file_type (st_mode s)) LINK then shown ++ tx "  ->  " ++ target else shown) /\
    identifies user (user_name db (st_uid s)) (st_uid s) /\ identifies group (group_name db (st_gid s)) (st_gid s) /\ is_number size (st_size s).
Proof.
  intros db date w f s shown target c c' O (L & W & D) PS PT TY line.
  assert (PD : plain (join [blank] w)).
  { assert (forall l, (forall x, In x l -> plain x) -> plain (join [blank] l)).
    { induction l as [|x [|y l] IH]; intros Q; [intros []|apply Q; now left|]. intros I. cbn [join] in I.
      apply in_app_or in I as [I|[I|I]]; [revert I; apply Q; now left|discriminate|]. revert I. apply IH. intros z J. apply Q. now right. }
    apply H. intros x I. now apply W. }
  assert (G : forall a b, displayed false (render_full db date f s shown target a b) =
    front db f s (join [blank] w) ++ shown ++ (if S_ISLNK (st_mode s) then tx "  ->  " ++ target else [])).
  { intros a b. rewrite render_eq, D, displayed_plain by now apply front_plain. f_equal. rewrite displayed_colorize by exact PS. f_equal.
    unfold tail. destruct (S_ISLNK (st_mode s)); [|reflexivity]. rewrite displayed_plain by (intros I; repeat (destruct I as [I|I]; [discriminate|]); contradiction).
    rewrite <- (app_nil_r (colorize target b)), displayed_colorize by exact PT. now rewrite app_nil_r. }
  split; [unfold line; now rewrite !G|]. do 3 eexists. split; [|split; [|split; [|apply decimal_number]]].
  2: { instantiate (1 := username db (st_uid s)). unfold username, identifies. destruct (user_name db _); [reflexivity|apply decimal_number]. }
  2: { instantiate (1 := groupname db (st_gid s)). unfold groupname, identifies. destruct (group_name db _); [reflexivity|apply decimal_number]. }
  rewrite <- c67_mode_partial by exact TY. unfold line. rewrite G, front_read; [|exact O|exact L|intros x I; now apply W].
  rewrite islnk_type. destruct (N.eqb _ _); [reflexivity|now rewrite app_nil_r].
Qed.
Print Assumptions c67_line_partial.
