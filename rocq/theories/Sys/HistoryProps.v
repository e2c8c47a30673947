(* C39: the numbers of the commands. *)
From Coq Require Import Ascii String List Bool Arith ZArith Lia.
From Verif.Sys Require Import Csv CsvSpec CsvProps History HistorySpec.
Import ListNotations.
Open Scope list_scope.

(* ---- the file ---- *)

Lemma lf_is : forall c, c <> LF -> is c LF = false.
Proof. intros. apply is_false. auto. Qed.

Lemma readlines_cons : forall l t, ~ In LF l -> readlines (l ++ LF :: t) = (l ++ [LF]) :: readlines t.
Proof.
  induction l as [|c l IH]; intros t H; [reflexivity|].
  simpl. rewrite lf_is by (intros ->; apply H; simpl; auto). rewrite IH by (simpl in H; tauto). reflexivity.
Qed.

Lemma split_lf_no : forall c, Forall (fun l => ~ In LF l) (split_lf c) /\ split_lf c <> [].
Proof.
  induction c as [|x c [IH N]]; simpl; [split; [repeat constructor; simpl; tauto|discriminate]|].
  destruct (is x LF) eqn:E; [split; [constructor; simpl; auto|discriminate]|].
  apply is_false in E. destruct (split_lf c) as [|l ls]; [congruence|]. inv IH.
  split; [constructor; auto|discriminate]. simpl. intros [H|H]; auto.
Qed.
Lemma split_lf_concat : forall c, concat (map (fun l => l ++ [LF]) (split_lf c)) = c ++ [LF].
Proof.
  induction c as [|x c IH]; simpl; [reflexivity|].
  destruct (is x LF) eqn:E.
  - apply is_true in E. subst. simpl. rewrite IH. reflexivity.
  - destruct (split_lf c) as [|l ls] eqn:S; [exfalso; apply (proj2 (split_lf_no c)); auto|].
    simpl in *. rewrite IH. reflexivity.
Qed.

Lemma readlines_plus : forall rest ls, Forall (fun l => ~ In LF l) ls ->
  readlines (flat_map (fun l => PLUS :: l ++ [LF]) ls ++ rest) = map (fun l => PLUS :: l ++ [LF]) ls ++ readlines rest.
Proof.
  intros rest ls F. induction F as [|l ls N F IH]; [reflexivity|]. cbn [flat_map map].
  assert (N' : ~ In LF (PLUS :: l)) by (simpl; intros [H|H]; [discriminate|auto]).
  transitivity (readlines ((PLUS :: l) ++ LF :: (flat_map (fun l => PLUS :: l ++ [LF]) ls ++ rest))).
  - f_equal. simpl. rewrite <- !app_assoc. reflexivity.
  - rewrite (readlines_cons _ _ N'). rewrite IH. reflexivity.
Qed.

Lemma readlines_entry : forall time c rest, ~ In LF time ->
  readlines (entry time c ++ rest) =
  [LF] :: (txt "# " ++ time ++ [LF]) :: map (fun l => PLUS :: l ++ [LF]) (split_lf c) ++ readlines rest.
Proof.
  intros time c rest T. unfold entry.
  change ((LF :: txt "# " ++ time ++ [LF] ++ flat_map (fun l : list ascii => PLUS :: l ++ [LF]) (split_lf c)) ++ rest)
    with ([] ++ LF :: ((txt "# " ++ time ++ [LF] ++ flat_map (fun l : list ascii => PLUS :: l ++ [LF]) (split_lf c)) ++ rest)).
  rewrite readlines_cons by (simpl; tauto). f_equal.
  replace ((txt "# " ++ time ++ [LF] ++ flat_map (fun l : list ascii => PLUS :: l ++ [LF]) (split_lf c)) ++ rest)
    with ((txt "# " ++ time) ++ LF :: (flat_map (fun l : list ascii => PLUS :: l ++ [LF]) (split_lf c) ++ rest))
    by (rewrite <- !app_assoc; reflexivity).
  rewrite readlines_cons.
  2:{ intros H. apply in_app_or in H. destruct H as [H|H]; [|auto]. simpl in H. intuition discriminate. }
  rewrite <- app_assoc. f_equal.
  apply readlines_plus. apply split_lf_no.
Qed.

Lemma readlines_app : forall f g, (f = [] \/ exists f', f = f' ++ [LF]) -> readlines (f ++ g) = readlines f ++ readlines g.
Proof.
  intros f g [->|(f' & ->)]; [reflexivity|].
  induction f' as [|c f' IH]; [reflexivity|]. simpl. destruct (is c LF).
  - rewrite IH. reflexivity.
  - rewrite IH. destruct (readlines (f' ++ [LF])) as [|l ls] eqn:E; [|reflexivity].
    exfalso. destruct f' as [|d f']; simpl in E; [discriminate|].
    destruct (is d LF); [discriminate|]. destruct (readlines (f' ++ [LF])); discriminate.
Qed.

Lemma entry_ends : forall time c, exists f', entry time c = f' ++ [LF].
Proof.
  intros. unfold entry. destruct (split_lf c) as [|l ls] using rev_ind.
  - exists (LF :: txt "# " ++ time). simpl. reflexivity.
  - exists (LF :: txt "# " ++ time ++ [LF] ++ flat_map (fun l => PLUS :: l ++ [LF]) ls ++ PLUS :: l).
    rewrite flat_map_app. simpl. rewrite <- !app_assoc. simpl. rewrite <- app_assoc. simpl. rewrite ?app_nil_r. reflexivity.
Qed.
Lemma holds_ends : forall cs f, holds cs f -> f = [] \/ exists f', f = f' ++ [LF].
Proof.
  intros cs f H. inv H; [auto|]. right. destruct (entry_ends time c) as (f' & ->). exists (f0 ++ f'). apply app_assoc.
Qed.

Lemma load_plus : forall ls lines strings rest,
  load_lines lines strings (map (fun l => PLUS :: l ++ [LF]) ls ++ rest) = load_lines (lines ++ map (fun l => l ++ [LF]) ls) strings rest.
Proof.
  induction ls as [|l ls IH]; intros; cbn [map app]; [rewrite app_nil_r; reflexivity|].
  cbn [load_lines]. change (is PLUS PLUS) with true. cbv iota. rewrite IH. rewrite <- app_assoc. reflexivity.
Qed.

Lemma holds_load : forall cs f, holds cs f ->
  exists lines strings, add lines strings = cs /\ forall rest, load_lines [] [] (readlines f ++ rest) = load_lines lines strings rest.
Proof.
  intros cs f H. induction H as [|cs f time c H IH T].
  - exists [], []. split; reflexivity.
  - destruct IH as (lines & strings & A & B).
    exists (map (fun l => l ++ [LF]) (split_lf c)), cs. split.
    + unfold add. destruct (map (fun l => l ++ [LF]) (split_lf c)) as [|x y] eqn:E.
      * exfalso. apply map_eq_nil in E. apply (proj2 (split_lf_no c)). exact E.
      * rewrite <- E, split_lf_concat. rewrite removelast_last. reflexivity.
    + intros rest. rewrite (readlines_app _ _ (holds_ends _ _ H)), <- app_assoc, B.
      rewrite <- (app_nil_r (entry time c)). rewrite readlines_entry by auto. simpl readlines. rewrite app_nil_r.
      cbn [app load_lines]. change (is LF PLUS) with false. cbv iota. rewrite A. cbn [txt list_ascii_of_string app load_lines].
      change (is "#"%char PLUS) with false. cbv iota. cbn [add]. apply (load_plus (split_lf c) [] cs rest).
Qed.

(* What is stored is what is loaded *)
Theorem c39_file : forall cs f, holds cs f -> load_history_strings f = rev cs.
Proof.
  intros cs f H. destruct (holds_load _ _ H) as (lines & strings & A & B).
  unfold load_history_strings, oldest_first. rewrite <- (app_nil_r (readlines f)), B. simpl. now rewrite A.
Qed.

(* ---- the state ---- *)

Definition Inv (cs : list text) (w : world) : Prop :=
  holds cs (file w) /\ exists k, cache w = rev (firstn k cs).

Lemma inv_history : forall cs w, Inv cs w -> fst (history w) = rev cs /\ Inv cs (snd (history w)).
Proof.
  intros cs w (H & k & C). unfold history. rewrite (c39_file _ _ H). simpl. rewrite C, !rev_length.
  destruct (Nat.ltb_spec (length (firstn k cs)) (length cs)) as [L|L].
  - split; [reflexivity|]. split; [auto|]. exists (length cs). simpl. now rewrite firstn_all.
  - assert (E : firstn k cs = cs) by (apply firstn_all2; rewrite firstn_length in L; lia).
    rewrite E. split; [reflexivity|]. split; [auto|]. exists k. simpl. now rewrite E.
Qed.

Lemma inv_app : forall cs w time c, Inv cs w -> ~ In LF time ->
  forall l, Inv (cs ++ [c]) (mkworld (file w ++ entry time c) l (cache w)).
Proof.
  intros cs w time c (H & k & C) T l. split; simpl; [constructor; auto|].
  exists (min k (length cs)). rewrite C. f_equal. rewrite firstn_app.
  replace (min k (length cs) - length cs) with 0 by lia. rewrite app_nil_r.
  destruct (Nat.le_ge_cases k (length cs)).
  - now rewrite Nat.min_l by lia.
  - rewrite Nat.min_r by lia. rewrite firstn_all. now rewrite firstn_all2 by lia.
Qed.

Lemma inv_step : forall cs w e, Inv cs w -> fine e -> exists more, Inv (cs ++ more) (step w e).
Proof.
  intros cs w [time c|time c|] I F; simpl in *.
  - unfold accept. destruct c as [|x c]; [exists []; now rewrite app_nil_r|].
    destruct (match rev (loaded w) with [] => true | l :: _ => if text_dec l (x :: c) then false else true end).
    + exists [x :: c]. apply inv_app; auto.
    + exists []. now rewrite app_nil_r.
  - exists [c]. apply inv_app; auto.
  - exists []. rewrite app_nil_r. apply inv_history; auto.
Qed.

Lemma inv_steps : forall es cs w, Inv cs w -> Forall fine es -> exists more, Inv (cs ++ more) (steps w es).
Proof.
  induction es as [|e es IH]; intros cs w I F; [exists []; rewrite app_nil_r; auto|]. inv F.
  destruct (inv_step cs w e I H1) as (m1 & I1). destruct (IH _ _ I1 H2) as (m2 & I2).
  exists (m1 ++ m2). now rewrite app_assoc.
Qed.

Lemma inv_begin : forall cs f, holds cs f -> Inv cs (begin f).
Proof. intros. split; [auto|]. exists 0. reflexivity. Qed.

(* ---- numbers ---- *)

Lemma nth_rev : forall (cs : list text) i c, nth_error cs i = Some c -> nth (length cs - 1 - i) (rev cs) [] = c.
Proof.
  intros cs i c H. assert (L : i < length cs) by (apply nth_error_Some; congruence).
  rewrite rev_nth by lia. replace (length cs - S (length cs - 1 - i)) with i by lia. now apply nth_error_nth.
Qed.

Lemma inv_command : forall cs w i c, Inv cs w -> nth_error cs i = Some c -> command_by_id (Z.of_nat i) w = c.
Proof.
  intros cs w i c I H. unfold command_by_id. rewrite (proj1 (inv_history _ _ I)), rev_length.
  assert (L : i < length cs) by (apply nth_error_Some; congruence).
  rewrite (proj2 (Z.ltb_ge _ _)) by lia. rewrite (proj2 (Z.leb_gt _ _)) by lia. rewrite Nat2Z.id. now apply nth_rev.
Qed.

(* select, in terms of a filtered list *)
Definition matches (pattern : option text) (x : nat * text) : bool :=
  match pattern with None => true | Some p => contains p (snd x) end.
Definition numbers (total i : nat) (h : list text) : list (nat * text) :=
  combine (map (fun j => total - 1 - j) (seq i (length h))) h.

Lemma select_all : forall pattern total h i k, select pattern None total i k h = filter (matches pattern) (numbers total i h).
Proof.
  induction h as [|c h IH]; intros i k; [reflexivity|]. cbn [select]. unfold numbers. cbn [length seq map combine filter].
  fold (numbers total (S i) h). unfold matches at 1. cbn [snd].
  destruct (match pattern with Some p => contains p c | None => true end); rewrite IH; reflexivity.
Qed.
Lemma select_some : forall pattern total n h i k, k < n ->
  select pattern (Some n) total i k h = firstn (n - k) (filter (matches pattern) (numbers total i h)).
Proof.
  induction h as [|c h IH]; intros i k L; [simpl; now rewrite firstn_nil|]. cbn [select]. unfold numbers. cbn [length seq map combine filter].
  fold (numbers total (S i) h). unfold matches at 1. cbn [snd].
  destruct (match pattern with Some p => contains p c | None => true end).
  - destruct (Nat.eqb_spec (S k) n) as [<-|N].
    + replace (S k - k) with 1 by lia. reflexivity.
    + rewrite IH by lia. replace (n - k) with (S (n - S k)) by lia. reflexivity.
  - apply IH. auto.
Qed.

Lemma combine_app : forall A B (a a' : list A) (b b' : list B), length a = length b -> combine (a ++ a') (b ++ b') = combine a b ++ combine a' b'.
Proof. induction a; destruct b; simpl; intros; try discriminate; auto. f_equal. apply IHa. lia. Qed.
Lemma combine_rev : forall A B (a : list A) (b : list B), length a = length b -> combine (rev a) (rev b) = rev (combine a b).
Proof.
  induction a; destruct b; simpl; intros; try discriminate; auto.
  rewrite combine_app by (rewrite !rev_length; lia). rewrite IHa by lia. reflexivity.
Qed.
Lemma down_rev : forall n, map (fun j => n - 1 - j) (seq 0 n) = rev (seq 0 n).
Proof.
  intros n. apply nth_ext with (d := 0) (d' := 0); [now rewrite map_length, rev_length|].
  intros i H. rewrite map_length, seq_length in H. rewrite rev_nth by (rewrite seq_length; lia). rewrite seq_length, seq_nth by lia.
  erewrite nth_indep by (rewrite map_length, seq_length; lia).
  rewrite (map_nth (fun j => n - 1 - j)). instantiate (1 := 0). rewrite seq_nth by lia. lia.
Qed.
Lemma numbers_rev : forall cs, numbers (length cs) 0 (rev cs) = rev (numbered cs).
Proof.
  intros. unfold numbers, numbered. rewrite rev_length, down_rev. apply combine_rev. apply seq_length.
Qed.
Lemma filter_rev : forall A (f : A -> bool) l, filter f (rev l) = rev (filter f l).
Proof. induction l; simpl; [auto|]. rewrite filter_app, IHl. simpl. destruct (f a); simpl; auto. apply app_nil_r. Qed.
Lemma last_rev : forall A k (l : list A), rev (firstn k (rev l)) = last_k k l.
Proof. intros. unfold last_k. rewrite firstn_rev, rev_involutive. reflexivity. Qed.

Lemma starts_ok : forall p t, starts p t = true <-> exists b, t = p ++ b.
Proof.
  induction p as [|a p IH]; intros t; simpl; [split; eauto|].
  destruct t as [|b t]; [split; [discriminate|intros (x & H); discriminate]|].
  rewrite andb_true_iff, is_true, IH. split; [intros (-> & x & ->); eauto|intros (x & H); inv H; eauto].
Qed.
Lemma contains_ok : forall p c, contains p c = true <-> occurs p c.
Proof.
  intros p c. induction c as [|x c IH]; cbn [contains]; rewrite orb_true_iff, starts_ok.
  - split; [intros [(b & H)|H]; [exists [], b; auto|discriminate]|]. intros (a & b & H). left. exists b.
    symmetry in H. apply app_eq_nil in H. destruct H as [-> H]. auto.
  - rewrite IH. split.
    + intros [(b & H)|(a & b & ->)]; [exists [], b; auto|exists (x :: a), b; auto].
    + intros (a & b & H). destruct a as [|y a]; [left; exists b; auto|right]. inv H. exists a, b. auto.
Qed.

(* history: the last n commands (or all) among those that contain the pattern, with their
   numbers, in the order in which they were entered *)
Theorem c39_history : forall cs f es pattern limit, holds cs f -> Forall fine es -> limit <> Some 0 ->
  exists more, let all := cs ++ more in
  history_op pattern limit (steps (begin f) es) =
  Some (let chosen := filter (fun x => match pattern with None => true | Some p => contains p (snd x) end) (numbered all) in
        match limit with None => chosen | Some n => last_k n chosen end).
Proof.
  intros cs f es pattern limit H F L. destruct (inv_steps es cs _ (inv_begin _ _ H) F) as (more & I).
  exists more. cbv zeta. unfold history_op. rewrite (proj1 (inv_history _ _ I)), rev_length.
  destruct limit as [[|n]|]; [congruence| |]; f_equal.
  - rewrite select_some by lia. rewrite numbers_rev, filter_rev, Nat.sub_0_r. rewrite last_rev. reflexivity.
  - rewrite select_all, numbers_rev, filter_rev, rev_involutive. reflexivity.
Qed.

Lemma numbered_In : forall cs i c, In (i, c) (numbered cs) <-> nth_error cs i = Some c.
Proof.
  intros cs i c. unfold numbered.
  assert (G : forall cs k, In (i, c) (combine (seq k (length cs)) cs) <-> k <= i /\ nth_error cs (i - k) = Some c).
  { clear. induction cs as [|x cs IH]; intros k; simpl.
    - split; [tauto|]. intros [_ H]. destruct (i - k); discriminate.
    - rewrite IH. split.
      + intros [H|[H1 H2]].
        * inv H. rewrite Nat.sub_diag. split; auto.
        * split; [lia|]. replace (i - k) with (S (i - S k)) by lia. exact H2.
      + intros [H1 H2]. destruct (Nat.eq_dec i k) as [->|N].
        * left. rewrite Nat.sub_diag in H2. simpl in H2. congruence.
        * right. split; [lia|]. replace (i - k) with (S (i - S k)) in H2 by lia. exact H2. }
  rewrite (G cs 0), Nat.sub_0_r. intuition lia.
Qed.

Lemma last_k_In : forall A k (l : list A) x, In x (last_k k l) -> In x l.
Proof. intros A k l x H. unfold last_k in H. rewrite <- (firstn_skipn (length l - k) l). apply in_or_app. auto. Qed.

(* The number shown for a command designates that command, now and after whatever is
   entered later, here or in another process *)
Theorem c39_stable : forall cs f es es' pattern limit shown i c,
  holds cs f -> Forall fine es -> Forall fine es' ->
  history_op pattern limit (steps (begin f) es) = Some shown -> In (i, c) shown ->
  command_by_id (Z.of_nat i) (steps (begin f) (es ++ es')) = c.
Proof.
  intros cs f es es' pattern limit shown i c H F F' S I.
  destruct (inv_steps es cs _ (inv_begin _ _ H) F) as (m1 & I1).
  assert (N : nth_error (cs ++ m1) i = Some c).
  { unfold history_op in S. rewrite (proj1 (inv_history _ _ I1)), rev_length in S.
    apply numbered_In. destruct limit as [[|n]|]; inv S; apply in_rev in I.
    - rewrite select_some in I by lia. rewrite numbers_rev, filter_rev in I.
      apply (in_rev) in I. rewrite last_rev in I. apply last_k_In in I. apply filter_In in I. tauto.
    - rewrite select_all, numbers_rev, filter_rev in I. rewrite <- in_rev in I. apply filter_In in I. tauto. }
  unfold steps. rewrite fold_left_app. fold (steps (begin f) es). fold (steps (steps (begin f) es) es').
  destruct (inv_steps es' _ _ I1 F') as (m2 & I2).
  eapply inv_command; eauto. rewrite nth_error_app1; auto. apply nth_error_Some. congruence.
Qed.

(* A command that is entered gets the next number, unless it is empty or repeats the one before *)
Theorem c39_entered : forall cs f es time c,
  holds cs f -> Forall fine es -> ~ In LF time -> c <> [] ->
  let w := steps (begin f) es in
  hd_error (rev (loaded w)) <> Some c ->
  fst (history (step w (Enter time c))) = c :: fst (history w).
Proof.
  intros cs f es time c H F T N w R. destruct (inv_steps es cs _ (inv_begin _ _ H) F) as (m1 & I1). fold w in I1.
  assert (A : accept time c w = mkworld (file w ++ entry time c) (loaded w ++ [c]) (cache w)).
  { unfold accept. destruct c as [|x c]; [congruence|]. destruct (rev (loaded w)) as [|l r]; [reflexivity|].
    destruct (text_dec l (x :: c)) as [E|]; [|reflexivity]. exfalso. apply R. rewrite E. reflexivity. }
  simpl step. rewrite A. rewrite (proj1 (inv_history _ _ (inv_app _ _ time c I1 T _))), (proj1 (inv_history _ _ I1)).
  now rewrite rev_app_distr.
Qed.

(* ---- recalling ---- *)

Lemma digit_facts : forall c, isdigit c = true -> isspace c = false /\ is c PLUS = false /\ is c "-"%char = false /\ is c "!"%char = false.
Proof. intros [[] [] [] [] [] [] [] []]; intros H; try discriminate H; repeat split; reflexivity. Qed.

Lemma int_digits_ok : forall t, Forall (fun c => isdigit c = true) t -> t <> [] -> forall acc b,
  int_digits acc b t = Some (fold_left (fun a c => (a * 10 + digit_value c)%Z) t acc).
Proof.
  induction t as [|c t IH]; intros F N acc b; [congruence|]. inv F. simpl. rewrite H1.
  destruct t as [|d t]; [reflexivity|]. apply IH; auto. discriminate.
Qed.
Lemma numeral_facts : forall t n, numeral t n -> Forall (fun c => isdigit c = true) t /\ t <> [] /\
  fold_left (fun a c => (a * 10 + digit_value c)%Z) t 0%Z = n.
Proof.
  induction 1.
  - split; [auto|]. split; [discriminate|]. reflexivity.
  - destruct IHnumeral as (A & B & C). split; [apply Forall_app; auto|].
    split; [destruct t; discriminate|]. rewrite fold_left_app, C. reflexivity.
Qed.
Lemma parse_numeral : forall t n, numeral t n -> parse_int t = Some n.
Proof.
  intros t n H. destruct (numeral_facts _ _ H) as (F & N & V). destruct t as [|c t]; [congruence|].
  pose proof (int_digits_ok (c :: t) F N 0 false) as P. inv F. unfold parse_int.
  destruct (digit_facts c H2) as (_ & A & B & _). rewrite A, B. exact P.
Qed.

Lemma words_word : forall t acc, Forall (fun c => isspace c = false) t -> acc ++ t <> [] -> words acc t = [acc ++ t].
Proof.
  induction t as [|c t IH]; intros acc F N; simpl.
  - rewrite app_nil_r in *. destruct acc; [congruence|reflexivity].
  - inv F. rewrite H1. rewrite IH; [now rewrite <- app_assoc|auto|rewrite <- app_assoc; destruct acc; discriminate].
Qed.
Lemma words_spaces : forall sp t, forallb isspace sp = true -> words [] (sp ++ t) = words [] t.
Proof. induction sp as [|c sp IH]; simpl; intros t H; [auto|]. apply andb_true_iff in H. destruct H as [-> H]. auto. Qed.
Lemma words_numeral : forall sp t n, forallb isspace sp = true -> numeral t n -> words [] (sp ++ t) = [t].
Proof.
  intros sp t n S H. destruct (numeral_facts _ _ H) as (F & N & _). rewrite words_spaces by auto.
  apply (words_word t []); auto. eapply Forall_impl; [|exact F]. intros c D. apply digit_facts. auto.
Qed.

Lemma last_digit : forall pre t n, numeral t n -> forall c, hd_error (rev (pre ++ t)) = Some c -> isspace c = false.
Proof.
  intros pre t n H c. inv H; rewrite ?app_assoc, rev_app_distr; simpl; intros E; inv E; apply digit_facts; auto.
Qed.

Definition word_in_front (w : string) (a sp t b : text) : text := a ++ (txt w ++ sp ++ t) ++ b.

(* ! N, with any white space, stands for command N *)
Theorem c39_recall : forall cs f es editor a sp t n b c,
  holds cs f -> Forall fine es -> forallb isspace a = true -> forallb isspace sp = true -> forallb isspace b = true ->
  numeral t n -> nth_error (rev (fst (history (steps (begin f) es)))) (Z.to_nat n) = Some c -> c <> [] ->
  executed editor (word_in_front "!" a sp t b) (steps (begin f) es) = c.
Proof.
  intros cs f es editor a sp t n b c H F A S B N C NE.
  destruct (inv_steps es cs _ (inv_begin _ _ H) F) as (m1 & I1). set (w := steps (begin f) es) in *.
  rewrite (proj1 (inv_history _ _ I1)), rev_involutive in C.
  unfold executed, handle, word_in_front. rewrite strip_core; auto.
  2:{ simpl. intros x E. inv E. reflexivity. }
  2:{ intros x E. rewrite app_assoc in E. eapply last_digit; eauto. }
  assert (E1 : starts_with "!!" (txt "!" ++ sp ++ t) = false).
  { assert (Q : forall x y, is x "!"%char = false -> starts_with "!!" (txt "!" ++ x :: y) = false).
    { intros x y Q. unfold starts_with, txt. cbn [list_ascii_of_string app starts]. rewrite is_refl.
      unfold is in *. rewrite Ascii.eqb_sym, Q. reflexivity. }
    destruct sp as [|x sp].
    - destruct (numeral_facts _ _ N) as (D & Nt & _). destruct t as [|x t]; [congruence|]. inv D. cbn [app]. apply Q. apply digit_facts. auto.
    - cbn [app]. apply Q. simpl in S. apply andb_true_iff in S. destruct S as [S _].
      apply is_false. intros ->. discriminate. }
  rewrite E1. change (starts_with "!" (txt "!" ++ sp ++ t)) with true. cbv iota.
  change (skipn 1 (txt "!" ++ sp ++ t)) with (sp ++ t). rewrite (words_numeral _ _ _ S N).
  rewrite (parse_numeral _ _ N).
  assert (NN : (0 <= n)%Z).
  { clear -N. induction N; unfold digit_value in *; [|]; unfold isdigit in *; apply between_ok in H; lia. }
  replace n with (Z.of_nat (Z.to_nat n)) by lia. rewrite (inv_command _ _ _ _ I1 C). destruct c; [congruence|reflexivity].
Qed.

(* A negative number, or one beyond the last command, recalls nothing: no other command is run in its place. *)
Lemma words_nonspace : forall sp t, forallb isspace sp = true -> Forall (fun c => isspace c = false) t -> t <> [] -> words [] (sp ++ t) = [t].
Proof. intros sp t S F N. rewrite words_spaces by auto. now apply (words_word t []). Qed.
Theorem c39_no_command : forall editor w a sp (minus : bool) t n b,
  forallb isspace a = true -> forallb isspace sp = true -> forallb isspace b = true -> numeral t n ->
  (if minus then 0 < n else Z.of_nat (length (fst (history w))) <= n)%Z ->
  let typed := word_in_front "!" a sp ((if minus then txt "-" else []) ++ t) b in executed editor typed w = typed.
Proof.
  intros editor w a sp minus t n b A S B N R typed.
  destruct (numeral_facts _ _ N) as (D & Nt & _).
  set (u := (if minus then txt "-" else []) ++ t) in *.
  assert (U : Forall (fun c => isspace c = false) u).
  { apply Forall_app. split; [destruct minus; repeat constructor|]. eapply Forall_impl; [|exact D]. intros c. apply digit_facts. }
  assert (U0 : u <> []) by (unfold u; destruct t; [congruence|destruct minus; discriminate]).
  assert (U1 : forall x r, u = x :: r -> is x "!"%char = false).
  { intros x r E. unfold u in E. destruct minus.
    - injection E as <- _. reflexivity.
    - destruct t as [|y t]; [congruence|]. cbn in E. inv E. inv D. now apply digit_facts. }
  unfold executed. replace (handle editor typed w) with (@Some text []); [reflexivity|]. symmetry.
  unfold handle, typed, word_in_front. rewrite strip_core; auto.
  2:{ simpl. intros x E. inv E. reflexivity. }
  2:{ intros x E. unfold u in E. rewrite !app_assoc in E. eapply last_digit; eauto. }
  assert (E1 : starts_with "!!" (txt "!" ++ sp ++ u) = false).
  { assert (Q : forall x y, is x "!"%char = false -> starts_with "!!" (txt "!" ++ x :: y) = false).
    { intros x y Q. unfold starts_with, txt. cbn [list_ascii_of_string app starts]. rewrite is_refl.
      unfold is in *. rewrite Ascii.eqb_sym, Q. reflexivity. }
    destruct sp as [|x sp].
    - destruct u as [|x r] eqn:E; [congruence|]. cbn [app]. apply Q. eapply U1. reflexivity.
    - cbn [app]. apply Q. simpl in S. apply andb_true_iff in S. destruct S as [S _].
      apply is_false. intros ->. discriminate. }
  rewrite E1. change (starts_with "!" (txt "!" ++ sp ++ u)) with true. cbv iota.
  change (skipn 1 (txt "!" ++ sp ++ u)) with (sp ++ u). rewrite (words_nonspace _ _ S U U0).
  assert (P : parse_int u = Some (if minus then - n else n)%Z).
  { unfold u. destruct minus; [|now apply parse_numeral].
    pose proof (numeral_facts _ _ N) as (D' & N' & V). pose proof (int_digits_ok t D' N' 0 false) as P.
    unfold parse_int. change (txt "-" ++ t) with ("-"%char :: t). change (is "-"%char PLUS) with false. change (is "-"%char "-"%char) with true. cbv iota.
    rewrite P. cbn [option_map]. now rewrite V. }
  rewrite P. unfold command_by_id. destruct minus.
  - destruct (Z.ltb_spec (- n) 0); [reflexivity|lia].
  - destruct (Z.ltb_spec n 0); [reflexivity|]. destruct (Z.leb_spec (Z.of_nat (length (fst (history w)))) n); [reflexivity|lia].
Qed.

Example c39_no_command_example :
  let w := steps (begin []) [] in
  executed (fun t => t) (txt " ! -12 ") w = txt " ! -12 " /\ numeral (txt "12") 12.
Proof.
  split; [|exact (numeral_more (txt "1") 1 "2"%char eq_refl (numeral_1 "1"%char eq_refl))].
  apply (c39_no_command (fun t => t) (steps (begin []) []) (txt " ") (txt " ") true (txt "12") 12 (txt " ")); try reflexivity.
  exact (numeral_more (txt "1") 1 "2"%char eq_refl (numeral_1 "1"%char eq_refl)).
Qed.

(* !! stands for the last command *)
Theorem c39_last : forall cs f es editor a sp c rest,
  holds cs f -> Forall fine es -> forallb isspace a = true -> forallb isspace sp = true ->
  fst (history (steps (begin f) es)) = c :: rest -> c <> [] ->
  executed editor (a ++ txt "!!" ++ sp) (steps (begin f) es) = c.
Proof.
  intros cs f es editor a sp c rest H F A S C NE.
  destruct (inv_steps es cs _ (inv_begin _ _ H) F) as (m1 & I1). set (w := steps (begin f) es) in *.
  unfold executed, handle. rewrite strip_core; auto; try (simpl; intros x E; inv E; reflexivity).
  change (starts_with "!!" (txt "!!")) with true. cbv iota. change (words [] (skipn 2 (txt "!!"))) with (@nil text). cbv iota.
  rewrite C. replace (Z.of_nat (length (c :: rest)) - 1)%Z with (Z.of_nat (length rest)) by (cbn [length]; lia).
  rewrite (inv_command (cs ++ m1) w (length rest) c); auto; [destruct c; [congruence|reflexivity]|].
  rewrite (proj1 (inv_history _ _ I1)) in C.
  assert (R : cs ++ m1 = rev rest ++ [c]) by (rewrite <- (rev_involutive (cs ++ m1)), C; reflexivity).
  rewrite R, nth_error_app2 by (rewrite rev_length; lia). rewrite rev_length, Nat.sub_diag. reflexivity.
Qed.

(* edit N opens the editor on command N; what it leaves is executed, if it is one line *)
Lemma edit_one_line : forall editor t r, editor t = r -> one_line r -> edit_text editor t = r.
Proof.
  intros editor t r <- L. unfold edit_text. rewrite <- (app_nil_r (editor t)) at 1. rewrite universal_line by auto.
  simpl. rewrite app_nil_r. destruct (editor t) as [|c l] eqn:E; [reflexivity|]. rewrite readlines_last; auto. discriminate.
Qed.
Theorem c39_edit_partial : forall cs f es editor a sp t n b c,
  holds cs f -> Forall fine es -> forallb isspace a = true -> forallb isspace sp = true -> forallb isspace b = true ->
  numeral t n -> nth_error (rev (fst (history (steps (begin f) es)))) (Z.to_nat n) = Some c ->
  editor c <> [] -> one_line (editor c) ->
  executed editor (word_in_front "edit" a sp t b) (steps (begin f) es) = editor c.
Proof.
  intros cs f es editor a sp t n b c H F A S B N C NE OL.
  destruct (inv_steps es cs _ (inv_begin _ _ H) F) as (m1 & I1). set (w := steps (begin f) es) in *.
  rewrite (proj1 (inv_history _ _ I1)), rev_involutive in C.
  unfold executed, handle, word_in_front. rewrite strip_core; auto.
  2:{ simpl. intros x E. inv E. reflexivity. }
  2:{ intros x E. rewrite app_assoc in E. eapply last_digit; eauto. }
  change (starts_with "!!" (txt "edit" ++ sp ++ t)) with false. change (starts_with "!" (txt "edit" ++ sp ++ t)) with false.
  change (starts_with "edit" (txt "edit" ++ sp ++ t)) with true. cbv iota.
  change (skipn 4 (txt "edit" ++ sp ++ t)) with (sp ++ t). rewrite (words_numeral _ _ _ S N).
  destruct (numeral_facts _ _ N) as (D & Nt & _). destruct t as [|x t]; [congruence|].
  destruct (text_dec (x :: t) (txt "-s")) as [E|_]; [inv E; inv D; discriminate|].
  destruct (text_dec (x :: t) (txt "--startup")) as [E|_]; [inv E; inv D; discriminate|].
  rewrite (parse_numeral _ _ N).
  assert (NN : (0 <= n)%Z).
  { clear -N. induction N; unfold digit_value in *; [|]; unfold isdigit in *; apply between_ok in H; lia. }
  replace n with (Z.of_nat (Z.to_nat n)) by lia. rewrite (inv_command _ _ _ _ I1 C). simpl option_map. cbv iota.
  rewrite (edit_one_line editor c (editor c)) by auto. destruct (editor c); [congruence|reflexivity].
Qed.

(* ------------------------------------------------------------------ *)
(* Examples *)

Definition t0 : text := txt "2024-01-01 12:00:00".
Definition two_lines : text := txt "gen 3" ++ [LF] ++ txt "| out".
Definition day : list event :=
  [Enter t0 (txt "pwd"); Enter t0 (txt "ls"); Enter t0 (txt "ls"); Other t0 two_lines; Look; Enter t0 (txt "ls -r")].
Example day_fine : Forall fine day.
Proof. repeat constructor; simpl; intuition discriminate. Qed.
Example day_history : history_op (Some (txt "s")) (Some 2) (steps (begin []) day) =
  Some [(1, txt "ls"); (3, txt "ls -r")].
Proof. reflexivity. Qed.
Example day_recall : executed (fun x => x) (txt "! 3") (steps (begin []) day) = txt "ls -r".
Proof. reflexivity. Qed.
Example day_edit : executed (fun x => x ++ txt " /") (txt " edit 1 ") (steps (begin []) day) = txt "ls /".
Proof. reflexivity. Qed.

(* A command of several lines is changed by edit, even if the user changes nothing: an empty
   line appears after each line. *)
Theorem c39_edit_refuted : exists c, c = two_lines /\
  command_by_id 2 (steps (begin []) day) = c /\
  executed (fun x => x) (txt "edit 2") (steps (begin []) day) = txt "gen 3" ++ [LF; LF] ++ txt "| out" /\
  executed (fun x => x) (txt "edit 2") (steps (begin []) day) <> c.
Proof. exists two_lines. repeat split; vm_compute; try reflexivity. discriminate. Qed.

(* In general: every line end inside the text is doubled *)
Theorem c39_edit_doubles : forall l r, one_line l -> one_line r -> r <> [] ->
  edit_text (fun x => x) (l ++ [LF] ++ r) = l ++ [LF; LF] ++ r.
Proof.
  intros l r L R N. unfold edit_text. rewrite universal_line by auto. simpl.
  rewrite <- (app_nil_r r) at 1. rewrite universal_line by auto. simpl. rewrite app_nil_r.
  rewrite readlines_line, readlines_last by auto. simpl. now rewrite <- app_assoc.
Qed.
