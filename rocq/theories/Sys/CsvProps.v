(* C37: reading CSV files. *)
From Coq Require Import Ascii String List Bool Arith Lia.
From Verif.Sys Require Import Csv CsvSpec.
Import ListNotations.
Open Scope list_scope.

Ltac inv H := inversion H; subst; clear H.

Lemma is_true : forall c d, is c d = true <-> c = d.
Proof. intros. unfold is. apply Ascii.eqb_eq. Qed.
Lemma is_false : forall c d, is c d = false <-> c <> d.
Proof. intros. unfold is. apply Ascii.eqb_neq. Qed.
Lemma is_refl : forall c, is c c = true.
Proof. intros. apply is_true. reflexivity. Qed.

(* ---- lines ---- *)

Lemma one_line_cons : forall c l, one_line (c :: l) <-> c <> LF /\ c <> CR /\ one_line l.
Proof. intros. unfold one_line. simpl. intuition. Qed.

Lemma universal_line : forall l t, one_line l -> universal (l ++ t) = l ++ universal t.
Proof.
  induction l as [|c l IH]; intros t H; [reflexivity|]. apply one_line_cons in H. destruct H as (A & B & C).
  simpl. rewrite (proj2 (is_false c CR)) by auto. now rewrite IH.
Qed.
Lemma universal_end : forall e t, line_end e -> (e = [CR] -> forall r, t <> LF :: r) -> universal (e ++ t) = LF :: universal t.
Proof.
  intros e t [->|[->| ->]] N; try reflexivity. simpl. destruct t as [|c t]; [reflexivity|].
  destruct (is c LF) eqn:E; [|reflexivity]. apply is_true in E. subst. exfalso. exact (N eq_refl t eq_refl).
Qed.
Lemma readlines_line : forall l t, one_line l -> readlines (l ++ LF :: t) = (l ++ [LF]) :: readlines t.
Proof.
  induction l as [|c l IH]; intros t H; [reflexivity|]. apply one_line_cons in H. destruct H as (A & B & C).
  simpl. rewrite (proj2 (is_false c LF)) by auto. now rewrite IH.
Qed.
Lemma readlines_last : forall l, one_line l -> l <> [] -> readlines l = [l].
Proof.
  induction l as [|c l IH]; intros H N; [congruence|]. apply one_line_cons in H. destruct H as (A & B & C).
  simpl. rewrite (proj2 (is_false c LF)) by auto. destruct l as [|d l]; [reflexivity|]. rewrite IH by (auto; discriminate). reflexivity.
Qed.

Lemma lstrip_none : forall l, one_line l -> lstrip_ends l = l.
Proof.
  destruct l as [|c l]; intros H; [reflexivity|]. apply one_line_cons in H. destruct H as (A & B & C).
  simpl. now rewrite (proj2 (is_false c LF)), (proj2 (is_false c CR)) by auto.
Qed.
Lemma one_line_rev : forall l, one_line l -> one_line (rev l).
Proof. unfold one_line. intros l [A B]. split; rewrite <- in_rev; auto. Qed.
Lemma rstrip_line : forall l, one_line l -> rstrip_ends l = l.
Proof. intros. unfold rstrip_ends. rewrite lstrip_none by (apply one_line_rev; auto). apply rev_involutive. Qed.
Lemma rstrip_lf : forall l, one_line l -> rstrip_ends (l ++ [LF]) = l.
Proof.
  intros. unfold rstrip_ends. rewrite rev_app_distr. simpl. rewrite lstrip_none by (apply one_line_rev; auto). apply rev_involutive.
Qed.

Lemma content_lines : forall ls t, content ls t -> map rstrip_ends (readlines (universal t)) = ls.
Proof.
  induction 1.
  - reflexivity.
  - rewrite <- (app_nil_r l) at 1. rewrite universal_line by auto. simpl. rewrite app_nil_r.
    rewrite readlines_last by auto. simpl. now rewrite rstrip_line.
  - rewrite universal_line, universal_end, readlines_line by auto. simpl. now rewrite rstrip_lf, IHcontent.
Qed.

(* Every text is the content of a file with some lines *)
Lemma content_exists_n : forall n t, length t < n -> exists ls, content ls t.
Proof.
  induction n; intros t L; [lia|].
  assert (S : t = [] \/ (exists l, one_line l /\ l <> [] /\ t = l) \/
     (exists l e r, one_line l /\ line_end e /\ t = l ++ e ++ r /\ (e = [CR] -> forall r', r <> LF :: r'))).
  { clear. induction t as [|c t IH]; [auto|right].
    destruct (ascii_dec c LF) as [->|N1].
    { right. exists [], [LF], t. repeat split; try (simpl; tauto); [left; auto|discriminate]. }
    destruct (ascii_dec c CR) as [->|N2].
    { right. destruct t as [|d t].
      - exists [], [CR], []. repeat split; try (simpl; tauto); [right; right; auto|discriminate].
      - destruct (ascii_dec d LF) as [->|N].
        + exists [], [CR; LF], t. repeat split; try (simpl; tauto); [right; left; auto|discriminate].
        + exists [], [CR], (d :: t). repeat split; try (simpl; tauto); [right; right; auto|congruence]. }
    destruct IH as [->|[(l & A & B & ->)|(l & e & r & A & B & -> & C)]].
    - left. exists [c]. repeat split; simpl; try tauto; try discriminate; intuition.
    - left. exists (c :: l). repeat split; try discriminate; simpl; destruct A; intuition.
    - right. exists (c :: l), e, r. split; [apply one_line_cons; auto|]. auto. }
  destruct S as [->|[(l & A & B & ->)|(l & e & r & A & B & -> & C)]].
  - exists []. constructor.
  - exists [l]. constructor; auto.
  - destruct (IHn r) as (ls & H).
    { rewrite !app_length in L. destruct B as [->|[->| ->]]; simpl in L; lia. }
    exists (l :: ls). constructor; auto.
Qed.
Theorem c37_content_exists : forall t, exists ls, content ls t.
Proof. intros. eapply content_exists_n. constructor. Qed.

(* ---- fields ---- *)

Definition ender (d : ascii) (k : text) : Prop := k = [] \/ exists l, k = d :: l.
Definition after (d : ascii) (f : text) (k : text) : list text :=
  match k with [] => [f] | _ :: l => f :: csv_scan d StartField [] l end.

Lemma scan_infield : forall d f acc k, ~ In d f -> ender d k ->
  csv_scan d InField acc (f ++ k) = after d (acc ++ f) k.
Proof.
  induction f as [|c f IH]; intros acc k N E.
  - simpl. rewrite app_nil_r. destruct E as [->|(l & ->)]; simpl; [reflexivity|]. now rewrite is_refl.
  - simpl. assert (c <> d) by (intros ->; apply N; simpl; auto).
    rewrite (proj2 (is_false c d)) by auto. rewrite IH by (simpl in N; tauto). now rewrite <- app_assoc.
Qed.
Lemma scan_quoted : forall d f acc k,
  csv_scan d InQuoted acc (doubled f ++ QUOTE :: k) = csv_scan d QuoteInQuoted (acc ++ f) k.
Proof.
  induction f as [|c f IH]; intros acc k.
  - simpl. rewrite ?is_refl, app_nil_r. reflexivity.
  - cbn [doubled]. destruct (Ascii.eqb c QUOTE) eqn:E.
    + apply Ascii.eqb_eq in E. subst. cbn [app csv_scan]. rewrite !is_refl. rewrite IH. now rewrite <- app_assoc.
    + cbn [app csv_scan]. unfold is at 1. rewrite E. rewrite IH. now rewrite <- app_assoc.
Qed.
Lemma scan_written : forall d f w k, d <> QUOTE -> written d f w -> ender d k ->
  csv_scan d StartField [] (w ++ k) = after d f k.
Proof.
  intros d f w k D W E. inv W.
  - destruct w as [|c w].
    + simpl. destruct E as [->|(l & ->)]; simpl; [reflexivity|]. rewrite (proj2 (is_false d QUOTE)), is_refl by auto. reflexivity.
    + simpl. assert (c <> QUOTE) by (simpl in H0; congruence). assert (c <> d) by (intros ->; apply H; simpl; auto).
      rewrite (proj2 (is_false c QUOTE)), (proj2 (is_false c d)) by auto. apply scan_infield; auto. simpl in H; tauto.
  - cbn [app csv_scan]. rewrite is_refl, <- app_assoc. cbn [app]. rewrite scan_quoted. simpl.
    destruct E as [->|(l & ->)]; simpl; [reflexivity|]. rewrite (proj2 (is_false d QUOTE)), is_refl by auto. reflexivity.
Qed.

(* Whatever the fields contain (but for line ends), they come back *)
Theorem c37_fields : forall d fs l, d <> QUOTE -> row_line d fs l -> csv_line d l = fs.
Proof.
  intros d fs l D R. unfold csv_line. induction R as [f w W|f w fs l W R IH].
  - rewrite <- (app_nil_r w). apply (scan_written d f w []); auto. left; auto.
  - rewrite (scan_written d f w (d :: l)); auto; [|right; eauto]. simpl. now rewrite IH.
Qed.

(* ---- rows ---- *)


(* The loop on lines already stripped *)
Fixpoint loop (o : opts) (f : nat) (first : bool) (st : rstate) (lines : list text) : list out * rstate :=
  match lines with
  | [] => ([], st)
  | line :: rest =>
      match csv_next (delim o) line with
      | None => ([], st)
      | Some fields =>
          let '(now, st') :=
            if first && (headings o || skip_headings o) then
              if headings o then
                let names := extract_headings (label o) fields in
                if namedtuple_ok names then ([], Some names) else ([Error line], st)
              else ([], st)
            else (data_line o f st line fields, st) in
          let '(later, st'') := loop o f false st' rest in
          (now ++ later, st'')
      end
  end.
Lemma loop_ok : forall o f ls first st, csv_loop o f first st ls = loop o f first st (map rstrip_ends ls).
Proof.
  induction ls as [|l ls IH]; intros; simpl; [reflexivity|].
  destruct (csv_next (delim o) (rstrip_ends l)); [|reflexivity].
  destruct (first && (headings o || skip_headings o)); [destruct (headings o); [destruct (namedtuple_ok _)|]|]; now rewrite IH.
Qed.

Lemma csv_file_lines : forall o st f t ls, content ls t -> csv_file o st (f, t) = loop o f true st ls.
Proof. intros. unfold csv_file. simpl. rewrite loop_ok. now rewrite (content_lines _ _ H). Qed.

(* The label, in front of each row *)
Definition labelled (o : opts) (f : nat) (r : list text) : list cell :=
  (if label o then [CFile f] else []) ++ map CText r.

Lemma csv_next_line : forall d l, l <> [] -> csv_next d l = Some (csv_line d l).
Proof. intros d [|c l] H; [congruence|reflexivity]. Qed.

Lemma loop_data : forall o f first st ls, first && (headings o || skip_headings o) = false -> Forall (fun l => ~ blank l) ls ->
  loop o f first st ls = (flat_map (fun l => data_line o f st l (csv_line (delim o) l)) ls, st).
Proof.
  induction ls as [|l ls IH]; intros F B; simpl; [reflexivity|]. inv B.
  rewrite csv_next_line by auto. rewrite F. 
  assert (G : loop o f false st ls = (flat_map (fun l => data_line o f st l (csv_line (delim o) l)) ls, st)).
  { clear IH F. induction H2 as [|a ls A B IH]; simpl; [reflexivity|]. rewrite csv_next_line by auto. now rewrite IH. }
  now rewrite G.
Qed.

Lemma flat_map_one : forall A B (f : A -> list B) g l, (forall x, In x l -> f x = [g x]) -> flat_map f l = map g l.
Proof. induction l; simpl; intros H; [reflexivity|]. rewrite H by auto. rewrite IHl by auto. reflexivity. Qed.

Lemma map_forall2 : forall A B (P : A -> B -> Prop) g l m, Forall2 P l m -> (forall x y, P x y -> g y = x) -> map g m = l.
Proof. induction 1; simpl; intros G; [reflexivity|]. rewrite (G x y) by auto. now rewrite IHForall2. Qed.

(* No headings.  A file, none of whose lines is empty, gives one tuple per line, in order.  For
   a row of fields written in CSV format, the tuple has these fields. *)
Theorem c37_rows_partial : forall o f rows ls t,
  headings o = false -> skip_headings o = false -> delim o <> QUOTE ->
  content ls t -> Forall2 (row_line (delim o)) rows ls -> Forall (fun l => ~ blank l) ls ->
  read_csv o [(f, t)] = map (fun r => Row (labelled o f r)) rows.
Proof.
  intros o f rows ls t H S D C R B. unfold read_csv. simpl. rewrite (csv_file_lines _ _ _ _ _ C).
  rewrite loop_data; auto; [|rewrite H, S; reflexivity]. rewrite app_nil_r.
  unfold data_line. rewrite (flat_map_one _ _ _ (fun l => Row (labelled o f (csv_line (delim o) l)))) by reflexivity.
  rewrite <- (map_map (csv_line (delim o)) (fun r => Row (labelled o f r))). f_equal.
  eapply map_forall2; eauto. intros. apply c37_fields; auto.
Qed.

(* In full, for every content: the lines before the first empty one. *)
Fixpoint before_blank (ls : list text) : list text :=
  match ls with [] => [] | [] :: _ => [] | l :: ls => l :: before_blank ls end.
Theorem c37_every_content : forall o f ls t,
  headings o = false -> skip_headings o = false -> content ls t ->
  read_csv o [(f, t)] = map (fun l => Row (labelled o f (csv_line (delim o) l))) (before_blank ls).
Proof.
  intros o f ls t H S C. unfold read_csv. simpl. rewrite (csv_file_lines _ _ _ _ _ C).
  assert (G : forall first, loop o f first None ls = (map (fun l => Row (labelled o f (csv_line (delim o) l))) (before_blank ls), None)).
  { clear C. induction ls as [|l ls IH]; intros; simpl; [reflexivity|]. destruct l as [|c l]; [reflexivity|].
    simpl csv_next. cbv iota. rewrite H, S. simpl orb. rewrite andb_false_r. rewrite IH. reflexivity. }
  rewrite G. apply app_nil_r.
Qed.

(* skip-headings: the same, without the first line *)
Theorem c37_skip_partial : forall o f rows l0 ls t,
  headings o = false -> skip_headings o = true -> delim o <> QUOTE ->
  content (l0 :: ls) t -> Forall2 (row_line (delim o)) rows ls -> Forall (fun l => ~ blank l) (l0 :: ls) ->
  read_csv o [(f, t)] = map (fun r => Row (labelled o f r)) rows.
Proof.
  intros o f rows l0 ls t H S D C R B. inv B. unfold read_csv. simpl. rewrite (csv_file_lines _ _ _ _ _ C).
  simpl. rewrite csv_next_line by auto. rewrite H, S. simpl. rewrite loop_data; auto. simpl. rewrite app_nil_r.
  unfold data_line. rewrite (flat_map_one _ _ _ (fun l => Row (labelled o f (csv_line (delim o) l)))) by reflexivity.
  rewrite <- (map_map (csv_line (delim o)) (fun r => Row (labelled o f r))). f_equal.
  eapply map_forall2; eauto. intros. apply c37_fields; auto.
Qed.

(* ---- headings ---- *)

Lemma text_eqb_eq : forall a b, text_eqb a b = true <-> a = b.
Proof.
  induction a as [|c a IH]; destruct b as [|d b]; simpl; split; intros H; try discriminate; auto.
  - apply andb_true_iff in H. destruct H as [A B]. apply Ascii.eqb_eq in A. apply IH in B. congruence.
  - inv H. rewrite Ascii.eqb_refl. simpl. now apply IH.
Qed.
Lemma existsb_In : forall n l, existsb (text_eqb n) l = true <-> In n l.
Proof.
  intros. rewrite existsb_exists. split.
  - intros (x & A & B). apply text_eqb_eq in B. congruence.
  - intros. exists n. split; auto. now apply text_eqb_eq.
Qed.
Lemma distinct_NoDup : forall l, NoDup l -> distinct l = true.
Proof.
  induction 1; simpl; [reflexivity|]. rewrite IHNoDup, andb_true_r. apply negb_true_iff.
  destruct (existsb (text_eqb x) l) eqn:E; auto. apply existsb_In in E. tauto.
Qed.

Lemma between_ok : forall a b c, between a b c = true <-> a <= nat_of_ascii c <= b.
Proof. intros. unfold between. rewrite andb_true_iff, !Nat.leb_le. tauto. Qed.

Lemma letter_start : forall c, isletter c = true -> xid_start c = true /\ is c underscore = false /\ isspace c = false.
Proof. intros [[] [] [] [] [] [] [] []]; intros H; try discriminate H; repeat split; reflexivity. Qed.
Lemma idchar_cont : forall c, identifier_char c = true -> xid_continue c = true /\ isspace c = false.
Proof. intros [[] [] [] [] [] [] [] []]; intros H; try discriminate H; repeat split; reflexivity. Qed.
Lemma ascii_cont : forall c, nat_of_ascii c < 128 -> xid_continue c = true -> identifier_char c = true.
Proof. intros [[] [] [] [] [] [] [] []]; intros L H; try reflexivity; try discriminate H; exfalso; revert L; compute; lia. Qed.

Lemma good_names_ok : forall ns, good_names ns -> namedtuple_ok ns = true.
Proof.
  intros ns [F N]. unfold namedtuple_ok. rewrite distinct_NoDup, andb_true_r by auto.
  apply forallb_forall. intros n Hn. rewrite Forall_forall in F. destruct (F n Hn) as (A & (c & r & -> & L) & K).
  apply letter_start in L. destruct L as (L1 & L2 & _). rewrite L2. simpl isidentifier. rewrite L1.
  replace (forallb xid_continue r) with true.
  - replace (existsb (text_eqb (c :: r)) keywords) with false; [reflexivity|].
    destruct (existsb (text_eqb (c :: r)) keywords) eqn:E; auto. apply existsb_In in E. tauto.
  - symmetry. apply forallb_forall. intros x Hx. inv A. rewrite Forall_forall in H2. apply idchar_cont. auto.
Qed.

Definition sub (c : ascii) := if identifier_char c then c else underscore.
Lemma replace_map : forall t a, replace_from (length a) (length t) (a ++ t) = a ++ map sub t.
Proof.
  induction t as [|c t IH]; intros a; [reflexivity|]. cbn [length replace_from].
  rewrite nth_error_app2, Nat.sub_diag by lia. cbn [nth_error].
  assert (E : (if identifier_char c then a ++ c :: t else firstn (length a) (a ++ c :: t) ++ underscore :: skipn (length a + 1) (a ++ c :: t))
              = (a ++ [sub c]) ++ t).
  { unfold sub. rewrite <- app_assoc. destruct (identifier_char c); [reflexivity|]. simpl. f_equal.
    - rewrite firstn_app, firstn_all, Nat.sub_diag. simpl. apply app_nil_r.
    - f_equal. rewrite skipn_app, skipn_all2 by lia. replace (length a + 1 - length a) with 1 by lia. reflexivity. }
  transitivity (replace_from (length a + 1) (length t) ((a ++ [sub c]) ++ t)); [f_equal; exact E|].
  replace (length a + 1) with (length (a ++ [sub c])) by (rewrite app_length; reflexivity).
  rewrite IH. rewrite <- app_assoc. reflexivity.
Qed.

Lemma lstrip_spaces : forall a t, forallb isspace a = true -> lstrip (a ++ t) = lstrip t.
Proof. induction a as [|c a IH]; simpl; intros; [auto|]. apply andb_true_iff in H. destruct H as [-> H]. auto. Qed.
Lemma lstrip_word : forall t, (forall c, hd_error t = Some c -> isspace c = false) -> lstrip t = t.
Proof. destruct t as [|c t]; simpl; intros H; [auto|]. rewrite (H c); reflexivity. Qed.
Lemma lstrip_all : forall a, forallb isspace a = true -> lstrip a = [].
Proof. intros a H. rewrite <- (app_nil_r a). rewrite (lstrip_spaces a [] H). reflexivity. Qed.
Lemma forallb_rev : forall A (p : A -> bool) l, forallb p (rev l) = forallb p l.
Proof. induction l; simpl; [auto|]. rewrite forallb_app. simpl. rewrite IHl, andb_true_r. apply andb_comm. Qed.
Lemma strip_core : forall a core b, forallb isspace a = true -> forallb isspace b = true ->
  (forall c, hd_error core = Some c -> isspace c = false) -> (forall c, hd_error (rev core) = Some c -> isspace c = false) ->
  strip (a ++ core ++ b) = core.
Proof.
  intros a core b A B H1 H2. unfold strip. rewrite lstrip_spaces by auto.
  destruct core as [|c core].
  - simpl. rewrite (lstrip_all b B). reflexivity.
  - rewrite (lstrip_word ((c :: core) ++ b)); [|exact H1]. rewrite rev_app_distr.
    rewrite lstrip_spaces; [|rewrite forallb_rev; exact B]. rewrite (lstrip_word (rev (c :: core))); [|exact H2]. apply rev_involutive.
Qed.

Lemma heading_name : forall h n, name_of h n -> heading h = n.
Proof.
  intros h n (a & core & b & -> & A & B & H1 & H2 & As & ->). unfold heading.
  rewrite strip_core by auto. destruct (isidentifier core) eqn:I.
  - destruct core as [|c r]; [reflexivity|]. simpl in I. apply andb_true_iff in I. destruct I as [I1 I2].
    symmetry. rewrite <- (map_id (c :: r)) at 2. apply map_ext_in. intros x Hx.
    assert (C : xid_continue x = true).
    { destruct Hx as [<-|Hx]; [unfold xid_continue; now rewrite I1|]. rewrite forallb_forall in I2. auto. }
    rewrite Forall_forall in As. rewrite ascii_cont; auto.
  - apply (replace_map core []).
Qed.

Lemma headings_names : forall hs ns, Forall2 name_of hs ns -> map heading hs = ns.
Proof. induction 1; simpl; [reflexivity|]. rewrite (heading_name x y) by auto. now rewrite IHForall2. Qed.

(* The names of the columns: LABEL for the label *)
Definition columns (o : opts) (ns : list text) : list text := (if label o then [txt "LABEL"] else []) ++ ns.

Lemma data_keyed : forall o f names l r,
  exists out, data_line o f (Some names) l r = [out] /\ keyed names (labelled o f r) out.
Proof.
  intros. unfold data_line, keyed, labelled. set (row := (if label o then [CFile f] else []) ++ map CText r).
  rewrite app_length, repeat_length. destruct (Nat.leb_spec (length row) (length names)).
  - replace (length row + (length names - length row)) with (length names) by lia. rewrite Nat.eqb_refl. eauto.
  - rewrite (proj2 (Nat.eqb_neq _ _)) by lia. eauto.
Qed.

Arguments data_line : simpl never.

(* With headings, whose names are acceptable: each other line gives one output, keyed by
   the names. *)
Theorem c37_headings_partial : forall o f hs ns rows l0 ls t,
  headings o = true -> delim o <> QUOTE ->
  content (l0 :: ls) t -> row_line (delim o) hs l0 -> Forall2 (row_line (delim o)) rows ls ->
  Forall (fun l => ~ blank l) (l0 :: ls) ->
  Forall2 name_of hs ns -> good_names (columns o ns) ->
  Forall2 (fun r => keyed (columns o ns) (labelled o f r)) rows (read_csv o [(f, t)]).
Proof.
  intros o f hs ns rows l0 ls t H D C R0 R B N G. inv B. unfold read_csv. simpl. rewrite (csv_file_lines _ _ _ _ _ C).
  simpl. rewrite csv_next_line by auto. rewrite H. simpl orb. cbv iota. simpl andb. cbv iota.
  rewrite (c37_fields _ _ _ D R0). unfold extract_headings. rewrite (headings_names _ _ N). fold (columns o ns).
  rewrite (good_names_ok _ G). rewrite loop_data by auto. simpl. rewrite app_nil_r.
  clear C R0 H2. induction R as [|r l rows ls Rl R IH]; simpl; [constructor|]. inv H3.
  destruct (data_keyed o f (columns o ns) l (csv_line (delim o) l)) as (out & E & K).
  rewrite E.
  rewrite (c37_fields _ _ _ D Rl) in K. simpl. constructor; auto.
Qed.

(* Text files: every line, blank or not *)
Theorem c37_text : forall f ls t, content ls t -> read_text false [(f, t)] = map Line ls.
Proof.
  intros f ls t C. unfold read_text, text_file. simpl. rewrite app_nil_r.
  rewrite <- (map_map rstrip_ends Line). now rewrite (content_lines _ _ C).
Qed.
Theorem c37_text_labelled : forall f ls t, content ls t -> read_text true [(f, t)] = map (fun l => Row [CFile f; CText l]) ls.
Proof.
  intros f ls t C. unfold read_text, text_file. simpl. rewrite app_nil_r.
  rewrite <- (map_map rstrip_ends (fun l => Row [CFile f; CText l])). now rewrite (content_lines _ _ C).
Qed.
Theorem c37_text_files : forall lab a b, read_text lab (a ++ b) = read_text lab a ++ read_text lab b.
Proof. intros. unfold read_text. apply flat_map_app. Qed.

(* Several CSV files without headings: one after the other *)
Theorem c37_files : forall o a b, headings o = false -> read_csv o (a ++ b) = read_csv o a ++ read_csv o b.
Proof.
  intros o a b H. unfold read_csv.
  assert (K : forall ls f first st, snd (loop o f first st ls) = st).
  { induction ls as [|l ls IH]; intros; simpl; [reflexivity|]. destruct (csv_next (delim o) l); [|reflexivity].
    rewrite H. simpl. specialize (IH f false st). destruct (first && skip_headings o); destruct (loop o f false st ls); auto. }
  assert (K' : forall fc st, snd (csv_file o st fc) = st).
  { intros. unfold csv_file. rewrite loop_ok. apply K. }
  induction a as [|fc a IH]; simpl; [reflexivity|]. specialize (K' fc None).
  destruct (csv_file o None fc) as [os st]. simpl in K'. subst. now rewrite IH, app_assoc.
Qed.

(* ------------------------------------------------------------------ *)
(* Examples and refutations *)

Definition comma : ascii := ","%char.
Definition plain_opts := mkopts comma false false false.
Definition headed := mkopts comma true false false.
Definition nl : text := [LF].
Definition q : text := [QUOTE].

(* a,"b,""c" and x,y *)
Definition file1 : text := txt "a," ++ q ++ txt "b," ++ q ++ q ++ txt "c" ++ q ++ nl ++ txt "x,y" ++ nl.
Example file1_rows : read_csv plain_opts [(0, file1)] =
  [Row [CText (txt "a"); CText (txt "b," ++ q ++ txt "c")]; Row [CText (txt "x"); CText (txt "y")]].
Proof. reflexivity. Qed.
Example row1 : row_line comma [txt "a"; txt "b," ++ q ++ txt "c"] (txt "a," ++ q ++ txt "b," ++ q ++ q ++ txt "c" ++ q).
Proof.
  apply (row_more comma (txt "a") (txt "a") [txt "b," ++ q ++ txt "c"]).
  - constructor; [simpl; intros [|[]]; discriminate|discriminate].
  - constructor. apply (quoted comma (txt "b," ++ q ++ txt "c")).
Qed.
Example headed_rows : read_csv headed [(0, txt " first name ,b" ++ nl ++ txt "1" ++ nl ++ txt "1,2" ++ nl ++ txt "1,2,3")] =
  [Named [txt "first_name"; txt "b"] [CText (txt "1"); CNone];
   Named [txt "first_name"; txt "b"] [CText (txt "1"); CText (txt "2")]; Error (txt "1,2,3")].
Proof. reflexivity. Qed.
Example headed_names : Forall2 name_of [txt " first name "; txt "b"] [txt "first_name"; txt "b"] /\
  good_names [txt "first_name"; txt "b"].
Proof.
  split.
  - constructor; [|constructor; [|constructor]].
    + exists (txt " "), (txt "first name"), (txt " "). repeat split; try reflexivity.
      * simpl. intros c H. inv H. reflexivity.
      * simpl. intros c H. inv H. reflexivity.
      * repeat constructor; simpl; compute; lia.
    + exists [], (txt "b"), []. repeat split; try reflexivity.
      * simpl. intros c H. inv H. reflexivity.
      * simpl. intros c H. inv H. reflexivity.
      * repeat constructor; simpl; compute; lia.
  - split.
    + repeat constructor; try (simpl; eexists; eexists; split; reflexivity);
        intros H; apply existsb_In in H; vm_compute in H; discriminate.
    + repeat constructor; simpl; intuition discriminate.
Qed.

(* An empty line ends the file: the rows after it are silently ignored. *)
Theorem c37_blank_refuted : forall o f ls1 ls2 t t1,
  content (ls1 ++ [] :: ls2) t -> content ls1 t1 -> read_csv o [(f, t)] = read_csv o [(f, t1)].
Proof.
  intros o f ls1 ls2 t t1 C C1. unfold read_csv. simpl. rewrite (csv_file_lines _ _ _ _ _ C), (csv_file_lines _ _ _ _ _ C1).
  assert (G : forall first st, loop o f first st (ls1 ++ [] :: ls2) = loop o f first st ls1).
  { clear. induction ls1 as [|l ls IH]; intros; simpl; [reflexivity|]. destruct (csv_next (delim o) l); [|reflexivity].
    destruct (first && (headings o || skip_headings o)); [destruct (headings o); [destruct (namedtuple_ok _)|]|]; now rewrite IH. }
  now rewrite G.
Qed.
Example blank_example : read_csv plain_opts [(0, txt "a,b" ++ nl ++ nl ++ txt "c,d" ++ nl)] = [Row [CText (txt "a"); CText (txt "b")]].
Proof. reflexivity. Qed.

(* If the headings of a file cannot be used, its rows are keyed by those of the file before. *)
Theorem c37_stale_headings_refuted :
  read_csv headed [(0, txt "a,b" ++ nl ++ txt "1,2" ++ nl); (1, txt "x,x" ++ nl ++ txt "3,4" ++ nl)] =
  [Named [txt "a"; txt "b"] [CText (txt "1"); CText (txt "2")]; Error (txt "x,x");
   Named [txt "a"; txt "b"] [CText (txt "3"); CText (txt "4")]] /\
  read_csv headed [(1, txt "x,x" ++ nl ++ txt "3,4" ++ nl)] =
  [Error (txt "x,x"); Row [CText (txt "3"); CText (txt "4")]].
Proof. split; reflexivity. Qed.

(* A quoted field that contains a line end is cut there, and its row becomes two. *)
Theorem c37_multiline_refuted :
  read_csv plain_opts [(0, txt "a," ++ q ++ txt "b" ++ nl ++ txt "c" ++ q ++ txt ",d" ++ nl)] =
  [Row [CText (txt "a"); CText (txt "b")]; Row [CText (txt "c" ++ q); CText (txt "d")]].
Proof. reflexivity. Qed.
