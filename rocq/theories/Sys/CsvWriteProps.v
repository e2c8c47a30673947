(* C49: what write writes to a file, read reads back. *)
From Coq Require Import Ascii String List Bool Arith Lia.
From Verif.Sys Require Import Csv CsvSpec CsvProps CsvWrite.
Import ListNotations.
Local Open Scope list_scope.

(* ---- specification ---- *)

(* What reading back a component gives: text; None comes back as an empty field *)
Definition reads_back (f : field) (t : text) : Prop :=
  match f with FStr s | FNumber s | FOther s => t = s | FNone => t = [] | FRaises => False end.
(* The component cannot be converted to text *)
Definition broken (row : list field) : Prop := In FRaises row.
(* No component has a line end in it *)
Definition flat (row : list field) : Prop := Forall (fun f => forall t, reads_back f t -> one_line t) row.
(* Every line of the content of the file has its end *)
Definition complete (t : text) : Prop := t = [] \/ exists u, t = u ++ [LF] \/ t = u ++ [CR].

(* A delimiter as write uses *)
Definition delimiter (d : ascii) : Prop := d <> QUOTE /\ d <> LF /\ d <> CR.

(* ---- proof ---- *)

Lemma double_quotes_doubled : forall t, double_quotes t = doubled t.
Proof.
  induction t as [|c t IH]; simpl; auto. unfold is. destruct (Ascii.eqb_spec c QUOTE) as [->|]; now rewrite IH.
Qed.
Lemma one_line_doubled : forall t, one_line t -> one_line (doubled t).
Proof.
  induction t as [|c t IH]; simpl; auto. intros O. apply one_line_cons in O as (A & B & O).
  destruct (Ascii.eqb_spec c QUOTE).
  - apply one_line_cons. split; [discriminate|]. split; [discriminate|]. apply one_line_cons. split; [discriminate|]. split; [discriminate|]. auto.
  - apply one_line_cons. auto.
Qed.
Lemma one_line_app : forall a b, one_line a -> one_line b -> one_line (a ++ b).
Proof. intros a b (A & B) (C & D). split; intros H; apply in_app_or in H; tauto. Qed.

Lemma join_append_written : forall d t q, written d t (join_append d t q) /\ (one_line t -> one_line (join_append d t q)).
Proof.
  intros d t q. unfold join_append. destruct (q || existsb (fun c => is c d || is c QUOTE) t) eqn:E.
  - rewrite double_quotes_doubled. split; [constructor|]. intros O.
    change (QUOTE :: doubled t ++ [QUOTE]) with ([QUOTE] ++ doubled t ++ [QUOTE]).
    assert (Q : one_line [QUOTE]) by (split; intros [H|[]]; discriminate). repeat apply one_line_app; auto. now apply one_line_doubled.
  - apply orb_false_iff in E as (_ & E). split; auto. constructor.
    + intros I. assert (existsb (fun c => is c d || is c QUOTE) t = true); [|congruence].
      apply existsb_exists. exists d. split; auto. now rewrite is_refl.
    + intros H. destruct t as [|c t]; [discriminate|]. injection H as ->. cbn [existsb] in E. rewrite is_refl, orb_true_r in E. discriminate.
Qed.

Lemma csv_chars_reads : forall f t, reads_back f t <-> csv_chars f = Some t.
Proof. intros [s|s| |s|] t; cbn [reads_back csv_chars str_of]; split; intros H; try (now destruct H); try congruence; try (injection H as <-; reflexivity). Qed.
Lemma csv_chars_some : forall f, f <> FRaises -> exists t, csv_chars f = Some t.
Proof. intros [s|s| |s|] H; simpl; eauto. congruence. Qed.

Lemma csv_join_false : forall d row, ~ broken row -> flat row -> row <> [] -> d <> LF -> d <> CR ->
  exists ts l, Forall2 reads_back row ts /\ csv_join d false row = Some (d :: l) /\ row_line d ts l /\ one_line l.
Proof.
  intros d. induction row as [|f row IH]; intros B F N L C; [congruence|]. clear N.
  assert (f <> FRaises) as NR by (intros ->; apply B; now left).
  destruct (csv_chars_some f NR) as (t & T). inversion F as [|? ? F1 F2]; subst.
  pose proof (F1 t (proj2 (csv_chars_reads f t) T)) as O.
  pose proof (join_append_written d t (csv_quoted f)) as (W & OW).
  destruct row as [|g row].
  - exists [t], (join_append d t (csv_quoted f)). cbn [csv_join]. rewrite T. split; [|split; [|split]].
    + constructor; [now apply csv_chars_reads|constructor].
    + cbn. now rewrite app_nil_r.
    + now constructor.
    + auto.
  - destruct IH as (ts & l & A1 & A2 & A3 & A4); auto; try congruence.
    { intros H. apply B. now right. }
    exists (t :: ts), (join_append d t (csv_quoted f) ++ d :: l). split; [|split; [|split]].
    + constructor; auto. now apply csv_chars_reads.
    + remember (g :: row) as row' eqn:R. cbn [csv_join]. rewrite T, A2. reflexivity.
    + now constructor.
    + apply one_line_app; auto. now apply one_line_cons.
Qed.

Lemma csv_row_line : forall d row, ~ broken row -> flat row -> row <> [] -> d <> LF -> d <> CR ->
  exists ts l, Forall2 reads_back row ts /\ csv_row d row = Some l /\ row_line d ts l /\ one_line l /\ l <> [].
Proof.
  intros d row B F N L C. destruct (csv_join_false d row B F N L C) as (ts & l & A1 & A2 & A3 & A4).
  assert (J : csv_join d true row = Some l).
  { destruct row as [|f row]; [congruence|]. cbn [csv_join] in *. destruct (csv_chars f); [|discriminate].
    destruct (csv_join d false row); [|discriminate]. cbn in *. congruence. }
  unfold csv_row. rewrite J. destruct l as [|c l].
  - exists ts, [QUOTE; QUOTE]. split; auto. split; [destruct row; [congruence|reflexivity]|].
    split; [|split; [|discriminate]].
    + inversion A3 as [f w W|f w fs l W R]; subst.
      * inversion W; subst. constructor. change [QUOTE; QUOTE] with (QUOTE :: doubled [] ++ [QUOTE]). constructor.
      * match goal with H : ?w ++ _ :: _ = [] |- _ => destruct w; discriminate end.
    + split; intros [H|[H|[]]]; discriminate.
  - exists ts, (c :: l). repeat split; auto; try discriminate; apply A4.
Qed.

Lemma csv_row_broken : forall d row, broken row -> csv_row d row = None.
Proof.
  intros d row B. unfold csv_row. assert (J : forall first, csv_join d first row = None).
  { unfold broken in B. induction row as [|f row IH]; intros first; [destruct B|]. cbn [csv_join]. destruct B as [->|B]; [reflexivity|].
    rewrite (IH B). now destruct (csv_chars f). }
  now rewrite J.
Qed.

(* Adding lines to a file whose lines are complete *)
Lemma content_app : forall ls t, content ls t -> complete t -> forall ls' t', content ls' t' -> (forall r, t' <> LF :: r) ->
  content (ls ++ ls') (t ++ t').
Proof.
  induction 1 as [|l O N|l e ls t O E C IH Q]; intros K ls' t' C' NL.
  - exact C'.
  - exfalso. destruct K as [->|(u & [->| ->])]; [congruence| |].
    + apply (proj1 O). apply in_or_app. right. now left.
    + apply (proj2 O). apply in_or_app. right. now left.
  - rewrite <- !app_assoc. cbn [app]. constructor; auto.
    + apply IH; auto. destruct K as [K|(u & K)].
      * destruct l; [destruct E as [->|[->| ->]]|]; discriminate.
      * destruct t as [|c t]; [now left|]. right. rewrite app_assoc in K.
        assert (X : c :: t <> []) by discriminate. destruct (exists_last X) as (v & z & Y). rewrite Y in K |- *. exists v.
        rewrite app_assoc in K. destruct K as [K|K]; apply app_inj_tail in K as (_ & ->); auto.
    + intros X r. specialize (Q X). destruct t; cbn; [apply NL|]. intros Y. injection Y as -> _. eapply Q. reflexivity.
Qed.

Lemma added_content : forall line rows ls,
  Forall2 (fun r l => line r = Some l /\ one_line l) rows ls -> content ls (added line rows).
Proof.
  intros line rows ls F. induction F as [|r l rows ls (E & O) F IH]; [constructor|].
  unfold added. cbn [flat_map]. rewrite E. unfold print_line. rewrite <- app_assoc. apply content_more; auto.
  - now left.
  - discriminate.
Qed.
(* The rows that can be written, of those given *)
Inductive survivors : list (list field) -> list (list text) -> Prop :=
| survivors_nil : survivors [] []
| survivors_broken : forall r rows out, broken r -> survivors rows out -> survivors (r :: rows) out
| survivors_row : forall r ts rows out, r <> [] -> flat r -> Forall2 reads_back r ts -> survivors rows out ->
    survivors (r :: rows) (ts :: out).

Lemma reads_back_not_broken : forall r ts, Forall2 reads_back r ts -> ~ broken r.
Proof. intros r ts F. unfold broken. induction F as [|f t r ts A F IH]; [intros []|]. intros [->|H]; auto. Qed.
Lemma reads_back_unique : forall r ts ts', Forall2 reads_back r ts -> Forall2 reads_back r ts' -> ts = ts'.
Proof.
  intros r ts ts' F. revert ts'. induction F as [|f t r ts A F IH]; intros ts' G; inversion G as [|? t' ? ? A' G']; subst; auto.
  f_equal; auto. apply csv_chars_reads in A, A'. congruence.
Qed.

Lemma survivors_lines_then : forall d rows out ls2 t2, delimiter d -> survivors rows out -> content ls2 t2 ->
  exists ls, content (ls ++ ls2) (added (csv_row d) rows ++ t2) /\ content ls (added (csv_row d) rows) /\
    Forall2 (row_line d) out ls /\ Forall (fun l => l <> [] /\ one_line l) ls.
Proof.
  intros d rows out ls2 t2 (D1 & D2 & D3) S C2. induction S as [|r rows out B S IH|r ts rows out N F R S IH].
  - exists []. repeat split; try constructor. exact C2.
  - destruct IH as (ls & A). exists ls. unfold added. cbn [flat_map]. now rewrite csv_row_broken.
  - destruct IH as (ls & A0 & A & A2 & A3).
    destruct (csv_row_line d r (reads_back_not_broken _ _ R) F N D2 D3) as (ts' & l & B1 & B2 & B3 & B4 & B5).
    assert (ts' = ts) as -> by (eapply reads_back_unique; eauto).
    exists (l :: ls). unfold added. cbn [flat_map]. rewrite B2. unfold print_line. fold (added (csv_row d) rows).
    split; [|split; [|split; auto]].
    + rewrite <- !app_assoc. cbn [app]. apply (content_more l [LF]); auto; [now left|discriminate].
    + rewrite <- app_assoc. apply content_more; auto; [now left|discriminate].
Qed.
Lemma survivors_lines : forall d rows out, delimiter d -> survivors rows out ->
  exists ls, content ls (added (csv_row d) rows) /\ Forall2 (row_line d) out ls /\ Forall (fun l => l <> [] /\ one_line l) ls.
Proof.
  intros d rows out D S. destruct (survivors_lines_then d rows out [] [] D S content_none) as (ls & _ & A). eauto.
Qed.

Lemma content_first : forall ls t, content ls t -> Forall (fun l => l <> [] /\ one_line l) ls -> forall r, t <> LF :: r.
Proof.
  intros ls t C F r. destruct C as [|l O N|l e ls t O E C Q]; [discriminate| |].
  - destruct l as [|c l]; [congruence|]. intros X. injection X as -> _. apply (proj1 O). now left.
  - inversion F as [|? ? (N & _) _]; subst. destruct l as [|c l]; [congruence|]. cbn. intros X. injection X as -> _. apply (proj1 O). now left.
Qed.

(* write --csv (or --tsv) and then read --csv (or --tsv): every tuple comes back, its components as text, in order. Tuples with a
   component that cannot be written are skipped (and reported: C44). *)
Theorem c49_csv_partial : forall d old rows out f, delimiter d -> survivors rows out ->
  read_csv (mkopts d false false false) [(f, write_file false (csv_row d) old rows)] = map (fun r => Row (map CText r)) out.
Proof.
  intros d old rows out f D S. destruct (survivors_lines d rows out D S) as (ls & A & B & C).
  unfold write_file. cbn [app]. rewrite (c37_rows_partial (mkopts d false false false) f out ls); auto.
  - apply D.
  - eapply Forall_impl; [|exact C]. intros l (H & _). exact H.
Qed.
Print Assumptions c49_csv_partial.

(* write --append: the tuples that were in the file, and then those that were added. *)
Theorem c49_append_partial : forall d old ls rows out f, delimiter d -> survivors rows out ->
  content ls old -> complete old -> Forall (fun l => ~ blank l) ls ->
  read_csv (mkopts d false false false) [(f, write_file true (csv_row d) old rows)] =
  read_csv (mkopts d false false false) [(f, old)] ++ map (fun r => Row (map CText r)) out.
Proof.
  intros d old ls rows out f D S CO K NB. destruct (survivors_lines d rows out D S) as (ls' & A & B & C).
  unfold write_file. cbv iota.
  pose proof (content_app _ _ CO K _ _ A (content_first _ _ A C)) as CC.
  rewrite (c37_every_content (mkopts d false false false) f _ _ eq_refl eq_refl CC).
  rewrite (c37_every_content (mkopts d false false false) f _ _ eq_refl eq_refl CO).
  assert (NB' : Forall (fun l => ~ blank l) ls') by (eapply Forall_impl; [|exact C]; intros l (H & _); exact H).
  assert (BB : forall l, Forall (fun l => ~ blank l) l -> before_blank l = l).
  { induction 1 as [|x l H F IH]; auto. destruct x; [now contradiction H|]. cbn. now rewrite IH. }
  rewrite !BB; [|auto|apply Forall_app; auto]. rewrite map_app. f_equal.
  cbn [delim]. rewrite <- (map_map (csv_line d) (fun r => Row (labelled (mkopts d false false false) f r))).
  f_equal. apply (map_forall2 _ _ (row_line d)); auto. intros x y H. apply c37_fields; auto. apply D.
Qed.
Print Assumptions c49_append_partial.

(* Without formatting options, 1-tuples come back as the lines of the file. *)
Theorem c49_text_partial : forall tuple_str old fs ts f,
  Forall2 (fun g t => str_of g = Some t /\ one_line t) fs ts ->
  read_text false [(f, write_file false (default_line tuple_str) old (map (fun g => [g]) fs))] = map Line ts.
Proof.
  intros tuple_str old fs ts f F. apply c37_text. unfold write_file. cbn [app]. apply added_content.
  induction F as [|g t fs ts H F IH]; constructor; auto.
Qed.
Print Assumptions c49_text_partial.

(* A component whose text cannot be had costs only its own line. *)
Theorem c49_text_failures : forall line rows r1 r2, line r1 = None -> 
  added line (rows ++ r1 :: r2) = added line (rows ++ r2).
Proof. intros line rows r1 r2 H. unfold added. rewrite !flat_map_app. cbn [flat_map]. now rewrite H. Qed.

(* An empty tuple makes read stop: what was written after it is lost. *)
Theorem c49_empty_tuple_refuted : forall d old a b out f, delimiter d -> survivors a out ->
  read_csv (mkopts d false false false) [(f, write_file false (csv_row d) old (a ++ [] :: b))] =
  map (fun r => Row (map CText r)) out.
Proof.
  intros d old a b out f D S. rewrite <- (c49_csv_partial d old a out f D S). unfold write_file. cbn [app].
  unfold added at 1. rewrite flat_map_app. fold (added (csv_row d) a). cbn [flat_map csv_row csv_join]. unfold print_line. cbn [app].
  set (rest := flat_map _ b).
  destruct (c37_content_exists rest) as (ls2 & C2).
  assert (X : content ([] :: ls2) (LF :: rest)).
  { apply (content_more [] [LF] ls2 rest); auto; [split; intros []|now left|discriminate]. }
  destruct (survivors_lines_then d a out _ _ D S X) as (ls & A & A1 & _).
  eapply c37_blank_refuted; eauto.
Qed.
Print Assumptions c49_empty_tuple_refuted.

(* Only tuples: the definition with items is the one used above. *)
Lemma items_tuples : forall line el rows, receive_items line el (map ITuple rows) = (added line rows, false).
Proof. intros line el rows. induction rows as [|r rows IH]; [reflexivity|]. cbn [map receive_items]. now rewrite IH. Qed.

(* The tuples of the items up to the first error sent with non_fatal_error *)
Fixpoint tuples_before (items : list item) : list (list field) :=
  match items with
  | [] => []
  | ITuple r :: items => r :: tuples_before items
  | IError true _ :: items => tuples_before items
  | IError false _ :: _ => []
  end.

(* With --csv, errors leave no trace in the file; the first one sent with non_fatal_error kills the
   command, and whatever would have followed it is not written. *)
Theorem c49_csv_errors_refuted : forall d items,
  receive_items (csv_row d) csv_error_line items =
  (added (csv_row d) (tuples_before items), existsb (fun i => match i with IError false _ => true | _ => false end) items).
Proof.
  intros d items. induction items as [|[r|[] e] items IH]; [reflexivity| | |reflexivity]; cbn [receive_items csv_error_line tuples_before existsb orb].
  - rewrite IH. reflexivity.
  - exact IH.
Qed.
Print Assumptions c49_csv_errors_refuted.

(* What an item is to the writer without options: one line, or nothing if it cannot be printed. *)
Definition item_line (tuple_str : list field -> option text) (i : item) : option text :=
  match i with ITuple r => default_line tuple_str r | IError _ e => Some e end.
(* Without options, errors are lines among the others, and the command goes on. *)
Theorem c49_text_errors : forall tuple_str items ls f,
  Forall2 (fun i l => item_line tuple_str i = Some l /\ one_line l) items ls ->
  snd (receive_items (default_line tuple_str) default_error_line items) = false /\
  read_text false [(f, fst (receive_items (default_line tuple_str) default_error_line items))] = map Line ls.
Proof.
  intros tuple_str items ls f F.
  assert (H : snd (receive_items (default_line tuple_str) default_error_line items) = false /\
     content ls (fst (receive_items (default_line tuple_str) default_error_line items))).
  { induction F as [|i l items ls (E & O) F (IH1 & IH2)]; [repeat constructor|].
    destruct i as [r|b e]; cbn [receive_items item_line default_error_line] in *.
    - destruct (receive_items _ _ items) as (t, k). rewrite E. cbn [fst snd] in *. split; auto.
      unfold print_line. rewrite <- app_assoc. apply content_more; auto; [now left|discriminate].
    - injection E as ->. destruct (receive_items _ _ items) as (t, k). cbn [fst snd] in *. split; auto.
      unfold print_line. rewrite <- app_assoc. apply content_more; auto; [now left|discriminate]. }
  destruct H as (H1 & H2). split; auto. now apply c37_text.
Qed.
Print Assumptions c49_text_errors.

(* ---- examples ---- *)
Example c49_csv_example : forall f,
  read_csv (mkopts COMMA false false false)
    [(f, write_file false (csv_row COMMA) (txt "old")
       [[FStr (txt "a,b"); FNumber (txt "12"); FNone]; [FStr (txt "x"); FRaises]; [FStr []]; [FStr [QUOTE]; FOther (txt "None")]])] =
  map (fun r => Row (map CText r)) [[txt "a,b"; txt "12"; []]; [[]]; [[QUOTE]; txt "None"]].
Proof.
  intros f. apply c49_csv_partial.
  - repeat split; discriminate.
  - assert (FL : forall f t, csv_chars f = Some t -> one_line t -> (forall u, reads_back f u -> one_line u)).
    { intros g t E O u R. apply csv_chars_reads in R. congruence. }
    assert (O : forall t, (forallb (fun c => negb (Ascii.eqb c LF || Ascii.eqb c CR)) t = true) -> one_line t).
    { intros t H. rewrite forallb_forall in H. split; intros I; apply H in I; rewrite Ascii.eqb_refl in I; cbn in I; try discriminate; rewrite ?orb_true_r in I; discriminate. }
    apply survivors_row; [discriminate| | |].
    { repeat (apply Forall_cons; [eapply FL; [reflexivity|]; apply O; reflexivity|]). apply Forall_nil. }
    { repeat constructor. }
    apply survivors_broken; [right; now left|].
    apply survivors_row; [discriminate| | |].
    { repeat (apply Forall_cons; [eapply FL; [reflexivity|]; apply O; reflexivity|]). apply Forall_nil. }
    { repeat constructor. }
    apply survivors_row; [discriminate| | |].
    { repeat (apply Forall_cons; [eapply FL; [reflexivity|]; apply O; reflexivity|]). apply Forall_nil. }
    { repeat constructor. }
    constructor.
Qed.
(* the line written for the first tuple *)
Example c49_line_example : csv_row COMMA [FStr (txt "a,b"); FNumber (txt "12"); FNone] =
  Some (QUOTE :: txt "a,b" ++ QUOTE :: txt ",12," ++ [QUOTE; QUOTE]).
Proof. reflexivity. Qed.

(* How a tuple is written: text between quotes (which are doubled inside), numbers without: so that what reads the
   file can tell the text 12 from the number. *)
Definition doubled (t : text) : text := flat_map (fun c => if Ascii.ascii_dec c QUOTE then [QUOTE; QUOTE] else [c]) t.
Definition cell (d : ascii) (f : field) (c : text) : Prop :=
  match f with
  | FStr s | FOther s => c = QUOTE :: doubled s ++ [QUOTE]
  | FNone => c = [QUOTE; QUOTE]
  | FNumber s => s <> [] -> (forall x, In x s -> x <> d /\ x <> QUOTE) -> c = s
  | FRaises => False
  end.
Fixpoint separated (d : ascii) (cells : list text) : text :=
  match cells with [] => [] | [c] => c | c :: r => c ++ d :: separated d r end.

Lemma double_doubled : forall t, double_quotes t = doubled t.
Proof.
  induction t as [|c t IH]; [reflexivity|]. cbn [double_quotes doubled flat_map]. unfold is. destruct (Ascii.ascii_dec c QUOTE) as [->|N].
  - change (Ascii.eqb QUOTE QUOTE) with true. cbv iota. cbn [app]. now rewrite IH.
  - apply Ascii.eqb_neq in N. rewrite N. cbn [app]. now rewrite IH.
Qed.
Lemma join_append_cell : forall d f t, csv_chars f = Some t -> cell d f (join_append d t (csv_quoted f)).
Proof.
  intros d [s|s| |s|] t E; inversion E; subst; cbn [cell csv_quoted]; unfold join_append; cbn [orb]; try (now rewrite double_doubled).
  intros N H. replace (existsb _ t) with false; [reflexivity|]. symmetry. apply Bool.not_true_is_false. intros X. apply existsb_exists in X.
  destruct X as (x & I & X). apply H in I. destruct I as (A & B). unfold is in X. apply Ascii.eqb_neq in A, B. now rewrite A, B in X.
Qed.
Lemma csv_join_cells : forall d row first t, csv_join d first row = Some t ->
  exists cells, Forall2 (cell d) row cells /\ t = (match cells with [] => [] | _ => if first then [] else [d] end) ++ separated d cells.
Proof.
  intros d. induction row as [|f row IH]; intros first t E; cbn [csv_join] in E.
  - inversion E; subst. exists []. split; [constructor|reflexivity].
  - destruct (csv_chars f) as [x|] eqn:Cf; [|discriminate]. destruct (csv_join d false row) as [r|] eqn:R; [|discriminate]. inversion E; subst.
    destruct (IH false r R) as (cells & F & ->). exists (join_append d x (csv_quoted f) :: cells). split; [constructor; auto using join_append_cell|].
    f_equal. destruct cells; [cbn; now rewrite app_nil_r|]. reflexivity.
Qed.
Theorem c49_quoting : forall d row t, row <> [] -> csv_row d row = Some t ->
  exists cells, Forall2 (cell d) row cells /\ t = separated d cells.
Proof.
  intros d row t N E. unfold csv_row in E. destruct (csv_join d true row) as [x|] eqn:J; [|discriminate].
  destruct (csv_join_cells _ _ _ _ J) as (cells & F & X).
  destruct x as [|c x].
  - destruct row as [|f row]; [easy|]. inversion E; subst. inversion F as [|? c0 ? cs C0 F']; subst. cbn in X. destruct cs as [|c1 cs].
    + cbn in X. subst c0. destruct f as [s|s| |s|]; cbn in C0; try easy. exists [[QUOTE; QUOTE]]. split; [|reflexivity].
      inversion F'; subst. constructor; [|constructor]. intros NS H. specialize (C0 NS H). now subst s.
    + destruct c0; discriminate.
  - inversion E; subst. exists cells. split; auto. rewrite X. destruct cells; reflexivity.
Qed.
Print Assumptions c49_quoting.
