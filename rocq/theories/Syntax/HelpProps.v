(** C59: formatting help. *)
From Coq Require Import Lia.
From Verif.Syntax Require Import HelpSpec HelpFacts1 HelpFacts2 HelpFacts3 HelpFacts4 ScriptsProps.
Local Open Scope char_scope.
Local Open Scope list_scope.

Definition tail_blocks (ps : list (pmark * list piece)) : list block :=
  match ps with [] => [] | (m, b') :: r => BPara (pformat_of m) :: blocks_of (after_markup (is_nil r) b') r end.
Lemma blocks_of_eq : forall b ps, blocks_of b ps = (match b with [] => [] | _ => [BText (write b)] end) ++ tail_blocks ps.
Proof. intros b [|[m b'] r]; reflexivity. Qed.

Lemma bodies_ok_body : forall ps b, bodies_ok b ps -> Forall piece_ok b.
Proof. intros [|[m b'] r] b H; destruct H; auto. Qed.
Lemma bodies_ok_next : forall m b' r b, bodies_ok b ((m, b') :: r) -> bodies_ok b' r.
Proof. intros m b' r b (_ & _ & _ & H). exact H. Qed.

Lemma add_tail : forall ps b done p, bodies_ok b ps ->
  add_blocks done p (tail_blocks ps) = (done ++ [p]) ++ map para_of (part_paragraphs ps).
Proof.
  induction ps as [|[m b'] r IH]; intros b done p O; cbn [tail_blocks part_paragraphs].
  - cbn. now rewrite app_nil_r.
  - apply bodies_ok_next in O. cbn [add_blocks]. rewrite blocks_of_eq.
    change (match r with [] => true | _ :: _ => false end) with (is_nil r).
    pose proof (after_markup_ok (is_nil r) b' (bodies_ok_body _ _ O)) as F. destruct (after_markup (is_nil r) b') as [|x xs] eqn:E.
    + cbn [app]. rewrite (IH b') by auto. rewrite map_app, <- !app_assoc. reflexivity.
    + cbn [app add_blocks]. destruct (body_ok (x :: xs) (pformat_of m) (done ++ [p]) F) as (d' & p' & -> & Q). rewrite (IH b') by auto.
      now rewrite Q, map_app, <- !app_assoc.
Qed.
Lemma make_ok : forall d, bodies_ok (lead d) (parts d) -> make_paragraphs (blocks_of (lead d) (parts d)) = map para_of (paragraphs d).
Proof.
  intros [l ps] O. cbn [lead parts] in *. rewrite blocks_of_eq. unfold paragraphs. cbn [lead parts]. destruct l as [|x xs].
  - cbn [app]. destruct ps as [|[m b'] r]; [reflexivity|]. cbn [tail_blocks make_paragraphs part_paragraphs].
    rewrite blocks_of_eq. apply bodies_ok_next in O. change (match r with [] => true | _ :: _ => false end) with (is_nil r).
    pose proof (after_markup_ok (is_nil r) b' (bodies_ok_body _ _ O)) as F. destruct (after_markup (is_nil r) b') as [|y ys].
    + cbn [app]. rewrite (add_tail _ b') by auto. rewrite map_app. reflexivity.
    + cbn [app add_blocks]. destruct (body_ok (y :: ys) (pformat_of m) [] F) as (d' & p' & -> & Q). rewrite (add_tail _ b') by auto. now rewrite Q, map_app.
  - cbn [app make_paragraphs add_blocks]. destruct (body_ok (x :: xs) default_format [] (bodies_ok_body _ _ O)) as (d' & p' & -> & Q).
    rewrite (add_tail _ (x :: xs)) by auto. now rewrite Q, map_app.
Qed.

Lemma body_good : forall f b, Forall piece_ok b -> Forall (fun p => Forall good (snd p)) (body_paragraphs f b).
Proof.
  intros f b F. unfold body_paragraphs, body_groups. cbv zeta.
  set (ls := if empty_line (last (piece_lines b) []) then removelast (piece_lines b) else piece_lines b).
  assert (G : Forall good ls).
  { pose proof (good_lines b F) as G. unfold ls. destruct (empty_line _); auto. rewrite Forall_forall in *. intros x I. apply G.
    destruct (exists_last (piece_lines_nonempty b)) as (l0 & y & E). rewrite E in *. rewrite removelast_last in I. apply in_or_app. now left. }
  clearbody ls. destruct (group_runs ls) as (C & _).
  assert (GG : Forall (Forall good) (group_lines ls)).
  { apply Forall_forall. intros g I. apply Forall_forall. intros l J. rewrite Forall_forall in G. apply G. rewrite <- C. apply in_concat. eauto. }
  destruct (group_lines ls) as [|g gs]; [constructor; constructor|]. inversion GG; subst. constructor; auto.
  apply Forall_forall. intros p I. apply in_map_iff in I. destruct I as (h & <- & I). rewrite Forall_forall in H2. now apply H2.
Qed.
Lemma parts_good : forall ps b, bodies_ok b ps -> Forall (fun p => Forall good (snd p)) (part_paragraphs ps).
Proof.
  induction ps as [|[m b'] r IH]; intros b O; [constructor|]. apply bodies_ok_next in O. cbn [part_paragraphs]. apply Forall_app. split; [|eauto].
  apply body_good. apply after_markup_ok. eapply bodies_ok_body; eauto.
Qed.
Lemma doc_good : forall d, bodies_ok (lead d) (parts d) -> Forall (fun p => Forall good (snd p)) (paragraphs d).
Proof.
  intros d O. unfold paragraphs. apply Forall_app. split; [|eapply parts_good; eauto]. apply bodies_ok_body in O.
  destruct (lead d) as [|x xs]; [constructor|]. now apply body_good.
Qed.

Lemma seen_join : forall outs, seen (join_segs outs) = join_shown (map seen outs).
Proof.
  induction outs as [|s outs IH]; [reflexivity|]. destruct outs as [|s' outs]; [reflexivity|].
  change (join_segs (s :: s' :: outs)) with (s ++ (None, [newline]) :: join_segs (s' :: outs)).
  change (join_shown (map seen (s :: s' :: outs))) with (seen s ++ (newline, None) :: join_shown (map seen (s' :: outs))).
  rewrite <- IH. unfold seen at 1. rewrite flat_map_app. reflexivity.
Qed.

(** Help is displayed. For every document and every width: formatting ends without an error; what is displayed is the
    paragraphs of the document, in order; and each is displayed as it should be: the text and its colors, wrapped at
    words or not at all, and indented. *)
Theorem c59_displayed_partial : forall columns d, (0 < columns)%nat -> doc_ok d ->
  exists out outs, format_help columns (write_doc d) = HOk out /\ seen out = join_shown outs /\
    Forall2 (displayed columns) (paragraphs d) outs.
Proof.
  intros columns d C (O & E). unfold format_help, write_doc. fold (tail_of (parts d)).
  rewrite find_blocks_ok; cbn; auto. rewrite make_ok by auto. pose proof (doc_good d O) as G.
  assert (H : exists outs, hmap (format_para columns) (map para_of (paragraphs d)) = HOk outs /\ Forall2 (displayed columns) (paragraphs d) (map seen outs)).
  { induction (paragraphs d) as [|[f g] ps IH]; [exists []; split; [reflexivity|constructor]|]. inversion G; subst. cbn [map hmap].
    destruct (paragraph_ok columns f g C) as (out & -> & D); auto. cbn [hbind]. destruct IH as (outs & -> & D'); auto. exists (out :: outs). split; [reflexivity|]. constructor; auto. }
  destruct H as (outs & -> & D). cbn. exists (join_segs outs), (map seen outs). split; auto. split; auto. apply seen_join.
Qed.

(** ** Nothing is lost *)
Lemma ink_empty : forall l, empty_line l = true -> ink (show l) = [].
Proof.
  induction l as [|p l IH]; intros E; [reflexivity|]. cbn [empty_line forallb] in E. apply andb_prop in E. destruct E as (A & B).
  destruct p as [[c|c]|]; try discriminate. cbn [show flat_map show_piece app]. cbn [ink filter fst char_of]. rewrite A. cbn. now apply IH.
Qed.
Lemma ink_flat : forall ls, ink (flat_map show ls) = flat_map (fun l => ink (show l)) ls.
Proof. induction ls as [|l ls IH]; [reflexivity|]. cbn. now rewrite ink_app, IH. Qed.
Lemma ink_show_lines : forall g, ink (show_lines g) = flat_map (fun l => ink (show l)) g.
Proof.
  assert (T : forall l, ink (if empty_line l then [] else show l) = ink (show l)).
  { intros l. destruct (empty_line l) eqn:E; [now rewrite ink_empty|reflexivity]. }
  induction g as [|l g IH]; [reflexivity|]. destruct g as [|l' g].
  - cbn [show_lines flat_map]. rewrite app_nil_r. apply T.
  - change (show_lines (l :: l' :: g)) with ((if empty_line l then [] else show l) ++ (newline, None) :: show_lines (l' :: g)).
    rewrite ink_app, T. cbn [flat_map]. f_equal. exact IH.
Qed.
Lemma ink_piece_lines : forall b, flat_map (fun l => ink (show l)) (piece_lines b) = ink (show b).
Proof.
  induction b as [|p b IH]; [reflexivity|]. cbn [piece_lines]. destruct (match p with Ch (Raw c) => c =? newline | _ => false end) eqn:E.
  - destruct p as [[c|c]|]; try discriminate. apply Ascii.eqb_eq in E. subst c. cbn [flat_map]. rewrite IH. reflexivity.
  - pose proof (piece_lines_nonempty b). destruct (piece_lines b) as [|l ls]; [easy|]. cbn [flat_map] in *.
    cbn [show flat_map]. fold (show l) (show b). rewrite !ink_app, <- IH. now rewrite app_assoc.
Qed.
Lemma ink_body : forall f b, flat_map (fun p => ink (show_lines (snd p))) (body_paragraphs f b) = ink (show b).
Proof.
  intros f b. unfold body_paragraphs, body_groups. cbv zeta.
  set (ls := if empty_line (last (piece_lines b) []) then removelast (piece_lines b) else piece_lines b).
  assert (E : flat_map (fun l => ink (show l)) ls = ink (show b)).
  { rewrite <- ink_piece_lines. unfold ls. destruct (empty_line (last (piece_lines b) [])) eqn:E; auto.
    destruct (exists_last (piece_lines_nonempty b)) as (l0 & y & Q). rewrite Q in *. rewrite last_last in E. rewrite removelast_last, flat_map_app. cbn [flat_map].
    rewrite ink_empty by auto. now rewrite !app_nil_r. }
  rewrite <- E. clear E. clearbody ls. destruct (group_runs ls) as (C & _). rewrite <- C at 2.
  assert (H : forall gs : list (list (list piece)), flat_map (fun g => ink (show_lines g)) gs = flat_map (fun l => ink (show l)) (concat gs)).
  { induction gs as [|g gs IH]; [reflexivity|]. cbn [flat_map concat]. now rewrite IH, flat_map_app, ink_show_lines. }
  rewrite <- H. destruct (group_lines ls) as [|g gs]; [reflexivity|]. cbn [flat_map snd]. f_equal.
  clear. induction gs as [|h gs IH]; [reflexivity|]. cbn [map flat_map snd]. now rewrite IH.
Qed.
Lemma ink_after : forall lst b, ink (show (after_markup lst b)) = ink (show b).
Proof.
  intros lst. induction b as [|p b IH]; [reflexivity|]. cbn [after_markup]. destruct (blank_piece p) eqn:B.
  - assert (E : ink (show (p :: b)) = ink (show b)).
    { destruct p as [x|]; [|discriminate]. cbn in B. apply andb_prop in B. destruct B as (B & _). cbn [show flat_map show_piece app]. cbn [ink filter fst]. now rewrite B. }
    rewrite E. destruct b as [|p' b]; [destruct lst; [exact E|reflexivity]|]. exact IH.
  - destruct p as [[c|c]|]; auto. destruct (c =? newline) eqn:E; auto. apply Ascii.eqb_eq in E. subst c. reflexivity.
Qed.
Lemma ink_doc : forall d, flat_map (fun p => ink (show_lines (snd p))) (paragraphs d) = ink (show_doc d).
Proof.
  intros [l ps]. unfold paragraphs, show_doc. cbn [lead parts]. rewrite flat_map_app, ink_app. f_equal.
  - destruct l as [|x xs]; [reflexivity|]. apply ink_body.
  - induction ps as [|[m b] ps IH]; [reflexivity|]. cbn [part_paragraphs flat_map snd]. rewrite flat_map_app, ink_app, IH. f_equal.
    rewrite ink_body. apply ink_after.
Qed.
Lemma ink_join : forall outs, ink (join_shown outs) = flat_map ink outs.
Proof.
  induction outs as [|s outs IH]; [reflexivity|]. destruct outs as [|s' outs]; [cbn; now rewrite app_nil_r|].
  change (join_shown (s :: s' :: outs)) with (s ++ (newline, None) :: join_shown (s' :: outs)). rewrite ink_app. cbn [flat_map]. f_equal. exact IH.
Qed.

(** All of the text is displayed, in order, and nothing else but whitespace; and every character has the color given by
    the markup. *)
Theorem c59_content_partial : forall columns d, (0 < columns)%nat -> doc_ok d ->
  exists out, format_help columns (write_doc d) = HOk out /\ ink (seen out) = ink (show_doc d).
Proof.
  intros columns d C O. destruct (c59_displayed_partial columns d C O) as (out & outs & E & S & D). exists out. split; auto. rewrite S, ink_join, <- ink_doc. clear E S O.
  induction D as [|[f g] s ps ss (I & _) D IH]; [reflexivity|]. cbn [flat_map snd]. now rewrite I, IH.
Qed.

(** ** An example: two paragraphs and a list item, with a style, an escape and indentation. *)
Definition plain_text (s : string) : list piece := map (fun c => Ch (Raw c)) (txt s).
Definition example_doc : doc :=
  mkdoc (plain_text "Use " ++ Styled ["r"] HRef [Raw "-"; Raw "f"] :: plain_text " and " ++ [Ch (Esc "{"); Ch (Raw newline); Ch (Raw newline)] ++ plain_text "more")
    [(mkpm true true [PIndent2 [2] [1; 0]], plain_text "  item one " ++ Ch (Raw newline) :: plain_text "two three");
     (mkpm false false [PWrapIs false; PIndent [3]], Ch (Raw newline) :: plain_text "a  b" ++ Ch (Raw newline) :: Styled (txt "C103b") (HColor 1 0 3 true false) [Raw "x"; Raw newline; Raw "y"] :: plain_text " ")].
Theorem c59_example :
  doc_ok example_doc /\
  exists out, format_help 16 (write_doc example_doc) = HOk out /\
    plain (seen out) = txt "Use -f and {

more
  item one two
          three
   a  b
   x
   y " /\
    nth_error (seen out) 4 = Some ("-", Some HRef).
Proof.
  split; [|eexists; split; [vm_compute; reflexivity|split; reflexivity]].
  split; [|exact I]. cbn. repeat split; repeat constructor; cbn; try discriminate; try lia; auto.
  apply (code_c "C" 1 0 3 ["b"%char]); cbn; auto; lia.
Qed.

(** ** Where the documents must be as required. A closing brace, or a backslash at the end of a paragraph, is not
    reported: formatting does not end. *)
Theorem c59_stray_brace_refuted : forall columns, (0 < columns)%nat -> format_help columns (txt "use } here") = HLoops.
Proof. intros. reflexivity. Qed.
Theorem c59_backslash_refuted :
  (forall columns, format_help columns (txt "a\") = HLoops) /\
  (forall columns, format_help columns (txt "a\" ++ newline :: newline :: txt "b") = HLoops).
Proof. split; intros; reflexivity. Qed.
(** Markup that ends the text; an escaped backslash before markup; and colors applied to nothing, at the end of a
    paragraph that is not wrapped: errors. *)
Theorem c59_errors_refuted : forall columns, (0 < columns)%nat ->
  format_help columns (txt "a {p}") = HCrash /\
  format_help columns (txt "a\\{p} b") = HInvalid /\
  format_help columns (txt "{p,wrap=F}a{b:} ") = HCrash /\
  format_help columns (txt "{b:a" ++ newline :: newline :: txt "b}") = HInvalid.
Proof. intros. repeat split; reflexivity. Qed.
(** On a terminal said to have no columns (or 1, as a tenth is a margin): an error. *)
Theorem c59_no_columns_refuted : forall t, nonblank t = true -> Forall (fun c => isspace c = false /\ c <> obrace /\ c <> cbrace /\ c <> bslash) t ->
  format_help 0 t = HCrash.
Proof.
  intros t N F. set (d := mkdoc (map (fun c => Ch (Raw c)) t) []).
  assert (W : forall s, write (map (fun c => Ch (Raw c)) s) = s) by (unfold write; induction s as [|c s IH]; cbn; [reflexivity|now rewrite IH]).
  assert (OK : Forall piece_ok (map (fun c => Ch (Raw c)) t)).
  { apply Forall_forall. intros p I. apply in_map_iff in I. destruct I as (c & <- & I). rewrite Forall_forall in F. apply F in I. cbn. tauto. }
  unfold format_help. pose proof (find_blocks_ok [] (lead d) (S (length t)) [] (conj OK I) I I) as B. cbn [tail_of flat_map lead d] in B. rewrite app_nil_r, W in B.
  rewrite B by lia. destruct t as [|c t]; [discriminate|]. cbn [hbind]. pose proof (make_ok d (conj OK I)) as M. unfold d at 1 2 in M. cbn [lead parts] in M. rewrite M. clear M.
  assert (P : exists g gs, paragraphs d = (mkpf 0 0 true, g) :: gs /\ Forall good g).
  { pose proof (doc_good d (conj OK I)) as G. unfold paragraphs, d, body_paragraphs in *. cbn [lead parts map] in *.
    destruct (body_groups _) as [|g gs]; eexists; eexists; (split; [reflexivity|]); inversion G; auto. }
  destruct P as (g & gs & -> & G).
  assert (X : format_para 0 (para_of (mkpf 0 0 true, g)) = HCrash).
  { unfold format_para, para_of. cbn [fst snd p_lines p_format]. rewrite phys_text by auto.
    rewrite remove_markup_ok by (auto using rejoin_ok). reflexivity. }
  cbn [map hmap]. rewrite X. reflexivity.
Qed.
