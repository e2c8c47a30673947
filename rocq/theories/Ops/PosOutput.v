(** C78: what a pipeline puts out, if its functions use pos(). *)
From Verif.Ops Require Export PosFacts.
Local Open Scope Z_scope.
Local Open Scope list_scope.

(** What a program sends, the state it ends in and whether it ended normally, if pos() is q throughout *)
Fixpoint eff (p : prog) (q : option Z) : list item * list val :=
  match p with
  | Ret s => ([], s)
  | Raise s => ([E], s)
  | Ask f => eff (f q) q
  | Send x p => let (l, s) := eff p q in (D x :: l, s)
  end.

(** An operator on a stream, having received n tuples, in state s *)
Fixpoint out1 (b : behaviour) (n : Z) (s : list val) (l : list item) : list item :=
  match l with
  | [] => fst (eff (on_flush b s) None)
  | E :: l => E :: out1 b n s l
  | D x :: l => let (sent, s) := eff (on_input b s (wrap x)) (Some n) in sent ++ out1 b (n + 1) s l
  end.

Definition ids (l : list (nat * stage)) : list nat := map fst l.

Fixpoint comp (l : list (nat * stage)) (w : world) (items : list item) : list item :=
  match l with
  | [] => items
  | (i, s) :: l => comp l w (out1 (behaves s) (count w i + 1) (fields w i) items)
  end.

Definition same_at (w w' : world) (j : nat) : Prop := count w' j = count w j /\ fields w' j = fields w j.

Lemma comp_ext : forall l w w', (forall j, In j (ids l) -> same_at w w' j) -> forall items, comp l w' items = comp l w items.
Proof.
  induction l as [ | [i s] l IH]; intros w w' H items; [reflexivity | ]. cbn.
  destruct (H i (or_introl eq_refl)) as [-> ->]. apply IH. intros j J. apply H. now right.
Qed.
Lemma comp_error : forall l w items, comp l w (E :: items) = E :: comp l w items.
Proof. induction l as [ | [i s] l IH]; intros w items; [reflexivity | ]. cbn. apply IH. Qed.

Lemma seen_app : forall a b, seen (a ++ b) = seen a ++ seen b.
Proof. intros. unfold seen. apply flat_map_app. Qed.

(** What is true of a receiver that stands for the operators l *)
Definition does_it (l : list (nat * stage)) (k : receiver) : Prop :=
  forall x w, exists t, trace (k x w) = trace w ++ t /\
    (forall rest, comp l w (D x :: rest) = seen t ++ comp l (k x w) rest) /\
    (forall j, ~ In j (ids l) -> same_at w (k x w) j).

Lemma same_trans : forall w w' w'' j, same_at w w' j -> same_at w' w'' j -> same_at w w'' j.
Proof. intros w w' w'' j [A B] [C D]. split; congruence. Qed.

Lemma same_keep : forall i s w j, j <> i -> same_at w (keep i s w) j.
Proof. intros i s w j N. split; [reflexivity | ]. cbn. unfold set. destruct (Nat.eqb_spec j i); [contradiction | reflexivity]. Qed.

Lemma does_perform : forall l k i, does_it l k -> ~ In i (ids l) ->
  forall p, early p -> forall w q, (current w = Some i -> q = pos w) -> (silent p \/ current w = Some i) ->
  exists t, trace (fst (perform i p k w)) = trace w ++ t /\
    (forall rest, comp l w (fst (eff p q) ++ rest) = seen t ++ comp l (fst (perform i p k w)) rest) /\
    (forall j, ~ In j (i :: ids l) -> same_at w (fst (perform i p k w)) j) /\
    count (fst (perform i p k w)) i = count w i /\ fields (fst (perform i p k w)) i = snd (eff p q).
Proof.
  intros l k i K NI.
  assert (KEEP : forall s w rest, comp l (keep i s w) rest = comp l w rest).
  { intros. apply comp_ext. intros j J. apply same_keep. intros ->. contradiction. }
  assert (SIL : forall p, silent p -> forall w q,
    exists t, trace (fst (perform i p k w)) = trace w ++ t /\
    (forall rest, comp l w (fst (eff p q) ++ rest) = seen t ++ comp l (fst (perform i p k w)) rest) /\
    (forall j, ~ In j (i :: ids l) -> same_at w (fst (perform i p k w)) j) /\
    count (fst (perform i p k w)) i = count w i /\ fields (fst (perform i p k w)) i = snd (eff p q)).
  { induction 1 as [s | s | x p S IH]; intros w q; cbn [perform fst eff].
    - exists []. split; [cbn; now rewrite app_nil_r | ]. split; [intros rest; cbn [app seen flat_map]; now rewrite KEEP | ].
      split; [intros j J; apply same_keep; intros ->; apply J; now left | ]. split; [reflexivity | ]. cbn. unfold set. now rewrite Nat.eqb_refl.
    - exists [Failed i]. split; [reflexivity | ]. split.
      { intros rest. cbn [app]. rewrite comp_error. cbn [seen flat_map app]. f_equal.
        rewrite <- (KEEP s). apply comp_ext. intros j _. split; reflexivity. }
      split; [intros j J; apply (same_keep i s w j); intros ->; apply J; now left | ]. split; [reflexivity | ]. cbn. unfold set. now rewrite Nat.eqb_refl.
    - destruct (K x w) as (t & T & C & F). destruct (IH (k x w) q) as (t' & T' & C' & F' & N' & S').
      exists (t ++ t'). split; [now rewrite T', T, app_assoc | ].
      destruct (eff p q) as [sent s] eqn:Q. cbn [fst snd] in *. split; [ | split; [ | split]].
      + intros rest. cbn [app]. rewrite C, C', seen_app, app_assoc. reflexivity.
      + intros j J. eapply same_trans; [apply F; intros I; apply J; now right | now apply F'].
      + rewrite N'. now apply F.
      + exact S'. }
  induction 1 as [p S | f _ IH]; intros w q Q SC; [now apply SIL | ].
  destruct SC as [SC | SC]; [inversion SC | ]. cbn [perform eff]. rewrite (Q SC).
  destruct (IH (pos w) (note (Called i (pos w)) w) (pos w)) as (t & T & C & F & N & S); [reflexivity | right; exact SC | ].
  exists (Called i (pos w) :: t). split; [rewrite T; cbn; now rewrite <- app_assoc | ]. split; [ | split; [ | split]].
  - intros rest. etransitivity; [ | exact (C rest)]. symmetry. apply comp_ext. intros j _. split; reflexivity.
  - intros j J. exact (F j J).
  - exact N.
  - exact S.
Qed.

Lemma behaves_early : forall s, calls_early (behaves s).
Proof. destruct s; cbn [behaves]; auto using map_early, select_early, squish_b_early, window_early, red_b_early. Qed.

Lemma does_receive : forall l, NoDup (ids l) -> does_it l (receive_pipeline (made l) output).
Proof.
  induction l as [ | [i s] l IH]; intros ND x w.
  - exists [Output x]. cbn. repeat split; reflexivity.
  - cbn in ND. inversion ND as [ | i' l' NI ND']; subst. specialize (IH ND'). cbn [made receive_pipeline receive_op].
    set (p := on_input (behaves s) (fields w i) (wrap x)).
    destruct (does_perform l _ i IH NI p (proj1 (behaves_early s) _ _) (enter i x w) (Some (count w i + 1))) as (t & T & C & F & N & S).
    { intros _. unfold pos. cbn. unfold set. now rewrite Nat.eqb_refl. }
    { right. reflexivity. }
    set (w' := fst (perform i p (receive_pipeline (made l) output) (enter i x w))) in *.
    assert (N' : count w' i = count w i + 1) by (rewrite N; cbn; unfold set; now rewrite Nat.eqb_refl).
    exists (Input i x :: t). split; [rewrite T; cbn; now rewrite <- app_assoc | ]. split.
    + intros rest. cbn [comp out1]. fold p. destruct (eff p (Some (count w i + 1))) as [sent s'] eqn:Q. cbn [fst snd] in *.
      rewrite N', S. cbn [seen flat_map app]. etransitivity; [ | exact (C _)]. symmetry. apply comp_ext.
      intros j J. split; [ | reflexivity]. cbn. unfold set. destruct (Nat.eqb_spec j i); [subst; contradiction | reflexivity].
    + intros j J. eapply same_trans; [ | exact (F j J)]. split; [ | reflexivity]. cbn. unfold set.
      destruct (Nat.eqb_spec j i); [subst; destruct J; now left | reflexivity].
Qed.

Fixpoint calm (p : prog) : bool := match p with Ret _ => true | Send _ p => calm p | _ => false end.
Lemma calm_perform : forall i k p w, calm p = true -> snd (perform i p k w) = true.
Proof. intros i k. induction p; intros w C; cbn in *; try discriminate; auto. Qed.
Lemma behaves_calm : forall s st, calm (on_flush (behaves s) st) = true.
Proof. destruct s; cbn; intros st; auto; [destruct st; reflexivity | destruct incremental; reflexivity]. Qed.

Lemma does_flush : forall l, NoDup (ids l) -> forall w, exists t,
  trace (fst (flush_pipeline (made l) output (fun w => (w, true)) w)) = trace w ++ t /\ seen t = comp l w [].
Proof.
  induction l as [ | [i s] l IH]; intros ND w.
  - exists []. cbn. now rewrite app_nil_r.
  - cbn in ND. inversion ND as [ | i' l' NI ND']; subst. specialize (IH ND'). cbn [made flush_pipeline flush_op].
    destruct (does_perform l _ i (does_receive l ND') NI (on_flush (behaves s) (fields w i)) (e_silent _ (proj2 (behaves_early s) _)) w (match current w with Some _ => pos w | None => None end))
      as (t & T & C & _).
    { unfold pos. intros ->. reflexivity. }
    { left. apply behaves_early. }
    pose proof (calm_perform i (receive_pipeline (made l) output) _ w (behaves_calm s (fields w i))) as OK.
    destruct (perform i (on_flush (behaves s) (fields w i)) (receive_pipeline (made l) output) w) as [w1 ok]. cbn in OK, T, C. subst ok.
    destruct (IH w1) as (t' & T' & C'). exists (t ++ t'). split; [now rewrite T', T, app_assoc | ].
    rewrite seen_app, C'. specialize (C []). rewrite app_nil_r in C. rewrite <- C. cbn [comp out1]. f_equal.
    pose proof (proj2 (behaves_early s) (fields w i)) as SI. revert SI. generalize (match current w with Some _ => pos w | None => None end).
    intros q SI. clear -SI. induction SI as [ | | y p _ IHs]; cbn; auto. destruct (eff p q), (eff p None). cbn in *. congruence.
Qed.

Lemma does_give : forall l, NoDup (ids l) -> forall xs w, exists t,
  trace (give_all (receive_pipeline (made l) output) xs w) = trace w ++ t /\
  comp l w (map D xs) = seen t ++ comp l (give_all (receive_pipeline (made l) output) xs w) [].
Proof.
  intros l ND. induction xs as [ | x xs IH]; intros w; cbn [give_all map].
  - exists []. now rewrite app_nil_r.
  - destruct (does_receive l ND x w) as (t & T & C & _). destruct (IH (receive_pipeline (made l) output x w)) as (t' & T' & C').
    exists (t ++ t'). split; [now rewrite T', T, app_assoc | ]. now rewrite C, C', seen_app, app_assoc.
Qed.

(** ** The operators *)
Lemma out_map : forall f s l n, out1 (map_b f) n s l = each (fun n x => result (f (Some n) (components x))) n l.
Proof.
  intros f s. induction l as [ | [x | ] l IH]; intros n; cbn -[components wrap]; [reflexivity | | now rewrite IH].
  destruct (f (Some n) (components (wrap x))); cbn; now rewrite IH.
Qed.
Lemma out_select : forall f s l n, out1 (select_b f) n s l =
  each (fun n x => match f (Some n) (components x) with Some v => if truthy v then [D x] else [] | None => [E] end) n l.
Proof.
  intros f s. induction l as [ | [x | ] l IH]; intros n; cbn -[components wrap]; [reflexivity | | now rewrite IH].
  destruct (f (Some n) (components (wrap x))) as [v | ]; [destruct (truthy v) | ]; cbn; now rewrite IH.
Qed.
Lemma eff_squish : forall f s q xs acc, eff (squish_p f s acc xs) q = (result (fold (fun a y => f q [a; y]) acc xs), s).
Proof.
  intros f s q. induction xs as [ | x xs IH]; intros acc; [reflexivity | ]. cbn. destruct (f q [acc; x]); [apply IH | reflexivity].
Qed.
Lemma out_squish : forall f s l n, out1 (squish_b f) n s l = each (fun n x => result (fold (fun a y => f (Some n) [a; y]) VNone (components x))) n l.
Proof.
  intros f s. induction l as [ | [x | ] l IH]; intros n; cbn -[components wrap squish_p]; [reflexivity | | now rewrite IH].
  rewrite eff_squish. now rewrite IH.
Qed.
Lemma out_window : forall f l n s, out1 (window_b f) n s l = windows f s n l.
Proof.
  intros f. induction l as [ | [x | ] l IH]; intros n s; cbn -[components wrap unwrap_op_output]; [destruct s; reflexivity | | now rewrite IH].
  destruct (f (Some n) (components (wrap x))) as [v | ]; [destruct (truthy v); [destruct s | ] | ]; cbn -[components wrap unwrap_op_output]; now rewrite IH.
Qed.
Lemma eff_red : forall q fs acc xs done k,
  eff (red_p (map (fun f => (f, false)) fs) acc xs done k) q =
  match totals fs q acc xs with (acc', true) => eff (k (done ++ acc')) q | (acc', false) => ([E], done ++ acc') end.
Proof.
  intros q. induction fs as [ | f fs IH]; intros acc xs done k; [cbn; now rewrite app_nil_r | ].
  destruct acc as [ | a acc], xs as [ | x xs]; try (cbn; now rewrite app_nil_r).
  cbn. destruct (f q [a; x]) as [v | ]; [ | reflexivity]. rewrite IH. destruct (totals fs q acc xs) as [acc' []]; now rewrite <- app_assoc.
Qed.
Lemma out_red : forall inc fs l n s, out1 (red_b inc (map (fun f => (f, false)) fs)) n s l = reduced inc fs s n l.
Proof.
  intros inc fs. induction l as [ | [x | ] l IH]; intros n s; cbn -[components wrap red_p Nat.ltb]; [destruct inc; reflexivity | | now rewrite IH].
  rewrite map_length. destruct (length (components (wrap x)) <? length fs)%nat; cbn -[components wrap red_p Nat.ltb]; [now rewrite IH | ].
  rewrite eff_red. destruct (totals fs (Some n) s (components (wrap x))) as [acc []]; cbn -[components wrap]; [destruct inc; cbn -[components wrap] | ]; now rewrite IH.
Qed.

Lemma out_means : forall s l, out1 (behaves s) 0 (init (behaves s)) l = means s l.
Proof.
  destruct s; intros l; cbn [behaves means].
  - apply out_map.
  - apply out_select.
  - apply out_squish.
  - apply out_window.
  - cbn [red_b init]. rewrite map_map. cbn [snd]. apply out_red.
Qed.

Lemma setup_made : forall l w, NoDup (ids l) ->
  (forall j, count (setup_pipeline (made l) w) j = count w j) /\
  (forall j, ~ In j (ids l) -> fields (setup_pipeline (made l) w) j = fields w j) /\
  Forall (fun r => fields (setup_pipeline (made l) w) (fst r) = init (behaves (snd r))) l.
Proof.
  induction l as [ | [i s] l IH]; intros w ND; [repeat split; constructor | ]. cbn in ND. inversion ND as [ | i' l' NI ND']; subst.
  cbn [made setup_pipeline setup_op]. destruct (IH (keep i (init (behaves s)) (note (Setup i) w)) ND') as (C & F & A). split; [exact C | ]. split.
  - intros j J. rewrite F; [ | intros I; apply J; now right]. cbn. unfold set. destruct (Nat.eqb_spec j i); [subst; destruct J; now left | reflexivity].
  - constructor; [ | exact A]. cbn [fst snd]. rewrite F; [ | exact NI]. cbn. unfold set. now rewrite Nat.eqb_refl.
Qed.

Lemma setup_seen : forall l w, seen (trace (setup_pipeline (made l) w)) = seen (trace w).
Proof.
  induction l as [ | [i s] l IH]; intros w; [reflexivity | ]. cbn [made setup_pipeline setup_op]. rewrite IH. cbn. rewrite seen_app. cbn. apply app_nil_r.
Qed.

Lemma comp_means : forall l w, (forall j, count w j = -1) -> Forall (fun r => fields w (fst r) = init (behaves (snd r))) l ->
  forall items, comp l w items = fold_left (fun items s => means s items) (map snd l) items.
Proof.
  induction l as [ | [i s] l IH]; intros w C F items; [reflexivity | ]. inversion F as [ | ? ? FI FL]; subst. cbn in FI.
  cbn [comp map fold_left snd]. rewrite C, FI. change (-1 + 1) with 0. rewrite out_means. now apply IH.
Qed.

(** The first run of a pipeline of operators that have just been made.  Every operator sees the output of the one before it, with the tuples
    numbered from 0: pos() is this number. *)
Theorem c78_output_partial : forall l xs c f, NoDup (map fst l) ->
  seen (trace (run xs (made l) (new_world c f))) = fold_left (fun items s => means s items) (map snd l) (map D xs).
Proof.
  intros l xs c f ND. unfold run.
  destruct (setup_made l (new_world c f) ND) as (C & _ & A). pose proof (setup_seen l (new_world c f)) as SS.
  set (w0 := setup_pipeline (made l) (new_world c f)) in *.
  destruct (does_give l ND xs w0) as (t & T & G).
  set (w1 := give_all (receive_pipeline (made l) output) xs w0) in *.
  destruct (does_flush l ND w1) as (t' & T' & G'). rewrite T', T, !seen_app, SS. cbn [trace new_world seen flat_map app].
  rewrite G', <- G. apply comp_means; assumption.
Qed.
