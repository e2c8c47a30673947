(** Running the same pipeline object again (C22), and end-of-stream (C04). *)
From Verif.Ops Require Export Builtin.
Set Implicit Arguments.
Local Open Scope list_scope.

(** What a run delivers when the operators are in the states left by earlier runs. *)
Definition run_from (m : machine) (s0 : St m) (src : source) : source :=
  let '(_, o, r) := exec_from m s0 src in (o, r).

(** States an operator object can be in between runs. *)
Inductive between_runs (m : machine) : St m -> Prop :=
| br_new : between_runs m (fresh m)
| br_run : forall s src, between_runs m s -> between_runs m (res_st (exec_from m s src)).

(** setup forgets the past. *)
Definition resets (m : machine) : Prop := forall s, setup m s = setup m (fresh m).

Lemma resets_run m s0 src : resets m -> run_from m s0 src = exec m src.
Proof.
  intros H. unfold run_from, exec, exec_from. rewrite (H s0).
  destruct (setup m (fresh m)) as [s|]; [|reflexivity]. reflexivity.
Qed.

Lemma resets_compose a b : resets a -> resets b -> resets (compose a b).
Proof. intros Ha Hb [s t]. cbn [compose setup fresh fst snd]. now rewrite (Ha s), (Hb t). Qed.

Lemma resets_pipe ms : Forall resets ms -> resets (pipe ms).
Proof. induction 1; [intros []; reflexivity|]. now apply resets_compose. Qed.

(** ** The operators whose setup resets everything *)
Inductive restartable : machine -> Prop :=
| r_map : forall f, restartable (map_op f)
| r_select : forall f, restartable (select_op f)
| r_squish : forall f, restartable (squish_op f)
| r_cast : forall fs, restartable (cast_op fs)
| r_head : forall n, restartable (head_op n)
| r_tail : forall n, restartable (tail_op n)
| r_sort : forall k, restartable (sort_op k)
| r_unique : restartable unique_op
| r_unique_c : restartable unique_consecutive_op
| r_window : forall p o d, restartable (window_op p o d)
| r_red : forall i rs, restartable (red_op i rs)
| r_expand : forall p, restartable (expand_op p)
| r_union : forall ps, restartable (union_op ps)
| r_args : forall a n run, restartable (args_op a n run)
| r_write : forall w, restartable (write_op w)
| r_nested : forall m, restartable (nested m).

Lemma restartable_resets m : restartable m -> resets m.
Proof.
  destruct 1; try (intros []; reflexivity); try (intros s; reflexivity).
  - unfold tail_op. destruct (Z.eqb n 0); [|destruct (Z.ltb 0 n)]; intros s; reflexivity.
  - unfold window_op. destruct p as [p|]; [intros s; reflexivity|].
    destruct o as [z|]; [destruct (Z.eqb z 0)|].
    + destruct d as [z'|]; [destruct (Z.leb 0 z')|]; intros s; reflexivity.
    + destruct (Z.leb 0 z); intros s; reflexivity.
    + destruct d as [z'|]; [destruct (Z.leb 0 z')|]; intros s; reflexivity.
  - unfold red_op. destruct (existsb r_group rs); intros s; reflexivity.
  - destruct p; intros []; reflexivity.
Qed.

(** ** difference, join and filter: one more loader per run *)

(** Rows loaded when the pipeline ends with n loaders. *)
Definition loaded (n : nat) (p : source) : list val := flat_map (loader_rows n) (rows (fst p)).

Lemma loaded_one p : loaded 1 p = arg_rows p.
Proof. unfold loaded, arg_rows. induction (rows (fst p)); simpl; congruence. Qed.

Lemma load_rows_counts xs : hashable_rows xs -> forall d l, table d l ->
  exists d', load_rows add_count xs d = (d', Ok) /\ table d' (l ++ xs).
Proof.
  induction 1 as [|x xs Hx _ IH]; intros d l Ht; simpl.
  - exists d. now rewrite app_nil_r.
  - unfold add_count at 1. rewrite Hx. destruct (IH (bump x d) (l ++ [x])) as (d' & E & Ht').
    + now apply table_bump.
    + exists d'. rewrite <- app_assoc in Ht'. auto.
Qed.

Lemma loader_rows_hashable n x : hashable (VTuple (components x)) = true -> hashable_rows (loader_rows n x).
Proof.
  intros H. destruct n as [|n]; simpl; constructor; auto.
  apply Forall_forall. intros y Hy. apply repeat_spec in Hy. now subst.
Qed.

Lemma load_counts_n n es r : hashable_rows (arg_rows (es, r)) -> forall d l, table d l ->
  exists d', load add_count n es r d = (d', r) /\ table d' (l ++ loaded n (es, r)).
Proof.
  unfold arg_rows, loaded; cbn [fst]. induction es as [|e es IH]; intros H d l Ht.
  - exists d. simpl. now rewrite app_nil_r.
  - destruct e as [x|e|e|]; cbn [load rows map flat_map] in *; try (now apply IH).
    inversion H as [|? ? H1 H2]; subst.
    destruct (@load_rows_counts (loader_rows n (wrap x)) (loader_rows_hashable n (wrap x) H1) d l Ht) as (d1 & E1 & Ht1).
    rewrite E1. destruct (IH H2 d1 _ Ht1) as (d' & E & Ht'). exists d'. rewrite <- app_assoc in Ht'. auto.
Qed.

Lemma difference_run_from p es s0 : open_stream es -> snd p = Ok -> hashable_rows (arg_rows p) ->
  hashable_rows (rows es) ->
  exists out, run_from (difference_op p) s0 (es, Ok) = (out ++ [Flush], Ok) /\
    rows out = keep_by (diff_keep (loaded (S (df_loaders s0)) p)) [] (rows es) /\ errs out = errs es.
Proof.
  intros He Hp Hr Hh. destruct p as [pe pr]. cbn [snd] in Hp. subst pr.
  set (n := S (df_loaders s0)). set (right := loaded n (pe, Ok)).
  exists (answers (fun b x => if diff_keep right b x then [x] else []) [] es). split.
  - unfold run_from, exec_from. cbn [fst snd].
    change (setup (difference_op (pe, Ok)) s0) with (Some (MkDiff n true [])).
    pose (I := fun before s => df_loaders s = n /\
                 if df_first s then before = [] /\ df_right s = [] else dinv right before (df_right s)).
    pose (g := fun b x => if diff_keep right b x then [x] else []).
    pose (recv := fun s x => if df_first s then
                   match load add_count (df_loaders s) pe Ok (df_right s) with
                   | (rt, Ok) => difference_probe x (MkDiff (df_loaders s) false rt)
                   | (rt, r) => (MkDiff (df_loaders s) true rt, [], r)
                   end else difference_probe x s).
    assert (forall before s x, I before s -> hashable x = true ->
      exists s', recv s x = (s', map Data (g before x), Ok) /\ I (before ++ [x]) s') as Hstep.
    { intros before [k fi d] x [Hn HI] Hx. unfold recv, g. cbn [df_loaders df_first df_right fst snd] in *. subst k.
      assert (forall d, dinv right before d -> exists s',
        difference_probe x (MkDiff n false d) = (s', map Data (if diff_keep right before x then [x] else []), Ok) /\
        I (before ++ [x]) s') as Hpr.
      { intros d0 Hd0. destruct (@diff_probe_step right before n d0 x Hx Hd0) as (d' & E & Hd').
        exists (MkDiff n false d'). rewrite E. split; [|split; [reflexivity|exact Hd']].
        destruct (diff_keep right before x); reflexivity. }
      destruct fi; [|apply Hpr; auto]. destruct HI as [-> ->].
      destruct (@load_counts_n n pe Ok Hr [] [] table_nil) as (d' & E & Hd & Hc & Hpos). rewrite E.
      apply Hpr. split; auto. split; auto. intros k. rewrite Hc, count_nil. simpl. fold right. lia. }
    destruct (@feed_answers difference_st (MkDiff 0 false []) (fun s => Some (MkDiff (S (df_loaders s)) true []))
                recv (@default_flush _) I _ g Hstep es [] (MkDiff n true []) He Hh) as (s' & E & _).
    { split; [reflexivity|]. cbn. auto. }
    change (mk_op (MkDiff 0 false []) (fun s => Some (MkDiff (S (df_loaders s)) true [])) recv (@default_flush _))
      with (difference_op (pe, Ok)) in E.
    rewrite E. reflexivity.
  - rewrite rows_answers_keep, errs_answers. auto.
Qed.

Lemma count_loaded x n p : py_eq x (VTuple [VNone]) = false -> n > 0 -> count x (loaded n p) = count x (arg_rows p).
Proof.
  intros Hx Hn. destruct n as [|n]; [lia|]. unfold loaded, arg_rows.
  induction (rows (fst p)) as [|y l IH]; [reflexivity|]. cbn [flat_map map loader_rows].
  change (VTuple (components y) :: map (fun x => VTuple (components x)) l)
    with ([VTuple (components y)] ++ map (fun x => VTuple (components x)) l).
  change ((VTuple (components y) :: repeat (VTuple [VNone]) n) ++ flat_map (loader_rows (S n)) l)
    with ([VTuple (components y)] ++ repeat (VTuple [VNone]) n ++ flat_map (loader_rows (S n)) l).
  rewrite !count_app, IH. f_equal.
  assert (count x (repeat (VTuple [VNone]) n) = 0) as ->; [|reflexivity].
  unfold count. clear - Hx. induction n as [|n IHn]; [reflexivity|]. cbn [repeat filter]. rewrite Hx. exact IHn.
Qed.

Lemma keep_by_ext p q l : forall before, (forall b x, In x l -> p b x = q b x) -> keep_by p before l = keep_by q before l.
Proof.
  induction l as [|x l IH]; intros before H; simpl; auto.
  rewrite (H before x) by (left; auto). rewrite (IH (before ++ [x])) by (intros; apply H; right; auto). reflexivity.
Qed.

Lemma difference_rerun p es s0 : open_stream es -> snd p = Ok -> hashable_rows (arg_rows p) ->
  hashable_rows (rows es) -> Forall (fun x => py_eq x (VTuple [VNone]) = false) (rows es) ->
  exists out, run_from (difference_op p) s0 (es, Ok) = (out ++ [Flush], Ok) /\
    rows out = keep_by (diff_keep (arg_rows p)) [] (rows es) /\ errs out = errs es.
Proof.
  intros He Hp Hr Hh Hn. destruct (@difference_run_from p es s0 He Hp Hr Hh) as (out & E & H1 & H2).
  exists out. split; [exact E|]. split; [|exact H2]. rewrite H1. apply keep_by_ext.
  intros b x Hx. unfold diff_keep. rewrite count_loaded; [reflexivity| |lia].
  rewrite Forall_forall in Hn. auto.
Qed.

(** ** End-of-stream *)

(** Told of the end of the stream once, the operator tells its receiver once, after everything else. *)
Definition flush_once (m : machine) : Prop :=
  orderly m /\ forall s s' o, step m s Flush = (s', o, Ok) -> exists o', o = o' ++ [Flush] /\ open_stream o'.

Lemma flush_once_feed m : flush_once m -> forall es s s' o, open_stream es ->
  feed m s (es ++ [Flush]) = (s', o, Ok) -> exists o', o = o' ++ [Flush] /\ open_stream o'.
Proof.
  intros [Ho Hf] es s s' o He. rewrite feed_app.
  pose proof (@orderly_feed_noflush m Ho es s He) as H1.
  destruct (feed m s es) as [[s1 o1] r1]. unfold res_out in H1; simpl in H1.
  destruct r1; try discriminate. cbn [feed]. unfold deliver. cbn [as_input].
  destruct (step m s1 Flush) as [[s2 o2] r2] eqn:E2. cbn [caught]. destruct r2; try discriminate.
  intros [= <- <-]. destruct (Hf s1 s2 o2 E2) as (o' & -> & H2).
  exists (o1 ++ o'). split; [now rewrite app_nil_r, app_assoc|].
  unfold open_stream in *. rewrite forallb_app. apply andb_true_intro. split; [apply H1 | exact H2].
Qed.

Lemma flush_once_compose a b : flush_once a -> flush_once b -> flush_once (compose a b).
Proof.
  intros [Ha Fa] Hb. split; [apply orderly_seq; auto; apply Hb|].
  intros [s t] s' o. cbn [compose step fst snd].
  destruct (step a s Flush) as [[s1 o1] r1] eqn:E1.
  destruct (feed b t o1) as [[t2 o2] r2] eqn:E2.
  destruct r2; try discriminate. destruct r1; try discriminate. cbn [first_raise]. intros [= _ <-].
  destruct (Fa s s1 o1 E1) as (o1' & -> & Ho1).
  eapply flush_once_feed; eauto.
Qed.

Lemma flush_once_wire : flush_once wire.
Proof. split; [apply orderly_wire|]. intros s s' o [= _ <-]. exists []. split; reflexivity. Qed.

Lemma flush_once_pipe ms : Forall flush_once ms -> flush_once (pipe ms).
Proof. induction 1; [apply flush_once_wire|]. now apply flush_once_compose. Qed.

(** The operators that behave so. *)
Inductive tells_once : machine -> Prop :=
| o_map : forall f, tells_once (map_op f)
| o_select : forall f, tells_once (select_op f)
| o_squish : forall f, tells_once (squish_op f)
| o_cast : forall fs, tells_once (cast_op fs)
| o_head : forall n, tells_once (head_op n)
| o_tail_skip : forall n, (n < 0)%Z -> tells_once (tail_op n)
| o_reverse : tells_once reverse_op
| o_sort : forall k, tells_once (sort_op k)
| o_unique : tells_once unique_op
| o_unique_c : tells_once unique_consecutive_op
| o_window_p : forall p, tells_once (window_pred_op p)
| o_window_d : forall n, tells_once (window_disjoint n)
| o_red : forall i rs, tells_once (red_op i rs)
| o_expand : forall p, tells_once (expand_op p)
| o_difference : forall p, tells_once (difference_op p)
| o_intersect : forall ps, tells_once (intersect_op ps)
| o_join : forall k p, tells_once (join_op k p)
| o_filter : forall c d p, tells_once (filter_op c d p)
| o_case : forall preds ms d, tells_once (case_op preds ms d)
| o_write : forall w, tells_once (write_op w).

Lemma tells_once_flush_once m : tells_once m -> flush_once m.
Proof.
  intros H. split.
  - destruct H; try (apply builtin_orderly; constructor; fail).
    + change (window_pred_op p) with (window_op (Some p) None None). apply builtin_orderly. constructor.
    + destruct (Z.leb_spec 0 (Z.of_nat n)) as [Hn|]; [|lia].
      pose proof (builtin_orderly (b_window None None (Some (Z.of_nat n)))) as H.
      unfold window_op in H. destruct (Z.leb_spec 0 (Z.of_nat n)); [|lia]. now rewrite Nat2Z.id in H.
  - destruct H; try (intros s s' o [= _ <-]; exists []; split; reflexivity).
    + unfold tail_op. destruct (Z.eqb_spec n 0); [lia|]. destruct (Z.ltb_spec 0 n); [lia|].
      intros s s' o [= _ <-]. exists []. split; reflexivity.
    + intros [c|] s' o [= _ <-]; [|exists []; split; reflexivity].
      exists (map Data (rev c)). split; [reflexivity|]. apply map_Data_not_flush.
    + intros [c|] s' o; cbn [sort_op mk_op step]; [|intros [= _ <-]; exists []; split; reflexivity].
      destruct (match k with Some f => sort_keys f c | None => inl (map (fun x => (x, x)) c) end) as [ps|e]; [|discriminate].
      destruct (sort_pairs [] ps) as [ps'|]; [|discriminate]. intros [= _ <-].
      exists (map (fun p => Data (snd p)) ps'). split; [reflexivity|].
      unfold open_stream. clear. induction ps'; simpl; auto.
    + intros w s' o [= _ <-]. exists (flush_window w). split; [reflexivity|]. apply flush_window_not_flush.
    + intros w s' o; cbn [window_disjoint mk_op step]. destruct w as [|y w].
      * intros [= _ <-]. exists []. split; reflexivity.
      * intros [= _ <-]. exists [Data (VTuple (pad_to n (y :: w)))]. split; reflexivity.
    + unfold red_op. destruct (existsb r_group rs); intros s s' o; cbn [red_grouping red_plain mk_op step];
        (destruct i; [intros [= _ <-]; exists []; split; reflexivity|]).
      * destruct s as [[|q d]|].
        -- intros [= _ <-]. exists []; split; reflexivity.
        -- intros [= _ <-]. exists (map (fun p => Data (VTuple (snd p))) (q :: d)). split; [reflexivity|].
           unfold open_stream. generalize (q :: d). intros l. induction l; simpl; auto.
        -- intros [= _ <-]. exists []; split; reflexivity.
      * destruct s as [acc|]; intros [= _ <-]; [exists [Data (VTuple acc)]|exists []]; split; reflexivity.
    + destruct p; intros s s' o [= _ <-]; exists []; split; reflexivity.
    + intros s s' o. cbn [case_op mk_op step].
      destruct (case_flush ms (snd s)) as [[l o1] r1] eqn:E. destruct r1; try discriminate. intros [= _ <-].
      exists o1. split; [reflexivity|]. clear - E.
      assert (forall ms (s : states ms), open_stream (res_out (case_flush ms s))) as H.
      { clear. intros ms. induction ms as [|m ms IH]; intros s; [reflexivity|]. cbn [case_flush].
        destruct (feed m (fst s) [Flush]) as [[s1 o1] r1]. destruct r1; try apply redirect_open.
        specialize (IH (snd s)). destruct (case_flush ms (snd s)) as [[s2 o2] r2].
        unfold res_out, open_stream in *; simpl in *. rewrite forallb_app, IH.
        pose proof (redirect_open o1) as H. unfold open_stream in H. now rewrite H. }
      specialize (H ms (snd s)). rewrite E in H. exact H.
Qed.

Lemma tells_once_pipe ms es o : Forall tells_once ms -> open_stream es ->
  exec (pipe ms) (es, Ok) = (o, Ok) -> exists o', o = o' ++ [Flush] /\ open_stream o'.
Proof.
  intros Hms He. rewrite exec_through. unfold through.
  destruct (setup (pipe ms) (fresh (pipe ms))) as [s|]; [|discriminate].
  destruct (feed (pipe ms) s (es ++ [Flush])) as [[s' o'] r] eqn:E. intros [= <- ->].
  eapply flush_once_feed; eauto. apply flush_once_pipe.
  eapply Forall_impl; [|exact Hms]. apply tells_once_flush_once.
Qed.

(** ** Errors pass through *)
Lemma transparent_errs m : error_transparent m -> forall es s s' o, open_stream es ->
  feed m s es = (s', o, Ok) -> sublist (errs es) (errs o).
Proof.
  intros Hm. induction es as [|e es IH]; intros s s' o He.
  - intros [= _ <-]. constructor.
  - apply open_cons in He; destruct He as [He Hes].
    cbn [feed]. unfold deliver. destruct e as [x|e|e|]; try discriminate; cbn [as_input].
    + destruct (step m s (Data (wrap x))) as [[s1 o1] r1].
      destruct (caught (Data x) r1); try discriminate.
      destruct (feed m s1 es) as [[s2 o2] r2] eqn:E. intros [= _ <- ->]. cbn [errs]. rewrite errs_app.
      pose proof (IH _ _ _ Hes E) as H. clear - H. induction (errs o1); simpl; auto. now apply sub_skip.
    + rewrite Hm. cbn [caught]. destruct (feed m s es) as [[s2 o2] r2] eqn:E. intros [= _ <- ->]. cbn [app errs].
      apply sub_take. eapply IH; eauto.
    + rewrite Hm. cbn [caught]. destruct (feed m s es) as [[s2 o2] r2] eqn:E. intros [= _ <- ->]. cbn [app errs].
      apply sub_take. eapply IH; eauto.
Qed.

Lemma sublist_app_r (A : Type) (a b c : list A) : sublist a b -> sublist a (b ++ c).
Proof.
  induction 1 as [|x a b H IH|x a b H IH]; simpl.
  - induction c; constructor; auto.
  - now apply sub_skip.
  - now apply sub_take.
Qed.

Lemma transparent_exec_errs m es o : error_transparent m -> open_stream es ->
  exec m (es, Ok) = (o, Ok) -> sublist (errs es) (errs o).
Proof.
  intros Hm He. rewrite exec_through. unfold through. destruct (setup m (fresh m)) as [s|]; [|discriminate].
  rewrite feed_app. destruct (feed m s es) as [[s1 o1] r1] eqn:E. destruct r1; try discriminate.
  destruct (feed m s1 [Flush]) as [[s2 o2] r2]. intros [= <- ->]. rewrite errs_app.
  apply sublist_app_r. eapply transparent_errs; eauto.
Qed.
