From Verif.Ops Require Export WindowFacts.
Set Implicit Arguments.
Local Open Scope list_scope.




(** Result of one update on every component. *)
Lemma red_update_ok rs : forall acc xs, length acc = length rs -> length rs <= length xs ->
  (forall i r, nth_error rs i = Some r -> r_fun r [nth i acc VNone; nth i xs VNone] <> None) ->
  exists acc', red_update rs acc xs = (acc', None) /\ length acc' = length rs /\
    forall i r, nth_error rs i = Some r ->
      r_fun r [nth i acc VNone; nth i xs VNone] = Some (nth i acc' VNone).
Proof.
  induction rs as [|r rs IH]; intros [|a acc] xs Ha Hx H; simpl in Ha; try lia.
  - exists []. simpl. repeat split; auto. intros [|i] r; discriminate.
  - destruct xs as [|x xs]; simpl in Hx; [lia|].
    cbn [red_update]. pose proof (H 0 r eq_refl) as H0. cbn [nth] in H0.
    destruct (r_fun r [a; x]) as [a'|] eqn:Er; [|congruence].
    destruct (IH acc xs) as (acc' & E & Hl & Hi); [lia|lia|intros i r' Hr; apply (H (S i) r' Hr)|].
    rewrite E. exists (a' :: acc'). simpl. repeat split; auto.
    intros [|i] r' Hr; simpl in *; [congruence|auto].
Qed.


Lemma folds_step fs acc vs x xs : length acc = length fs -> folds fs acc vs (x :: xs) ->
  (forall i f, nth_error fs i = Some f -> f [nth i acc VNone; nth i (components x) VNone] <> None) /\
  forall acc', (forall i f, nth_error fs i = Some f ->
      f [nth i acc VNone; nth i (components x) VNone] = Some (nth i acc' VNone)) ->
    folds fs acc' vs xs.
Proof.
  intros Hl [Hv H]. split.
  - intros i f Hf. specialize (H i f Hf). unfold column in H. simpl in H.
    destruct (f [nth i acc VNone; nth i (components x) VNone]); congruence.
  - intros acc' Ha. split; auto. intros i f Hf. specialize (H i f Hf). specialize (Ha i f Hf).
    unfold column in H. simpl in H. rewrite Ha in H. exact H.
Qed.

Lemma folds_nil fs acc vs : length acc = length fs -> folds fs acc vs [] -> vs = acc.
Proof.
  intros Hl [Hv H]. apply (nth_ext vs acc VNone VNone); [congruence|].
  intros i Hi. destruct (nth_error fs i) as [f|] eqn:Ef.
  - specialize (H i f Ef). simpl in H. congruence.
  - apply nth_error_None in Ef. lia.
Qed.


Lemma nth_error_map_fun rs i f : nth_error (map r_fun rs) i = Some f ->
  exists r, nth_error rs i = Some r /\ f = r_fun r.
Proof.
  rewrite nth_error_map. destruct (nth_error rs i) as [r|]; simpl; [|discriminate].
  intros [= <-]. eauto.
Qed.

Lemma red_plain_feed rs es acc vs : open_stream es -> length acc = length rs ->
  folds (map r_fun rs) acc vs (filter (long (length rs)) (rows es)) ->
  exists out, feed (red_plain false rs) (Some acc) es = (Some vs, out, Ok) /\
    rows out = [] /\ errs out = red_short_errs (length rs) es.
Proof.
  revert acc; induction es as [|e es IH]; intros acc He Hl Hf.
  - exists []. simpl in *. rewrite (folds_nil (fs := map r_fun rs) (acc := acc) (vs := vs)); auto.
    now rewrite map_length.
  - apply open_cons in He; destruct He as [He Hes].
    destruct e as [x|e|e|]; try discriminate; cbn [feed]; unfold deliver;
      cbn [as_input step red_plain mk_op]; cbn [rows filter] in Hf.
    + unfold red_short_errs; cbn [flat_map]. unfold long in Hf at 1. unfold long at 1.
      destruct (Nat.ltb_spec (length (components (wrap x))) (length rs)) as [Hs|Hs].
      * destruct (Nat.leb_spec (length rs) (length (components (wrap x)))); [lia|].
        destruct (IH acc Hes Hl Hf) as (out & E & H1 & H2).
        exists (Fatal (MkErr "red" (wrap x)) :: out). unfold fatal_error. cbn [caught].
        cbn [St red_plain mk_op] in E. rewrite E. cbn [app rows errs]. repeat split; auto.
        unfold red_short_errs in H2. now rewrite H2.
      * destruct (Nat.leb_spec (length rs) (length (components (wrap x)))); [|lia].
        destruct (folds_step (fs := map r_fun rs) (acc := acc) ltac:(now rewrite map_length) Hf) as [Hok Hnext].
        destruct (@red_update_ok rs acc (components (wrap x)) Hl ltac:(lia)) as (acc' & Eu & Hl' & Hi).
        { intros i r Hr. apply (Hok i (r_fun r)). rewrite nth_error_map, Hr. reflexivity. }
        rewrite Eu. destruct (IH acc' Hes Hl') as (out & E & H1 & H2).
        { apply Hnext. intros i f Hf'. destruct (nth_error_map_fun _ _ Hf') as (r & Hr & ->). auto. }
        exists out. cbn [caught]. cbn [St red_plain mk_op] in E. rewrite E. repeat split; auto.
    + destruct (IH acc Hes Hl Hf) as (out & E & H1 & H2). exists (Err e :: out). cbn [caught].
      cbn [St red_plain mk_op] in E. rewrite E. cbn [app rows errs]. repeat split; auto.
      unfold red_short_errs in *; cbn [flat_map]. now rewrite H2.
    + destruct (IH acc Hes Hl Hf) as (out & E & H1 & H2). exists (Err e :: out). cbn [caught].
      cbn [St red_plain mk_op] in E. rewrite E. cbn [app rows errs]. repeat split; auto.
      unfold red_short_errs in *; cbn [flat_map]. now rewrite H2.
Qed.

Lemma red_plain_exec rs es vs : open_stream es ->
  folds (map r_fun rs) (map red_init rs) vs (filter (long (length rs)) (rows es)) ->
  exists out, exec (red_plain false rs) (es, Ok) = (out ++ [Data (VTuple vs); Flush], Ok) /\
    rows out = [] /\ errs out = red_short_errs (length rs) es.
Proof.
  intros He Hf. rewrite exec_through. unfold through. cbn [setup red_plain mk_op fresh].
  rewrite feed_app.
  destruct (red_plain_feed rs (acc := map red_init rs) He ltac:(now rewrite map_length) Hf) as (out & E & H1 & H2).
  exists out. cbn [St red_plain mk_op] in *. rewrite E. repeat split; auto.
Qed.

(** Incremental: after j+1 tuples the appended components are the folds over these j+1 tuples. *)
Lemma red_incr_feed rs es acc : open_stream es -> length acc = length rs ->
  Forall (fun x => exists xs, x = VTuple xs /\ length rs <= length xs) (rows es) ->
  (exists vs, folds (map r_fun rs) acc vs (rows es)) ->
  exists acc' out vss, feed (red_plain true rs) (Some acc) es = (Some acc', out, Ok) /\
    errs out = errs es /\ length vss = length (rows es) /\
    rows out = map (fun p => VTuple (components (fst p) ++ snd p)) (combine (rows es) vss) /\
    forall j, j < length (rows es) -> folds (map r_fun rs) acc (nth j vss []) (firstn (S j) (rows es)).
Proof.
  revert acc; induction es as [|e es IH]; intros acc He Hl Hx [vs Hf].
  - exists acc, [], []. simpl. do 4 (split; [reflexivity|]). intros j Hj; lia.
  - apply open_cons in He; destruct He as [He Hes].
    destruct e as [x|e|e|]; try discriminate; cbn [feed]; unfold deliver;
      cbn [as_input step red_plain mk_op]; cbn [rows] in *.
    + inversion Hx as [|? ? Hx1 Hx2]; subst. destruct Hx1 as (xs & Exs & Hxs).
      destruct (folds_step (fs := map r_fun rs) (acc := acc) ltac:(now rewrite map_length) Hf) as [Hok Hnext].
      rewrite Exs in *. cbn [components] in *.
      destruct (Nat.ltb_spec (length xs) (length rs)); [lia|].
      destruct (@red_update_ok rs acc xs Hl Hxs) as (acc' & Eu & Hl' & Hi).
      { intros i r Hr. apply (Hok i (r_fun r)). rewrite nth_error_map, Hr. reflexivity. }
      assert (forall i f, nth_error (map r_fun rs) i = Some f ->
                f [nth i acc VNone; nth i xs VNone] = Some (nth i acc' VNone)) as Hi'.
      { intros i f Hf'. destruct (nth_error_map_fun _ _ Hf') as (r & Hr & ->). auto. }
      rewrite Eu. destruct (IH acc' Hes Hl' Hx2) as (acc2 & out & vss & E & H1 & H2 & H3 & H4).
      { exists vs. now apply Hnext. }
      exists acc2, (Data (VTuple (xs ++ acc')) :: out), (acc' :: vss).
      cbn [append_to_row caught]. cbn [St red_plain mk_op] in E. rewrite E. cbn [app errs rows length combine map fst snd components].
      split; [reflexivity|]. split; [auto|]. split; [congruence|]. split; [cbn [wrap]; congruence|].
      intros j Hj. split.
      * destruct j as [|j]; simpl; [rewrite map_length; lia|].
        assert (j < length (rows es)) as Hj' by lia. destruct (H4 j Hj') as [Hlv _]. exact Hlv.
      * intros i f Hf'. change (firstn (S j) (VTuple xs :: rows es)) with (VTuple xs :: firstn j (rows es)).
        unfold column. cbn [map components fold_opt]. rewrite (Hi' i f Hf').
        destruct j as [|j]; [reflexivity|]. cbn [nth].
        assert (j < length (rows es)) as Hj' by lia. destruct (H4 j Hj') as [_ H5]. apply (H5 i f Hf').
    + destruct (IH acc Hes Hl Hx (ex_intro _ vs Hf)) as (acc2 & out & vss & E & H1 & H2 & H3 & H4).
      exists acc2, (Err e :: out), vss. cbn [caught]. cbn [St red_plain mk_op] in E. rewrite E.
      cbn [app errs rows]. repeat split; auto; try congruence; apply H4; auto.
    + destruct (IH acc Hes Hl Hx (ex_intro _ vs Hf)) as (acc2 & out & vss & E & H1 & H2 & H3 & H4).
      exists acc2, (Err e :: out), vss. cbn [caught]. cbn [St red_plain mk_op] in E. rewrite E.
      cbn [app errs rows]. repeat split; auto; try congruence; apply H4; auto.
Qed.

Lemma red_incr_exec rs es : open_stream es ->
  Forall (fun x => exists xs, x = VTuple xs /\ length rs <= length xs) (rows es) ->
  (exists vs, folds (map r_fun rs) (map red_init rs) vs (rows es)) ->
  exists out vss, exec (red_plain true rs) (es, Ok) = (out ++ [Flush], Ok) /\
    errs out = errs es /\ length vss = length (rows es) /\
    rows out = map (fun p => VTuple (components (fst p) ++ snd p)) (combine (rows es) vss) /\
    forall j, j < length (rows es) ->
      folds (map r_fun rs) (map red_init rs) (nth j vss []) (firstn (S j) (rows es)).
Proof.
  intros He Hx Hf. rewrite exec_through. unfold through. cbn [setup red_plain mk_op fresh].
  rewrite feed_app.
  destruct (red_incr_feed rs (acc := map red_init rs) He ltac:(now rewrite map_length) Hx Hf)
    as (acc' & out & vss & E & H1 & H2 & H3 & H4).
  exists out, vss. cbn [St red_plain mk_op] in *. rewrite E. repeat split; auto; apply H4; auto.
Qed.

(** ** a single reducer: failing tuples are skipped *)

Lemma red_single_feed r es a : open_stream es ->
  exists out, feed (red_plain false [r]) (Some [a]) es =
      (Some [fold_skip (r_fun r) a (column 0 (filter (long 1) (rows es)))], out, Ok) /\ rows out = [].
Proof.
  revert a; induction es as [|e es IH]; intros a He.
  - exists []. simpl. auto.
  - apply open_cons in He; destruct He as [He Hes].
    destruct e as [x|e|e|]; try discriminate; cbn [feed]; unfold deliver;
      cbn [as_input step red_plain mk_op]; cbn [rows filter].
    + unfold long at 1. cbn [length].
      destruct (components (wrap x)) as [|y ys] eqn:Ec; cbn [length Nat.ltb Nat.leb].
      * destruct (IH a Hes) as (out & E & H). exists (Fatal (MkErr "red" (wrap x)) :: out).
        unfold fatal_error. cbn [caught]. cbn [St red_plain mk_op] in E. rewrite E. auto.
      * cbn [red_update]. unfold column. cbn [map fold_skip]. rewrite Ec. cbn [nth].
        destruct (r_fun r [a; y]) as [a'|] eqn:Er.
        -- destruct (IH a' Hes) as (out & E & H). exists out. cbn [caught].
           cbn [St red_plain mk_op] in E. rewrite E. auto.
        -- destruct (IH a Hes) as (out & E & H).
           exists (Fatal (MkErr "red" (VTuple [a; y])) :: out). unfold fatal_error. cbn [caught].
           cbn [St red_plain mk_op] in E. rewrite E. auto.
    + destruct (IH a Hes) as (out & E & H). exists (Err e :: out). cbn [caught].
      cbn [St red_plain mk_op] in E. rewrite E. auto.
    + destruct (IH a Hes) as (out & E & H). exists (Err e :: out). cbn [caught].
      cbn [St red_plain mk_op] in E. rewrite E. auto.
Qed.

Lemma red_single_exec r es : open_stream es ->
  exists out, exec (red_plain false [r]) (es, Ok) = (out ++ [Flush], Ok) /\
    rows out = [VTuple [fold_skip (r_fun r) (red_init r) (column 0 (filter (long 1) (rows es)))]].
Proof.
  intros He. rewrite exec_through. unfold through. cbn [setup red_plain mk_op fresh map].
  rewrite feed_app. destruct (red_single_feed r (red_init r) He) as (out & E & H).
  cbn [St red_plain mk_op] in *. rewrite E. eexists (out ++ [Data _]). split.
  - rewrite <- app_assoc. reflexivity.
  - rewrite rows_app, H. reflexivity.
Qed.

(** ** grouping *)


Lemma red_group_update_eff rs : forall acc xs,
  red_group_update rs acc xs = red_update (map (fun r => MkRed (eff r) false false) rs) acc xs.
Proof.
  induction rs as [|r rs IH]; intros [|a acc] [|x xs]; cbn [red_group_update red_update map]; auto.
  rewrite IH. cbn [r_fun]. unfold eff. destruct (r_group r); reflexivity.
Qed.

Lemma group_key_eq rs : forall xs,
  select_positions r_group rs xs = map snd (filter (fun p => r_group (fst p)) (combine rs xs)).
Proof.
  induction rs as [|r rs IH]; intros [|x xs]; simpl; auto. destruct (r_group r); simpl; rewrite IH; reflexivity.
Qed.


Lemma nub_snoc l x : nub (l ++ [x]) = nub l ++ (if py_mem x l then [] else [x]).
Proof.
  induction l as [|y l IH]; simpl; auto. rewrite IH. rewrite filter_app. f_equal.
  rewrite py_eq_sym. destruct (py_eq y x) eqn:E.
  - destruct (py_mem x l); simpl; auto. now rewrite E.
  - simpl. destruct (py_mem x l); simpl; auto. now rewrite E.
Qed.

Lemma dget_spec (A : Type) k (d : list (val * A)) :
  match dget k d with
  | Some a => exists k', In (k', a) d /\ py_eq k k' = true
  | None => py_mem k (map fst d) = false
  end.
Proof.
  induction d as [|[k' a] d IH]; simpl; auto.
  destruct (py_eq k k') eqn:E; simpl; [exists k'; auto|].
  destruct (dget k d); simpl; auto. destruct IH as (k'' & H1 & H2). eauto.
Qed.

Lemma dset_keys (A : Type) k (a : A) d :
  map fst (dset k a d) = map fst d ++ (if py_mem k (map fst d) then [] else [k]).
Proof.
  induction d as [|[k' a'] d IH]; simpl; auto.
  destruct (py_eq k k'); simpl; [now rewrite app_nil_r | now rewrite IH].
Qed.

(** Keys pairwise different. *)
Definition keys_distinct (A : Type) (d : list (val * A)) : Prop :=
  NoDup (map (fun p => canon (fst p)) d).

Lemma dset_in (A : Type) k (a : A) d : keys_distinct d -> forall k' a',
  In (k', a') (dset k a d) <->
  (py_eq k k' = false /\ In (k', a') d) \/
  (py_eq k k' = true /\ a' = a /\ (In k' (map fst d) \/ (k' = k /\ py_mem k (map fst d) = false))).
Proof.
  induction d as [|[k0 a0] d IH]; intros Hd k' a'; simpl.
  - split.
    + intros [[= <- <-]|[]]. right. rewrite py_eq_refl. auto.
    + intros [[_ []]|(H & -> & [[]|[-> _]])]. auto.
  - inversion Hd as [|? ? Hn Hd']; subst. cbn [fst] in Hn.
    destruct (py_eq k k0) eqn:E; simpl.
    + split.
      * intros [[= <- <-]|Hin]; [right; rewrite E; auto|].
        left. split; auto. destruct (py_eq k k') eqn:E'; auto. exfalso. apply Hn.
        apply py_eq_canon in E, E'. rewrite <- E, E'. apply in_map_iff. exists (k', a'). auto.
      * intros [[H [[= <- <-]|Hin]]|(H & -> & [[->|Hin]|[-> Hm]])]; auto.
        -- congruence.
        -- exfalso. apply Hn. apply py_eq_canon in E, H. rewrite <- E, H.
           apply in_map_iff in Hin. destruct Hin as ([k1 a1] & <- & Hin). apply in_map_iff.
           exists (k1, a1). auto.
        -- discriminate.
    + rewrite (IH Hd' k' a'). split.
      * intros [[= <- <-]|[[H1 H2]|(H1 & -> & [H2|[-> H2]])]]; auto.
        -- right. auto.
        -- right. auto.
      * intros [[H1 [[= <- <-]|H2]]|(H1 & -> & [[->|H2]|[-> H2]])]; auto.
        -- congruence.
        -- right. right. auto.
        -- right. right. auto.
Qed.

Definition ginv (rs : list reducer) (got : list val) (d : list (val * list val)) : Prop :=
  map fst d = nub (map (group_key rs) got) /\
  forall k acc, In (k, acc) d ->
    folds (map eff rs) (repeat VNone (length rs)) acc (filter (in_group rs k) got).

Lemma nub_nodup l : NoDup (map canon (nub l)).
Proof.
  induction l as [|x l IH]; simpl; [constructor|]. constructor.
  - rewrite in_map_iff. intros (y & Ey & Hin). apply filter_In in Hin. destruct Hin as [_ Hne].
    symmetry in Ey. apply py_eq_canon in Ey. rewrite Ey in Hne. discriminate.
  - clear - IH. induction (nub l) as [|y m IHm]; simpl; [constructor|].
    simpl in IH. inversion IH as [|? ? Hn Hd]; subst.
    destruct (negb (py_eq x y)); simpl; auto. constructor; auto.
    rewrite in_map_iff. intros (z & Ez & Hin). apply filter_In in Hin. apply Hn.
    rewrite <- Ez. apply in_map. apply Hin.
Qed.

Lemma ginv_distinct rs got d : ginv rs got d -> keys_distinct d.
Proof.
  intros [H _]. unfold keys_distinct. rewrite <- (map_map fst canon), H. apply nub_nodup.
Qed.

Lemma fold_opt_app f a l1 l2 :
  fold_opt f a (l1 ++ l2) = match fold_opt f a l1 with Some b => fold_opt f b l2 | None => None end.
Proof. revert a; induction l1 as [|x l1 IH]; intros a; simpl; auto. destruct (f [a; x]); auto. Qed.

Lemma column_app i a b : column i (a ++ b) = column i a ++ column i b.
Proof. apply map_app. Qed.

Lemma repeat_nth (n i : nat) : nth i (repeat VNone n) VNone = VNone.
Proof. revert i; induction n as [|n IH]; intros [|i]; simpl; auto. Qed.

Lemma in_group_cong rs k k' x : py_eq k k' = true -> in_group rs k x = in_group rs k' x.
Proof. intros H. unfold in_group. apply py_eq_cong_l; auto. Qed.


Lemma groups_defined_prefix rs a b : groups_defined rs (a ++ b) -> groups_defined rs a.
Proof.
  intros H x Hx. destruct (H x) as [vs [Hl Hf]]; [apply in_or_app; auto|].
  rewrite filter_app in Hf.
  set (g := fun i => match nth_error (map eff rs) i with
                     | Some f => match fold_opt f VNone (column i (filter (in_group rs (group_key rs x)) a)) with
                                 | Some v => v | None => VNone end
                     | None => VNone end).
  exists (map g (seq 0 (length rs))).
  split; [now rewrite !map_length, seq_length|].
  intros i f Hi. rewrite repeat_nth. specialize (Hf i f Hi). rewrite repeat_nth, column_app, fold_opt_app in Hf.
  assert (i < length rs) as Hlt.
  { rewrite <- (map_length eff rs). apply nth_error_Some. congruence. }
  rewrite (nth_indep (map g (seq 0 (length rs))) VNone (g 0)) by (now rewrite map_length, seq_length).
  rewrite (map_nth g), seq_nth by auto. cbn [Nat.add]. unfold g. rewrite Hi.
  destruct (fold_opt f VNone (column i (filter (in_group rs (group_key rs x)) a))); congruence.
Qed.

Lemma ginv_step rs got d x :
  ginv rs got d -> length rs <= length (components x) ->
  groups_defined rs (got ++ [x]) ->
  exists acc', red_group_update rs
      (match dget (group_key rs x) d with Some a => a | None => repeat VNone (length rs) end)
      (components x) = (acc', None) /\
    ginv rs (got ++ [x]) (dset (group_key rs x) acc' d).
Proof.
  intros Hinv Hlen Hdef. pose proof (ginv_distinct Hinv) as Hdist. destruct Hinv as [Hk Hacc].
  set (k := group_key rs x) in *.
  set (acc := match dget k d with Some a => a | None => repeat VNone (length rs) end).
  assert (folds (map eff rs) (repeat VNone (length rs)) acc (filter (in_group rs k) got)) as Hfold.
  { unfold acc. pose proof (dget_spec k d) as Hg. destruct (dget k d) as [a|].
    - destruct Hg as (k' & Hin & E). rewrite (filter_ext _ (in_group rs k')).
      + now apply Hacc.
      + intros y. now apply in_group_cong.
    - assert (filter (in_group rs k) got = []) as ->.
      { rewrite Hk, py_mem_nub in Hg. clear - Hg. unfold py_mem in Hg.
        induction got as [|y got IH]; simpl in *; auto. apply orb_false_iff in Hg. destruct Hg as [H1 H2].
        unfold in_group at 1. rewrite H1. auto. }
      split; [now rewrite repeat_length, map_length|]. intros; reflexivity. }
  assert (length acc = length rs) as Hla by (destruct Hfold as [H _]; now rewrite map_length in H).
  destruct (Hdef x) as [vs [Hlv Hvs]]; [apply in_or_app; right; left; auto|]. fold k in Hvs.
  assert (filter (in_group rs k) (got ++ [x]) = filter (in_group rs k) got ++ [x]) as Hfx.
  { rewrite filter_app. f_equal. simpl. unfold in_group. fold k. now rewrite py_eq_refl. }
  rewrite Hfx in Hvs.
  rewrite red_group_update_eff.
  destruct (@red_update_ok (map (fun r => MkRed (eff r) false false) rs) acc (components x)) as (acc' & Eu & Hl' & Hi).
  { now rewrite map_length. }
  { now rewrite map_length. }
  { intros i r Hr. rewrite nth_error_map in Hr. destruct (nth_error rs i) as [r0|] eqn:Er; [|discriminate].
    simpl in Hr. injection Hr as <-. cbn [r_fun].
    assert (nth_error (map eff rs) i = Some (eff r0)) as Hf by (rewrite nth_error_map, Er; auto).
    specialize (Hvs i (eff r0) Hf). rewrite column_app, fold_opt_app in Hvs.
    destruct Hfold as [_ Hfold]. rewrite (Hfold i (eff r0) Hf) in Hvs. simpl in Hvs.
    destruct (eff r0 [nth i acc VNone; nth i (components x) VNone]); congruence. }
  exists acc'. split; [exact Eu|]. rewrite map_length in Hl'.
  assert (folds (map eff rs) (repeat VNone (length rs)) acc' (filter (in_group rs k) got ++ [x])) as Hnew.
  { split; [now rewrite map_length|]. intros i f Hf. rewrite column_app, fold_opt_app.
    destruct Hfold as [_ Hfold]. rewrite (Hfold i f Hf). simpl.
    rewrite nth_error_map in Hf. destruct (nth_error rs i) as [r0|] eqn:Er; [|discriminate].
    injection Hf as <-. specialize (Hi i (MkRed (eff r0) false false)). rewrite nth_error_map, Er in Hi.
    specialize (Hi eq_refl). cbn [r_fun] in Hi. now rewrite Hi. }
  split.
  - rewrite dset_keys, map_app. cbn [map]. fold k. rewrite nub_snoc, Hk. now rewrite py_mem_nub.
  - intros k' a' Hin. apply (dset_in k acc' Hdist) in Hin.
    destruct Hin as [[Hne Hin]|(Heq & -> & Hor)].
    + rewrite filter_app. simpl. unfold in_group at 2. fold k. rewrite (py_eq_sym k' k), Hne, app_nil_r.
      now apply Hacc.
    + rewrite (filter_ext _ (in_group rs k)), Hfx; auto.
      intros y. apply in_group_cong. now rewrite py_eq_sym.
Qed.

Lemma red_group_feed rs es : forall got d, open_stream es -> ginv rs got d ->
  Forall (fun x => length rs <= length (components x) /\ hashable (group_key rs x) = true) (rows es) ->
  groups_defined rs (got ++ rows es) ->
  exists d', feed (red_grouping false rs) (Some d) es = (Some d', map Err (errs es), Ok) /\
    ginv rs (got ++ rows es) d'.
Proof.
  induction es as [|e es IH]; intros got d He Hinv Hx Hdef.
  - exists d. simpl. now rewrite app_nil_r.
  - apply open_cons in He; destruct He as [He Hes].
    destruct e as [x|e|e|]; try discriminate; cbn [feed]; unfold deliver;
      cbn [as_input step red_grouping mk_op]; cbn [rows errs map] in *.
    + inversion Hx as [|? ? [Hlen Hhash] Hx']; subst.
      destruct (Nat.ltb_spec (length (components (wrap x))) (length rs)); [lia|].
      rewrite group_key_eq. fold (group_key rs (wrap x)). rewrite Hhash.
      destruct (@ginv_step rs got d (wrap x) Hinv Hlen) as (acc' & Eu & Hinv').
      { apply (groups_defined_prefix (got ++ [wrap x]) (rows es)). now rewrite <- app_assoc. }
      rewrite Eu. destruct (IH (got ++ [wrap x]) _ Hes Hinv' Hx') as (d' & E & Hd').
      { now rewrite <- app_assoc. }
      exists d'. cbn [caught]. cbn [St red_grouping mk_op] in E. rewrite E.
      rewrite <- app_assoc in Hd'. auto.
    + destruct (IH got d Hes Hinv Hx Hdef) as (d' & E & Hd'). exists d'. cbn [caught].
      cbn [St red_grouping mk_op] in E. rewrite E. auto.
    + destruct (IH got d Hes Hinv Hx Hdef) as (d' & E & Hd'). exists d'. cbn [caught].
      cbn [St red_grouping mk_op] in E. rewrite E. auto.
Qed.

Lemma red_group_exec rs es : open_stream es ->
  Forall (fun x => length rs <= length (components x) /\ hashable (group_key rs x) = true) (rows es) ->
  groups_defined rs (rows es) ->
  exists vss, exec (red_grouping false rs) (es, Ok) =
      (map Err (errs es) ++ map (fun vs => Data (VTuple vs)) vss ++ [Flush], Ok) /\
    Forall2 (fun k vs => folds (map eff rs) (repeat VNone (length rs)) vs (filter (in_group rs k) (rows es)))
      (nub (map (group_key rs) (rows es))) vss.
Proof.
  intros He Hx Hdef. rewrite exec_through. unfold through. cbn [setup red_grouping mk_op fresh].
  rewrite feed_app.
  assert (ginv rs [] []) as H0 by (split; [reflexivity|intros ? ? []]).
  destruct (@red_group_feed rs es [] [] He H0 Hx Hdef) as (d & E & [Hk Hacc]).
  cbn [St red_grouping mk_op app] in *. rewrite E. cbn [feed]. unfold deliver.
  cbn [as_input step red_grouping mk_op].
  exists (map snd d). split.
  - destruct d as [|p d]; simpl; auto. rewrite map_map, app_nil_r. reflexivity.
  - rewrite <- Hk. clear - Hacc. induction d as [|[k a] d IH]; simpl; constructor.
    + apply Hacc. now left.
    + apply IH. intros k' a' Hin. apply Hacc. now right.
Qed.

(** Grouping, incremental *)
Definition data_part (rs : list reducer) (vs : list val) : list val :=
  map snd (filter (fun p => negb (r_group (fst p))) (combine rs vs)).

Lemma data_part_eq rs : forall vs, select_positions (fun r => negb (r_group r)) rs vs = data_part rs vs.
Proof.
  unfold data_part. induction rs as [|r rs IH]; intros [|x xs]; simpl; auto. destruct (r_group r); simpl; rewrite IH; reflexivity.
Qed.

Lemma dset_has (A : Type) k (a : A) d : exists k', In (k', a) (dset k a d) /\ py_eq k k' = true.
Proof.
  induction d as [|[k' a'] d (k2 & I & E)]; simpl; [exists k; rewrite py_eq_refl; auto|].
  destruct (py_eq k k') eqn:Q; simpl; eauto.
Qed.

Lemma red_group_incr_feed rs es : forall got d, open_stream es -> ginv rs got d ->
  Forall (fun x => exists xs, x = VTuple xs /\ length rs <= length xs /\ hashable (group_key rs x) = true) (rows es) ->
  groups_defined rs (got ++ rows es) ->
  exists d' out vss, feed (red_grouping true rs) (Some d) es = (Some d', out, Ok) /\
    errs out = errs es /\ length vss = length (rows es) /\
    rows out = map (fun p => VTuple (components (fst p) ++ data_part rs (snd p))) (combine (rows es) vss) /\
    forall j, j < length (rows es) ->
      folds (map eff rs) (repeat VNone (length rs)) (nth j vss [])
        (filter (in_group rs (group_key rs (nth j (rows es) VNone))) (got ++ firstn (S j) (rows es))).
Proof.
  induction es as [|e es IH]; intros got d He Hinv Hx Hdef.
  - exists d, [], []. simpl. do 4 (split; [reflexivity|]). intros j Hj; lia.
  - apply open_cons in He; destruct He as [He Hes].
    destruct e as [x|e|e|]; try discriminate; cbn [feed]; unfold deliver;
      cbn [as_input step red_grouping mk_op]; cbn [rows errs map] in *.
    + inversion Hx as [|? ? (xs & Exs & Hlen & Hhash) Hx']; subst. rewrite Exs in *.
      change (components (VTuple xs)) with xs.
      destruct (Nat.ltb_spec (length xs) (length rs)); [lia|].
      rewrite group_key_eq. change (VTuple (map snd (filter (fun p => r_group (fst p)) (combine rs xs)))) with (group_key rs (VTuple xs)).
      rewrite Hhash.
      destruct (@ginv_step rs got d (VTuple xs) Hinv Hlen) as (acc' & Eu & Hinv').
      { apply (groups_defined_prefix (got ++ [VTuple xs]) (rows es)). now rewrite <- app_assoc. }
      change (components (VTuple xs)) with xs in Eu. rewrite Eu.
      destruct (IH (got ++ [VTuple xs]) _ Hes Hinv' Hx') as (d' & out & vss & E & H1 & H2 & H3 & H4).
      { now rewrite <- app_assoc. }
      exists d', (Data (VTuple (xs ++ data_part rs acc')) :: out), (acc' :: vss).
      cbn [append_to_row caught]. rewrite data_part_eq. cbn [St red_grouping mk_op] in E. rewrite E.
      cbn [app errs rows length combine map fst snd components wrap].
      split; [reflexivity|]. split; [auto|]. split; [congruence|]. split; [congruence|].
      intros [|j] Hj.
      * cbn [nth]. destruct (dset_has (group_key rs (VTuple xs)) acc' d) as (k' & I & Q).
        destruct Hinv' as [_ Hi]. specialize (Hi _ _ I). cbn [firstn].
        rewrite (filter_ext _ (in_group rs k')); [exact Hi|]. intros y. now apply in_group_cong.
      * cbn [nth]. change (firstn (S (S j)) (VTuple xs :: rows es)) with (VTuple xs :: firstn (S j) (rows es)).
        specialize (H4 j ltac:(lia)). rewrite <- app_assoc in H4. exact H4.
    + destruct (IH got d Hes Hinv Hx Hdef) as (d' & out & vss & E & H1 & H2 & H3 & H4). exists d', (Err e :: out), vss. cbn [caught].
      cbn [St red_grouping mk_op] in E. rewrite E. cbn [app errs rows]. repeat split; auto; try congruence; apply H4; auto.
    + destruct (IH got d Hes Hinv Hx Hdef) as (d' & out & vss & E & H1 & H2 & H3 & H4). exists d', (Err e :: out), vss. cbn [caught].
      cbn [St red_grouping mk_op] in E. rewrite E. cbn [app errs rows]. repeat split; auto; try congruence; apply H4; auto.
Qed.

Lemma red_group_incr_exec rs es : open_stream es ->
  Forall (fun x => exists xs, x = VTuple xs /\ length rs <= length xs /\ hashable (group_key rs x) = true) (rows es) ->
  groups_defined rs (rows es) ->
  exists out vss, exec (red_grouping true rs) (es, Ok) = (out ++ [Flush], Ok) /\
    errs out = errs es /\ length vss = length (rows es) /\
    rows out = map (fun p => VTuple (components (fst p) ++ data_part rs (snd p))) (combine (rows es) vss) /\
    forall j, j < length (rows es) ->
      folds (map eff rs) (repeat VNone (length rs)) (nth j vss [])
        (filter (in_group rs (group_key rs (nth j (rows es) VNone))) (firstn (S j) (rows es))).
Proof.
  intros He Hx Hdef. rewrite exec_through. unfold through. cbn [setup red_grouping mk_op fresh].
  rewrite feed_app.
  assert (ginv rs [] []) as H0 by (split; [reflexivity|intros ? ? []]).
  destruct (@red_group_incr_feed rs es [] [] He H0 Hx Hdef) as (d & out & vss & E & H1 & H2 & H3 & H4).
  exists out, vss. cbn [St red_grouping mk_op app] in *. rewrite E. cbn [feed]. unfold deliver.
  cbn [as_input step red_grouping mk_op]. repeat split; auto; apply H4; auto.
Qed.

(** ** expand *)

Lemma expand_all_exec es : open_stream es ->
  exec expand_all_op (es, Ok) =
  (flat_map (fun e => match e with
                      | Data x => map Data (expand_components (components (wrap x)))
                      | Err e | Fatal e => [Err e]
                      | Flush => []
                      end) es ++ [Flush], Ok).
Proof.
  intros He. unfold expand_all_op. rewrite exec_stateless; auto.
  intros x; split; [reflexivity|discriminate].
Qed.

Lemma expand_at_exec p es : (0 <= p)%Z -> open_stream es ->
  exec (expand_at_op p) (es, Ok) =
  (flat_map (fun e => match e with
                      | Data x =>
                        let xs := components (wrap x) in
                        if Z.leb (Z.of_nat (length xs)) p then [Data (wrap x)]
                        else map (fun y => Data (rebuild (wrap x)
                                (firstn (Z.to_nat p) xs ++ [y] ++ skipn (S (Z.to_nat p)) xs)))
                               (expand_components [nth (Z.to_nat p) xs VNone])
                      | Err e | Fatal e => [Err e]
                      | Flush => []
                      end) es ++ [Flush], Ok).
Proof.
  intros Hp He. unfold expand_at_op. rewrite exec_stateless; auto.
  - do 2 f_equal. apply flat_map_ext; intros [x|e|e|]; auto. cbv zeta.
    destruct (Z.leb (Z.of_nat (length (components (wrap x)))) p); [reflexivity|].
    destruct (Z.ltb_spec p 0); [lia|]. reflexivity.
  - intros x; cbv zeta. destruct (Z.leb (Z.of_nat (length (components x))) p); [split; [reflexivity|discriminate]|].
    destruct (Z.ltb_spec p 0); [lia|]. split; [reflexivity|discriminate].
Qed.
