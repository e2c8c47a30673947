From Verif.Ops Require Export SortFacts Group.
Set Implicit Arguments.
Local Open Scope list_scope.

Lemma rows_map_Data_tuple ws : rows (map (fun w => Data (VTuple w)) ws) = map VTuple ws.
Proof. induction ws; simpl; congruence. Qed.
Lemma errs_map_Data (A : Type) (f : A -> val) ws : errs (map (fun w => Data (f w)) ws) = [].
Proof. induction ws; simpl; congruence. Qed.

(** ** disjoint windows *)


Lemma disjoint_feed n : 0 < n -> forall es w, open_stream es -> length w < n ->
  exists w' ws out, feed (window_disjoint n) w es = (w', out, Ok) /\
    errs out = errs es /\ rows out = map VTuple ws /\
    Forall (fun x => length x = n) ws /\
    length w' < n /\ w ++ map unwrap_op_output (rows es) = concat ws ++ w'.
Proof.
  intros Hn; induction es as [|e es IH]; intros w He Hw.
  - exists w, [], []. simpl. rewrite app_nil_r. repeat split; auto.
  - apply open_cons in He; destruct He as [He Hes].
    destruct e as [x|e|e|]; try discriminate; cbn [feed]; unfold deliver;
      cbn [as_input step window_disjoint mk_op]; cbn [rows errs map].
    + rewrite app_length; cbn [length]. destruct (Nat.eqb_spec (length w + 1) n) as [E|E].
      * destruct (IH [] Hes Hn) as (w' & ws & out & Ef & H1 & H2 & H3 & H4 & H5).
        exists w', ((w ++ [unwrap_op_output (wrap x)]) :: ws),
          (Data (VTuple (w ++ [unwrap_op_output (wrap x)])) :: out).
        assert (flush_window (w ++ [unwrap_op_output (wrap x)]) =
                [Data (VTuple (w ++ [unwrap_op_output (wrap x)]))]) as Hfw.
        { unfold flush_window. destruct w; reflexivity. }
        cbn [caught]. cbn [St window_disjoint mk_op] in Ef. rewrite Ef, Hfw. cbn [app].
        split; [reflexivity|]. split; [exact H1|]. split; [simpl; congruence|].
        split; [constructor; auto; rewrite app_length; simpl; lia|]. split; auto.
        cbn [concat]. rewrite <- app_assoc, <- H5. cbn [app]. now rewrite <- app_assoc.
      * destruct (IH (w ++ [unwrap_op_output (wrap x)]) Hes) as (w' & ws & out & Ef & H1 & H2 & H3 & H4 & H5).
        { rewrite app_length; simpl; lia. }
        exists w', ws, out. cbn [caught]. cbn [St window_disjoint mk_op] in Ef. rewrite Ef.
        rewrite <- app_assoc in H5. repeat split; auto.
    + destruct (IH w Hes Hw) as (w' & ws & out & Ef & H1 & H2 & H3 & H4 & H5).
      exists w', ws, (Err e :: out). cbn [caught]. cbn [St window_disjoint mk_op] in Ef. rewrite Ef.
      cbn [errs rows]. repeat split; auto. congruence.
    + destruct (IH w Hes Hw) as (w' & ws & out & Ef & H1 & H2 & H3 & H4 & H5).
      exists w', ws, (Err e :: out). cbn [caught]. cbn [St window_disjoint mk_op] in Ef. rewrite Ef.
      cbn [errs rows]. repeat split; auto. congruence.
Qed.

Lemma disjoint_exec n es : 0 < n -> open_stream es ->
  exists ws out, exec (window_disjoint n) (es, Ok) = (out ++ [Flush], Ok) /\
    errs out = errs es /\ rows out = map VTuple ws /\
    padded_chunks n (map unwrap_op_output (rows es)) ws.
Proof.
  intros Hn He. rewrite exec_through. unfold through. cbn [setup window_disjoint mk_op fresh].
  rewrite feed_app.
  destruct (@disjoint_feed n Hn es [] He) as (w' & ws & out & Ef & H1 & H2 & H3 & H4 & H5); [simpl; lia|].
  cbn [St window_disjoint mk_op] in *. rewrite Ef. cbn [feed]. unfold deliver.
  cbn [as_input step window_disjoint mk_op app] in *. destruct w' as [|y w'].
  - exists ws, out. cbn [caught app]. rewrite app_nil_r in H5.
    repeat split; auto. exists 0. rewrite H5. simpl. rewrite app_nil_r.
    split; [lia|]. split; auto. intros E. destruct ws as [|[|? ?] ?]; auto; simpl in E; try discriminate.
    inversion H3; subst; simpl in *; lia.
  - exists (ws ++ [pad_to n (y :: w')]), (out ++ [Data (VTuple (pad_to n (y :: w')))]).
    cbn [caught]. split.
    + unfold flush_window, pad_to; cbn [app]; rewrite <- app_assoc; reflexivity.
    + rewrite errs_app, rows_app. cbn [errs rows wrap]. rewrite app_nil_r, H2, map_app.
      split; auto. split; auto. split.
      * apply Forall_app; split; auto. constructor; auto. unfold pad_to.
        rewrite app_length, repeat_length. lia.
      * exists (n - length (y :: w')). split; [simpl in *; lia|].
        rewrite concat_app, H5. cbn [concat]. rewrite app_nil_r. unfold pad_to.
        rewrite app_assoc. split; auto.
        intros E. exfalso. apply app_eq_nil in E. destruct E; discriminate.
Qed.

(** ** predicate windows *)




Lemma pred_feed p es : open_stream es -> forall w, 
  exists out, 
    match w with
    | [] => exists ws, feed (window_pred_op p) [] es =
              (map unwrap_op_output (last ws []), out, Ok) /\
              rows out = map window_of (removelast ws) /\
              cut_at (pred_holds p) (filter (pred_defined p) (rows es)) ws
    | _ => Forall (fun x => pred_holds p x = false) (tl w) ->
           exists w1 ws, feed (window_pred_op p) (map unwrap_op_output w) es =
              (map unwrap_op_output (last ((w ++ w1) :: ws) []), out, Ok) /\
              rows out = map window_of (removelast ((w ++ w1) :: ws)) /\
              cut_at (pred_holds p) (w ++ filter (pred_defined p) (rows es)) ((w ++ w1) :: ws)
    end /\
    errs out = flat_map (fun e => match e with
                                  | Data x => if pred_defined p (wrap x) then []
                                              else [MkErr "window" (VTuple (components (wrap x)))]
                                  | Err e | Fatal e => [e]
                                  | Flush => []
                                  end) es.
Proof.
  induction es as [|e es IH]; intros He w.
  - exists []. split; [|reflexivity]. destruct w as [|y w].
    + exists []. simpl. repeat split; constructor.
    + intros Hw. exists [], []. simpl. rewrite !app_nil_r. repeat split; auto.
      * simpl. now rewrite app_nil_r.
      * constructor; auto. discriminate.
      * constructor.
  - apply open_cons in He; destruct He as [He Hes].
    destruct e as [x|e|e|]; try discriminate; cbn [feed]; unfold deliver;
      cbn [as_input step window_pred_op mk_op]; cbn [rows flat_map].
    + unfold call. cbn [filter].
      destruct (p (components (wrap x))) as [v|] eqn:Ep.
      * (* predicate defined *)
        assert (pred_defined p (wrap x) = true) as Hd by (unfold pred_defined; now rewrite Ep).
        assert (pred_holds p (wrap x) = truthy v) as Hh by (unfold pred_holds; now rewrite Ep).
        rewrite Hd. destruct (truthy v) eqn:Ev.
        -- (* new window *)
           destruct (IH Hes [wrap x]) as (out & Hf & Herr). cbn [tl] in Hf.
           destruct (Hf (Forall_nil _)) as (w1 & ws & Ef & Hr & Hc1 & Hc2 & Hc3 & Hc4).
           exists (flush_window (map unwrap_op_output w) ++ out). cbn [map] in Ef.
           cbn [St window_pred_op mk_op] in Ef. destruct w as [|y w].
           ++ split; [|exact Herr]. exists (([wrap x] ++ w1) :: ws).
              cbn [caught map flush_window app]. rewrite Ef. cbn [app].
              repeat split; auto.
           ++ split; [|rewrite errs_app, Herr; reflexivity].
              intros Hw. exists [], (([wrap x] ++ w1) :: ws).
              cbn [caught map flush_window app]. rewrite Ef. cbn [app].
              rewrite !app_nil_r. split; [reflexivity|]. split.
              ** cbn [rows wrap removelast map]. f_equal. exact Hr.
              ** split; [|split; [|split]].
                 --- cbn [concat app] in *. rewrite Hc1. reflexivity.
                 --- constructor; auto. discriminate.
                 --- constructor; auto.
                 --- cbn [tl]. constructor; auto. 
        -- (* same window *)
           destruct w as [|y w].
           ++ destruct (IH Hes [wrap x]) as (out & Hf & Herr). cbn [tl] in Hf.
              destruct (Hf (Forall_nil _)) as (w1 & ws & Ef & Hr & Hc1 & Hc2 & Hc3 & Hc4).
              exists out. cbn [map] in Ef. cbn [St window_pred_op mk_op] in Ef.
              split; [|exact Herr]. exists (([wrap x] ++ w1) :: ws).
              cbn [caught map app]. rewrite Ef. repeat split; auto.
           ++ destruct (IH Hes ((y :: w) ++ [wrap x])) as (out & Hf & Herr). cbn [app tl] in Hf.
              exists out. split; [|exact Herr]. intros Hw.
              destruct Hf as (w1 & ws & Ef & Hr & Hc).
              { cbn [tl] in Hw. apply Forall_app; split; auto. }
              exists (wrap x :: w1), ws. cbn [map app] in Ef.
              rewrite map_app in Ef. cbn [map] in Ef. cbn [St window_pred_op mk_op] in Ef.
              cbn [caught map app]. rewrite Ef.
              rewrite <- !app_assoc in *. cbn [app] in *. rewrite <- ?app_assoc in Hc. cbn [app] in Hc.
              repeat split; auto; apply Hc.
      * (* predicate raises *)
        assert (pred_defined p (wrap x) = false) as Hd by (unfold pred_defined; now rewrite Ep).
        rewrite Hd. destruct (IH Hes w) as (out & Hf & Herr).
        exists (Fatal (MkErr "window" (VTuple (components (wrap x)))) :: out).
        split; [|simpl; now rewrite Herr].
        unfold fatal_error. cbn [caught]. destruct w as [|y w].
        -- destruct Hf as (ws & Ef & Hr & Hc). exists ws. cbn [St window_pred_op mk_op] in Ef. rewrite Ef. auto.
        -- intros Hw. destruct (Hf Hw) as (w1 & ws & Ef & Hr & Hc). exists w1, ws.
           cbn [St window_pred_op mk_op] in Ef. rewrite Ef. auto.
    + destruct (IH Hes w) as (out & Hf & Herr).
      exists (Err e :: out). split; [|simpl; now rewrite Herr]. cbn [caught]. destruct w as [|y w].
      * destruct Hf as (ws & Ef & Hr & Hc). exists ws. cbn [St window_pred_op mk_op] in Ef. rewrite Ef. auto.
      * intros Hw. destruct (Hf Hw) as (w1 & ws & Ef & Hr & Hc). exists w1, ws.
        cbn [St window_pred_op mk_op] in Ef. rewrite Ef. auto.
    + destruct (IH Hes w) as (out & Hf & Herr).
      exists (Err e :: out). split; [|simpl; now rewrite Herr]. cbn [caught]. destruct w as [|y w].
      * destruct Hf as (ws & Ef & Hr & Hc). exists ws. cbn [St window_pred_op mk_op] in Ef. rewrite Ef. auto.
      * intros Hw. destruct (Hf Hw) as (w1 & ws & Ef & Hr & Hc). exists w1, ws.
        cbn [St window_pred_op mk_op] in Ef. rewrite Ef. auto.
Qed.

Lemma pred_exec p es : open_stream es ->
  exists ws out, exec (window_pred_op p) (es, Ok) = (out ++ [Flush], Ok) /\
    rows out = map window_of ws /\
    cut_at (pred_holds p) (filter (pred_defined p) (rows es)) ws /\
    errs out = flat_map (fun e => match e with
                                  | Data x => if pred_defined p (wrap x) then []
                                              else [MkErr "window" (VTuple (components (wrap x)))]
                                  | Err e | Fatal e => [e]
                                  | Flush => []
                                  end) es.
Proof.
  intros He. rewrite exec_through. unfold through. cbn [setup window_pred_op mk_op fresh].
  rewrite feed_app. destruct (pred_feed p He []) as (out & (ws & Ef & Hr & Hc) & Herr).
  cbn [St window_pred_op mk_op] in *. rewrite Ef. cbn [feed]. unfold deliver.
  cbn [as_input step window_pred_op mk_op caught].
  exists ws. destruct ws as [|w0 ws0] eqn:Ews.
  - exists out. simpl. split; auto.
  - assert (w0 :: ws0 <> []) as Hne by discriminate.
    rewrite (app_removelast_last [] Hne) in Hc. destruct Hc as (Hc1 & Hc2 & Hc3 & Hc4).
    assert (last (w0 :: ws0) [] <> []) as Hl.
    { apply Forall_app in Hc2. destruct Hc2 as [_ Hl]. inversion Hl; auto. }
    exists (out ++ [Data (window_of (last (w0 :: ws0) []))]). split; [|split; [|split]].
    + unfold flush_window. destruct (last (w0 :: ws0) []) as [|y l]; [congruence|].
      cbn [map app]. rewrite <- app_assoc. reflexivity.
    + rewrite rows_app, Hr. cbn [rows]. 
      rewrite (app_removelast_last [] Hne) at 3. rewrite map_app. reflexivity.
    + rewrite (app_removelast_last [] Hne). repeat split; auto.
    + rewrite errs_app, Herr. simpl. now rewrite app_nil_r.
Qed.

(** ** overlapping windows *)


Lemma window_at_length n ys i : length (window_at n ys i) = n.
Proof. unfold window_at. now rewrite map_length, seq_length. Qed.

Lemma window_at_snoc n ys i :
  window_at (S n) ys i = window_at n ys i ++ [nth (i + n) ys VNone].
Proof. unfold window_at. rewrite seq_S, map_app. reflexivity. Qed.

Lemma window_at_cons n ys i :
  window_at (S n) ys i = nth i ys VNone :: window_at n ys (S i).
Proof.
  unfold window_at. cbn [seq map]. rewrite Nat.add_0_r. f_equal.
  rewrite <- seq_shift, map_map. apply map_ext. intros j. now rewrite Nat.add_succ_r.
Qed.

Lemma window_at_shift n ys i : 0 < n ->
  tl (window_at n ys i) ++ [nth (i + n) ys VNone] = window_at n ys (S i).
Proof.
  intros Hn. destruct n as [|n]; [lia|].
  rewrite window_at_cons. cbn [tl]. rewrite window_at_snoc. do 3 f_equal. lia.
Qed.

Lemma lastn_window n ys : n <= length ys -> lastn n ys = window_at n ys (length ys - n).
Proof.
  intros H. unfold lastn. set (i := length ys - n). assert (i + n = length ys) as Hi by lia. clearbody i.
  revert i Hi; clear H. induction n as [|n IH]; intros i Hi.
  - unfold window_at; simpl. apply skipn_all2; lia.
  - rewrite window_at_cons, (@skipn_nth_cons _ VNone i ys) by lia. f_equal. apply IH; lia.
Qed.

Lemma pad_window n ys : length ys <= n -> pad_to n ys = window_at n ys 0.
Proof.
  unfold pad_to. revert ys; induction n as [|n IH]; intros [|y ys] H; simpl in H; try lia.
  - reflexivity.
  - simpl. unfold window_at. clear. induction (seq 0 (S n)) as [|j l IHl] eqn:E in n |- *.
    + discriminate.
    + assert (forall m k, repeat VNone m = map (fun j => nth (0 + j) [] VNone) (seq k m)) as Hr.
      { induction m as [|m IHm]; intros k; simpl; auto. f_equal; [destruct k; auto|]. apply IHm. }
      rewrite <- E. rewrite <- (Hr (S n) 0). reflexivity.
  - rewrite window_at_cons. cbn [app length Nat.sub]. rewrite IH by lia.
    unfold window_at. cbn [nth]. reflexivity.
Qed.

Lemma window_at_app n ys zs i : i + n <= length ys -> window_at n (ys ++ zs) i = window_at n ys i.
Proof.
  intros H. unfold window_at. apply map_ext_in. intros j Hj. apply in_seq in Hj. apply app_nth1. lia.
Qed.

Lemma lastn_small (A : Type) n (l : list A) : length l <= n -> lastn n l = l.
Proof. intros H. unfold lastn. now replace (length l - n) with 0 by lia. Qed.

Lemma lastn_length (A : Type) n (l : list A) : length (lastn n l) = Nat.min n (length l).
Proof. unfold lastn. rewrite skipn_length. lia. Qed.

Lemma overlap_feed n : 0 < n -> forall es got, open_stream es ->
  exists out, feed (window_overlap n) (lastn n got) es =
      (lastn n (got ++ map unwrap_op_output (rows es)), out, Ok) /\
    errs out = errs es /\
    rows out = map (fun i => VTuple (window_at n (got ++ map unwrap_op_output (rows es)) i))
                 (seq (length got + 1 - n)
                    ((length got + length (rows es) + 1 - n) - (length got + 1 - n))).
Proof.
  intros Hn; induction es as [|e es IH]; intros got He.
  - exists []. simpl. rewrite app_nil_r, Nat.add_0_r, Nat.sub_diag. auto.
  - apply open_cons in He; destruct He as [He Hes].
    destruct e as [x|e|e|]; try discriminate; cbn [feed]; unfold deliver;
      cbn [as_input step window_overlap mk_op]; cbn [rows errs map length].
    + set (u := unwrap_op_output (wrap x)).
      destruct (IH (got ++ [u]) Hes) as (out & Ef & H1 & H2).
      rewrite <- !app_assoc in Ef, H2. cbn [app] in Ef, H2. rewrite app_length in H2; cbn [length] in H2.
      assert ((if Nat.eqb (length (lastn n got)) n then tl (lastn n got) else lastn n got) ++ [u]
              = lastn n (got ++ [u])) as Hw.
      { rewrite lastn_length. destruct (Nat.eqb_spec (Nat.min n (length got)) n).
        - symmetry; apply lastn_snoc_full; lia.
        - symmetry; apply lastn_snoc_small; lia. }
      rewrite Hw. rewrite lastn_length, app_length; cbn [length].
      cbn [caught]. cbn [St window_overlap mk_op] in Ef.
      destruct (Nat.eqb_spec (Nat.min n (length got + 1)) n) as [E|E].
      * exists (Data (VTuple (lastn n (got ++ [u]))) :: out). rewrite Ef. cbn [app errs rows].
        split; [reflexivity|]. split; [exact H1|].
        rewrite H2. cbn [wrap].
        replace (length got + S (length (rows es)) + 1 - n - (length got + 1 - n))
          with (S (length got + 1 + length (rows es) + 1 - n - (length got + 1 + 1 - n))) by lia.
        cbn [seq map]. f_equal.
        -- f_equal. rewrite lastn_window by (rewrite app_length; simpl; lia).
           rewrite app_length; cbn [length].
           replace (got ++ u :: map unwrap_op_output (rows es))
             with ((got ++ [u]) ++ map unwrap_op_output (rows es)) by (now rewrite <- app_assoc).
           symmetry. apply window_at_app. rewrite app_length; simpl; lia.
        -- f_equal. f_equal; lia.
      * exists out. rewrite Ef. cbn [app]. split; [reflexivity|]. split; [exact H1|].
        rewrite H2. f_equal. f_equal; lia.
    + destruct (IH got Hes) as (out & Ef & H1 & H2). exists (Err e :: out).
      cbn [caught]. cbn [St window_overlap mk_op] in Ef. rewrite Ef. cbn [errs rows app].
      repeat split; auto; congruence.
    + destruct (IH got Hes) as (out & Ef & H1 & H2). exists (Err e :: out).
      cbn [caught]. cbn [St window_overlap mk_op] in Ef. rewrite Ef. cbn [errs rows app].
      repeat split; auto; congruence.
Qed.

Lemma overlap_drain_spec n ys : 0 < n -> forall k i, length ys <= i + n ->
  overlap_drain k (window_at n ys i) =
  (window_at n ys (i + k), map (fun j => Data (VTuple (window_at n ys j))) (seq (S i) k)).
Proof.
  intros Hn; induction k as [|k IH]; intros i Hi; cbn [overlap_drain].
  - now rewrite Nat.add_0_r.
  - assert (tl (window_at n ys i) ++ [VNone] = window_at n ys (S i)) as ->.
    { rewrite <- (window_at_shift ys i Hn). rewrite (nth_overflow ys VNone) by lia. reflexivity. }
    rewrite IH by lia. cbn [seq map]. now rewrite Nat.add_succ_r.
Qed.

(** The whole story of [window -o n]: one window per input position, and at least n of them as soon
    as there is any input; without input not even end-of-stream. *)
Lemma overlap_exec n es : 0 < n -> open_stream es ->
  let ys := map unwrap_op_output (rows es) in
  exists out,
    exec (window_overlap n) (es, Ok) = (out ++ (if Nat.eqb (length ys) 0 then [] else [Flush]), Ok) /\
    errs out = errs es /\
    rows out = map (fun i => VTuple (window_at n ys i))
                 (seq 0 (if Nat.eqb (length ys) 0 then 0 else Nat.max n (length ys))).
Proof.
  intros Hn He ys. rewrite exec_through. unfold through. cbn [setup window_overlap mk_op fresh].
  rewrite feed_app. destruct (@overlap_feed n Hn es [] He) as (out & Ef & H1 & H2).
  cbn [app] in Ef, H2. fold ys in Ef, H2. change (lastn n []) with (@nil val) in Ef.
  assert (length (rows es) = length ys) as Hlen by (unfold ys; now rewrite map_length).
  cbn [length Nat.add] in H2. rewrite Hlen in H2.
  cbn [St window_overlap mk_op] in *. rewrite Ef. cbn [feed]. unfold deliver.
  cbn [as_input step window_overlap mk_op].
  destruct (Nat.eqb_spec (length ys) 0) as [E0|E0].
  - destruct ys; [|discriminate]. simpl. exists out. rewrite app_nil_r.
    split; auto. split; auto. rewrite H2. simpl.
    destruct n; [lia|]. simpl. reflexivity.
  - assert (lastn n ys <> []) as Hne.
    { intros E. apply (f_equal (@length val)) in E. rewrite lastn_length in E. simpl in E. lia. }
    clear Ef. destruct (lastn n ys) as [|z w] eqn:Elast; [congruence|]. rewrite <- Elast. clear Hne z w Elast.
    rewrite lastn_length.
    destruct (Nat.ltb_spec (Nat.min n (length ys)) n) as [Hlt|Hge].
    + rewrite (lastn_small (n := n)) by lia. rewrite pad_window by lia.
      rewrite overlap_drain_spec by (auto; lia). cbn [caught].
      exists (out ++ map (fun j => Data (VTuple (window_at n ys j))) (seq 0 n)).
      split; [|split].
      * destruct n as [|n]; [lia|]. replace (S n - 1) with n by lia. cbn [seq map app].
        rewrite ?app_nil_r, <- app_assoc. reflexivity.
      * rewrite errs_app, H1, errs_map_Data, app_nil_r. reflexivity.
      * rewrite rows_app, H2.
        replace (length ys + 1 - n - (1 - n)) with 0 by lia. simpl.
        rewrite Nat.max_l by lia.
        clear. induction (seq 0 n) as [|i l IHl]; simpl; congruence.
    + rewrite lastn_window by lia. rewrite overlap_drain_spec by (auto; lia). cbn [caught].
      exists (out ++ map (fun j => Data (VTuple (window_at n ys j))) (seq (S (length ys - n)) (n - 1))).
      split; [|split].
      * cbn [app]; rewrite ?app_nil_r, <- ?app_assoc; reflexivity.
      * rewrite errs_app, H1, errs_map_Data, app_nil_r. reflexivity.
      * rewrite rows_app, H2. rewrite Nat.max_r by lia.
        replace (length ys + 1 - n - (1 - n)) with (S (length ys - n)) by lia.
        replace (1 - n) with 0 by lia.
        assert (seq 0 (length ys) = seq 0 (S (length ys - n)) ++ seq (S (length ys - n)) (n - 1)) as Hsq.
        { change (S (length ys - n)) with (0 + S (length ys - n)) at 2. rewrite <- seq_app. f_equal; lia. }
        rewrite Hsq, map_app. f_equal.
        clear. induction (seq (S (length ys - n)) (n - 1)) as [|i l IHl]; simpl; congruence.
Qed.
