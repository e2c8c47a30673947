(** Facts about difference, intersect, union, join, filter. *)
From Verif.Ops Require Export Nested RedFacts.
Set Implicit Arguments.
Local Open Scope list_scope.

Arguments py_eq_cong_l {a a'} b _.
Arguments py_eq_cong_r a {b b'} _.
Arguments py_eq_trans {a b c} _ _.

(** * Specification vocabulary *)




(** * Dicts *)
Lemma dget_cong (A : Type) k k' (d : list (val * A)) : py_eq k k' = true -> dget k d = dget k' d.
Proof.
  intros H. induction d as [|[k0 a] d IH]; simpl; auto. rewrite (py_eq_cong_l k0 H), IH. reflexivity.
Qed.

Arguments dget_cong {A k k'} d _.

Lemma dget_dset (A : Type) k (a : A) d k' :
  dget k' (dset k a d) = if py_eq k' k then Some a else dget k' d.
Proof.
  induction d as [|[k0 a0] d IH]; simpl; auto.
  destruct (py_eq k k0) eqn:E; simpl.
  - rewrite (py_eq_cong_r k' E). destruct (py_eq k' k0); auto.
  - rewrite IH. destruct (py_eq k' k0) eqn:E0; auto.
    destruct (py_eq k' k) eqn:E1; auto. exfalso.
    rewrite py_eq_sym in E1. rewrite (py_eq_trans E1 E0) in E. discriminate.
Qed.

Lemma dget_ddel (A : Type) k (d : list (val * A)) k' : keys_distinct d ->
  dget k' (ddel k d) = if py_eq k' k then None else dget k' d.
Proof.
  induction d as [|[k0 a0] d IH]; intros Hd; simpl; [now destruct (py_eq k' k)|].
  inversion Hd as [|? ? Hn Hd']; subst. cbn [fst] in Hn.
  destruct (py_eq k k0) eqn:E; simpl.
  - rewrite (py_eq_cong_r k' E). destruct (py_eq k' k0) eqn:E0; auto.
    pose proof (dget_spec k' d) as Hs. destruct (dget k' d) as [a|] eqn:Eg; auto. exfalso.
    destruct Hs as (k1 & Hin & Ek). apply Hn. apply py_eq_canon in E0, Ek. rewrite <- E0, Ek.
    apply in_map_iff. exists (k1, a). auto.
  - rewrite (IH Hd'). destruct (py_eq k' k0) eqn:E0; auto.
    destruct (py_eq k' k) eqn:E1; auto. exfalso.
    rewrite py_eq_sym in E1. rewrite (py_eq_trans E1 E0) in E. discriminate.
Qed.

Lemma in_ddel (A : Type) k (d : list (val * A)) p : In p (ddel k d) -> In p d.
Proof.
  induction d as [|[k0 a0] d IH]; simpl; auto.
  destruct (py_eq k k0); simpl; auto. intros [H|H]; auto.
Qed.

Lemma distinct_ddel (A : Type) k (d : list (val * A)) : keys_distinct d -> keys_distinct (ddel k d).
Proof.
  induction d as [|[k0 a0] d IH]; simpl; intros Hd; auto.
  inversion Hd as [|? ? Hn Hd']; subst. destruct (py_eq k k0); auto.
  constructor; [|apply IH; auto]. intros Hin. apply Hn. apply in_map_iff in Hin.
  destruct Hin as (p & E & Hin). apply in_map_iff. exists p. split; auto. now apply in_ddel in Hin.
Qed.

Lemma distinct_dset (A : Type) k (a : A) d : keys_distinct d -> keys_distinct (dset k a d).
Proof.
  unfold keys_distinct. rewrite <- !(map_map fst canon), dset_keys.
  intros Hd. pose proof (dget_spec k d) as Hs.
  destruct (py_mem k (map fst d)) eqn:E; [now rewrite app_nil_r|].
  rewrite map_app. simpl. apply NoDup_Add with (a := canon k) (l := map canon (map fst d)).
  - pose proof (Add_app (canon k) (map canon (map fst d)) []) as Ha. rewrite app_nil_r in Ha. exact Ha.
  - split; auto. intros Hin. apply in_map_iff in Hin. destruct Hin as (k' & Ek & Hin).
    unfold py_mem in E. assert (existsb (py_eq k) (map fst d) = true) as Ht.
    { apply existsb_exists. exists k'. split; auto. apply py_eq_canon. auto. }
    congruence.
Qed.

(** * Count tables *)
Definition dcount (k : val) (d : counts) : nat := match dget k d with Some n => n | None => 0 end.

Lemma count_nil x : count x [] = 0. Proof. reflexivity. Qed.
Lemma count_app x a b : count x (a ++ b) = count x a + count x b.
Proof. unfold count. now rewrite filter_app, app_length. Qed.
Lemma count_one x y : count x [y] = if py_eq x y then 1 else 0.
Proof. unfold count; simpl. now destruct (py_eq x y). Qed.
Lemma count_cong x y l : py_eq x y = true -> count x l = count y l.
Proof. intros H. unfold count. f_equal. apply filter_ext. intros z. now apply py_eq_cong_l. Qed.
Arguments count_cong {x y} l _.

Definition table (d : counts) (l : list val) : Prop :=
  keys_distinct d /\ (forall k, dcount k d = count k l) /\ (forall k n, dget k d = Some n -> n > 0).

Lemma table_nil : table [] [].
Proof. repeat split; try constructor. discriminate. Qed.

Lemma table_bump d l x : table d l -> table (bump x d) (l ++ [x]).
Proof.
  intros (Hd & Hc & Hp). unfold bump. split; [now apply distinct_dset|]. split.
  - intros k. unfold dcount. rewrite dget_dset, count_app, count_one, <- Hc.
    destruct (py_eq k x) eqn:E.
    + unfold dcount. rewrite <- (dget_cong d E). destruct (dget k d); lia.
    + unfold dcount. destruct (dget k d); lia.
  - intros k n. rewrite dget_dset. destruct (py_eq k x).
    + intros [= <-]. destruct (dget x d); lia.
    + apply Hp.
Qed.

Lemma load_counts es r : Forall (fun x => hashable x = true) (arg_rows (es, r)) -> forall d l,
  table d l -> exists d', load add_count 1 es r d = (d', r) /\ table d' (l ++ arg_rows (es, r)).
Proof.
  unfold arg_rows; cbn [fst]. induction es as [|e es IH]; intros H d l Ht.
  - exists d. simpl. now rewrite app_nil_r.
  - destruct e as [x|e|e|]; cbn [load rows map] in *; try (now apply IH).
    inversion H as [|? ? H1 H2]; subst. cbn [loader_rows repeat load_rows].
    unfold add_count at 1. rewrite H1.
    destruct (IH H2 (bump (VTuple (components (wrap x))) d) (l ++ [VTuple (components (wrap x))])) as (d' & E & Ht').
    { now apply table_bump. }
    exists d'. rewrite <- app_assoc in Ht'. auto.
Qed.

(** * difference *)

(** State after the table has been loaded and the rows [before] consumed. *)
Definition dinv (right before : list val) (d : counts) : Prop :=
  keys_distinct d /\ (forall k, dcount k d = count k right - count k before) /\
  (forall k n, dget k d = Some n -> n > 0).

Lemma diff_probe_step right before n d x : hashable x = true -> dinv right before d ->
  exists d', difference_probe x (MkDiff n false d) =
      (MkDiff n false d', if diff_keep right before x then [Data x] else [], Ok) /\
    dinv right (before ++ [x]) d'.
Proof.
  intros Hh (Hd & Hc & Hp). unfold difference_probe. rewrite Hh. cbn [df_right df_loaders df_first].
  unfold diff_keep. pose proof (Hc x) as Hx. unfold dcount in Hx.
  destruct (dget x d) as [c|] eqn:Eg.
  - pose proof (Hp x c Eg) as Hpos.
    destruct (Nat.leb_spec (count x right) (count x before)); [lia|].
    exists (if Nat.eqb c 1 then ddel x d else dset x (c - 1) d). split; [reflexivity|].
    destruct (Nat.eqb_spec c 1) as [->|Hne].
    + split; [now apply distinct_ddel|]. split.
      * intros k. unfold dcount. rewrite dget_ddel by auto. rewrite count_app, count_one.
        destruct (py_eq k x) eqn:E.
        -- rewrite (count_cong right E), (count_cong before E). lia.
        -- rewrite <- (Nat.sub_0_r (count k before + 0)), Nat.add_0_r, Nat.sub_0_r. apply Hc.
      * intros k m. rewrite dget_ddel by auto. destruct (py_eq k x); [discriminate|]. apply Hp.
    + split; [now apply distinct_dset|]. split.
      * intros k. unfold dcount. rewrite dget_dset. rewrite count_app, count_one.
        destruct (py_eq k x) eqn:E.
        -- rewrite (count_cong right E), (count_cong before E). lia.
        -- rewrite Nat.add_0_r. apply Hc.
      * intros k m. rewrite dget_dset. destruct (py_eq k x); [intros [= <-]; lia|]. apply Hp.
  - destruct (Nat.leb_spec (count x right) (count x before)); [|lia].
    exists d. split; [reflexivity|]. split; auto. split; auto.
    intros k. rewrite count_app, count_one. destruct (py_eq k x) eqn:E.
    + rewrite (count_cong right E), (count_cong before E). unfold dcount.
      rewrite (dget_cong d E), Eg. lia.
    + rewrite Nat.add_0_r. apply Hc.
Qed.


Lemma diff_feed p right n es : open_stream es -> hashable_rows (rows es) -> forall before d, dinv right before d ->
  exists s out, feed (difference_op p) (MkDiff n false d) es = (s, out, Ok) /\
    rows out = keep_by (diff_keep right) before (rows es) /\ errs out = errs es /\
    sublist out (map as_input es).
Proof.
  induction es as [|e es IH]; intros He Hh before d Hd.
  - eexists _, []. simpl. repeat split; auto. constructor.
  - apply open_cons in He; destruct He as [He Hes].
    destruct e as [x|e|e|]; try discriminate; cbn [feed]; unfold deliver;
      cbn [as_input step difference_op mk_op df_first]; cbn [rows] in *.
    + inversion Hh as [|? ? H1 H2]; subst.
      destruct (@diff_probe_step right before n d (wrap x) H1 Hd) as (d' & E & Hd').
      rewrite E. cbn [caught]. destruct (IH Hes H2 _ _ Hd') as (s & out & Ef & Hr & Hee & Hs).
      cbn [St difference_op mk_op] in Ef. rewrite Ef.
      eexists s, _. split; [reflexivity|]. rewrite rows_app, errs_app. cbn [errs keep_by map as_input].
      destruct (diff_keep right before (wrap x)); cbn [rows errs app].
      * rewrite Hr, Hee, wrap_wrap. repeat split; auto. sub.
      * rewrite Hr, Hee. repeat split; auto. sub.
    + cbn [caught]. destruct (IH Hes Hh _ _ Hd) as (s & out & Ef & Hr & Hee & Hs).
      cbn [St difference_op mk_op] in Ef. rewrite Ef.
      eexists s, _. split; [reflexivity|]. cbn [app rows errs map as_input]. rewrite Hr, Hee. repeat split; auto; sub.
    + cbn [caught]. destruct (IH Hes Hh _ _ Hd) as (s & out & Ef & Hr & Hee & Hs).
      cbn [St difference_op mk_op] in Ef. rewrite Ef.
      eexists s, _. split; [reflexivity|]. cbn [app rows errs map as_input]. rewrite Hr, Hee. repeat split; auto; sub.
Qed.

(** Leading Errors do not trigger loading. *)
Lemma diff_feed_first p n es : open_stream es -> snd p = Ok -> hashable_rows (arg_rows p) ->
  hashable_rows (rows es) -> n = 1 ->
  exists s out, feed (difference_op p) (MkDiff n true []) es = (s, out, Ok) /\
    rows out = keep_by (diff_keep (arg_rows p)) [] (rows es) /\ errs out = errs es /\
    sublist out (map as_input es).
Proof.
  intros He Hp Hrows Hh Hn. induction es as [|e es IH].
  - eexists _, []. simpl. repeat split; auto. constructor.
  - pose proof He as He0. apply open_cons in He; destruct He as [He Hes].
    destruct e as [x|e|e|]; try discriminate.
    + destruct p as [ps pr]. cbn [snd] in Hp. subst pr n.
      destruct (@load_counts ps Ok Hrows [] [] table_nil) as (d & El & Hd & Hc & Hpos).
      assert (dinv (arg_rows (ps, Ok)) [] d) as Hinv.
      { split; auto. split; auto. intros k. rewrite Hc, app_nil_l. rewrite count_nil. lia. }
      destruct (diff_feed (ps, Ok) 1 He0 Hh Hinv) as (s & out & E & H).
      exists s, out. split; [|exact H]. rewrite <- E. cbn [feed]. unfold deliver.
      cbn [as_input step difference_op mk_op df_first df_loaders df_right fst snd]. rewrite El. reflexivity.
    + specialize (IH Hes Hh). destruct IH as (s & out & Ef & Hr & Hee & Hs).
      cbn [feed]; unfold deliver; cbn [as_input step difference_op mk_op]. cbn [caught].
      cbn [St difference_op mk_op] in Ef. rewrite Ef.
      eexists s, _. split; [reflexivity|]. cbn [app rows errs map as_input]. rewrite Hr, Hee. repeat split; auto; sub.
    + specialize (IH Hes Hh). destruct IH as (s & out & Ef & Hr & Hee & Hs).
      cbn [feed]; unfold deliver; cbn [as_input step difference_op mk_op]. cbn [caught].
      cbn [St difference_op mk_op] in Ef. rewrite Ef.
      eexists s, _. split; [reflexivity|]. cbn [app rows errs map as_input]. rewrite Hr, Hee. repeat split; auto; sub.
Qed.

Lemma difference_exec p es : open_stream es -> snd p = Ok -> hashable_rows (arg_rows p) ->
  hashable_rows (rows es) ->
  exists out, exec (difference_op p) (es, Ok) = (out ++ [Flush], Ok) /\
    rows out = keep_by (diff_keep (arg_rows p)) [] (rows es) /\ errs out = errs es /\
    sublist out (map as_input es).
Proof.
  intros He Hp Hr Hh. rewrite exec_through. unfold through. cbn [setup difference_op mk_op fresh].
  rewrite feed_app. destruct (@diff_feed_first p 1 es He Hp Hr Hh eq_refl) as (s & out & E & H).
  cbn [St difference_op mk_op df_loaders] in *. rewrite E. exists out. auto.
Qed.

(** * A general argument for operators that answer each row at once *)

(** What comes out when the row x, preceded by the rows [before], is answered by [g before x], and
    Errors are passed on in place. *)
Fixpoint answers (g : list val -> val -> list val) (before : list val) (es : list event) : list event :=
  match es with
  | [] => []
  | Data x :: es' => map Data (g before (wrap x)) ++ answers g (before ++ [wrap x]) es'
  | Err e :: es' | Fatal e :: es' => Err e :: answers g before es'
  | Flush :: es' => answers g before es'
  end.

Lemma errs_map_Data xs : errs (map Data xs) = [].
Proof. induction xs; simpl; auto. Qed.

Lemma errs_answers g : forall es before, errs (answers g before es) = errs es.
Proof.
  induction es as [|[x|e|e|] es IH]; intros before; simpl; rewrite ?IH; auto.
  rewrite errs_app, errs_map_Data, IH. reflexivity.
Qed.

Lemma feed_answers (S : Type) (s0 : S) su receive flush (I : list val -> S -> Prop) (Q : val -> Prop)
  (g : list val -> val -> list val) :
  (forall before s x, I before s -> Q x ->
     exists s', receive s x = (s', map Data (g before x), Ok) /\ I (before ++ [x]) s') ->
  forall es before s, open_stream es -> Forall Q (rows es) -> I before s ->
  exists s', feed (mk_op s0 su receive flush) s es = (s', answers g before es, Ok) /\ I (before ++ rows es) s'.
Proof.
  intros Hstep. induction es as [|e es IH]; intros before s He HQ Hs.
  - exists s. simpl. now rewrite app_nil_r.
  - apply open_cons in He; destruct He as [He Hes].
    destruct e as [x|e|e|]; try discriminate; cbn [feed]; unfold deliver; cbn [as_input step mk_op answers]; cbn [rows] in *.
    + inversion HQ as [|? ? H1 H2]; subst.
      destruct (Hstep before s (wrap x) Hs H1) as (s1 & E & Hs1). rewrite E. cbn [caught].
      destruct (IH _ _ Hes H2 Hs1) as (s2 & E2 & Hs2). cbn [St mk_op] in E2. rewrite E2.
      exists s2. rewrite <- app_assoc in Hs2. auto.
    + cbn [caught]. destruct (IH _ _ Hes HQ Hs) as (s2 & E2 & Hs2). cbn [St mk_op] in E2. rewrite E2.
      exists s2. auto.
    + cbn [caught]. destruct (IH _ _ Hes HQ Hs) as (s2 & E2 & Hs2). cbn [St mk_op] in E2. rewrite E2.
      exists s2. auto.
Qed.

Lemma exec_answers (S : Type) (s0 s1 : S) su receive (I : list val -> S -> Prop) (Q : val -> Prop)
  (g : list val -> val -> list val) :
  su s0 = Some s1 -> I [] s1 ->
  (forall before s x, I before s -> Q x ->
     exists s', receive s x = (s', map Data (g before x), Ok) /\ I (before ++ [x]) s') ->
  forall es, open_stream es -> Forall Q (rows es) ->
  exec (mk_op s0 su receive (@default_flush S)) (es, Ok) = (answers g [] es ++ [Flush], Ok).
Proof.
  intros Hsu HI Hstep es He HQ. rewrite exec_through. unfold through. cbn [setup mk_op fresh].
  rewrite Hsu, feed_app.
  destruct (@feed_answers S s0 su receive (@default_flush S) I Q g Hstep es [] s1 He HQ HI) as (s' & E & _).
  cbn [St mk_op] in *. rewrite E. reflexivity.
Qed.

(** When the answer does not depend on the preceding rows. *)
Lemma rows_answers_flat (h : val -> list val) : forall es before,
  rows (answers (fun _ x => h x) before es) = flat_map (fun x => map wrap (h x)) (rows es).
Proof.
  induction es as [|[x|e|e|] es IH]; intros before; simpl; rewrite ?IH; auto.
  now rewrite rows_app, rows_map_Data, IH.
Qed.

Lemma wrapped_rows es : Forall (fun x => wrap x = x) (rows es).
Proof. induction es as [|[x|e|e|] es IH]; simpl; auto. constructor; auto. apply wrap_wrap. Qed.

Lemma rows_answers_keep (p : list val -> val -> bool) : forall es before,
  rows (answers (fun b x => if p b x then [x] else []) before es) = keep_by p before (rows es).
Proof.
  induction es as [|[x|e|e|] es IH]; intros before; simpl; rewrite ?IH; auto.
  rewrite rows_app, rows_map_Data, IH. destruct (p before (wrap x)); simpl; now rewrite ?wrap_wrap.
Qed.

Lemma answers_keep_sublist (p : list val -> val -> bool) : forall es before, open_stream es ->
  sublist (answers (fun b x => if p b x then [x] else []) before es) (map as_input es).
Proof.
  induction es as [|e es IH]; intros before He; simpl; [constructor|].
  apply open_cons in He; destruct He as [He Hes].
  destruct e as [x|e|e|]; try discriminate; cbn [as_input]; simpl.
  - destruct (p before (wrap x)); simpl; sub.
  - sub.
  - sub.
Qed.

(** * intersect *)



Lemma restrict_keys c i : forall p, In p (restrict c i) -> In (fst p) (map fst c).
Proof.
  induction c as [|[k n] c IH]; simpl; [tauto|]. intros p.
  destruct (dget k i) as [[|m]|]; simpl; try (intros H; right; now apply IH).
  intros [<-|H]; [now left|right; now apply IH].
Qed.

Lemma restrict_distinct c i : keys_distinct c -> keys_distinct (restrict c i).
Proof.
  induction c as [|[k n] c IH]; intros Hd; simpl; [constructor|].
  inversion Hd as [|? ? Hn Hd']; subst. cbn [fst] in Hn.
  destruct (dget k i) as [[|m]|]; auto. constructor; [|apply IH; auto]. cbn [fst].
  intros Hin. apply Hn. apply in_map_iff in Hin. destruct Hin as (p & E & Hin).
  apply restrict_keys in Hin. rewrite <- E. rewrite <- (map_map fst canon). now apply in_map.
Qed.

Lemma restrict_count c i k : keys_distinct c -> dcount k (restrict c i) = Nat.min (dcount k c) (dcount k i).
Proof.
  unfold dcount. induction c as [|[k0 n] c IH]; intros Hd; simpl; [reflexivity|].
  inversion Hd as [|? ? Hn Hd']; subst. cbn [fst] in Hn. specialize (IH Hd').
  destruct (py_eq k k0) eqn:E.
  - rewrite (dget_cong i E).
    assert (dget k (restrict c i) = None) as Hnone.
    { pose proof (dget_spec k (restrict c i)) as Hs. destruct (dget k (restrict c i)) as [a|]; auto. exfalso.
      destruct Hs as (k1 & Hin & Ek). apply Hn. apply restrict_keys in Hin. cbn [fst] in Hin.
      apply py_eq_canon in E, Ek. rewrite <- E, Ek. rewrite <- (map_map fst canon). now apply in_map. }
    destruct (dget k0 i) as [[|m]|] eqn:Ei; simpl; rewrite ?E, ?Hnone; try lia.
    destruct (Nat.ltb_spec (S m) n); lia.
  - destruct (dget k0 i) as [[|m]|] eqn:Ei; simpl; rewrite ?E; auto.
Qed.


Lemma consume_rest ps : Forall ok_arg ps -> forall c (f : val -> nat), keys_distinct c ->
  (forall k, dcount k c = f k) ->
  exists c', consume_args 1 ps (Some c) = (Some c', Ok) /\ keys_distinct c' /\
    forall k, dcount k c' = fold_left Nat.min (map (fun p => count k (arg_rows p)) ps) (f k).
Proof.
  induction ps as [|[pe pr] ps IH]; intros Hps c f Hd Hf.
  - exists c. auto.
  - inversion Hps as [|? ? [Hr Hh] Hps']; subst. cbn [snd] in Hr. subst pr.
    cbn [consume_args fst snd].
    destruct (@load_counts pe Ok Hh [] [] table_nil) as (d & El & Hdd & Hc & _). rewrite El.
    destruct (IH Hps' (restrict c d) (fun k => Nat.min (f k) (count k (arg_rows (pe, Ok))))) as (c' & E & Hd' & Hc').
    + now apply restrict_distinct.
    + intros k. rewrite restrict_count by auto. rewrite Hf, Hc. reflexivity.
    + exists c'. split; [exact E|]. split; auto.
Qed.

Lemma consume_all ps : ps <> [] -> Forall ok_arg ps ->
  exists c, consume_args 1 ps None = (Some c, Ok) /\ keys_distinct c /\ forall k, dcount k c = min_count k ps.
Proof.
  destruct ps as [|[pe pr] ps]; intros Hne Hps; [congruence|].
  inversion Hps as [|? ? [Hr Hh] Hps']; subst. cbn [snd] in Hr. subst pr.
  cbn [consume_args fst snd].
  destruct (@load_counts pe Ok Hh [] [] table_nil) as (d & El & Hdd & Hc & _). rewrite El.
  destruct (@consume_rest ps Hps' d (fun k => count k (arg_rows (pe, Ok))) Hdd Hc) as (c & E & Hd & Hcc).
  exists c. auto.
Qed.

Lemma intersect_exec ps es : open_stream es -> ps <> [] -> Forall ok_arg ps -> hashable_rows (rows es) ->
  exists out, exec (intersect_op ps) (es, Ok) = (out ++ [Flush], Ok) /\
    rows out = keep_by (int_keep ps) [] (rows es) /\ errs out = errs es /\
    sublist out (map as_input es).
Proof.
  intros He Hne Hps Hh.
  exists (answers (fun b x => if int_keep ps b x then [x] else []) [] es). split.
  - unfold intersect_op.
    apply exec_answers with (s1 := MkInt 1 None) (Q := fun x => hashable x = true)
      (I := fun before s => is_loaders s = 1 /\
              match is_common s with
              | None => before = []
              | Some c => keys_distinct c /\ forall k, dcount k c = min_count k ps - count k before
              end); [reflexivity|cbn; auto| |exact He|exact Hh].
    intros before [n oc] x [Hn HI] Hx. cbn [is_loaders is_common] in *. subst n.
    assert (forall c, keys_distinct c -> (forall k, dcount k c = min_count k ps - count k before) ->
      exists s', intersect_probe x (MkInt 1 (Some c)) =
        (s', map Data (if int_keep ps before x then [x] else []), Ok) /\
        is_loaders s' = 1 /\ match is_common s' with
              | None => before ++ [x] = []
              | Some c => keys_distinct c /\ forall k, dcount k c = min_count k ps - count k (before ++ [x])
              end) as Hprobe.
    { intros c Hd Hc. unfold intersect_probe. cbn [is_common is_loaders]. rewrite Hx.
      unfold int_keep. pose proof (Hc x) as Hcx. unfold dcount in Hcx.
      destruct (dget x c) as [[|m]|] eqn:Eg.
      - destruct (Nat.ltb_spec (count x before) (min_count x ps)); [lia|].
        eexists. split; [reflexivity|]. cbn [is_common is_loaders]. split; auto. split; auto.
        intros k. rewrite count_app, count_one. destruct (py_eq k x) eqn:E; [|rewrite Nat.add_0_r; apply Hc].
        rewrite Hc. assert (min_count k ps = min_count x ps) as ->.
        { unfold min_count. erewrite map_ext; [reflexivity|]. intros p. now apply count_cong. }
        rewrite (count_cong before E). lia.
      - destruct (Nat.ltb_spec (count x before) (min_count x ps)); [|lia].
        eexists. split; [reflexivity|]. cbn [is_common is_loaders]. split; auto.
        split; [now apply distinct_dset|].
        intros k. unfold dcount. rewrite dget_dset, count_app, count_one.
        destruct (py_eq k x) eqn:E; [|rewrite Nat.add_0_r; apply Hc].
        assert (min_count k ps = min_count x ps) as ->.
        { unfold min_count. erewrite map_ext; [reflexivity|]. intros p. now apply count_cong. }
        rewrite (count_cong before E). lia.
      - destruct (Nat.ltb_spec (count x before) (min_count x ps)); [lia|].
        eexists. split; [reflexivity|]. cbn [is_common is_loaders]. split; auto. split; auto.
        intros k. rewrite count_app, count_one. destruct (py_eq k x) eqn:E; [|rewrite Nat.add_0_r; apply Hc].
        rewrite Hc. assert (min_count k ps = min_count x ps) as ->.
        { unfold min_count. erewrite map_ext; [reflexivity|]. intros p. now apply count_cong. }
        rewrite (count_cong before E). lia. }
    destruct oc as [c|].
    + destruct HI as [Hd Hc]. apply Hprobe; auto.
    + subst before. destruct (consume_all Hne Hps) as (c & E & Hd & Hc). rewrite E.
      apply Hprobe; auto. intros k. rewrite Hc, count_nil. lia.
  - rewrite rows_answers_keep, errs_answers. repeat split; auto. now apply answers_keep_sublist.
Qed.

(** * union *)
Lemma rows_union_forward l es : rows (union_forward l es) = rows es.
Proof.
  induction es as [|[x|e|e|] es IH]; simpl; auto.
  - now rewrite wrap_wrap, IH.
  - destruct l; simpl; auto.
Qed.

Lemma errs_union_forward l es : errs (union_forward l es) = errs es.
Proof.
  induction es as [|[x|e|e|] es IH]; simpl; rewrite ?IH; auto. destruct l; simpl; auto.
Qed.

Lemma flushes_union_forward l es : flushes (union_forward l es) = if l then flushes es else 0.
Proof.
  induction es as [|[x|e|e|] es IH]; simpl; auto. destruct l; auto. destruct l; simpl; auto.
Qed.

Lemma union_run_ok ps : Forall (fun p => snd p = Ok) ps ->
  exists o, union_run ps = (o, Ok) /\ rows o = flat_map (fun p => rows (fst p)) ps /\
    errs o = flat_map (fun p => errs (fst p)) ps /\
    flushes o = match rev ps with [] => 0 | p :: _ => flushes (fst p) end.
Proof.
  induction ps as [|p ps IH]; intros H.
  - exists []. auto.
  - inversion H as [|? ? H1 H2]; subst. destruct ps as [|q ps].
    + exists (union_forward true (fst p)). cbn [union_run]. rewrite H1, rows_union_forward, errs_union_forward, flushes_union_forward.
      simpl. now rewrite !app_nil_r.
    + destruct (IH H2) as (o & E & Hr & He & Hf).
      exists (union_forward false (fst p) ++ o). change (union_run (p :: q :: ps)) with
        (match snd p with
         | Ok => let '(o, r) := union_run (q :: ps) in (union_forward false (fst p) ++ o, r)
         | r => (union_forward false (fst p), r)
         end).
      rewrite H1, E, rows_app, errs_app, flushes_app, rows_union_forward, errs_union_forward, flushes_union_forward, Hr, He, Hf.
      split; [reflexivity|]. split; [reflexivity|]. split; [reflexivity|].
      cbn [rev]. destruct (rev ps); reflexivity.
Qed.

Lemma union_exec ps es : open_stream es -> Forall (fun p => snd p = Ok) ps ->
  exists out, exec (union_op ps) (es, Ok) = (out ++ [Flush], Ok) /\
    rows out = rows es ++ flat_map (fun p => rows (fst p)) ps /\
    errs out = errs es ++ flat_map (fun p => errs (fst p)) ps /\
    flushes out = match rev ps with [] => 0 | p :: _ => flushes (fst p) end.
Proof.
  intros He Hps. rewrite exec_through. unfold through. cbn [setup union_op mk_op fresh keep_state].
  rewrite feed_app. destruct (union_run_ok Hps) as (o & E & Hr & Hee & Hf).
  unfold union_op. rewrite feed_stateless by first [exact He | intros x; split; [reflexivity|discriminate]].
  set (fw := flat_map _ es).
  assert (fw = map as_input es) as ->.
  { clear - He. unfold fw. induction es as [|e es IH]; simpl; auto.
    apply open_cons in He; destruct He as [He Hes]. rewrite IH by auto. destruct e; try discriminate; reflexivity. }
  exists (map as_input es ++ o). split.
  { cbn [feed deliver as_input mk_op step]. unfold deliver. cbn [as_input step mk_op]. rewrite E. cbn [caught]. rewrite ?app_nil_r, <- ?app_assoc. reflexivity. }

  rewrite rows_app, errs_app, flushes_app, Hr, Hee, Hf.
  assert (rows (map as_input es) = rows es /\ errs (map as_input es) = errs es /\ flushes (map as_input es) = 0) as (-> & -> & ->).
  { clear - He. induction es as [|e es IH]; simpl; auto.
    apply open_cons in He; destruct He as [He Hes]. destruct (IH Hes) as (H1 & H2 & H3).
    destruct e; try discriminate; simpl; rewrite ?H1, ?H2, ?H3, ?wrap_wrap; auto. }
  auto.
Qed.

(** * join *)



Definition jinv (l : list val) (d : inner) : Prop :=
  forall k, match dget k d with
            | None => matches k l = []
            | Some ms => ms <> [] /\ ms = map components (matches k l)
            end.

Lemma matches_cong k k' l : py_eq k k' = true -> matches k l = matches k' l.
Proof.
  intros H. apply filter_ext. intros m. destruct (components m); auto. now apply py_eq_cong_l.
Qed.

Lemma jinv_add l d x : jinv l d ->
  match components x with [] => True | k :: _ => hashable k = true end ->
  exists d', add_inner x d = Some d' /\ jinv (l ++ [x]) d'.
Proof.
  intros Hj Hh. unfold add_inner. destruct (components x) as [|k ks] eqn:Ec.
  - exists d. split; auto. intros k. specialize (Hj k). unfold matches in *. rewrite filter_app. simpl.
    rewrite Ec, app_nil_r. exact Hj.
  - rewrite Hh. eexists. split; [reflexivity|]. intros k'. rewrite dget_dset.
    unfold matches. rewrite filter_app. simpl. rewrite Ec. fold (matches k' l).
    destruct (py_eq k' k) eqn:E.
    + rewrite map_app. simpl. rewrite Ec. pose proof (Hj k) as Hk. rewrite (matches_cong _ _ _ E).
      destruct (dget k d) as [ms|].
      * destruct Hk as [Hne ->]. split; auto. intros Hcontra. apply app_eq_nil in Hcontra. destruct Hcontra; discriminate.
      * rewrite Hk. simpl. split; [discriminate|reflexivity].
    + rewrite app_nil_r. apply Hj.
Qed.


Lemma load_inner_ok es r : Forall joinable_or_empty (arg_rows (es, r)) -> forall l d, jinv l d ->
  exists d', load add_inner 1 es r d = (d', r) /\ jinv (l ++ arg_rows (es, r)) d'.
Proof.
  unfold arg_rows; cbn [fst]. induction es as [|e es IH]; intros H l d Hj.
  - exists d. simpl. now rewrite app_nil_r.
  - destruct e as [x|e|e|]; cbn [load rows map] in *; try (now apply IH).
    inversion H as [|? ? H1 H2]; subst. cbn [loader_rows repeat load_rows].
    destruct (@jinv_add l d (VTuple (components (wrap x))) Hj H1) as (d1 & E1 & Hj1). rewrite E1.
    destruct (IH H2 _ _ Hj1) as (d' & E & Hj'). exists d'. rewrite <- app_assoc in Hj'. auto.
Qed.

Lemma join_exec keep p es : open_stream es -> snd p = Ok -> Forall joinable_or_empty (arg_rows p) ->
  Forall joinable (rows es) ->
  exists out, exec (join_op keep p) (es, Ok) = (out ++ [Flush], Ok) /\
    rows out = flat_map (join_rows keep (arg_rows p)) (rows es) /\ errs out = errs es.
Proof.
  intros He Hp Hr Hl. destruct p as [pe pr]. cbn [snd] in Hp. subst pr.
  exists (answers (fun _ x => join_rows keep (arg_rows (pe, Ok)) x) [] es). split.
  - unfold join_op. cbn [fst snd].
    apply exec_answers with (s1 := MkJoin 1 true []) (Q := joinable)
      (I := fun before s => jn_loaders s = 1 /\
              if jn_first s then jn_inner s = [] else jinv (arg_rows (pe, Ok)) (jn_inner s)); [reflexivity|cbn; auto| |exact He|exact Hl].
    intros before [n fi d] x [Hn HI] Hx. cbn [jn_loaders jn_first jn_inner] in *. subst n.
    assert (forall d, jinv (arg_rows (pe, Ok)) d ->
      exists s', join_probe keep x (MkJoin 1 false d) = (s', map Data (join_rows keep (arg_rows (pe, Ok)) x), Ok) /\
        jn_loaders s' = 1 /\ if jn_first s' then jn_inner s' = [] else jinv (arg_rows (pe, Ok)) (jn_inner s')) as Hprobe.
    { intros d0 Hj. unfold join_probe, join_rows. unfold joinable in Hx.
      destruct (components x) as [|k ks]; [tauto|]. rewrite Hx. cbn [jn_inner].
      specialize (Hj k) as Hk. destruct (dget k d0) as [ms|].
      - destruct Hk as [Hne Hms]. exists (MkJoin 1 false d0). split; [|split; [reflexivity|exact Hj]].
        destruct (matches k (arg_rows (pe, Ok))) as [|m0 ms0] eqn:Em; [simpl in Hms; congruence|].
        rewrite Hms, !map_map. reflexivity.
      - rewrite Hk. exists (MkJoin 1 false d0). split; [|split; [reflexivity|exact Hj]]. destruct keep; reflexivity. }
    destruct fi; [|apply Hprobe; auto].
    subst d. destruct (@load_inner_ok pe Ok Hr [] []) as (d' & E & Hj).
    { intros k. reflexivity. }
    rewrite E. apply Hprobe. exact Hj.
  - split; [|apply errs_answers].
    rewrite rows_answers_flat. apply flat_map_ext. intros x. unfold join_rows.
    destruct (components x); auto. destruct (matches v (arg_rows (pe, Ok))); [destruct keep; reflexivity|].
    rewrite map_map. reflexivity.
Qed.

(** * filter *)



Lemma load_members es r : hashable_rows (arg_rows (es, r)) -> forall d,
  exists d', load add_member 1 es r d = (d', r) /\
    forall x, py_mem x d' = py_mem x d || py_mem x (arg_rows (es, r)).
Proof.
  unfold arg_rows; cbn [fst]. induction es as [|e es IH]; intros H d.
  - exists d. simpl. split; auto. intros x. now rewrite orb_false_r.
  - destruct e as [x|e|e|]; cbn [load rows map] in *; try (now apply IH).
    inversion H as [|? ? H1 H2]; subst. cbn [loader_rows repeat load_rows].
    unfold add_member at 1. rewrite H1. set (y := VTuple (components (wrap x))) in *.
    destruct (IH H2 (if py_mem y d then d else d ++ [y])) as (d' & E & Hm).
    exists d'. split; auto. intros z. rewrite Hm.
    change (py_mem z (y :: map (fun x => VTuple (components x)) (rows es))) with
      (py_eq z y || py_mem z (map (fun x => VTuple (components x)) (rows es))).
    rewrite orb_assoc. f_equal. destruct (py_mem y d) eqn:Ey.
    + destruct (py_eq z y) eqn:Ez; [|now rewrite orb_false_r]. rewrite orb_true_r.
      unfold py_mem in *. rewrite <- Ey. clear - Ez.
      induction d as [|w d IHd]; simpl; auto. rewrite IHd. f_equal. now apply py_eq_cong_l.
    + unfold py_mem. rewrite existsb_app. simpl. now rewrite orb_false_r.
Qed.

Lemma filter_exec compare discard p es : open_stream es -> snd p = Ok -> hashable_rows (arg_rows p) ->
  Forall (filterable compare) (rows es) ->
  exists out, exec (filter_op compare discard p) (es, Ok) = (out ++ [Flush], Ok) /\
    rows out = filter (fun x => xorb discard (occurs compare (arg_rows p) x)) (rows es) /\
    errs out = errs es /\ sublist out (map as_input es).
Proof.
  intros He Hp Hr Hl. destruct p as [pe pr]. cbn [snd] in Hp. subst pr.
  set (keepx := fun x => xorb discard (occurs compare (arg_rows (pe, Ok)) x)).
  exists (answers (fun _ x => if keepx x then [x] else []) [] es). split.
  - unfold filter_op. cbn [fst snd].
    apply exec_answers with (s1 := MkFilter 0 None) (Q := filterable compare)
      (I := fun before s => match ft_right s with
                            | None => ft_loaders s = 0
                            | Some d => forall x, py_mem x d = py_mem x (arg_rows (pe, Ok))
                            end); [reflexivity|cbn; auto| |exact He|exact Hl].
    intros before [n od] x HI Hx. cbn [ft_right ft_loaders] in *.
    assert (forall d s, (forall x, py_mem x d = py_mem x (arg_rows (pe, Ok))) ->
      filter_probe compare (negb discard) x d s = (s, map Data (if keepx x then [x] else []), Ok)) as Hprobe.
    { intros d s Hd. unfold filter_probe. destruct Hx as (c & Ec & Hh & Hn). unfold compare_value in Ec.
      rewrite Ec. assert (wrap_op_input c = wrap c) as -> by (destruct c; congruence || reflexivity).
      rewrite Hh, Hd. unfold keepx, occurs, compare_value. rewrite Ec. unfold py_mem.
      destruct (existsb (py_eq (wrap c)) (arg_rows (pe, Ok))), discard; reflexivity. }
    destruct od as [d|].
    + rewrite Hprobe by auto. eexists. split; [reflexivity|]. exact HI.
    + subst n. destruct (@load_members pe Ok Hr []) as (d & E & Hd). rewrite E.
      rewrite Hprobe by exact Hd. eexists. split; [reflexivity|]. exact Hd.
  - split; [|split; [apply errs_answers|]].
    + rewrite rows_answers_flat. clear - es. pose proof (wrapped_rows es) as Hw.
      induction Hw as [|x l Hx _ IH]; simpl; auto. destruct (keepx x); simpl; rewrite IH, ?Hx; auto.
    + apply (@answers_keep_sublist (fun _ x => keepx x)). auto.
Qed.
