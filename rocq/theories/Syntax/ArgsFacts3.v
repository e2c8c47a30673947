(** The parser: completeness, and its last steps. *)
From Verif.Syntax Require Export ArgsFacts2.
Local Open Scope char_scope.
Local Open Scope list_scope.

(** ** Groups *)
Lemma filter_le1 : forall (p : text -> bool) g, NoDup g ->
  (length (filter p g) <= 1 <-> forall n m, In n g -> In m g -> p n = true -> p m = true -> n = m).
Proof.
  intros p g N. split.
  - intros L n m In_ Im Pn Pm.
    assert (A : In n (filter p g)) by (apply filter_In; auto).
    assert (B : In m (filter p g)) by (apply filter_In; auto).
    destruct (filter p g) as [|x [|y l]]; cbn in *; try lia; try easy. intuition congruence.
  - intros H. pose proof (NoDup_filter p N) as NF. 
    destruct (filter p g) as [|x [|y l]] eqn:E; cbn; try lia. exfalso.
    assert (A : In x (filter p g)) by (rewrite E; now left).
    assert (B : In y (filter p g)) by (rewrite E; right; now left).
    apply filter_In in A as [A1 A2]. apply filter_In in B as [B1 B2].
    inversion NF; subst. apply H2. left. symmetry. auto.
Qed.

Lemma at_most_spec : forall names g, NoDup g -> ((count_in names g <=? 1)%nat = true <-> at_most_one_of g names).
Proof.
  intros names g N. unfold count_in. rewrite Nat.leb_le, filter_le1 by auto. unfold at_most_one_of.
  split; intros H n m A B C D; apply H; auto; apply existsb_teqb; auto.
Qed.

Lemma exactly_spec : forall names g, NoDup g -> 
  ((count_in names g =? 1)%nat = true <-> at_most_one_of g names /\ one_of g names).
Proof.
  intros names g N. rewrite <- at_most_spec by auto. rewrite Nat.eqb_eq, Nat.leb_le. unfold count_in, one_of. split.
  - intros E. split; [lia|]. destruct (filter (fun n => existsb (teqb n) names) g) as [|x l] eqn:F; [discriminate|].
    assert (A : In x (filter (fun n => existsb (teqb n) names) g)) by (rewrite F; now left).
    apply filter_In in A as [A B]. exists x. split; auto. now apply existsb_teqb.
  - intros (L & x & A & B). assert (C : In x (filter (fun n => existsb (teqb n) names) g)).
    { apply filter_In. split; auto. now apply existsb_teqb. }
    destruct (filter (fun n => existsb (teqb n) names) g); cbn in *; [easy|lia].
Qed.

(** ** Positional arguments and defaults *)
Lemma fills_iff : forall conv as_ pos vs rest, fills conv as_ pos vs rest <->
  exists avs dvs, Forall2 (fun ao v => conv (a_name (fst ao)) (snd ao) = Some v) (combine as_ pos) avs /\
    rest = skipn (length as_) pos /\ map a_default (skipn (length pos) as_) = map Some dvs /\ vs = avs ++ dvs.
Proof.
  intros conv as_ pos vs rest. split.
  - induction 1 as [rest|a o v as_ pos vs rest C F IH|a v as_ vs rest D F IH].
    + exists [], []. cbn. rewrite skipn_nil. auto.
    + destruct IH as (avs & dvs & A & B & E & ->). exists (v :: avs), dvs. cbn. repeat split; auto.
    + destruct IH as (avs & dvs & A & B & E & ->). exists [], (v :: dvs). cbn in *. rewrite skipn_nil in B. subst rest.
      assert (Z : combine as_ (@nil obj) = []) by (now destruct as_).
      rewrite Z in A. inversion A; subst. rewrite D, E. repeat split; auto.
  - revert pos vs rest. induction as_ as [|a as_ IH]; intros pos vs rest (avs & dvs & A & -> & E & ->).
    + cbn in *. inversion A; subst. rewrite skipn_nil in E. destruct dvs; [|discriminate]. constructor.
    + destruct pos as [|o pos].
      * cbn in *. inversion A; subst. destruct dvs as [|v dvs]; [discriminate|]. injection E as E1 E2. cbn.
        apply fills_default; auto. apply IH. exists [], dvs. cbn.
        assert (Z : combine as_ (@nil obj) = []) by (now destruct as_). rewrite Z, skipn_nil. auto.
      * cbn in *. inversion A as [|? v ? avs' C F]; subst. cbn. apply fills_given; auto. apply IH. exists avs', dvs. auto.
Qed.

Lemma fill_spec : forall as_ m m', NoDup (map fst m ++ map a_name as_) ->
  (fill as_ m = Some m' <-> exists dvs, map a_default as_ = map Some dvs /\ m' = m ++ combine (map a_name as_) dvs).
Proof.
  induction as_ as [|a as_ IH]; intros m m' N; cbn.
  - split.
    + intros E. injection E as <-. exists []. now rewrite app_nil_r.
    + intros ([|] & E & ->); [|discriminate]. now rewrite app_nil_r.
  - destruct (a_default a) as [v|].
    + cbn in N. assert (F : ~ In (a_name a) (map fst m)).
      { apply NoDup_remove_2 in N. rewrite in_app_iff in N. tauto. }
      rewrite dset_fresh by auto. rewrite IH.
      * split.
        -- intros (dvs & E & ->). exists (v :: dvs). cbn. rewrite E. split; auto. now rewrite <- app_assoc.
        -- intros ([|v' dvs] & E & ->); [discriminate|]. injection E as <- E. exists dvs. split; auto. cbn. now rewrite <- app_assoc.
      * rewrite map_app. cbn. rewrite <- app_assoc. exact N.
    + split; [discriminate|]. intros ([|] & E & _); discriminate.
Qed.

Lemma fold_dset : forall (t : text -> text) l m, NoDup (map fst m ++ map (fun kv => t (fst kv)) l) ->
  fold_left (fun m kv => dset (t (fst kv)) (snd kv) m) l m = m ++ map (fun kv => (t (fst kv), snd kv)) l.
Proof.
  intros t. induction l as [|[k v] l IH]; intros m N; cbn in *. { now rewrite app_nil_r. }
  rewrite dset_fresh. 2: { apply NoDup_remove_2 in N. rewrite in_app_iff in N. tauto. }
  rewrite IH. { now rewrite <- app_assoc. }
  rewrite map_app. cbn. rewrite <- app_assoc. exact N.
Qed.

Lemma extract_app : forall conv d a b s, extract conv d s (a ++ b) =
  match extract conv d s a with Some s' => extract conv d s' b | None => None end.
Proof.
  intros conv d. induction a as [|x a IH]; intros b s; cbn; auto. destruct (extract_one conv d s x); auto.
Qed.

Section Complete.
Variable conv : text -> obj -> option obj.
Variable d : decl.
Hypothesis V : validate d = true.

Definition start : pstate := mkps [] [] [] None (negb (length (d_flags d) =? 0)%nat).

Lemma complete_uses : forall us fvs, Forall (uok d) us -> NoDup (map uname us) -> Forall2 (uval conv) us fvs ->
  extract conv d start (flat_map written us) =
  Some (mkps (combine (map uname us) fvs) [] [] (cur_of us) (ps_ok start)).
Proof.
  induction us as [|u us IH] using rev_ind; intros fvs UO N F.
  - inversion F; subst. reflexivity.
  - apply Forall2_app_inv_l in F as (fv1 & fv2 & F1 & F2 & ->). inversion F2 as [|? v ? ? U1 U2]; subst. inversion U2; subst.
    apply Forall_app in UO as [UO1 UO2]. inversion UO2 as [|? ? UO3 _]; subst. destruct UO3 as (UI & US & UN & UD).
    rewrite map_app in N. cbn [map] in N.
    assert (NI : ~ In (uname u) (map uname us)).
    { apply NoDup_remove_2 in N. rewrite app_nil_r in N. exact N. }
    assert (LL : length (map uname us) = length fv1) by (rewrite map_length; eapply Forall2_len; eauto).
    apply NoDup_app_inv in N as (N & _ & _).
    rewrite flat_map_app, extract_app, (IH fv1 UO1 N F1). cbn [flat_map]. rewrite app_nil_r.
    assert (OK : ps_ok start = true). { cbn. destruct (d_flags d); [easy|reflexivity]. }
    assert (FF : find_flag d (OStr (u_sym u)) = Some (u_flag u)) by (apply find_flag_some; eauto).
    unfold written. cbn [extract]. unfold extract_one at 1. rewrite FF. cbn [ps_ok ps_flags ps_anon ps_list ps_cur].
    rewrite OK. fold (uname u).
    assert (DG : dget (uname u) (combine (map uname us) fv1) = None).
    { apply dget_None. now rewrite map_fst_combine. }
    rewrite DG, dset_fresh by (rewrite map_fst_combine; auto).
    rewrite map_app, combine_app by auto. rewrite cur_of_snoc. cbn [map combine].
    unfold uval in U1. destruct (u_val u) as [o|] eqn:UV.
    + cbn [extract]. unfold extract_one.
      assert (ND : ~ dash_word o) by (apply UD; auto).
      assert (FN : find_flag d o = None). { apply find_flag_none; auto. intro K. apply ND. eapply known_dash; eauto. }
      rewrite FN. cbn [ps_ok ps_flags ps_anon ps_list ps_cur].
      assert (PL : plausible o = false). { destruct (plausible o) eqn:P; auto. apply plausible_spec in P. easy. }
      rewrite PL. cbn [andb].
      assert (NV : is_vnone (f_value (u_flag u)) = false). { destruct (f_value (u_flag u)); auto. specialize (UN eq_refl). discriminate. }
      rewrite NV, U1. do 2 f_equal. apply dset_last. now rewrite map_fst_combine.
    + cbn [extract]. subst v. reflexivity.
Qed.

Lemma complete_pos : forall F cur pos avs lvs,
  (forall f, pos <> [] -> cur = Some f -> f_value f = VNone) ->
  (forall o, In o pos -> ~ known d o) ->
  (forall o r, pos = o :: r -> d_flags d <> [] -> ~ dash_word o) ->
  Forall2 (fun ao v => conv (a_name (fst ao)) (snd ao) = Some v) (combine (d_anons d) pos) avs ->
  match d_list d with
  | None => length pos <= length (d_anons d) /\ lvs = []
  | Some (n, _) => Forall2 (fun o v => conv n o = Some v) (skipn (length (d_anons d)) pos) lvs
  end ->
  extract conv d (mkps F [] [] cur (ps_ok start)) pos =
  Some (mkps F (combine (anon_names d pos) avs) lvs cur (match pos with [] => ps_ok start | _ => false end)).
Proof.
  intros F cur. induction pos as [|o pos IH] using rev_ind; intros avs lvs CUR K FST A L.
  - cbn. assert (Z : combine (d_anons d) (@nil obj) = []) by (now destruct (d_anons d)).
    unfold anon_names. rewrite Z in *. inversion A; subst. cbn.
    destruct (d_list d) as [[n t]|]; [|now destruct L as [_ ->]]. rewrite skipn_nil in L. inversion L. reflexivity.
  - rewrite extract_app.
    assert (FN : find_flag d o = None). { apply find_flag_none; auto. apply K. apply in_or_app; right; now left. }
    assert (ND : (plausible o && (match pos with [] => ps_ok start | _ => false end))%bool = false).
    { destruct pos as [|p pos]; [|apply andb_false_r]. cbn. destruct (plausible o) eqn:P; auto.
      cbn. destruct (d_flags d) eqn:DF; auto. exfalso. apply plausible_spec in P.
      apply (FST o [] eq_refl); [discriminate|exact P]. }
    assert (HK : forall x, In x pos -> ~ known d x) by (intros x I; apply K, in_or_app; now left).
    assert (HF : forall x r, pos = x :: r -> d_flags d <> [] -> ~ dash_word x).
    { intros x r Q. subst pos. eapply FST. cbn. reflexivity. }
    assert (HC : forall f, pos <> [] -> cur = Some f -> f_value f = VNone).
    { intros f _ Q. apply (CUR f); auto. now destruct pos. }
    destruct (Nat.leb_spec (length (d_anons d)) (length pos)) as [LE|LT].
    + rewrite combine_snoc_out in A by auto.
      destruct (d_list d) as [[n t]|] eqn:DL.
      2: { destruct L as [L _]. rewrite app_length in L. cbn in L. lia. }
      rewrite skipn_snoc_in in L by auto. apply Forall2_app_inv_l in L as (l1 & l2 & L1 & L2 & ->).
      inversion L2 as [|? v ? ? U1 U2]; subst. inversion U2; subst.
      rewrite (IH avs l1 HC HK HF A L1). cbn [extract]. unfold extract_one. rewrite FN.
      cbn [ps_ok ps_flags ps_anon ps_list ps_cur]. rewrite ND.
      assert (LA : length (combine (anon_names d pos) avs) = length (d_anons d)).
      { rewrite combine_length. unfold anon_names. rewrite map_length, <- (Forall2_len _ _ _ _ _ A), combine_length. lia. }
      rewrite LA, Nat.leb_refl, DL, U1.
      assert (AN : anon_names d (pos ++ [o]) = anon_names d pos) by (unfold anon_names; now rewrite combine_snoc_out).
      rewrite AN.
      assert (PO : match pos ++ [o] with [] => ps_ok start | _ :: _ => false end = false) by (now destruct pos).
      rewrite PO. destruct cur as [f|]; auto. rewrite (CUR f); auto. destruct pos; discriminate.
    + destruct (nth_error (d_anons d) (length pos)) as [a|] eqn:NE.
      2: { apply nth_error_None in NE. lia. }
      rewrite (combine_snoc_in _ _ _ _ _ _ NE) in A. apply Forall2_app_inv_l in A as (a1 & a2 & A1 & A2 & ->).
      inversion A2 as [|? v ? ? U1 U2]; subst. inversion U2; subst. cbn in U1.
      assert (LN : lvs = [] /\ match d_list d with
            | Some (n, _) => Forall2 (fun o v => conv n o = Some v) (skipn (length (d_anons d)) pos) []
            | None => length pos <= length (d_anons d) /\ @nil obj = [] end).
      { destruct (d_list d) as [[n t]|].
        - rewrite skipn_snoc_out in L by auto. inversion L. split; auto. rewrite skipn_all2 by lia. constructor.
        - destruct L as [_ ->]. split; auto. split; auto. lia. }
      destruct LN as [-> LN].
      rewrite (IH a1 [] HC HK HF A1 LN). cbn [extract]. unfold extract_one. rewrite FN.
      cbn [ps_ok ps_flags ps_anon ps_list ps_cur]. rewrite ND.
      assert (LAN : length (anon_names d pos) = length a1).
      { unfold anon_names. rewrite map_length. eapply Forall2_len; eauto. }
      assert (LA : length (combine (anon_names d pos) a1) = length pos).
      { rewrite combine_length, <- LAN. unfold anon_names. rewrite map_length, combine_length. lia. }
      rewrite LA. replace (length (d_anons d) <=? length pos)%nat with false by (symmetry; apply Nat.leb_gt; lia).
      rewrite NE, U1.
      assert (DS : dset (a_name a) v (combine (anon_names d pos) a1) = combine (anon_names d (pos ++ [o])) (a1 ++ [v])).
      { unfold anon_names at 2. rewrite (combine_snoc_in _ _ _ _ _ _ NE), map_app. fold (anon_names d pos).
        rewrite combine_app by auto. cbn. apply dset_fresh. rewrite map_fst_combine by auto. rewrite anon_names_nth.
        apply nth_fresh; auto. now apply v_anon_names. }
      rewrite DS.
      assert (PO : match pos ++ [o] with [] => ps_ok start | _ :: _ => false end = false) by (now destruct pos).
      rewrite PO. destruct cur as [f|]; auto. rewrite (CUR f); auto. destruct pos; discriminate.
Qed.

(** ** Value counts *)
Lemma value_counts_spec : forall us fvs, Forall (uok d) us -> Forall2 (uval conv) us fvs ->
  (value_counts_ok d (combine (map uname us) fvs) = true <-> Forall2 (use_value conv) us fvs /\ Forall (use_ok d) us).
Proof.
  induction us as [|u us IH]; intros fvs UO F; inversion F as [|? v ? fvs' U1 U2]; subst.
  - cbn. split; auto.
  - inversion UO as [|? ? O1 O2]; subst. specialize (IH _ O2 U2). cbn. rewrite andb_true_iff.
    change (forallb _ (combine (map uname us) fvs')) with (value_counts_ok d (combine (map uname us) fvs')). rewrite IH.
    destruct O1 as (UI & US & UN & UD). unfold uname at 1. rewrite flag_named_in by auto.
    assert (HEAD : match f_value (u_flag u) with VNone => is_true v | VOne => negb (is_true v) | VOptional => true end = true <->
                   use_value conv u v /\ use_ok d u).
    { unfold use_value, use_ok, uval in *. pose proof (good_default d V (u_flag u) UI) as GD.
      destruct (f_value (u_flag u)) eqn:FV.
      - specialize (UN eq_refl). rewrite UN in *. subst v. rewrite GD by discriminate. cbn. 
        split; auto. intros _. repeat split; auto; discriminate.
      - destruct (u_val u) as [o|].
        + split.
          * intros E. repeat split; auto. intros _ ->. discriminate.
          * intros [[_ E] _]. specialize (E eq_refl). destruct v; easy.
        + subst v. rewrite GD by discriminate. cbn. split; [discriminate|]. intros [_ (_ & _ & Q & _)]. easy.
      - split; auto. intros _. repeat split; auto. discriminate. }
    rewrite HEAD. split.
    + intros [[A B] [C D]]. split; constructor; auto.
    + intros [A B]. inversion A; inversion B; subst. auto.
Qed.

(** ** Targets *)
Hypothesis T : NoDup (targets d).

Lemma target_flag : forall u, In (u_flag u) (d_flags d) -> target_of d (uname u) = f_target (u_flag u).
Proof. intros u I. unfold target_of, uname. now rewrite flag_named_in. Qed.

Lemma find_anon : forall as_ a, NoDup (map a_name as_) -> In a as_ -> find (fun b => teqb (a_name b) (a_name a)) as_ = Some a.
Proof.
  induction as_ as [|b l IH]; intros a N I; [easy|]. cbn in *. inversion N; subst. destruct I as [->|I]. { now rewrite teqb_refl. }
  rewrite teqb_neq; auto. intros E. apply H1. rewrite E. now apply in_map.
Qed.

Lemma not_flag_name : forall n, ~ In n (map f_name (d_flags d)) -> flag_named d n = None.
Proof.
  intros n H. unfold flag_named. destruct (find _ (d_flags d)) as [f|] eqn:E; auto.
  apply find_some in E as [I Q]. apply teqb_eq in Q. subst. exfalso. apply H. now apply in_map.
Qed.

Lemma target_anon : forall a, In a (d_anons d) -> target_of d (a_name a) = a_target a.
Proof.
  intros a I. unfold target_of. pose proof (v_names d V) as N. unfold all_names in N.
  apply NoDup_app_inv in N as (_ & N & D). rewrite not_flag_name.
  - now rewrite find_anon; auto; apply v_anon_names.
  - intro J. apply (D _ J). apply in_or_app. left. now apply in_map.
Qed.

Lemma target_list : forall n t, d_list d = Some (n, t) -> target_of d n = t.
Proof.
  intros n t L. unfold target_of. pose proof (v_names d V) as N. unfold all_names in N. rewrite L in N.
  apply NoDup_app_inv in N as (_ & N & D). rewrite not_flag_name.
  - destruct (find _ (d_anons d)) as [a|] eqn:E; [|now rewrite L].
    apply find_some in E as [I Q]. apply teqb_eq in Q. subst n.
    apply NoDup_app_inv in N as (_ & _ & D2). exfalso. apply (D2 (a_name a)); [now apply in_map|now left].
  - intro J. apply (D _ J). apply in_or_app. right. now left.
Qed.

Lemma NoDup_map_in : forall (A B : Type) (f : A -> B) (big l : list A), NoDup (map f big) -> NoDup l ->
  (forall x, In x l -> In x big) -> NoDup (map f l).
Proof.
  intros A B f big l N. induction l as [|x l IH]; intros NL S; cbn; constructor.
  - inversion NL; subst. intro I. apply in_map_iff in I as (y & E & Iy). apply H1.
    assert (x = y); [|now subst].
    assert (Ix : In x big) by (apply S; now left). assert (Iy' : In y big) by (apply S; now right).
    clear -N E Ix Iy'. induction big as [|z big IH]; [easy|]. cbn in N. inversion N; subst.
    destruct Ix as [->|Ix], Iy' as [->|Iy']; auto.
    + exfalso. apply H1. rewrite <- E. now apply in_map.
    + exfalso. apply H1. rewrite E. now apply in_map.
  - inversion NL; subst. apply IH; auto. intros y I. apply S. now right.
Qed.

Lemma combine_map_l : forall (A B C : Type) (f : A -> C) (l : list A) (l' : list B),
  combine (map f l) l' = map (fun ab => (f (fst ab), snd ab)) (combine l l').
Proof. induction l as [|a l IH]; intros [|b l']; cbn; auto. f_equal. auto. Qed.

Lemma transfer : forall us fvs avs extra,
  Forall (uok d) us -> NoDup (map uname us) -> length us = length fvs -> length (d_anons d) = length avs ->
  match d_list d with Some (n, _) => exists v, extra = [(n, v)] | None => extra = [] end ->
  fold_left (fun m kv => dset (target_of d (fst kv)) (snd kv) m)
    (combine (map uname us) fvs ++ combine (map a_name (d_anons d)) avs ++ extra) [] =
  combine (map (fun u => f_target (u_flag u)) us) fvs ++ combine (map a_target (d_anons d)) avs ++
  map (fun kv => (match d_list d with Some (_, t) => t | None => [] end, snd kv)) extra.
Proof.
  intros us fvs avs extra UO N L1 L2 EX.
  assert (E1 : map (fun kv => target_of d (fst kv)) (combine (map uname us) fvs) = map (fun u => f_target (u_flag u)) us).
  { transitivity (map (target_of d) (map fst (combine (map uname us) fvs))). { now rewrite map_map. }
    rewrite map_fst_combine by (now rewrite map_length). rewrite map_map. apply map_ext_in. intros u I.
    apply target_flag. rewrite Forall_forall in UO. now apply UO. }
  assert (E2 : map (fun kv => target_of d (fst kv)) (combine (map a_name (d_anons d)) avs) = map a_target (d_anons d)).
  { transitivity (map (target_of d) (map fst (combine (map a_name (d_anons d)) avs))). { now rewrite map_map. }
    rewrite map_fst_combine by (now rewrite map_length). rewrite map_map. apply map_ext_in. intros a I. now apply target_anon. }
  assert (E3 : map (fun kv => target_of d (fst kv)) extra = map (fun _ => match d_list d with Some (_, t) => t | None => [] end) extra).
  { destruct (d_list d) as [[n t]|] eqn:DL; [destruct EX as [v ->]|subst; reflexivity].
    cbn. now rewrite (target_list n t). }
  assert (P : forall l ts, map (fun kv => target_of d (fst kv)) l = ts -> length l = length ts ->
     map (fun kv => (target_of d (fst kv), snd kv)) l = combine ts (@map (text * obj) obj snd l)).
  { intros l ts <- _. induction l as [|[k v] l IH]; cbn; auto. f_equal. auto. }
  rewrite fold_dset; cbn [app map].
  - rewrite !map_app. f_equal; [|f_equal].
    + rewrite (P _ _ E1) by (rewrite combine_length, !map_length; lia). now rewrite map_snd_combine by (rewrite map_length; lia).
    + rewrite (P _ _ E2) by (rewrite combine_length, !map_length; lia). now rewrite map_snd_combine by (rewrite map_length; lia).
    + destruct (d_list d) as [[n t]|] eqn:DL; [destruct EX as [v ->]|subst; reflexivity]. cbn. now rewrite (target_list n t).
  - rewrite !map_app, E1, E2, E3. unfold targets in T.
    apply NoDup_app_inv in T as (T1 & T2 & T3).
    assert (X : NoDup (map a_target (d_anons d) ++ map (fun _ => match d_list d with Some (_, t) => t | None => [] end) extra)).
    { destruct (d_list d) as [[n t]|] eqn:DL; [destruct EX as [v ->]|subst]; exact T2. }
    assert (Y : forall x, In x (map a_target (d_anons d) ++ map (fun _ => match d_list d with Some (_, t) => t | None => [] end) extra) ->
                ~ In x (map f_target (d_flags d))).
    { intros x I J. apply (T3 x J). destruct (d_list d) as [[n t]|] eqn:DL; [destruct EX as [v ->]|subst]; exact I. }
    clear - T1 X Y UO N. 
    assert (U : NoDup (map f_target (map u_flag us))).
    { apply NoDup_map_in with (big := d_flags d); auto.
      - assert (M : NoDup (map f_name (map u_flag us))) by (rewrite map_map; exact N). apply NoDup_map_inv in M. exact M.
      - intros f I. apply in_map_iff in I as (u & <- & I). rewrite Forall_forall in UO. now apply UO. }
    rewrite map_map in U. revert U UO. clear N.
    induction us as [|u us IH]; intros U UO; cbn; auto. inversion U; subst. inversion UO; subst.
    constructor; [|apply IH; auto]. rewrite in_app_iff. intros [I|I]; auto.
    apply (Y _ I). apply in_map. apply H3.
Qed.
End Complete.
