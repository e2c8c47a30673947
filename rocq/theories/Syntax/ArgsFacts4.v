(** The parser is exactly the relation [reading]; pipeline arguments. *)
From Verif.Syntax Require Export ArgsFacts3 LexerFacts.
Local Open Scope char_scope.
Local Open Scope list_scope.

Lemma map_Some_len : forall (A : Type) (l : list A) m, map Some l = m -> length l = length m.
Proof. intros A l m <-. now rewrite map_length. Qed.

Section Iff.
Variable conv : text -> obj -> option obj.
Variable d : decl.
Hypothesis V : validate d = true.
Hypothesis T : NoDup (targets d).

Lemma NoDup_names_flags : forall us, Forall (uok d) us -> (NoDup (map uname us) <-> NoDup (map u_flag us)).
Proof.
  intros us UO. assert (E : map uname us = map f_name (map u_flag us)) by (now rewrite map_map). rewrite E. split.
  - apply NoDup_map_inv.
  - intros N. apply NoDup_map_in with (big := d_flags d); auto; [now apply v_flag_names|].
    intros f I. apply in_map_iff in I as (u & <- & I). rewrite Forall_forall in UO. now apply UO.
Qed.

Lemma use_ok_uok : forall u, use_ok d u -> uok d u.
Proof.
  intros u (A & B & C & D). repeat split; auto. intros E. rewrite E in C. destruct (u_val u); easy.
Qed.

Lemma uval_of : forall us fvs, Forall2 (use_value conv) us fvs -> Forall2 (uval conv) us fvs.
Proof. induction 1; constructor; auto. apply H. Qed.

Lemma names_split : forall n, map a_name (d_anons d) = map a_name (firstn n (d_anons d)) ++ map a_name (skipn n (d_anons d)).
Proof. intros n. now rewrite <- map_app, firstn_skipn. Qed.

Lemma finish : forall us fvs pos avs lvs cur ok attrs,
  Forall (uok d) us -> NoDup (map uname us) -> Forall2 (uval conv) us fvs ->
  Forall2 (fun ao v => conv (a_name (fst ao)) (snd ao) = Some v) (combine (d_anons d) pos) avs ->
  let s := mkps (combine (map uname us) fvs) (combine (anon_names d pos) avs) lvs cur ok in
  (let names := map fst (ps_flags s) ++ map fst (ps_anon s) in
    (if value_counts_ok d (ps_flags s) &&
       forallb (fun g => (count_in names g <=? 1)%nat) (d_at_most d) &&
       forallb (fun g => (count_in names g =? 1)%nat) (d_exactly d)
    then
      match fill (skipn (length (ps_anon s)) (d_anons d)) (ps_anon s) with
      | None => None
      | Some anon =>
        let anon := match d_list d with
                    | Some (n, _) => dset n (OList (ps_list s)) anon
                    | None => anon
                    end in
        Some (fold_left (fun m kv => dset (target_of d (fst kv)) (snd kv) m) (ps_flags s ++ anon) [])
      end
    else None) = Some attrs) <->
  Forall2 (use_value conv) us fvs /\ Forall (use_ok d) us /\
  (forall g, In g (d_at_most d) -> at_most_one_of g (given d us pos)) /\
  (forall g, In g (d_exactly d) -> at_most_one_of g (given d us pos) /\ one_of g (given d us pos)) /\
  exists dvs, map a_default (skipn (length pos) (d_anons d)) = map Some dvs /\
    attrs = combine (map (fun u => f_target (u_flag u)) us) fvs ++ combine (map a_target (d_anons d)) (avs ++ dvs) ++
            match d_list d with Some (_, t) => [(t, OList lvs)] | None => [] end.
Proof.
  intros us fvs pos avs lvs cur ok attrs UO N UV A s. cbn [s ps_flags ps_anon ps_list].
  assert (LU : length us = length fvs) by (eapply Forall2_len; eauto).
  assert (LA : length (anon_names d pos) = length avs).
  { unfold anon_names. rewrite map_length. eapply Forall2_len; eauto. }
  assert (NM : map fst (combine (map uname us) fvs) ++ map fst (combine (anon_names d pos) avs) = given d us pos).
  { rewrite map_fst_combine by (now rewrite map_length). rewrite map_fst_combine by auto.
    unfold given. rewrite anon_names_nth. reflexivity. }
  rewrite NM.
  assert (SK : skipn (length (combine (anon_names d pos) avs)) (d_anons d) = skipn (length pos) (d_anons d)).
  { rewrite combine_length, <- LA, Nat.min_id, anon_names_nth, map_length, firstn_length.
    destruct (Nat.le_ge_cases (length pos) (length (d_anons d))); [now rewrite Nat.min_l|].
    rewrite Nat.min_r by auto. now rewrite !skipn_all2 by lia. }
  rewrite SK.
  assert (NN : NoDup (map fst (combine (anon_names d pos) avs) ++ map a_name (skipn (length pos) (d_anons d)))).
  { rewrite map_fst_combine by auto. rewrite anon_names_nth, <- names_split. now apply v_anon_names. }
  assert (FIN : forall dvs, map a_default (skipn (length pos) (d_anons d)) = map Some dvs ->
    fold_left (fun m kv => dset (target_of d (fst kv)) (snd kv) m)
     (combine (map uname us) fvs ++
      match d_list d with
      | Some (n, _) => dset n (OList lvs) (combine (anon_names d pos) avs ++ combine (map a_name (skipn (length pos) (d_anons d))) dvs)
      | None => combine (anon_names d pos) avs ++ combine (map a_name (skipn (length pos) (d_anons d))) dvs
      end) [] =
    combine (map (fun u => f_target (u_flag u)) us) fvs ++ combine (map a_target (d_anons d)) (avs ++ dvs) ++
            match d_list d with Some (_, t) => [(t, OList lvs)] | None => [] end).
  { intros dvs D. apply (f_equal (@length _)) in D. rewrite !map_length in D.
    assert (C : combine (anon_names d pos) avs ++ combine (map a_name (skipn (length pos) (d_anons d))) dvs =
                combine (map a_name (d_anons d)) (avs ++ dvs)).
    { rewrite (names_split (length pos)), <- anon_names_nth, combine_app by auto. reflexivity. }
    rewrite C.
    assert (LD : length (d_anons d) = length (avs ++ dvs)).
    { rewrite app_length, <- LA, <- D, anon_names_nth, map_length, firstn_length, skipn_length. lia. }
    pose proof (transfer d V T us fvs (avs ++ dvs)) as TR.
    destruct (d_list d) as [[n t]|] eqn:DL.
    - rewrite dset_fresh.
      + rewrite TR; eauto.
      + rewrite map_fst_combine by (now rewrite map_length). pose proof (v_names d V) as VN. unfold all_names in VN.
        rewrite DL in VN. apply NoDup_app_inv in VN as (_ & VN & _). apply NoDup_app_inv in VN as (_ & _ & VN).
        intro I. apply (VN _ I). now left.
    - specialize (TR [] UO N LU LD eq_refl). rewrite app_nil_r in TR. rewrite TR. cbn. reflexivity. }
  split.
  - match goal with |- context [if ?b then _ else _] => destruct b eqn:B end; [|discriminate].
    rewrite !andb_true_iff in B. destruct B as [[B1 B2] B3].
    apply value_counts_spec with (conv := conv) in B1; auto. destruct B1 as [B1 B1'].
    rewrite forallb_forall in B2, B3.
    destruct (fill (skipn (length pos) (d_anons d)) (combine (anon_names d pos) avs)) as [m|] eqn:FL; [|discriminate].
    apply fill_spec in FL as (dvs & D & ->); auto. intros E. injection E as <-.
    split; auto. split; auto. split; [|split].
    + intros g I. apply at_most_spec; [eapply v_groups; eauto|]. now apply B2.
    + intros g I. apply exactly_spec; [eapply v_groups; eauto|]. now apply B3.
    + exists dvs. split; auto.
  - intros (B1 & B1' & B2 & B3 & dvs & D & ->).
    assert (X1 : value_counts_ok d (combine (map uname us) fvs) = true) by (apply value_counts_spec with (conv := conv); auto).
    assert (X2 : forallb (fun g => (count_in (given d us pos) g <=? 1)%nat) (d_at_most d) = true).
    { apply forallb_forall. intros g I. apply at_most_spec; [eapply v_groups; eauto|auto]. }
    assert (X3 : forallb (fun g => (count_in (given d us pos) g =? 1)%nat) (d_exactly d) = true).
    { apply forallb_forall. intros g I. apply exactly_spec; [eapply v_groups; eauto|auto]. }
    rewrite X1, X2, X3. cbn [andb].
    assert (FL : fill (skipn (length pos) (d_anons d)) (combine (anon_names d pos) avs) =
                 Some (combine (anon_names d pos) avs ++ combine (map a_name (skipn (length pos) (d_anons d))) dvs)).
    { apply fill_spec; eauto. }
    rewrite FL. f_equal. now apply FIN.
Qed.

Theorem parse_reading : forall args attrs, parse conv d args = Some attrs <->
  exists tss us pos, Forall2 (stands_for d) args tss /\ reading conv d (concat tss) us pos attrs.
Proof.
  intros args attrs. split.
  - intros P. exists (map (expand_arg d) args). unfold parse in P.
    destruct (extract conv d _ (flat_map (expand_arg d) args)) as [s|] eqn:E; [|discriminate].
    destruct (inv_extract conv d V _ _ _ _ _ _ (inv_start conv d) E) as (us & pos & I). cbn [app] in I.
    exists us, pos. split. { now apply expand_all. }
    rewrite <- flat_map_concat_map. destruct I as [i_words0 i_uses0 i_once0 i_cur0 i_flags0 i_pos0 i_first0 i_ok0 i_taken0 i_anon0 i_list0].
    destruct i_flags0 as (fvs & F2 & PF). destruct i_anon0 as (avs & A & PA).
    destruct s as [sf sa sl sc so]. cbn [ps_flags ps_anon ps_list ps_cur ps_ok] in *. subst sf sa.
    apply (finish us fvs pos avs sl sc so attrs i_uses0 i_once0 F2 A) in P as (U1 & U2 & G1 & G2 & dvs & D & ->).
    split; auto.
    + now apply NoDup_names_flags.
    + intros us' u -> UV NV. destruct pos as [|o pos]; auto. exfalso. apply NV.
      rewrite cur_of_snoc, UV in i_cur0. eapply i_taken0; [discriminate|]. exact i_cur0.
    + exists fvs, (avs ++ dvs), (skipn (length (d_anons d)) pos). split; auto. split.
      * apply fills_iff. eauto 10.
      * destruct (d_list d) as [[n t]|].
        -- exists sl. split; auto.
        -- rewrite skipn_all2 by auto. split; auto. now rewrite app_nil_r.
  - intros (tss & us & pos & ST & R). apply expand_all in ST; auto. subst tss.
    destruct R as [r_words0 r_uses0 r_once0 r_taken0 r_pos0 r_first0 r_at_most0 r_exactly0 r_attrs0].
    rewrite <- flat_map_concat_map in r_words0.
    destruct r_attrs0 as (fvs & avs0 & rest & UV & FI & AT).
    apply fills_iff in FI as (avs & dvs & A & -> & D & ->).
    assert (UO : Forall (uok d) us). { eapply Forall_impl; [|exact r_uses0]. apply use_ok_uok. }
    assert (ND : NoDup (map uname us)) by (now apply NoDup_names_flags).
    pose proof (uval_of _ _ UV) as UV'.
    assert (EX : exists lvs, match d_list d with
        | None => length pos <= length (d_anons d) /\ lvs = []
        | Some (n, _) => Forall2 (fun o v => conv n o = Some v) (skipn (length (d_anons d)) pos) lvs
        end /\ attrs = combine (map (fun u => f_target (u_flag u)) us) fvs ++ combine (map a_target (d_anons d)) (avs ++ dvs) ++
            match d_list d with Some (_, t) => [(t, OList lvs)] | None => [] end).
    { destruct (d_list d) as [[n t]|].
      - destruct AT as (lvs & L & ->). exists lvs. auto.
      - destruct AT as (L & ->). exists []. rewrite app_nil_r. split; auto. split; auto.
        apply (f_equal (@length _)) in L. rewrite skipn_length in L. cbn in L. lia. }
    destruct EX as (lvs & L & AT'). clear AT.
    unfold parse. fold (start d). rewrite r_words0, extract_app, (complete_uses conv d V us fvs UO ND UV').
    rewrite (complete_pos conv d V _ (cur_of us) pos avs lvs); auto.
    + apply (finish us fvs pos avs lvs _ _ attrs UO ND UV' A). split; auto. split; auto. split; auto. split; auto.
      exists dvs. auto.
    + intros f NE C. apply cur_of_some in C as (us' & u & -> & UF & UV0). subst f.
      destruct (f_value (u_flag u)) eqn:FV; auto; exfalso; apply NE; eapply r_taken0; eauto; congruence.
Qed.
End Iff.

(** ** Pipeline arguments *)
Lemma pflag_spec : forall o p, pflag_name o = Some p -> names_param o p.
Proof.
  intros o p E. destruct o; try discriminate. unfold pflag_name in E.
  match type of E with context [isidentifier ?n] => set (name := n) in E end.
  destruct (isidentifier name) eqn:I; [|discriminate]. injection E as <-. split; auto.
  subst name. destruct (starts ["-"; "-"] s) eqn:S2.
  - apply starts_app in S2. right. f_equal. exact S2.
  - destruct (starts ["-"] s) eqn:S1; [|discriminate].
    apply starts_app in S1. left. f_equal. exact S1.
Qed.

Lemma pflag_none : forall o, pflag_name o = None -> forall p, ~ names_param o p.
Proof.
  intros o H p (I & [->| ->]); unfold pflag_name in H.
  - destruct p as [|a p]; [discriminate I|].
    assert (A : "-" <> a) by (intros <-; discriminate I). apply Ascii.eqb_neq in A.
    cbn [starts] in H. change ("-" =? "-") with true in H. cbn [andb] in H. rewrite A in H. cbn [andb skipn] in H. 
    rewrite I in H. discriminate.
  - cbn [starts] in H. change ("-" =? "-") with true in H. cbn [andb skipn] in H. rewrite I in H. discriminate.
Qed.

Definition pinv (ts : list obj) (s : ppstate) (us : list (list obj * option (text * obj))) : Prop :=
  ts = concat (map fst us) ++ pp_args s /\
  Forall (fun u => named (fst u) (snd u)) us /\
  pp_kwargs s = somes (map snd us) /\ NoDup (map fst (pp_kwargs s)) /\
  (forall o p, In o (pp_args s) -> ~ names_param o p) /\
  (pp_done s = true <-> pp_args s <> []) /\
  match pp_param s with
  | None => forall us' o, us <> us' ++ [([o], None)]
  | Some p => pp_args s = [] /\ exists us' o, us = us' ++ [([o], None)] /\ names_param o p
  end.

Lemma somes_app : forall (A : Type) (l l' : list (option A)), somes (l ++ l') = somes l ++ somes l'.
Proof. intros. apply flat_map_app. Qed.

Lemma pinv_step : forall ts s us o s', pinv ts s us -> pipeline_arg s o = Some s' -> exists us', pinv (ts ++ [o]) s' us'.
Proof.
  intros ts s us o s' (W & U & K & N & P & D & C) E. unfold pipeline_arg in E.
  destruct (pflag_name o) as [n|] eqn:PF.
  - destruct (pp_done s) eqn:DN; [discriminate|]. injection E as <-.
    assert (AN : pp_args s = []). { destruct (pp_args s); auto. exfalso. assert (false = true) by (apply D; discriminate). discriminate. }
    exists (us ++ [([o], None)]). unfold pinv. cbn. rewrite AN, app_nil_r in *. repeat split; auto; try easy.
    + rewrite map_app, concat_app. cbn. rewrite W. reflexivity.
    + apply Forall_app. split; auto. constructor; auto. cbn. econstructor. eapply pflag_spec; eauto.
    + rewrite map_app, somes_app. cbn. now rewrite app_nil_r.
    + exists us, o. split; auto. now apply pflag_spec.
  - destruct (pp_param s) as [n|] eqn:PP.
    + destruct (dget n (pp_kwargs s)) eqn:DG; [discriminate|]. injection E as <-.
      destruct C as (AN & us' & o' & -> & NP). apply dget_None in DG.
      exists (us' ++ [([o'; o], Some (n, o))]). unfold pinv. cbn. rewrite AN, !app_nil_r in *.
      rewrite dset_fresh by auto. repeat split; auto; try easy.
      * rewrite !map_app, !concat_app in *. cbn in *. rewrite W, <- app_assoc. reflexivity.
      * apply Forall_app in U as [U _]. apply Forall_app. split; auto. constructor; auto. cbn. constructor; auto. now apply pflag_none.
      * rewrite K, !map_app, !somes_app. cbn. now rewrite app_nil_r.
      * rewrite map_app. cbn. apply NoDup_snoc; auto.
      * intros Q. apply D in Q. easy.
      * intros us0 o0 Q. apply app_inj_tail in Q as [_ Q]. discriminate.
    + injection E as <-. exists us. unfold pinv. cbn. repeat split; auto.
      * rewrite W. now rewrite app_assoc.
      * intros x p I. apply in_app_iff in I as [I|[<-|[]]]; auto. now apply pflag_none.
      * intros _. destruct (pp_args s); discriminate.
Qed.

Lemma pinv_all : forall os ts s us s', pinv ts s us -> pipeline_args s os = Some s' -> exists us', pinv (ts ++ os) s' us'.
Proof.
  induction os as [|o os IH]; intros ts s us s' I E; cbn in E.
  - injection E as <-. rewrite app_nil_r. eauto.
  - destruct (pipeline_arg s o) as [s1|] eqn:E1; [|discriminate].
    destruct (pinv_step _ _ _ _ _ I E1) as (us1 & I1). destruct (IH _ _ _ _ I1 E) as (us2 & I2).
    rewrite <- app_assoc in I2. eauto.
Qed.

Lemma pipeline_args_app : forall a b s, pipeline_args s (a ++ b) =
  match pipeline_args s a with Some s' => pipeline_args s' b | None => None end.
Proof. induction a as [|x a IH]; intros b s; cbn; auto. destruct (pipeline_arg s x); auto. Qed.

Lemma names_param_flag : forall o p, names_param o p -> pflag_name o = Some p.
Proof.
  intros o p N. destruct (pflag_name o) as [q|] eqn:E; [|exfalso; eapply pflag_none; eauto].
  apply pflag_spec in E. destruct N as (I & N), E as (I' & E). 
  assert (X : forall r, isidentifier ("-" :: r) = false) by reflexivity.
  destruct N as [->| ->], E as [E|E]; injection E as E; subst; auto; rewrite X in *; discriminate.
Qed.

Lemma not_param_flag : forall o, (forall p, ~ names_param o p) -> pflag_name o = None.
Proof. intros o N. destruct (pflag_name o) as [q|] eqn:E; auto. apply pflag_spec in E. exfalso. eapply N; eauto. Qed.

Lemma pipeline_uses : forall us : list (list obj * option (text * obj)), Forall (fun u => named (fst u) (snd u)) us -> NoDup (map fst (somes (map snd us))) ->
  exists p, pipeline_args (mkpps [] [] None false) (concat (map fst us)) = Some (mkpps [] (somes (map snd us)) p false) /\ (p <> None -> exists us' o, us = us' ++ [([o], None)]).
Proof.
  induction us as [|[l m] us IH] using rev_ind; intros U N.
  - exists None. split; auto. intros H. now destruct H.
  - apply Forall_app in U as [U1 U2]. inversion U2 as [|? ? U3 _]; subst. cbn in U3.
    rewrite map_app, somes_app in N. cbn [map somes] in N.
    assert (N1 : NoDup (map fst (somes (map snd us)))). { rewrite map_app in N. now apply NoDup_app_inv in N. }
    destruct (IH U1 N1) as (p & E & _). rewrite map_app, concat_app, pipeline_args_app, E. cbn [map concat]. rewrite app_nil_r.
    rewrite map_app, somes_app.
    inversion U3 as [o q v NP NV Q1 Q2|o q NP Q1 Q2]; subst; cbn [fst snd map].
    + exists None. split; [|intros H; now destruct H]. cbn [pipeline_args]. unfold pipeline_arg at 1.
      rewrite (names_param_flag _ _ NP). cbn [pp_done pp_args pp_kwargs pp_param].
      unfold pipeline_arg. rewrite (not_param_flag _ NV). cbn [pp_done pp_args pp_kwargs pp_param].
      assert (F : ~ In q (map fst (somes (map snd us)))).
      { rewrite map_app in N. cbn in N. apply NoDup_remove_2 in N. now rewrite app_nil_r in N. }
      apply dget_None in F as F'. rewrite F', dset_fresh by auto. reflexivity.
    + exists (Some q). split; [|eauto]. cbn [pipeline_args]. unfold pipeline_arg at 1.
      rewrite (names_param_flag _ _ NP). cbn. now rewrite app_nil_r.
Qed.

Lemma pipeline_positional : forall args a0 k dn, (forall o p, In o args -> ~ names_param o p) ->
  exists dn', pipeline_args (mkpps a0 k None dn) args = Some (mkpps (a0 ++ args) k None dn').
Proof.
  induction args as [|o args IH]; intros a0 k dn H; cbn.
  - exists dn. now rewrite app_nil_r.
  - unfold pipeline_arg. rewrite not_param_flag by (intros p; apply H; now left). cbn.
    destruct (IH (a0 ++ [o]) k true) as (dn' & E). { intros x p I. apply H. now right. }
    exists dn'. rewrite E. now rewrite <- app_assoc.
Qed.

(** Bindings *)
Lemma dget_dset : forall k k' v m, dget k (dset k' v m) = if teqb k k' then Some v else dget k m.
Proof.
  induction m as [|[a b] m IH]; cbn.
  - destruct (teqb k k') eqn:E; auto.
  - destruct (teqb k' a) eqn:E1; cbn.
    + apply teqb_eq in E1. subst a. destruct (teqb k k') eqn:E; auto.
    + destruct (teqb k a) eqn:E2.
      * apply teqb_eq in E2. subst a. destruct (teqb k k') eqn:E; auto.
        apply teqb_eq in E. subst k'. now rewrite teqb_refl in E1.
      * exact IH.
Qed.

Lemma bind_positional_get : forall ps args m k, NoDup ps -> 
  dget k (bind_positional ps args m) =
  match dget k (combine ps args) with Some v => Some v | None => dget k m end.
Proof.
  induction ps as [|p ps IH]; intros [|a args] m k N; cbn; auto.
  inversion N; subst. rewrite IH by auto. destruct (teqb k p) eqn:E.
  - apply teqb_eq in E. subst p.
    assert (X : dget k (combine ps args) = None).
    { apply dget_None. intro I. apply H1. clear -I. revert args I. induction ps as [|q ps IH]; intros [|b args] I; cbn in *; try easy.
      destruct I; eauto. }
    rewrite X, dget_dset, teqb_refl. reflexivity.
  - destruct (dget k (combine ps args)); auto. rewrite dget_dset, E. reflexivity.
Qed.

Lemma fold_dset_get : forall kw m k, NoDup (map fst kw) ->
  dget k (fold_left (fun m kv => dset (fst kv) (snd kv) m) kw m) =
  match dget k kw with Some v => Some v | None => dget k m end.
Proof.
  induction kw as [|[a b] kw IH]; intros m k N; cbn; auto. inversion N; subst. rewrite IH by auto. cbn. 
  destruct (teqb k a) eqn:E.
  - apply teqb_eq in E. subst a. apply dget_None in H1. rewrite H1, dget_dset, teqb_refl. reflexivity.
  - destruct (dget k kw); auto. now rewrite dget_dset, E.
Qed.

Lemma bind_all_get : forall ps m k, dget k (bind_all ps m) =
  match dget k m with Some v => Some v | None => if existsb (teqb k) ps then Some ONone else None end.
Proof.
  induction ps as [|p ps IH]; intros m k; cbn. { destruct (dget k m); auto. }
  rewrite IH. destruct (dget p m) as [v|] eqn:D.
  - destruct (dget k m) eqn:K; auto. destruct (teqb k p) eqn:E; auto. apply teqb_eq in E. congruence.
  - rewrite dget_dset. destruct (teqb k p) eqn:E; auto. apply teqb_eq in E. subst k. now rewrite D.
Qed.

Lemma bindings_get : forall params args kwargs b, NoDup params -> NoDup (map fst kwargs) ->
  bindings params args kwargs = Ok b ->
  length args + length kwargs <= length params /\ (forall k v, dget k kwargs = Some v -> dget k (combine params args) = None) /\ forall k, dget k b = match dget k kwargs with
                       | Some v => Some v
                       | None => match dget k (combine params args) with
                                 | Some v => Some v
                                 | None => if existsb (teqb k) params then Some ONone else None
                                 end
                       end.
Proof.
  intros params args kwargs b NP NK E. unfold bindings in E.
  destruct (Nat.ltb_spec (length params) (length args + length kwargs)) as [|L]; [discriminate|].
  match type of E with context [existsb ?f kwargs] => destruct (existsb f kwargs) eqn:X end; [discriminate|].
  injection E as <-. split; auto. 
  assert (P : forall k, dget k (bind_positional params args []) = dget k (combine params args)).
  { intros k. rewrite bind_positional_get by auto. destruct (dget k (combine params args)); auto. }
  split.
  - intros k v K. rewrite <- P. destruct (dget k (bind_positional params args [])) eqn:D; auto. exfalso.
    rewrite <- not_true_iff_false in X. apply X. apply existsb_exists.
    assert (I : exists v', In (k, v') kwargs).
    { clear -K. induction kwargs as [|[a c] kw IH]; cbn in K; [discriminate|]. destruct (teqb k a) eqn:E.
      - apply teqb_eq in E. subst. exists c. now left.
      - destruct (IH K) as [v' I]. exists v'. now right. }
    destruct I as [v' I]. exists (k, v'). split; auto. cbn. now rewrite D.
  - intros k. rewrite bind_all_get, fold_dset_get, P by auto. destruct (dget k kwargs); auto.
Qed.
