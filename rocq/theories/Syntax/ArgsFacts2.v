(** The parser's loop: soundness. *)
From Verif.Syntax Require Export ArgsFacts.
Local Open Scope char_scope.
Local Open Scope list_scope.

Definition uval (conv : text -> obj -> option obj) (u : use) (v : obj) : Prop :=
  match u_val u with
  | Some o => conv (f_name (u_flag u)) o = Some v
  | None => v = f_default (u_flag u)
  end.

Definition uok (d : decl) (u : use) : Prop :=
  In (u_flag u) (d_flags d) /\ In (u_sym u) (symbols (u_flag u)) /\
  (f_value (u_flag u) = VNone -> u_val u = None) /\ forall v, u_val u = Some v -> ~ dash_word v.

Definition uname (u : use) : text := f_name (u_flag u).

Definition cur_of (us : list use) : option flag :=
  fold_left (fun _ u => match u_val u with None => Some (u_flag u) | Some _ => None end) us None.

Lemma cur_of_snoc : forall us u, cur_of (us ++ [u]) = match u_val u with None => Some (u_flag u) | Some _ => None end.
Proof. intros. unfold cur_of. now rewrite fold_left_app. Qed.

Lemma cur_of_some : forall us f, cur_of us = Some f -> exists us' u, us = us' ++ [u] /\ u_flag u = f /\ u_val u = None.
Proof.
  intros us f H. destruct us as [|u0 us0] using rev_ind; [discriminate|]. rewrite cur_of_snoc in H.
  destruct (u_val u0) eqn:E; [discriminate|]. injection H as H. eauto.
Qed.

Definition anon_names (d : decl) (pos : list obj) : list text := map (fun ao => a_name (fst ao)) (combine (d_anons d) pos).

Record inv (conv : text -> obj -> option obj) (d : decl) (ts : list obj) (s : pstate) (us : list use) (pos : list obj) : Prop := {
  i_words : ts = flat_map written us ++ pos;
  i_uses : Forall (uok d) us;
  i_once : NoDup (map uname us);
  i_cur : ps_cur s = cur_of us;
  i_flags : exists fvs, Forall2 (uval conv) us fvs /\ ps_flags s = combine (map uname us) fvs;
  i_pos : forall o, In o pos -> ~ known d o;
  i_first : forall o r, pos = o :: r -> d_flags d <> [] -> ~ dash_word o;
  i_ok : ps_ok s = match pos with [] => negb (length (d_flags d) =? 0)%nat | _ => false end;
  i_taken : forall f, pos <> [] -> ps_cur s = Some f -> f_value f = VNone;
  i_anon : exists avs, Forall2 (fun ao v => conv (a_name (fst ao)) (snd ao) = Some v) (combine (d_anons d) pos) avs /\
                       ps_anon s = combine (anon_names d pos) avs;
  i_list : match d_list d with
           | None => length pos <= length (d_anons d)
           | Some (n, _) => Forall2 (fun o v => conv n o = Some v) (skipn (length (d_anons d)) pos) (ps_list s)
           end }.

Lemma Forall2_len : forall (A B : Type) (R : A -> B -> Prop) l l', Forall2 R l l' -> length l = length l'.
Proof. induction 1; cbn; auto. Qed.

Lemma Forall2_snoc : forall (A B : Type) (R : A -> B -> Prop) l l' x y, Forall2 R l l' -> R x y ->
  Forall2 R (l ++ [x]) (l' ++ [y]).
Proof. intros. apply Forall2_app; auto. Qed.

Lemma combine_snoc_in : forall (A B : Type) (l : list A) (p : list B) o a, nth_error l (length p) = Some a ->
  combine l (p ++ [o]) = combine l p ++ [(a, o)].
Proof.
  induction l as [|x l IH]; intros [|y p] o a E; cbn in *; try discriminate; auto.
  - injection E as ->. now destruct l.
  - f_equal. auto.
Qed.

Lemma combine_snoc_out : forall (A B : Type) (l : list A) (p : list B) o, length l <= length p ->
  combine l (p ++ [o]) = combine l p.
Proof.
  induction l as [|x l IH]; intros [|y p] o L; cbn in *; try lia; auto. f_equal. apply IH. lia.
Qed.

Lemma skipn_snoc_out : forall (A : Type) n (p : list A) o, length p < n -> skipn n (p ++ [o]) = [].
Proof. intros. apply skipn_all2. rewrite app_length. cbn. lia. Qed.

Lemma skipn_snoc_in : forall (A : Type) n (p : list A) o, n <= length p -> skipn n (p ++ [o]) = skipn n p ++ [o].
Proof. intros. rewrite skipn_app. now replace (n - length p) with 0 by lia. Qed.

Lemma anon_names_nth : forall d pos, anon_names d pos = map a_name (firstn (length pos) (d_anons d)).
Proof.
  intros. unfold anon_names. revert pos. induction (d_anons d) as [|a l IH]; intros [|o pos]; cbn; auto. f_equal. auto.
Qed.

Lemma in_firstn : forall (A : Type) n (l : list A) x, In x (firstn n l) -> In x l.
Proof. induction n as [|n IH]; intros [|y l] x H; cbn in *; try easy. destruct H; auto. Qed.

Lemma nth_fresh : forall (as_ : list anon) n a, NoDup (map a_name as_) -> nth_error as_ n = Some a ->
  ~ In (a_name a) (map a_name (firstn n as_)).
Proof.
  induction as_ as [|b l IH]; intros [|n] a N E; cbn in *; try discriminate; auto.
  inversion N; subst. intros [Q|I].
  - apply H1. rewrite Q. apply nth_error_In in E. now apply in_map.
  - eapply IH; eauto.
Qed.

Section Sound.
Variable conv : text -> obj -> option obj.
Variable d : decl.
Hypothesis V : validate d = true.

Lemma fresh_pos : forall pos o, (find_flag d o = None) -> (forall x, In x pos -> ~ known d x) ->
  forall x, In x (pos ++ [o]) -> ~ known d x.
Proof.
  intros pos o F H x I. apply in_app_iff in I as [I|[<-|[]]]; auto. now apply find_flag_none.
Qed.

Lemma inv_step : forall ts s us pos o s', inv conv d ts s us pos -> extract_one conv d s o = Some s' ->
  exists us' pos', inv conv d (ts ++ [o]) s' us' pos'.
Proof.
  intros ts s us pos o s' I E. destruct I. unfold extract_one in E.
  destruct (find_flag d o) as [f|] eqn:FF.
  - (* a flag *)
    destruct (ps_ok s) eqn:OK; [|discriminate]. destruct pos as [|]; [|discriminate].
    destruct (dget (f_name f) (ps_flags s)) eqn:DG; [discriminate|]. injection E as <-.
    apply find_flag_some in FF as (x & -> & IF & IS); auto.
    destruct i_flags0 as (fvs & F2 & PF).
    assert (NI : ~ In (f_name f) (map uname us)).
    { rewrite PF in DG. apply dget_None in DG. rewrite map_fst_combine in DG; auto. rewrite map_length. eapply Forall2_len; eauto. }
    exists (us ++ [mkuse x f None]), []. split; cbn; auto.
    + rewrite flat_map_app, i_words0, !app_nil_r. reflexivity.
    + apply Forall_app. split; auto. constructor; auto. repeat split; auto. intros v Q. discriminate.
    + rewrite map_app. apply NoDup_snoc; auto.
    + now rewrite cur_of_snoc.
    + exists (fvs ++ [f_default f]). split. { apply Forall2_snoc; auto. reflexivity. }
      rewrite map_app, combine_app by (rewrite map_length; eapply Forall2_len; eauto). cbn. rewrite <- PF.
      apply dset_fresh. now apply dget_None.
    + intros g H. now destruct H.
  - destruct (plausible o && ps_ok s)%bool eqn:PL; [discriminate|].
    assert (KO : ~ known d o) by (now apply find_flag_none).
    (* the anonymous case *)
    assert (ANON : (forall f, ps_cur s = Some f -> f_value f = VNone) ->
      (if (length (d_anons d) <=? length (ps_anon s))%nat then
          match d_list d with
          | Some (n, _) =>
            match conv n o with
            | Some v => Some (mkps (ps_flags s) (ps_anon s) (ps_list s ++ [v]) (ps_cur s) false)
            | None => None
            end
          | None => None
          end
        else
          match nth_error (d_anons d) (length (ps_anon s)) with
          | Some a =>
            match conv (a_name a) o with
            | Some v => Some (mkps (ps_flags s) (dset (a_name a) v (ps_anon s)) (ps_list s) (ps_cur s) false)
            | None => None
            end
          | None => None
          end) = Some s' -> exists us' pos', inv conv d (ts ++ [o]) s' us' pos').
    { intros CUR A. destruct i_anon0 as (avs & F2 & PA).
      assert (LA : length (ps_anon s) = Nat.min (length (d_anons d)) (length pos)).
      { rewrite PA, combine_length. unfold anon_names. rewrite map_length.
        rewrite <- (Forall2_len _ _ _ _ _ F2), combine_length. lia. }
      assert (FIRST : forall o0 r, pos ++ [o] = o0 :: r -> d_flags d <> [] -> ~ dash_word o0).
      { intros o0 r Q ND. destruct pos as [|p pos].
        - injection Q as <- <-. intro DW. apply plausible_spec in DW. rewrite DW, i_ok0 in PL.
          cbn in PL. destruct (d_flags d); [easy|discriminate].
        - injection Q as -> _. eapply i_first0; eauto. }
      assert (OKK : false = match pos ++ [o] with [] => negb (length (d_flags d) =? 0)%nat | _ :: _ => false end) by (now destruct pos).
      exists us, (pos ++ [o]).
      destruct (length (d_anons d) <=? length (ps_anon s))%nat eqn:LE.
      - apply Nat.leb_le in LE. destruct (d_list d) as [[n t]|] eqn:DL; [|discriminate].
        destruct (conv n o) as [v|] eqn:CV; [|discriminate]. injection A as <-. split; cbn; auto.
        + rewrite i_words0. now rewrite app_assoc.
        + now apply fresh_pos.
        + exists avs. unfold anon_names. rewrite combine_snoc_out by lia. auto.
        + rewrite DL. rewrite skipn_snoc_in by lia. apply Forall2_snoc; auto.
      - apply Nat.leb_gt in LE. assert (LP : length (ps_anon s) = length pos) by lia.
        destruct (nth_error (d_anons d) (length (ps_anon s))) as [a|] eqn:NE; [|discriminate].
        destruct (conv (a_name a) o) as [v|] eqn:CV; [|discriminate]. injection A as <-. rewrite LP in NE.
        split; cbn; auto.
        + rewrite i_words0. now rewrite app_assoc.
        + now apply fresh_pos.
        + exists (avs ++ [v]). unfold anon_names. rewrite (combine_snoc_in _ _ _ _ _ _ NE). split. { apply Forall2_snoc; auto. }
          assert (LL : length (anon_names d pos) = length avs).
          { unfold anon_names. rewrite map_length. eapply Forall2_len; eauto. }
          rewrite map_app. fold (anon_names d pos). rewrite combine_app by auto. cbn. rewrite <- PA. apply dset_fresh.
          rewrite PA, map_fst_combine by auto. rewrite anon_names_nth. apply nth_fresh; auto. now apply v_anon_names.
        + destruct (d_list d) as [[n t]|].
          * rewrite skipn_all2 in i_list0 by lia. rewrite skipn_snoc_out by lia. inversion i_list0. constructor.
          * rewrite app_length. cbn. lia. }
    destruct (ps_cur s) as [f|] eqn:CUR.
    + destruct (f_value f) eqn:FV; cbn [is_vnone] in E.
      * apply ANON; auto. intros g Q. injection Q as <-. exact FV.
      * (* a flag's value *)
        destruct pos as [|p pos].
        2: { specialize (i_taken0 f ltac:(discriminate) eq_refl). congruence. }
        destruct (conv (f_name f) o) as [v|] eqn:CV; [|discriminate]. injection E as <-.
        symmetry in i_cur0. apply cur_of_some in i_cur0 as (us0 & u & -> & UF & UV).
        apply Forall_app in i_uses0 as [UO1 UO2]. inversion UO2 as [|? ? UO3 _]; subst.
        destruct UO3 as (UI & US & UN & UD).
        rewrite map_app in i_once0. cbn [map] in i_once0.
        assert (NI : ~ In (uname u) (map uname us0)).
        { apply NoDup_remove_2 in i_once0. rewrite app_nil_r in i_once0. exact i_once0. }
        assert (ND : ~ dash_word o).
        { intro DW. apply plausible_spec in DW. rewrite DW, i_ok0 in PL. destruct (d_flags d); [easy|discriminate]. }
        destruct i_flags0 as (fvs & F2 & PF).
        apply Forall2_app_inv_l in F2 as (fv1 & fv2 & F1 & F2 & ->). inversion F2 as [|? v0 ? ? U1 U2]; subst.
        inversion U2; subst.
        exists (us0 ++ [mkuse (u_sym u) (u_flag u) (Some o)]), []. split; cbn; auto.
        -- rewrite !flat_map_app, !app_nil_r. cbn. unfold written. rewrite UV. cbn. rewrite <- app_assoc. reflexivity.
        -- apply Forall_app. split; auto. constructor; auto. repeat split; cbn; auto; congruence.
        -- rewrite map_app. exact i_once0.
        -- now rewrite cur_of_snoc.
        -- exists (fv1 ++ [v]). split. { apply Forall2_snoc; auto. }
           rewrite PF, !map_app, !combine_app by (rewrite map_length; eapply Forall2_len; eauto). cbn. apply dset_last.
           rewrite map_fst_combine; auto. rewrite map_length. eapply Forall2_len; eauto.
        -- intros g H. now destruct H.
      * destruct pos as [|p pos].
        2: { specialize (i_taken0 f ltac:(discriminate) eq_refl). congruence. }
        destruct (conv (f_name f) o) as [v|] eqn:CV; [|discriminate]. injection E as <-.
        symmetry in i_cur0. apply cur_of_some in i_cur0 as (us0 & u & -> & UF & UV).
        apply Forall_app in i_uses0 as [UO1 UO2]. inversion UO2 as [|? ? UO3 _]; subst.
        destruct UO3 as (UI & US & UN & UD).
        rewrite map_app in i_once0. cbn [map] in i_once0.
        assert (NI : ~ In (uname u) (map uname us0)).
        { apply NoDup_remove_2 in i_once0. rewrite app_nil_r in i_once0. exact i_once0. }
        assert (ND : ~ dash_word o).
        { intro DW. apply plausible_spec in DW. rewrite DW, i_ok0 in PL. destruct (d_flags d); [easy|discriminate]. }
        destruct i_flags0 as (fvs & F2 & PF).
        apply Forall2_app_inv_l in F2 as (fv1 & fv2 & F1 & F2 & ->). inversion F2 as [|? v0 ? ? U1 U2]; subst.
        inversion U2; subst.
        exists (us0 ++ [mkuse (u_sym u) (u_flag u) (Some o)]), []. split; cbn; auto.
        -- rewrite !flat_map_app, !app_nil_r. cbn. unfold written. rewrite UV. cbn. rewrite <- app_assoc. reflexivity.
        -- apply Forall_app. split; auto. constructor; auto. repeat split; cbn; auto; congruence.
        -- rewrite map_app. exact i_once0.
        -- now rewrite cur_of_snoc.
        -- exists (fv1 ++ [v]). split. { apply Forall2_snoc; auto. }
           rewrite PF, !map_app, !combine_app by (rewrite map_length; eapply Forall2_len; eauto). cbn. apply dset_last.
           rewrite map_fst_combine; auto. rewrite map_length. eapply Forall2_len; eauto.
        -- intros g H. now destruct H.
    + apply ANON; auto. discriminate.
Qed.

Lemma inv_start : inv conv d [] (mkps [] [] [] None (negb (length (d_flags d) =? 0)%nat)) [] [].
Proof.
  split; cbn; auto; try (intros; discriminate); try easy.
  - constructor.
  - exists []. auto.
  - exists []. unfold anon_names. destruct (d_anons d); cbn; auto.
  - destruct (d_list d) as [[n t]|]; [|lia]. rewrite skipn_nil. constructor.
Qed.

Lemma inv_extract : forall os ts s us pos s', inv conv d ts s us pos -> extract conv d s os = Some s' ->
  exists us' pos', inv conv d (ts ++ os) s' us' pos'.
Proof.
  induction os as [|o os IH]; intros ts s us pos s' I E; cbn in E.
  - injection E as <-. rewrite app_nil_r. eauto.
  - destruct (extract_one conv d s o) as [s1|] eqn:E1; [|discriminate].
    destruct (inv_step _ _ _ _ _ _ I E1) as (us1 & pos1 & I1).
    destruct (IH _ _ _ _ _ I1 E) as (us2 & pos2 & I2). rewrite <- app_assoc in I2. eauto.
Qed.
End Sound.
