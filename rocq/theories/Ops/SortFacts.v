From Coq Require Import Permutation Sorted.
From Verif.Ops Require Export OrderFacts.
Set Implicit Arguments.
Local Open Scope list_scope.

Section Sort.
  Variable K : val -> Prop.
  Hypothesis HK : comparable K.

  Definition kle (p q : val * val) : Prop := py_lt (fst q) (fst p) = Some false.

  Lemma lt_le_trans a b c : K a -> K b -> K c ->
    py_lt a b = Some true -> py_lt c b = Some false -> py_lt a c = Some true.
  Proof.
    intros Ha Hb Hc Hab Hcb. destruct (py_eq b c) eqn:Ebc.
    - now rewrite <- (cmp_cong_r HK a b c) by auto.
    - destruct (cmp_tri HK b c Hb Hc Ebc) as [H|H]; [|congruence].
      exact (cmp_trans HK a b c Ha Hb Hc Hab H).
  Qed.

  Lemma sort_insert_spec k x l : K k -> Forall (fun p => K (fst p)) l ->
    StronglySorted kle l ->
    exists l', sort_insert k x l = Some l' /\ Permutation ((k, x) :: l) l' /\
      StronglySorted kle l' /\
      forall q, filter (fun p => py_eq (fst p) q) l' =
                filter (fun p => py_eq (fst p) q) l ++ (if py_eq k q then [(k, x)] else []).
  Proof.
    intros Hk; induction l as [|[k' x'] l IH]; intros Hl Hs.
    - exists [(k, x)]. simpl. split; [reflexivity|]. split; [reflexivity|]. split.
      + repeat constructor.
      + intros q; destruct (py_eq k q); reflexivity.
    - inversion Hl as [|? ? Hk' Hl']; subst. cbn [fst] in Hk'. inversion Hs as [|? ? Hs' Hall]; subst.
      cbn [sort_insert]. destruct (cmp_total HK k k' Hk Hk') as [r Er]. rewrite Er. destruct r.
      + exists ((k, x) :: (k', x') :: l). split; [reflexivity|]. split; [reflexivity|].
        assert (Forall (kle (k, x)) ((k', x') :: l)) as Hkx.
        { constructor.
          - unfold kle; cbn [fst]. now apply (cmp_asym HK).
          - rewrite Forall_forall in *. intros [k2 x2] Hin. unfold kle; cbn [fst].
            pose proof (Hall _ Hin) as H1. unfold kle in H1; cbn [fst] in H1.
            apply (cmp_asym HK); auto; [apply (Hl' _ Hin)|].
            eapply lt_le_trans; eauto. apply (Hl' _ Hin). }
        split; [constructor; auto|].
        intros q. destruct (py_eq k q) eqn:Ekq.
        * cbn [filter]. cbn [fst]. rewrite Ekq.
          assert (forall p, In p ((k', x') :: l) -> py_eq (fst p) q = false) as Hno.
          { intros [k2 x2] Hin. cbn [fst]. destruct (py_eq k2 q) eqn:E2; auto. exfalso.
            assert (py_eq k k2 = true) as E by (rewrite py_eq_sym in E2; eapply py_eq_trans; eauto).
            assert (K k2) as Hk2 by (rewrite Forall_forall in Hl; apply (Hl _ Hin)).
            assert (py_lt k k2 = Some true) as Hlt.
            { destruct Hin as [Hin|Hin]; [congruence|].
              rewrite Forall_forall in Hall. pose proof (Hall _ Hin) as H1. unfold kle in H1; cbn [fst] in H1.
              eapply lt_le_trans with (b := k'); eauto. }
            rewrite (cmp_eq HK k k2) in Hlt by auto. discriminate. }
          assert (forall l0, (forall p, In p l0 -> py_eq (fst p) q = false) ->
                    filter (fun p : val * val => py_eq (fst p) q) l0 = []) as Hnil.
          { induction l0 as [|p l0 IH0]; simpl; auto. intros H0. rewrite H0 by auto. apply IH0; auto. }
          change (if py_eq k' q then (k', x') :: filter (fun p : val * val => py_eq (fst p) q) l
                  else filter (fun p : val * val => py_eq (fst p) q) l)
            with (filter (fun p : val * val => py_eq (fst p) q) ((k', x') :: l)).
          rewrite (Hnil _ Hno). reflexivity.
        * cbn [filter fst]. rewrite Ekq, app_nil_r. reflexivity.
      + destruct (IH Hl' Hs') as (l' & E & Hp & Hs2 & Hst). rewrite E. cbn [option_map].
        exists ((k', x') :: l'). split; [reflexivity|]. split.
        * rewrite perm_swap. now constructor.
        * split.
          -- constructor; auto. rewrite Forall_forall in *. intros p Hin.
             apply Permutation_sym in Hp. apply (Permutation_in _ Hp) in Hin.
             destruct Hin as [<-|Hin]; [exact Er | auto].
          -- intros q. cbn [filter fst]. rewrite Hst. destruct (py_eq k' q); reflexivity.
  Qed.

  Lemma sort_pairs_spec l acc : Forall (fun p => K (fst p)) l -> Forall (fun p => K (fst p)) acc ->
    StronglySorted kle acc ->
    exists l', sort_pairs acc l = Some l' /\ Permutation (acc ++ l) l' /\ StronglySorted kle l' /\
      forall q, filter (fun p => py_eq (fst p) q) l' =
                filter (fun p => py_eq (fst p) q) acc ++ filter (fun p => py_eq (fst p) q) l.
  Proof.
    revert acc; induction l as [|[k x] l IH]; intros acc Hl Ha Hs; cbn [sort_pairs].
    - exists acc. rewrite app_nil_r. repeat split; auto. intros; now rewrite app_nil_r.
    - inversion Hl as [|? ? Hk Hl']; subst. cbn [fst] in Hk.
      destruct (sort_insert_spec x Hk Ha Hs) as (acc' & E & Hp & Hs' & Hst). rewrite E.
      assert (Forall (fun p => K (fst p)) acc') as Ha'.
      { eapply Permutation_Forall; [exact Hp|]. constructor; auto. }
      destruct (IH acc' Hl' Ha' Hs') as (l' & E' & Hp' & Hs2 & Hst'). exists l'.
      repeat split; auto.
      + rewrite <- Hp', <- Hp. symmetry. apply Permutation_middle.
      + intros q. rewrite Hst', Hst, <- app_assoc. f_equal. cbn [filter fst].
        destruct (py_eq k q); reflexivity.
  Qed.
End Sort.

Lemma sort_feed key es c : open_stream es ->
  feed (sort_op key) (Some c) es = (Some (c ++ rows es), map Err (errs es), Ok).
Proof.
  revert c; induction es as [|e es IH]; intros c He.
  - simpl. now rewrite app_nil_r.
  - apply open_cons in He; destruct He as [He Hes].
    destruct e as [x|e|e|]; try discriminate; cbn [feed]; unfold deliver;
      cbn [as_input step sort_op mk_op caught]; cbn [St sort_op mk_op] in IH; rewrite IH by auto;
      cbn [rows errs]; rewrite <- ?app_assoc; reflexivity.
Qed.


Lemma sort_keys_ok key l :
  (forall x, In x l -> exists k, key (components x) = Some k) ->
  exists ps, sort_keys key l = inl ps /\ map snd ps = l /\
    Forall (fun p => key (components (snd p)) = Some (fst p)) ps.
Proof.
  induction l as [|x l IH]; intros H; cbn [sort_keys].
  - exists []; auto.
  - destruct (H x (or_introl eq_refl)) as [k Ek]. rewrite Ek.
    destruct IH as (ps & E & H1 & H2); [intros y Hy; apply H; now right|].
    rewrite E. exists ((k, x) :: ps). simpl. repeat split; auto. congruence.
Qed.

Lemma sort_keys_fail key l :
  (exists x, In x l /\ key (components x) = None) -> exists e, sort_keys key l = inr e.
Proof.
  intros (x & Hin & Hx); induction l as [|y l IH]; [destruct Hin|]. cbn [sort_keys].
  destruct (key (components y)) as [k|] eqn:Ey; eauto.
  destruct Hin as [->|Hin]; [congruence|]. destruct (IH Hin) as [e ->]. eauto.
Qed.


Lemma sort_exec key es t : open_stream es ->
  (forall x, In x (rows es) -> exists k, sort_key key x = Some k /\ has_kty t k) ->
  exists sorted,
    exec (sort_op key) (es, Ok) = (map Err (errs es) ++ map Data sorted ++ [Flush], Ok) /\
    Permutation (rows es) sorted /\
    StronglySorted (fun x y => forall kx ky, sort_key key x = Some kx -> sort_key key y = Some ky ->
                      py_lt ky kx = Some false) sorted /\
    forall k, filter (keq key k) sorted = filter (keq key k) (rows es).
Proof.
  intros He Hk. rewrite exec_through. unfold through. cbn [setup sort_op mk_op fresh].
  rewrite feed_app. pose proof (sort_feed key [] He) as E. cbn [St sort_op mk_op app] in *. rewrite E. clear E.
  cbn [feed]. unfold deliver. cbn [as_input step sort_op mk_op].
  set (pairs := match key with Some f => sort_keys f (rows es) | None => inl (map (fun x => (x, x)) (rows es)) end).
  assert (exists ps, pairs = inl ps /\ map snd ps = rows es /\
            Forall (fun p => sort_key key (snd p) = Some (fst p)) ps) as (ps & Eps & Hsnd & Hkeys).
  { unfold pairs, sort_key in *. destruct key as [f|].
    - apply sort_keys_ok. intros x Hx. destruct (Hk x Hx) as (k & Ex & _). eauto.
    - exists (map (fun x => (x, x)) (rows es)). split; auto. split.
      + rewrite map_map. simpl. apply map_id.
      + rewrite Forall_forall. intros p Hp. apply in_map_iff in Hp. destruct Hp as (x & <- & _). reflexivity. }
  rewrite Eps.
  assert (Forall (fun p => has_kty t (fst p)) ps) as Hty.
  { rewrite Forall_forall in *. intros p Hp. specialize (Hkeys p Hp).
    destruct (Hk (snd p)) as (k & Ex & Ht); [rewrite <- Hsnd; now apply in_map|]. congruence. }
  destruct (sort_pairs_spec (comparable_kty t) (acc := []) Hty (Forall_nil _) (SSorted_nil _))
    as (l' & E & Hp & Hs & Hst).
  rewrite E. cbn [caught app] in *. exists (map snd l').
  assert (Forall (fun p => sort_key key (snd p) = Some (fst p)) l') as Hkeys'
    by (eapply Permutation_Forall; eauto).
  rewrite map_map. repeat split.
  - now rewrite app_nil_r.
  - rewrite <- Hsnd. now apply Permutation_map.
  - clear - Hs Hkeys'. induction Hs as [|p l Hs IH Hall]; simpl; constructor.
    + inversion Hkeys'; auto.
    + inversion Hkeys' as [|? ? Hp Hl]; subst. rewrite Forall_forall in *. intros x Hx.
      apply in_map_iff in Hx. destruct Hx as (q & <- & Hq). intros kx ky Ex Ey.
      pose proof (Hall q Hq) as H1. unfold kle in H1. specialize (Hl q Hq). congruence.
  - intros k. rewrite <- Hsnd.
    assert (forall l, Forall (fun p => sort_key key (snd p) = Some (fst p)) l ->
              filter (keq key k) (map snd l) = map snd (filter (fun p => py_eq (fst p) k) l)) as Hf.
    { induction 1 as [|p l Hp' _ IHl]; simpl; auto. unfold keq at 1. rewrite Hp'.
      destruct (py_eq (fst p) k); simpl; congruence. }
    rewrite !Hf by auto. now rewrite Hst.
Qed.

(** If some key cannot be computed, no tuple comes out at all. *)
Lemma sort_exec_bad_key f es : open_stream es ->
  (exists x, In x (rows es) /\ f (components x) = None) ->
  exists e, exec (sort_op (Some f)) (es, Ok) = (map Err (errs es) ++ [Fatal (MkErr "sort" e)], Resume).
Proof.
  intros He Hx. rewrite exec_through. unfold through. cbn [setup sort_op mk_op fresh].
  rewrite feed_app. pose proof (sort_feed (Some f) [] He) as E. cbn [St sort_op mk_op app] in *. rewrite E.
  cbn [feed]. unfold deliver. cbn [as_input step sort_op mk_op].
  destruct (sort_keys_fail f (rows es) Hx) as [e Ee]. rewrite Ee. exists e. reflexivity.
Qed.

(** In every case the tuples output are a permutation of the input, or none. *)
Lemma sort_insert_perm k x l l' : sort_insert k x l = Some l' -> Permutation ((k, x) :: l) l'.
Proof.
  revert l'; induction l as [|[k' x'] l IH]; intros l'; simpl; [intros [= <-]; auto|].
  destruct (py_lt k k') as [[]|]; try discriminate; [intros [= <-]; auto|].
  destruct (sort_insert k x l) as [m|]; try discriminate. intros [= <-].
  rewrite perm_swap. constructor. auto.
Qed.

Lemma sort_pairs_perm l acc l' : sort_pairs acc l = Some l' -> Permutation (acc ++ l) l'.
Proof.
  revert acc l'; induction l as [|[k x] l IH]; intros acc l'; simpl.
  - intros [= <-]. now rewrite app_nil_r.
  - destruct (sort_insert k x acc) as [acc'|] eqn:E; [|discriminate]. intros H.
    rewrite <- (IH _ _ H), <- (sort_insert_perm _ _ _ E). symmetry; apply Permutation_middle.
Qed.

Lemma sort_exec_any key es : open_stream es ->
  let out := exec (sort_op key) (es, Ok) in
  (snd out = Ok /\ Permutation (rows es) (rows (fst out))) \/ (snd out <> Ok /\ rows (fst out) = []).
Proof.
  intros He. rewrite exec_through. unfold through. cbn [setup sort_op mk_op fresh].
  rewrite feed_app. pose proof (sort_feed key [] He) as E. cbn [St sort_op mk_op app] in *. rewrite E. clear E.
  cbn [feed]. unfold deliver. cbn [as_input step sort_op mk_op].
  assert (forall l, rows (map Err l) = []) as Hre by (induction l; auto).
  set (pairs := match key with Some f => sort_keys f (rows es) | None => inl (map (fun x => (x, x)) (rows es)) end).
  assert (forall ps, pairs = inl ps -> map snd ps = rows es) as Hsnd.
  { unfold pairs. destruct key as [f|].
    - generalize (rows es). induction l as [|x l IH]; simpl; [intros ps [= <-]; auto|].
      destruct (f (components x)); [|discriminate]. destruct (sort_keys f l); [|discriminate].
      intros ps [= <-]. simpl. f_equal. now apply IH.
    - intros ps [= <-]. rewrite map_map. apply map_id. }
  destruct pairs as [ps|e].
  - destruct (sort_pairs [] ps) as [ps'|] eqn:Eps; cbn [caught].
    + left. split; [reflexivity|]. cbn [fst]. rewrite app_nil_r, !rows_app, Hre. cbn [app rows].
      rewrite app_nil_r. apply sort_pairs_perm in Eps. simpl in Eps.
      apply (Permutation_map snd) in Eps. rewrite (Hsnd ps eq_refl) in Eps.
      assert (rows (map (fun p : val * val => Data (snd p)) ps') = map wrap (map snd ps')) as ->.
      { clear. induction ps' as [|p ps' IH]; simpl; congruence. }
      rewrite <- (map_wrap_rows es). now apply Permutation_map.
    + right. split; [discriminate|]. cbn [fst]. rewrite app_nil_r. apply Hre.
  - right. cbn [caught]. split; [discriminate|]. cbn [fst]. rewrite rows_app, Hre. reflexivity.
Qed.
