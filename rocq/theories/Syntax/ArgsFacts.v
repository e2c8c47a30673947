(** Facts about reading arguments. *)
From Verif.Syntax Require Export ArgsSpec.
Local Open Scope char_scope.
Local Open Scope list_scope.

Lemma teqb_eq : forall a b, teqb a b = true <-> a = b.
Proof. intros. unfold teqb. destruct (list_eq_dec Ascii.ascii_dec a b); split; congruence. Qed.
Lemma teqb_refl : forall a, teqb a a = true.
Proof. intros. now apply teqb_eq. Qed.
Lemma teqb_neq : forall a b, a <> b -> teqb a b = false.
Proof. intros. destruct (teqb a b) eqn:E; auto. apply teqb_eq in E. easy. Qed.

Lemma existsb_teqb : forall x l, existsb (teqb x) l = true <-> In x l.
Proof.
  intros. rewrite existsb_exists. split.
  - intros (y & I & E). apply teqb_eq in E. now subst.
  - intros I. exists x. split; auto. apply teqb_refl.
Qed.

Lemma distinct_NoDup : forall l, distinct l = true <-> NoDup l.
Proof.
  induction l as [|x l IH]; cbn; split; intros H; auto; try constructor.
  - apply andb_true_iff in H as [H _]. intro I. apply existsb_teqb in I. now rewrite I in H.
  - apply andb_true_iff in H as [_ H]. now apply IH.
  - inversion H; subst. apply andb_true_iff. split; [|now apply IH].
    apply negb_true_iff. destruct (existsb (teqb x) l) eqn:E; auto. apply existsb_teqb in E. easy.
Qed.

(** ** Dictionaries *)
Lemma dget_None : forall k m, dget k m = None <-> ~ In k (map fst m).
Proof.
  induction m as [|[k' v] m IH]; cbn; [tauto|]. destruct (teqb k k') eqn:E.
  - apply teqb_eq in E. subst. split; [discriminate|]. intros H. exfalso. auto.
  - rewrite IH. split; intros H; [intros [->|I]|]; auto. now rewrite teqb_refl in E.
Qed.

Lemma dset_fresh : forall k v m, ~ In k (map fst m) -> dset k v m = m ++ [(k, v)].
Proof.
  induction m as [|[k' v'] m IH]; cbn; intros H; auto. rewrite teqb_neq by (intros ->; apply H; now left).
  f_equal. apply IH. tauto.
Qed.

Lemma dset_last : forall k v v0 m, ~ In k (map fst m) -> dset k v (m ++ [(k, v0)]) = m ++ [(k, v)].
Proof.
  induction m as [|[k' v'] m IH]; cbn; intros H. { now rewrite teqb_refl. }
  rewrite teqb_neq by (intros ->; apply H; now left). f_equal. apply IH. tauto.
Qed.

Lemma map_fst_combine : forall (A B : Type) (l : list A) (l' : list B), length l = length l' -> map fst (combine l l') = l.
Proof. induction l as [|a l IH]; intros [|b l'] H; cbn in *; try discriminate; auto. f_equal. auto. Qed.
Lemma map_snd_combine : forall (A B : Type) (l : list A) (l' : list B), length l = length l' -> map snd (combine l l') = l'.
Proof. induction l as [|a l IH]; intros [|b l'] H; cbn in *; try discriminate; auto. f_equal. auto. Qed.
Lemma combine_app : forall (A B : Type) (l : list A) (l' : list B) m m', length l = length l' ->
  combine (l ++ m) (l' ++ m') = combine l l' ++ combine m m'.
Proof. induction l as [|a l IH]; intros [|b l'] m m' H; cbn in *; try discriminate; auto. f_equal. auto. Qed.

Lemma NoDup_app_inv : forall (A : Type) (l l' : list A), NoDup (l ++ l') ->
  NoDup l /\ NoDup l' /\ forall x, In x l -> ~ In x l'.
Proof.
  induction l as [|a l IH]; cbn; intros l' H. { repeat split; auto; constructor. }
  inversion H; subst. apply IH in H3 as (N1 & N2 & N3). rewrite in_app_iff in H2. repeat split; auto.
  - constructor; tauto.
  - intros x [->|I]; auto.
Qed.

Lemma NoDup_snoc : forall (A : Type) (l : list A) x, NoDup l -> ~ In x l -> NoDup (l ++ [x]).
Proof.
  induction l as [|a l IH]; cbn; intros x N H. { constructor; auto; constructor. }
  inversion N; subst. constructor; [|apply IH; tauto]. rewrite in_app_iff. cbn. intuition congruence.
Qed.

(** ** Valid declarations *)
Section Decl.
Variable d : decl.
Hypothesis V : validate d = true.

Lemma v_symbols : NoDup (flat_map symbols (d_flags d)).
Proof. unfold validate in V. rewrite !andb_true_iff in V. apply distinct_NoDup. tauto. Qed.
Lemma v_names : NoDup (all_names d).
Proof. unfold validate in V. rewrite !andb_true_iff in V. apply distinct_NoDup. tauto. Qed.
Lemma v_flag_names : NoDup (map f_name (d_flags d)).
Proof. pose proof v_names as N. unfold all_names in N. now apply NoDup_app_inv in N. Qed.
Lemma v_anon_names : NoDup (map a_name (d_anons d)).
Proof.
  pose proof v_names as N. unfold all_names in N. apply NoDup_app_inv in N as (_ & N & _).
  now apply NoDup_app_inv in N.
Qed.
Lemma v_good : forall f, In f (d_flags d) -> good_flag f = true.
Proof.
  unfold validate in V. rewrite !andb_true_iff in V. destruct V as [[_ G] _]. intros f I.
  rewrite forallb_forall in G. auto.
Qed.
Lemma v_groups : forall g, In g (d_at_most d) \/ In g (d_exactly d) -> NoDup g.
Proof.
  unfold validate in V. rewrite !andb_true_iff in V. destruct V as [_ G]. intros g I.
  rewrite forallb_forall in G. apply distinct_NoDup, G, in_or_app. exact I.
Qed.

Lemma good_default : forall f, In f (d_flags d) -> f_value f <> VOptional -> f_default f = OTrue.
Proof.
  intros f I N. apply v_good in I. unfold good_flag in I. rewrite !andb_true_iff in I. destruct I as [_ I].
  destruct (f_value f); try (now destruct N); destruct (f_default f); auto; discriminate.
Qed.

Lemma symbol_dash : forall f x, In f (d_flags d) -> In x (symbols f) -> dash_word (OStr x).
Proof.
  intros f x I J. apply v_good in I. unfold good_flag in I. rewrite !andb_true_iff in I.
  destruct I as [[[_ S] L] _]. unfold symbols in J. apply in_app_iff in J as [J|J].
  - destruct (f_short f) as [s|]; [|easy]. destruct J as [<-|[]].
    unfold good_short in S. destruct s as [|a [|b [|]]]; try discriminate.
    apply andb_true_iff in S as [S _]. apply Ascii.eqb_eq in S. subst. now exists b, [].
  - destruct (f_long f) as [s|]; [|easy]. destruct J as [<-|[]].
    unfold good_long in L. destruct s as [|a [|b [|c r]]]; try discriminate.
    rewrite !andb_true_iff in L. destruct L as [[L _] _]. apply Ascii.eqb_eq in L. subst. now exists b, (c :: r).
Qed.

Lemma known_dash : forall o, known d o -> dash_word o.
Proof. intros o (x & f & -> & I & J). eapply symbol_dash; eauto. Qed.

Lemma flat_map_unique : forall fs f g x, NoDup (flat_map symbols fs) -> In f fs -> In g fs ->
  In x (symbols f) -> In x (symbols g) -> f = g.
Proof.
  induction fs as [|h fs IH]; intros f g x N If Ig Sf Sg; [easy|]. cbn in N.
  apply NoDup_app_inv in N as (_ & N & D).
  destruct If as [->|If], Ig as [->|Ig]; auto.
  - exfalso. apply (D x Sf). apply in_flat_map. eauto.
  - exfalso. apply (D x Sg). apply in_flat_map. eauto.
  - eauto.
Qed.

Lemma find_flag_some : forall o f, find_flag d o = Some f <->
  exists x, o = OStr x /\ In f (d_flags d) /\ In x (symbols f).
Proof.
  intros o f. split.
  - destruct o; cbn; try discriminate. intros E. apply find_some in E as [I S]. exists s. repeat split; auto.
    now apply existsb_teqb.
  - intros (x & -> & I & S). cbn. destruct (find (is_symbol x) (d_flags d)) as [g|] eqn:E.
    + apply find_some in E as [Ig Sg]. apply existsb_teqb in Sg. f_equal. 
      eapply flat_map_unique; eauto. apply v_symbols.
    + exfalso. eapply find_none in E; eauto. unfold is_symbol in E. apply existsb_teqb in S. congruence.
Qed.

Lemma find_flag_none : forall o, find_flag d o = None <-> ~ known d o.
Proof.
  intros o. split.
  - intros E (x & f & -> & I & S).
    assert (F : find_flag d (OStr x) = Some f) by (apply find_flag_some; eauto). congruence.
  - intros K. destruct (find_flag d o) as [f|] eqn:E; auto. apply find_flag_some in E as (x & -> & I & S).
    exfalso. apply K. exists x, f. auto.
Qed.

Lemma plausible_spec : forall o, plausible o = true <-> dash_word o.
Proof.
  intros o. unfold plausible, dash_word. split.
  - destruct o as [| |[|a [|b r]]| | | |]; try discriminate. intros E. apply Ascii.eqb_eq in E. subst. eauto.
  - intros (b & r & ->). reflexivity.
Qed.

Lemma flag_named_in : forall f, In f (d_flags d) -> flag_named d (f_name f) = Some f.
Proof.
  intros f I. unfold flag_named. pose proof v_flag_names as N. induction (d_flags d) as [|g fs IH]; [easy|].
  cbn in *. inversion N; subst. destruct I as [->|I]. { now rewrite teqb_refl. }
  rewrite teqb_neq; auto. intros E. apply H1. rewrite E. now apply in_map.
Qed.

Lemma name_inj : forall f g, In f (d_flags d) -> In g (d_flags d) -> f_name f = f_name g -> f = g.
Proof. intros f g If Ig E. apply flag_named_in in If, Ig. rewrite E in If. congruence. Qed.

(** ** Clusters *)
Lemma expand_spec : forall o, stands_for d o (expand_arg d o).
Proof.
  intros o. unfold expand_arg. destruct o as [| |s| | | |]; try (constructor; intros cs (E & _); discriminate).
  destruct s as [|a [|b [|c r]]]; try (constructor; intros cs (E & L & _); injection E as -> <-; cbn in L; lia).
  - constructor. intros cs (E & _). discriminate.
  - destruct ((a =? "-") && negb (b =? "-"))%bool eqn:AB.
    + apply andb_true_iff in AB as [A B]. apply Ascii.eqb_eq in A. subst a. apply negb_true_iff, Ascii.eqb_neq in B.
      match goal with |- context [if ?x then _ else _] => destruct x eqn:E end.
      * apply (stands_cluster d _ (b :: c :: r)). split; auto. split; [cbn; lia|]. split; auto. intros x I.
        rewrite forallb_forall in E. specialize (E (OStr ["-"; x]) (in_map _ _ _ I)).
        destruct (find_flag d (OStr ["-"; x])) as [f|] eqn:F; [|discriminate].
        apply find_flag_some in F as (y & Y & If & S). injection Y as <-. exists ["-"; x], f. auto.
      * constructor. intros cs (Q & _ & _ & K). injection Q as <-.
        rewrite <- not_true_iff_false in E. apply E. apply forallb_forall. intros o I.
        apply in_map_iff in I as (x & <- & I). destruct (find_flag d (OStr ["-"; x])) eqn:F; auto.
        apply find_flag_none in F. exfalso. apply F. now apply K.
    + constructor. intros cs (Q & _ & H & _). injection Q as -> <-. cbn in H. apply Ascii.eqb_neq in H.
      rewrite H in AB. discriminate.
Qed.

Lemma stands_unique : forall o ts ts', stands_for d o ts -> stands_for d o ts' -> ts = ts'.
Proof.
  intros o ts ts' H H'. inversion H; subst; inversion H'; subst; auto; try (exfalso; eapply H0; eassumption).
  - exfalso. eapply H1; eassumption.
  - destruct H0 as (E & _), H1 as (E' & _). rewrite E in E'. injection E' as ->. reflexivity.
Qed.

Lemma expand_all : forall args tss, Forall2 (stands_for d) args tss <-> tss = map (expand_arg d) args.
Proof.
  induction args as [|a args IH]; intros tss; split; intros H.
  - inversion H; auto.
  - subst. constructor.
  - inversion H; subst. cbn. f_equal; [|now apply IH]. eapply stands_unique; eauto using expand_spec.
  - subst. cbn. constructor; [apply expand_spec|now apply IH].
Qed.
End Decl.
