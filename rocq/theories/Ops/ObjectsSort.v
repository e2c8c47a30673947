(** C82: sort of files, processes and other objects. *)
From Verif.Ops Require Export ObjectsProps.
Local Open Scope list_scope.

(** ** Strings *)
Lemma code_inj : forall c d, nat_of_ascii c = nat_of_ascii d -> c = d.
Proof. intros c d E. rewrite <- (ascii_nat_embedding c), <- (ascii_nat_embedding d). now f_equal. Qed.
Lemma str_lt_prior : forall s t, str_lt s t = true <-> prior_str s t.
Proof.
  induction s as [ | c s IH]; intros [ | d t]; cbn [str_lt prior_str]; try (split; [discriminate | tauto]); try tauto.
  destruct (Ascii.eqb_spec c d) as [<- | N].
  - rewrite IH. split; [auto | intros [L | [_ P]]; [lia | exact P]].
  - rewrite Nat.ltb_lt. split; [auto | intros [L | [E _]]; [exact L | contradiction]].
Qed.
Lemma prior_str_irr : forall s, ~ prior_str s s.
Proof. induction s as [ | c s IH]; cbn; [auto | ]. intros [L | [_ P]]; [lia | auto]. Qed.
Lemma prior_str_trans : forall s t u, prior_str s t -> prior_str t u -> prior_str s u.
Proof.
  induction s as [ | c s IH]; intros [ | d t] [ | e u]; cbn; try tauto. intros [L | [-> P]] [M | [<- Q]]; [left; lia | now left | now left | right; eauto].
Qed.
Lemma prior_str_total : forall s t, prior_str s t \/ s = t \/ prior_str t s.
Proof.
  induction s as [ | c s IH]; intros [ | d t]; cbn; auto. destruct (Nat.lt_trichotomy (nat_of_ascii c) (nat_of_ascii d)) as [L | [E | L]]; [now left; left | | now right; right; left].
  apply code_inj in E as ->. destruct (IH t) as [P | [-> | P]]; auto.
Qed.
Lemma strs_lt_prior : forall xs ys, strs_lt xs ys = true <-> prior_list prior_str xs ys.
Proof.
  induction xs as [ | x xs IH]; intros [ | y ys]; cbn; try (split; [discriminate | intros P; inversion P]).
  - split; [intros _; constructor | reflexivity].
  - destruct (String.eqb_spec x y) as [<- | N].
    + rewrite IH. split; [intros P; now apply pl_later | ]. intros P. inversion P; subst; [exfalso; eapply prior_str_irr; eauto | assumption].
    + rewrite str_lt_prior. split; [intros P; now apply pl_here | ]. intros P. inversion P; subst; [assumption | contradiction].
Qed.

(** ** Lists *)
Lemma prior_list_irr : forall {A} (R : A -> A -> Prop) xs, Forall (fun x => ~ R x x) xs -> ~ prior_list R xs xs.
Proof. intros A R xs F. induction F as [ | x xs N _ IH]; intros P; inversion P; subst; auto. Qed.
Lemma prior_list_trans : forall {A} (R : A -> A -> Prop) xs, Forall (fun x => forall y z, R x y -> R y z -> R x z) xs ->
  forall ys zs, prior_list R xs ys -> prior_list R ys zs -> prior_list R xs zs.
Proof.
  intros A R xs F. induction F as [ | x xs T _ IH]; intros ys zs P Q.
  - inversion P; subst. inversion Q; subst; constructor.
  - inversion P; subst; inversion Q; subst; try (apply pl_here; eauto; fail). apply pl_later. eauto.
Qed.
Lemma prior_strs_trans : forall xs ys zs, prior_list prior_str xs ys -> prior_list prior_str ys zs -> prior_list prior_str xs zs.
Proof. intros xs. apply prior_list_trans. apply Forall_forall. intros x _. apply prior_str_trans. Qed.
Lemma prior_strs_irr : forall xs, ~ prior_list prior_str xs xs.
Proof. intros xs. apply prior_list_irr. apply Forall_forall. intros x _. apply prior_str_irr. Qed.
Lemma prior_strs_total : forall xs ys, prior_list prior_str xs ys \/ xs = ys \/ prior_list prior_str ys xs.
Proof.
  induction xs as [ | x xs IH]; intros [ | y ys]; [auto | left; constructor | right; right; constructor | ].
  destruct (prior_str_total x y) as [P | [-> | P]]; [left; now constructor | | right; right; now constructor].
  destruct (IH ys) as [P | [-> | P]]; [left; now apply pl_later | auto | right; right; now apply pl_later].
Qed.

(** ** Keys *)
Section KeyInd.
  Variable P : key -> Prop.
  Hypothesis HT : forall ks, Forall P ks -> P (KTuple ks).
  Hypothesis HL : forall ks, Forall P ks -> P (KList ks).
  Hypothesis HO : forall k, (forall ks, k <> KTuple ks) -> (forall ks, k <> KList ks) -> P k.
  Fixpoint key_ind' (k : key) : P k :=
    let fix all (ks : list key) : Forall P ks := match ks with [] => Forall_nil _ | k :: ks => Forall_cons k (key_ind' k) (all ks) end in
    match k with
    | KTuple ks => HT ks (all ks)
    | KList ks => HL ks (all ks)
    | KNone => HO KNone ltac:(discriminate) ltac:(discriminate)
    | KInt z => HO (KInt z) ltac:(discriminate) ltac:(discriminate)
    | KStr s => HO (KStr s) ltac:(discriminate) ltac:(discriminate)
    | KPath r c => HO (KPath r c) ltac:(discriminate) ltac:(discriminate)
    | KFile r c => HO (KFile r c) ltac:(discriminate) ltac:(discriminate)
    | KProcess p => HO (KProcess p) ltac:(discriminate) ltac:(discriminate)
    | KHistory i => HO (KHistory i) ltac:(discriminate) ltac:(discriminate)
    | KErr i => HO (KErr i) ltac:(discriminate) ltac:(discriminate)
    end.
End KeyInd.
Lemma prior_irr : forall k, ~ prior k k.
Proof.
  induction k as [ks IH | ks IH | k NT NL] using key_ind'; intros P; inversion P; subst; try lia;
    try (eapply prior_list_irr; eauto; fail); try (eapply prior_str_irr; eauto; fail); try (eapply prior_strs_irr; eauto; fail);
    try (eapply NT; reflexivity); try (eapply NL; reflexivity).
Qed.
Lemma prior_trans : forall a b c, prior a b -> prior b c -> prior a c.
Proof.
  induction a as [ks IH | ks IH | k NT NL] using key_ind'; intros b c P Q; inversion P; subst; inversion Q; subst;
    try (exfalso; eapply NT; reflexivity); try (exfalso; eapply NL; reflexivity); constructor; try lia;
    try (eapply prior_list_trans; eauto; fail); try (eapply prior_str_trans; eauto; fail); try (eapply prior_strs_trans; eauto; fail).
Qed.

(** ** < *)
Lemma orderable_comparable : forall a b, orderable a b -> comparable a b.
Proof.
  induction a as [xs IH | xs IH | a NT NL] using obj_ind'; intros b O.
  - inversion O as [? ? u v E1 E2 | | | | | | ? ys Q | ]; subst; [discriminate E1 | ]. apply c_tuple. intros n x y EX EY. rewrite Forall_forall in IH. apply (IH x (nth_error_In _ _ EX)). eauto.
  - inversion O as [? ? u v E1 E2 | | | | | | | ? ys Q]; subst; [discriminate E1 | ]. apply c_list. intros n x y EX EY. rewrite Forall_forall in IH. apply (IH x (nth_error_In _ _ EX)). eauto.
  - inversion O as [? ? u v E1 E2 | | | | | | | ]; subst; try constructor; try discriminate; try reflexivity;
      try (exfalso; eapply NT; reflexivity); try (exfalso; eapply NL; reflexivity).
    + destruct a; try discriminate E1; reflexivity.
    + destruct b; try discriminate E2; reflexivity.
    + intros xs ys ->. discriminate E1.
    + intros xs ys ->. discriminate E1.
Qed.
Lemma lt_tuple : forall xs ys, lt (Tuple xs) (Tuple ys) = lts xs ys.
Proof. reflexivity. Qed.
Lemma lt_list : forall xs ys, lt (List xs) (List ys) = lts xs ys.
Proof. reflexivity. Qed.
Lemma number_key : forall a x, number a = Some x -> key_of a = KInt x.
Proof. intros a x E. destruct a; try discriminate E; cbn in *; congruence. Qed.
Lemma lts_decides : forall xs, Forall (fun x => forall y, orderable x y -> decides (lt x y) (prior (key_of x) (key_of y))) xs ->
  forall ys, (forall n x y, nth_error xs n = Some x -> nth_error ys n = Some y -> orderable x y) -> decides (lts xs ys) (prior_list prior (map key_of xs) (map key_of ys)).
Proof.
  induction 1 as [ | x xs HX _ IH]; intros [ | y ys] C; cbn [lts map].
  - exists false. split; [reflexivity | ]. split; [discriminate | intros P; inversion P].
  - exists true. split; [reflexivity | ]. split; [constructor | reflexivity].
  - exists false. split; [reflexivity | ]. split; [discriminate | intros P; inversion P].
  - pose proof (C 0 x y eq_refl eq_refl) as O. destruct (eq_decides x y (orderable_comparable x y O)) as ([] & -> & D).
    + destruct (IH ys) as (b & -> & E). { intros n u v U V. exact (C (S n) u v U V). }
      exists b. split; [reflexivity | ]. rewrite E. rewrite (proj1 D eq_refl). split; [apply pl_later | ]. intros P. inversion P; subst; [exfalso; eapply prior_irr; eauto | assumption].
    + destruct (HX y O) as (b & -> & E). exists b. split; [reflexivity | ]. rewrite E. split; [apply pl_here | ]. intros P. inversion P; subst; [assumption | ]. exfalso. assert (false = true) by now apply D. discriminate.
Qed.
Lemma lt_decides : forall a b, orderable a b -> decides (lt a b) (prior (key_of a) (key_of b)).
Proof.
  induction a as [xs IH | xs IH | a NT NL] using obj_ind'; intros b O.
  - inversion O as [? ? u v E1 E2 | | | | | | ? ys Q | ]; subst; [discriminate E1 | ]. rewrite lt_tuple.
    apply (decides_iff _ (prior_list prior (map key_of xs) (map key_of ys))); [ | now apply lts_decides]. cbn. split; [apply p_tuple | intros P; now inversion P].
  - inversion O as [? ? u v E1 E2 | | | | | | | ? ys Q]; subst; [discriminate E1 | ]. rewrite lt_list.
    apply (decides_iff _ (prior_list prior (map key_of xs) (map key_of ys))); [ | now apply lts_decides]. cbn. split; [apply p_list | intros P; now inversion P].
  - inversion O as [? ? u v E1 E2 | s t | s t | s t | p i q j | i c j d | | ]; subst; try (exfalso; eapply NT; reflexivity); try (exfalso; eapply NL; reflexivity).
    + rewrite (number_key _ _ E1), (number_key _ _ E2). exists (u <? v)%Z. split.
      * destruct a; try discriminate E1; destruct b; try discriminate E2; cbn in *; congruence.
      * rewrite Z.ltb_lt. split; [apply p_int | intros P; now inversion P].
    + eexists. split; [reflexivity | ]. rewrite str_lt_prior. split; [apply p_str | intros P; now inversion P].
    + eexists. split; [reflexivity | ]. unfold path_lt. rewrite strs_lt_prior, !cparts_spec. split; [apply p_path | intros P; now inversion P].
    + eexists. split; [reflexivity | ]. unfold path_lt. rewrite strs_lt_prior, !cparts_spec. split; [apply p_file | intros P; now inversion P].
    + eexists. split; [reflexivity | ]. rewrite Nat.ltb_lt. split; [apply p_process | intros P; now inversion P].
    + eexists. split; [reflexivity | ]. rewrite Nat.ltb_lt. split; [apply p_history | intros P; now inversion P].
Qed.
Lemma prior_total_lists : forall xs, Forall (fun x => forall y, orderable x y -> prior (key_of x) (key_of y) \/ key_of x = key_of y \/ prior (key_of y) (key_of x)) xs ->
  forall ys, (forall n x y, nth_error xs n = Some x -> nth_error ys n = Some y -> orderable x y) ->
  prior_list prior (map key_of xs) (map key_of ys) \/ map key_of xs = map key_of ys \/ prior_list prior (map key_of ys) (map key_of xs).
Proof.
  induction 1 as [ | x xs HX _ IH]; intros [ | y ys] C; cbn [map]; [auto | left; constructor | right; right; constructor | ].
  destruct (HX y (C 0 x y eq_refl eq_refl)) as [P | [E | P]]; [left; now apply pl_here | | right; right; now apply pl_here]. rewrite E.
  destruct (IH ys) as [P | [-> | P]]; [intros n u v U V; exact (C (S n) u v U V) | left; now apply pl_later | auto | right; right; now apply pl_later].
Qed.
Lemma prior_total : forall a b, orderable a b -> prior (key_of a) (key_of b) \/ key_of a = key_of b \/ prior (key_of b) (key_of a).
Proof.
  induction a as [xs IH | xs IH | a NT NL] using obj_ind'; intros b O.
  - inversion O as [? ? u v E1 E2 | | | | | | ? ys Q | ]; subst; [discriminate E1 | ]. cbn. destruct (prior_total_lists xs IH ys Q) as [P | [-> | P]]; [left; now constructor | auto | right; right; now constructor].
  - inversion O as [? ? u v E1 E2 | | | | | | | ? ys Q]; subst; [discriminate E1 | ]. cbn. destruct (prior_total_lists xs IH ys Q) as [P | [-> | P]]; [left; now constructor | auto | right; right; now constructor].
  - inversion O as [? ? u v E1 E2 | s t | s t | s t | p i q j | i c j d | | ]; subst; try (exfalso; eapply NT; reflexivity); try (exfalso; eapply NL; reflexivity).
    + rewrite (number_key _ _ E1), (number_key _ _ E2). destruct (Z.lt_trichotomy u v) as [L | [-> | L]]; [left; now constructor | auto | right; right; now constructor].
    + cbn. destruct (prior_str_total s t) as [L | [-> | L]]; [left; now constructor | auto | right; right; now constructor].
    + cbn. destruct (prior_strs_total (path_parts (starts s) (components s)) (path_parts (starts t) (components t))) as [L | [E | L]]; [left; now constructor | | right; right; now constructor].
      apply path_parts_inj in E as [-> ->]. auto.
    + cbn. destruct (prior_strs_total (path_parts (starts s) (components s)) (path_parts (starts t) (components t))) as [L | [E | L]]; [left; now constructor | | right; right; now constructor].
      apply path_parts_inj in E as [-> ->]. auto.
    + cbn. destruct (Nat.lt_trichotomy p q) as [L | [-> | L]]; [left; now constructor | auto | right; right; now constructor].
    + cbn. destruct (Nat.lt_trichotomy i j) as [L | [-> | L]]; [left; now constructor | auto | right; right; now constructor].
Qed.
(** The order is one: no object is before itself, it is transitive, and of two objects of the same kind that are not equal one is before the other;
    < tells which. *)
Theorem c82_order : (forall k, ~ prior k k) /\ (forall a b c, prior a b -> prior b c -> prior a c) /\
  forall a b, orderable a b -> (prior (key_of a) (key_of b) \/ key_of a = key_of b \/ prior (key_of b) (key_of a)) /\
    ((lt a b = Ok true /\ prior (key_of a) (key_of b)) \/ (lt a b = Ok false /\ ~ prior (key_of a) (key_of b))).
Proof.
  split; [exact prior_irr | ]. split; [exact prior_trans | ]. intros a b O. split; [now apply prior_total | ].
  destruct (lt_decides a b O) as ([] & -> & D); [left | right]; (split; [reflexivity | ]); [now apply D | intros P; now apply D in P].
Qed.

(** ** sort *)
Definition not_after (x y : list obj) : Prop := ~ prior (KTuple (keys y)) (KTuple (keys x)).
Section Sorting.
  Variable all : list (list obj).
  Hypothesis O : stream orderable all.
  Lemma not_after_trans : forall x y z, In x all -> In y all -> not_after x y -> not_after y z -> not_after x z.
  Proof.
    intros x y z IX IY A B P. destruct (prior_total (Tuple x) (Tuple y) (O x y IX IY)) as [L | [E | L]].
    - apply B. apply (prior_trans _ _ _ P L).
    - apply B. change (KTuple (keys y)) with (key_of (Tuple y)). rewrite <- E. exact P.
    - exact (A L).
  Qed.
  Lemma insert_sorted : forall x l, In x all -> (forall y, In y l -> In y all) -> StronglySorted not_after l ->
    exists l', insert x l = Ok l' /\ Permutation (x :: l) l' /\ StronglySorted not_after l' /\
      forall f : list key -> bool, (forall k k', f k = true -> f k' = true -> k = k') -> filter (fun y => f (keys y)) l' = filter (fun y => f (keys y)) (l ++ [x]).
  Proof.
    intros x l IX IL SL. induction SL as [ | y l SL IH F].
    - exists [x]. repeat split; auto. repeat constructor.
    - assert (IY : In y all) by (apply IL; now left). cbn [insert]. destruct (lt_decides (Tuple x) (Tuple y) (O x y IX IY)) as ([] & -> & D); cbn [bind].
      + assert (P : prior (KTuple (keys x)) (KTuple (keys y))) by now apply D.
        assert (NX : Forall (not_after x) (y :: l)).
        { constructor; [intros Q; exact (prior_irr _ (prior_trans _ _ _ P Q)) | ]. apply Forall_forall. intros z IZ. rewrite Forall_forall in F. apply (not_after_trans x y z IX IY); [ | now apply F].
          intros Q. exact (prior_irr _ (prior_trans _ _ _ P Q)). }
        eexists. split; [reflexivity | ]. split; [apply Permutation_refl | ]. split; [constructor; [now constructor | exact NX] | ].
        intros f FU. rewrite filter_app. cbn [filter]. destruct (f (keys x)) eqn:FX; [ | now rewrite app_nil_r].
        assert (NO : forall z, In z (y :: l) -> f (keys z) = false).
        { intros z IZ. destruct (f (keys z)) eqn:FZ; [ | reflexivity]. exfalso. pose proof (FU _ _ FX FZ) as E.
          destruct IZ as [<- | IZ]; [apply (prior_irr (KTuple (keys x))); now rewrite E at 2 | ]. rewrite Forall_forall in F. apply (F z IZ). unfold keys in *. rewrite <- E. exact P. }
        assert (NIL : filter (fun z => f (keys z)) (y :: l) = []).
        { clear - NO. induction (y :: l) as [ | z m IHm]; [reflexivity | ]. cbn. rewrite (NO z (or_introl eq_refl)). apply IHm. intros; apply NO; now right. }
        cbn [filter] in NIL. now rewrite NIL.
      + assert (NP : not_after y x) by (intros P; now apply D in P).
        destruct IH as (l' & -> & PM & SL' & ST); [intros; apply IL; now right | ]. cbn [bind]. eexists. split; [reflexivity | ].
        split; [eapply perm_trans; [apply perm_swap | now apply perm_skip] | ]. split.
        * constructor; [exact SL' | ]. apply Forall_forall. intros z IZ. apply (Permutation_in z (Permutation_sym PM)) in IZ as [<- | IZ]; [exact NP | ]. rewrite Forall_forall in F. now apply F.
        * intros f FU. cbn [app filter]. now rewrite (ST f FU).
  Qed.
End Sorting.
Theorem c82_sort : forall xs, stream orderable xs -> exists ys, sort_run xs = (ys, None) /\ Permutation xs ys /\
  StronglySorted (fun x y => ~ prior (key_of (Tuple y)) (key_of (Tuple x))) ys /\
  forall f : list key -> bool, (forall k k', f k = true -> f k' = true -> k = k') -> filter (fun y => f (keys y)) ys = filter (fun y => f (keys y)) xs.
Proof.
  intros xs O. enough (Q : forall ys l, (forall x, In x ys -> In x xs) -> (forall x, In x l -> In x xs) -> StronglySorted not_after l ->
    exists l', insert_all l ys = Ok l' /\ Permutation (l ++ ys) l' /\ StronglySorted not_after l' /\
      forall f : list key -> bool, (forall k k', f k = true -> f k' = true -> k = k') -> filter (fun y => f (keys y)) l' = filter (fun y => f (keys y)) (l ++ ys)).
  { destruct (Q xs []) as (l' & E & R); [auto | intros x [] | constructor | ]. exists l'. unfold sort_run. rewrite E. split; [reflexivity | exact R]. }
  induction ys as [ | x ys IH]; intros l SY SL ST.
  - exists l. rewrite app_nil_r. repeat split; auto.
  - destruct (insert_sorted xs O x l) as (l1 & E1 & P1 & S1 & F1); [apply SY; now left | exact SL | exact ST | ].
    destruct (IH l1) as (l2 & E2 & P2 & S2 & F2); [intros; apply SY; now right | | exact S1 | ].
    { intros y I. apply (Permutation_in y (Permutation_sym P1)) in I as [<- | I]; [apply SY; now left | now apply SL]. }
    exists l2. cbn [insert_all]. rewrite E1. cbn [bind]. split; [exact E2 | ]. split; [ | split; [exact S2 | ]].
    + eapply perm_trans; [ | exact P2]. eapply perm_trans; [apply Permutation_sym, Permutation_middle | ]. change (x :: l ++ ys) with ((x :: l) ++ ys). now apply Permutation_app_tail.
    + intros f FU. rewrite (F2 f FU), !filter_app, (F1 f FU), filter_app, <- app_assoc. f_equal. cbn [filter app]. now destruct (f (keys x)).
Qed.
