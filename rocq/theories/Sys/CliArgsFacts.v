(** Facts about the model of parse_args. *)
From Verif.Sys Require Export CliArgsSpec.
Local Open Scope string_scope.
Local Open Scope list_scope.

Lemma bind_ok : forall A B (o : outcome A) (k : A -> outcome B) b, bind o k = Ok b -> exists a, o = Ok a /\ k a = Ok b.
Proof. intros A B [a | | | ] k b H; try discriminate H. exists a. auto. Qed.

(** ** Flags *)
Lemma isflag_dashed : forall w, isflag w = true <-> dashed w.
Proof.
  intros [ | c w]; unfold isflag, startswith; [split; [discriminate | intros (r & E); discriminate E] | ].
  rewrite andb_true_r. rewrite Ascii.eqb_eq. split; [intros <-; now exists w | intros (r & E); injection E as -> _; reflexivity].
Qed.
Lemma isflag_not : forall w, ~ dashed w -> isflag w = false.
Proof. intros w N. destruct (isflag w) eqn:E; [ | reflexivity]. destruct N. now apply isflag_dashed. Qed.

Lemma sub_all : forall w n, String.length w <= n -> substring 0 n w = w.
Proof.
  induction w as [ | c w IH]; intros n H; [destruct n; reflexivity | ]. destruct n; cbn in H; [lia | ]. cbn. now rewrite IH by lia.
Qed.

Lemma short_is : forall f, short_flag f -> is_short f = Ok true /\ is_long f = Ok false /\ dashed f.
Proof.
  intros f (c & r & -> & N). unfold is_short, is_long, check_valid_flag.
  assert (P : startswith "--" (String "-" (String c r)) = false).
  { change (startswith "--" (String "-" (String c r))) with (Ascii.eqb "-" c && true). rewrite (Ascii.eqb_sym "-" c). destruct (Ascii.eqb_spec c "-"); [contradiction | reflexivity]. }
  assert (D : is_dash (get 1 (String "-" (String c r))) = false).
  { change (is_dash (get 1 (String "-" (String c r)))) with (Ascii.eqb c "-"). destruct (Ascii.eqb_spec c "-"); [contradiction | reflexivity]. }
  rewrite P, D. split; [ | split; [ | now exists (String c r)]]; reflexivity.
Qed.
Lemma long_is : forall f, long_flag f -> is_short f = Ok false /\ is_long f = Ok true /\ dashed f.
Proof.
  intros f (c & r & ->). unfold is_short, is_long, check_valid_flag.
  split; [ | split; [ | now exists (String "-" (String c r))]]; reflexivity.
Qed.

Lemma is_short_inv : forall f b, is_short f = Ok b -> (b = true /\ short_flag f) \/ (b = false /\ ~ short_flag f).
Proof.
  intros f b H. unfold is_short in H. apply bind_ok in H. destruct H as ([] & C & H). injection H as <-.
  destruct f as [ | c [ | d r]]; try discriminate C. cbn. destruct (Ascii.eqb_spec c "-") as [-> | N].
  - destruct (Ascii.eqb_spec d "-") as [-> | M]; cbn.
    + right. split; [reflexivity | ]. intros (c & r' & E & N). injection E as <- _. now apply N.
    + left. split; [reflexivity | ]. now exists d, r.
  - right. split; [reflexivity | ]. intros (c' & r' & E & _). injection E as -> _. now apply N.
Qed.
Lemma is_long_inv : forall f b, is_long f = Ok b -> (b = true /\ long_flag f) \/ (b = false /\ ~ long_flag f).
Proof.
  intros f b H. unfold is_long in H. apply bind_ok in H. destruct H as ([] & C & H). injection H as <-.
  destruct f as [ | c [ | d r]]; try discriminate C. cbn. destruct (Ascii.eqb_spec c "-") as [-> | N].
  - destruct (Ascii.eqb_spec d "-") as [-> | M]; cbn.
    + left. split; [reflexivity | ]. destruct r as [ | e r]; [discriminate C | ]. now exists e, r.
    + right. split; [reflexivity | ]. intros (c & r' & E). injection E as -> _. now apply M.
  - right. split; [reflexivity | ]. intros (c' & r' & E). injection E as -> _. now apply N.
Qed.

Definition kind_of (d : decl) : kind := match d with DBool _ _ _ => KBool | DInt _ _ _ _ => KInt | _ => KStr end.
Definition default_of (d : decl) : val := match d with DFlag _ _ x _ | DInt _ _ x _ | DBool _ _ x => x | _ => VList [] end.
Definition required_of (d : decl) : bool := match d with DFlag _ _ _ r | DInt _ _ _ r => r | _ => false end.

Definition stands (d : decl) (a : arg) : Prop :=
  match d with
  | DAnon => a = Anon
  | DOther _ => a = NotAnArg
  | _ => exists s g, a = Flag (kind_of d) s g (default_of d) (required_of d) /\
      ((names d = match s with Some s => [s] | None => [] end ++ match g with Some g => [g] | None => [] end) \/
       (exists s' g', s = Some s' /\ g = Some g' /\ names d = [g'; s'])) /\ proper_names (names d)
  end.

Lemma new_flag_ok : forall k f1 f2 x r, proper_names (f1 :: match f2 with Some f => [f] | None => [] end) ->
  exists s g, new_flag k f1 f2 x r = Ok (Flag k s g x r).
Proof.
  intros k f1 [f2 | ] x r P; cbn in P; unfold new_flag, and_then.
  - destruct P as [[S L] | [L S]].
    + destruct (short_is _ S) as (-> & _). destruct (long_is _ L) as (_ & -> & _). cbn. eauto.
    + destruct (long_is _ L) as (-> & -> & _). destruct (short_is _ S) as (-> & _). cbn. eauto.
  - destruct P as [S | L].
    + destruct (short_is _ S) as (-> & _). cbn. eauto.
    + destruct (long_is _ L) as (-> & -> & _). cbn. eauto.
Qed.

Lemma new_flag_inv : forall k f1 f2 x r a, new_flag k f1 f2 x r = Ok a -> exists s g, a = Flag k s g x r /\
  ((f1 :: match f2 with Some f => [f] | None => [] end = match s with Some s => [s] | None => [] end ++ match g with Some g => [g] | None => [] end) \/
   (exists s' g', s = Some s' /\ g = Some g' /\ f1 :: match f2 with Some f => [f] | None => [] end = [g'; s'])) /\
  proper_names (f1 :: match f2 with Some f => [f] | None => [] end).
Proof.
  intros k f1 f2 x r a H. destruct f2 as [f2 | ]; unfold new_flag, and_then in H.
  - apply bind_ok in H. destruct H as (sl & A & H). apply bind_ok in A. destruct A as (s1 & S1 & A). destruct s1.
    + destruct sl.
      * injection H as <-. exists (Some f1), (Some f2). split; [reflexivity | ]. split; [left; reflexivity | ]. cbn. left.
        destruct (is_short_inv _ _ S1) as [[_ S] | [E _]]; [ | discriminate E]. destruct (is_long_inv _ _ A) as [[_ L] | [E _]]; [ | discriminate E]. auto.
      * apply bind_ok in H. destruct H as (ls & B & H). destruct ls; [ | discriminate H]. injection H as <-.
        apply bind_ok in B. destruct B as (l1 & L1 & B). destruct l1; [ | discriminate B].
        destruct (is_long_inv _ _ L1) as [[_ L] | [E _]]; [ | discriminate E]. destruct (is_short_inv _ _ B) as [[_ S] | [E _]]; [ | discriminate E].
        exists (Some f2), (Some f1). split; [reflexivity | ]. split; [right; eauto | ]. cbn. auto.
    + injection A as <-. apply bind_ok in H. destruct H as (ls & B & H). destruct ls; [ | discriminate H]. injection H as <-.
      apply bind_ok in B. destruct B as (l1 & L1 & B). destruct l1; [ | discriminate B].
      destruct (is_long_inv _ _ L1) as [[_ L] | [E _]]; [ | discriminate E]. destruct (is_short_inv _ _ B) as [[_ S] | [E _]]; [ | discriminate E].
      exists (Some f2), (Some f1). split; [reflexivity | ]. split; [right; eauto | ]. cbn. auto.
  - apply bind_ok in H. destruct H as (s & S & H). destruct s.
    + injection H as <-. exists (Some f1), None. split; [reflexivity | ]. split; [left; reflexivity | ]. cbn.
      destruct (is_short_inv _ _ S) as [[_ S'] | [E _]]; [ | discriminate E]. auto.
    + apply bind_ok in H. destruct H as (l & L & H). destruct l; [ | discriminate H]. injection H as <-.
      exists None, (Some f1). split; [reflexivity | ]. split; [left; reflexivity | ]. cbn.
      destruct (is_long_inv _ _ L) as [[_ L'] | [E _]]; [ | discriminate E]. auto.
Qed.

Lemma make_inv : forall d a, make d = Ok a -> stands d a.
Proof.
  intros d a H. destruct d; cbn [make] in H; try (exact (new_flag_inv _ _ _ _ _ _ H)); cbn; congruence.
Qed.
Lemma make_ok : forall d, d = DAnon \/ proper_names (names d) -> exists a, make d = Ok a.
Proof.
  intros d [-> | P]; [exists Anon; reflexivity | ].
  destruct d; cbn in P; try destruct P; cbn [make];
    match goal with |- exists a, new_flag ?k ?f1 ?f2 ?x ?r = _ => destruct (new_flag_ok k f1 f2 x r P) as (s & g & E); eauto end.
Qed.

Definition stand (kw : list (string * decl)) (l : list (string * arg)) : Prop := Forall2 (fun a b => fst a = fst b /\ stands (snd a) (snd b)) kw l.

Lemma make_all_inv : forall kw l, make_all kw = Ok l -> stand kw l.
Proof.
  induction kw as [ | [v d] kw IH]; intros l H; cbn in H; [injection H as <-; constructor | ].
  apply bind_ok in H. destruct H as (a & A & H). apply bind_ok in H. destruct H as (l' & L & H). injection H as <-.
  constructor; [split; [reflexivity | now apply make_inv] | now apply IH].
Qed.
Lemma make_all_ok : forall kw, (forall v d, In (v, d) kw -> d = DAnon \/ proper_names (names d)) -> exists l, make_all kw = Ok l.
Proof.
  induction kw as [ | [v d] kw IH]; intros H; [exists []; reflexivity | ]. cbn.
  destruct (make_ok d (H v d (or_introl eq_refl))) as (a & ->). destruct IH as (l & ->); [intros w e I; apply (H w e); now right | ]. cbn. eauto.
Qed.

Lemma stand_vars : forall kw l, stand kw l -> map fst l = map fst kw.
Proof. induction 1 as [ | a b kw l [E _] _ IH]; cbn; [reflexivity | ]. now rewrite E, IH. Qed.

Lemma filter_usage : forall kw l, stand kw l -> (forall v d, In (v, d) kw -> v <> "usage") ->
  filter (fun a : string * arg => negb (String.eqb (fst a) "usage")) l = l.
Proof.
  induction 1 as [ | [v d] [w a] kw l [E S] F IH]; intros H; [reflexivity | ]. cbn in E. subst w. cbn.
  destruct (String.eqb_spec v "usage") as [-> | N]; [destruct (H "usage" d); [now left | reflexivity] | ]. cbn. rewrite IH; [reflexivity | ].
  intros w e I. apply (H w e). now right.
Qed.

(** ** Checks of the declarations *)
Lemma check_args_ok : forall kw l, stand kw l -> (forall v d, In (v, d) kw -> d = DAnon \/ proper_names (names d)) -> forall seen,
  NoDup (map fst kw) -> (forall v w, In (v, DAnon) kw -> In (w, DAnon) kw -> v = w) ->
  (seen = true -> forall v, ~ In (v, DAnon) kw) -> check_args seen l = Ok tt.
Proof.
  induction 1 as [ | [v d] [w a] kw l [E S] F IH]; intros D seen ND U Z; [reflexivity | ]. cbn in E, S. subst w.
  cbn in ND. inversion ND as [ | v' l' NI ND']; subst.
  assert (D' : forall v d, In (v, d) kw -> d = DAnon \/ proper_names (names d)) by (intros w e I; apply (D w e); now right).
  assert (U' : forall v w, In (v, DAnon) kw -> In (w, DAnon) kw -> v = w) by (intros x y X Y; apply U; now right).
  assert (Z' : seen = true -> forall v, ~ In (v, DAnon) kw) by (intros Q x X; apply (Z Q x); now right).
  destruct d; cbn in S.
  1-3: destruct S as (s & g & -> & _); cbn; now apply IH.
  - subst a. cbn. destruct seen; [destruct (Z eq_refl v); now left | ]. apply IH; auto. intros _ w I.
    apply NI. assert (v = w) by (apply U; [now left | now right]). subst w. apply (in_map fst) in I. exact I.
  - destruct (D v (DOther v0) (or_introl eq_refl)) as [Q | []]; discriminate Q.
Qed.
Lemma check_args_inv : forall kw l, stand kw l -> forall seen, check_args seen l = Ok tt ->
  (forall v d, In (v, d) kw -> d = DAnon \/ proper_names (names d)) /\
  (forall v w, In (v, DAnon) kw -> In (w, DAnon) kw -> v = w) /\ (seen = true -> forall v, ~ In (v, DAnon) kw).
Proof.
  induction 1 as [ | [v d] [w a] kw l [E S] F IH]; intros seen C; [split; [intros ? ? [] | split; [intros ? ? [] | intros _ ? []]] | ]. cbn in E, S. subst w.
  destruct d; cbn in S.
  1-3: destruct S as (s & g & -> & _ & P); cbn in C; destruct (IH seen C) as (A & B & Z); split; [ | split];
    [ intros w e [Q | I]; [injection Q as <- <-; right; exact P | eauto]
    | intros x y [Q | X] [R | Y]; try discriminate; eauto
    | intros Q x [R | X]; [discriminate R | now apply (Z Q x)] ].
  - subst a. cbn in C. destruct seen; [discriminate C | ]. destruct (IH true C) as (A & B & Z). split; [ | split].
    + intros w e [Q | I]; [injection Q as <- <-; now left | eauto].
    + intros x y [Q | X] [R | Y]; [congruence | destruct (Z eq_refl y Y) | destruct (Z eq_refl x X) | eauto].
    + discriminate.
  - subst a. discriminate C.
Qed.

Lemma mem_in : forall f l, mem f l = true <-> In f l.
Proof.
  intros f l. unfold mem. rewrite existsb_exists. split; [intros (g & I & E); apply String.eqb_eq in E; now subst | intros I; exists f; split; [exact I | apply String.eqb_refl]].
Qed.

Definition flags_of (a : arg) : list string :=
  match a with Flag _ s g _ _ => match s with Some s => [s] | None => [] end ++ match g with Some g => [g] | None => [] end | _ => [] end.

Lemma stands_flags : forall d a, stands d a -> forall f, In f (flags_of a) <-> In f (names d).
Proof.
  intros d a S f. destruct d; cbn in S; [ | | | subst a; reflexivity | subst a; reflexivity];
    destruct S as (s & g & -> & [E | (s' & g' & -> & -> & E)] & _); cbn [flags_of names]; cbn [names] in E; rewrite E; try reflexivity;
    cbn; tauto.
Qed.
Lemma stands_nodup : forall d a, stands d a -> (NoDup (flags_of a) <-> NoDup (names d)).
Proof.
  intros d a S. destruct d; cbn in S; [ | | | subst a; cbn; split; constructor | subst a; cbn; split; constructor];
    destruct S as (s & g & -> & [E | (s' & g' & -> & -> & E)] & _); cbn [flags_of names]; cbn [names] in E; rewrite E; try reflexivity;
    cbn; split; intros N; inversion N as [ | ? ? NI _]; subst; cbn in NI; repeat constructor; cbn; intuition congruence.
Qed.

Lemma nodup_app : forall (A : Type) (a b : list A), NoDup (a ++ b) <-> NoDup a /\ NoDup b /\ forall x, In x a -> ~ In x b.
Proof.
  intros A a b. induction a as [ | x a IH]; cbn.
  - split; [intros N; repeat split; [constructor | exact N | intros ? []] | now intros (_ & N & _)].
  - split.
    + intros N. inversion N as [ | ? ? NI N']; subst. apply IH in N'. destruct N' as (Na & Nb & D). rewrite in_app_iff in NI.
      split; [constructor; tauto | ]. split; [exact Nb | ]. intros y [-> | I]; [tauto | now apply D].
    + intros (Na & Nb & D). inversion Na as [ | ? ? NI N']; subst. constructor.
      * rewrite in_app_iff. intros [I | I]; [contradiction | ]. exact (D x (or_introl eq_refl) I).
      * apply IH. split; [exact N' | ]. split; [exact Nb | ]. intros y I. apply D. now right.
Qed.

Lemma register_all_spec : forall l all,
  (NoDup (flat_map (fun a => flags_of (snd a)) l) /\ (forall f, In f (flat_map (fun a => flags_of (snd a)) l) -> ~ In f all)) <-> register_all l all = Ok tt.
Proof.
  assert (R : forall o all, (match o with Some f => ~ In f all | None => True end <-> exists all', register o all = Ok all') /\
     forall all', register o all = Ok all' -> forall f, In f all' <-> (o = Some f \/ In f all)).
  { intros [g | ] all; cbn.
    - destruct (mem g all) eqn:M.
      + split; [split; [intros N; destruct N; now apply mem_in | intros (a & A); discriminate A] | discriminate].
      + split; [split; [eauto | intros _ I; apply mem_in in I; congruence] | ]. intros all' E f. injection E as <-. cbn. split; [intros [-> | I]; auto | intros [Q | I]; [injection Q as ->; auto | auto]].
    - split; [split; eauto | ]. intros all' E f. injection E as <-. split; [auto | intros [E | I]; [discriminate E | exact I]]. }
  induction l as [ | [v a] l IH]; intros all; cbn [flat_map register_all snd].
  { split; [reflexivity | ]. intros _. split; [constructor | intros f []]. }
  destruct a as [ | k s g x r | ]; cbn [flags_of app]; try apply IH.
  destruct (R s all) as (R1 & R2). destruct (register s all) as [a1 | | | ] eqn:E1.
  2-4: split; [ | discriminate]; intros [N D]; exfalso; destruct R1 as [R1 _]; destruct s as [s | ]; [ | discriminate E1];
       destruct R1 as (a' & A); [apply D; cbn; now left | discriminate A].
  specialize (R2 _ eq_refl). cbn [bind]. destruct (R g a1) as (R3 & R4). destruct (register g a1) as [a2 | | | ] eqn:E2.
  2-4: split; [ | discriminate]; intros [N D]; exfalso; destruct R3 as [R3 _]; destruct g as [g | ]; [ | discriminate E2];
       destruct R3 as (a' & A); [ | discriminate A]; rewrite R2; intros [-> | I]; [cbn in N; inversion N as [ | ? ? NI _]; subst; apply NI; now left | ];
       apply (D g); [rewrite !in_app_iff; cbn; auto | exact I].
  specialize (R4 _ eq_refl). cbn [bind]. rewrite <- IH. rewrite !nodup_app.
  assert (NS : match s with Some f => ~ In f all | None => True end) by (apply R1; eauto).
  assert (NG : match g with Some f => ~ In f a1 | None => True end) by (apply R3; eauto).
  split.
  - intros [((N1 & N2 & N3) & N4 & N5) D]. split; [exact N4 | ]. intros f I. rewrite R4, R2. intros [-> | [-> | J]].
    + apply (N5 f); [rewrite in_app_iff; cbn; auto | exact I].
    + apply (N5 f); [rewrite in_app_iff; cbn; auto | exact I].
    + apply (D f); [rewrite in_app_iff; auto | exact J].
  - intros [N D]. split; [split; [split; [ | split] | split; [exact N | ]] | ].
    + destruct s; repeat constructor. intros [].
    + destruct g; repeat constructor. intros [].
    + intros f I J. destruct s as [s | ]; [ | contradiction]. destruct g as [g | ]; [ | contradiction]. cbn in I, J.
      destruct I as [<- | []]. destruct J as [<- | []]. apply NG. apply R2. now left.
    + intros f I J. apply (D f J). rewrite R4, R2. rewrite in_app_iff in I. destruct s, g; cbn in I; intuition congruence.
    + intros f I J. rewrite !in_app_iff in I. destruct I as [[I | I] | I].
      * destruct s as [s | ]; [ | contradiction]. destruct I as [<- | []]. contradiction.
      * destruct g as [g | ]; [ | contradiction]. destruct I as [<- | []]. apply NG, R2. now right.
      * apply (D f I). rewrite R4, R2. auto.
Qed.

Lemma stand_flags_in : forall kw l, stand kw l -> forall f, In f (flat_map (fun a => flags_of (snd a)) l) <-> In f (flat_map (fun a => names (snd a)) kw).
Proof.
  induction 1 as [ | a b kw l [_ S] _ IH]; intros f; cbn; [reflexivity | ]. rewrite !in_app_iff, IH, (stands_flags _ _ S). reflexivity.
Qed.
Lemma stand_flags_nodup : forall kw l, stand kw l -> (NoDup (flat_map (fun a => flags_of (snd a)) l) <-> NoDup (flat_map (fun a => names (snd a)) kw)).
Proof.
  induction 1 as [ | a b kw l [_ S] F IH]; cbn; [reflexivity | ]. rewrite !nodup_app, IH, (stands_nodup _ _ S).
  split; intros (A & B & C); split; auto; split; auto; intros x X Y; apply (C x).
  - now apply (stands_flags _ _ S).
  - now apply (stand_flags_in _ _ F).
  - now apply (stands_flags _ _ S).
  - now apply (stand_flags_in _ _ F).
Qed.

Lemma command_line_ok : forall kw l, stand kw l -> well_formed kw -> command_line l = Ok tt.
Proof.
  intros kw l S W. unfold command_line. rewrite (check_args_ok kw l S (wf_decls _ W) false (wf_vars _ W) (wf_anon _ W) ltac:(discriminate)). cbn.
  apply register_all_spec. split; [ | auto]. apply (stand_flags_nodup _ _ S). apply W.
Qed.
Lemma command_line_inv : forall kw l, stand kw l -> command_line l = Ok tt -> NoDup (map fst kw) -> (forall v d, In (v, d) kw -> v <> "usage" /\ v <> "ARGV") ->
  well_formed kw.
Proof.
  intros kw l S C ND N. apply bind_ok in C. destruct C as ([] & C & R). destruct (check_args_inv _ _ S _ C) as (D & A & _).
  apply register_all_spec in R. destruct R as [R _]. constructor; auto. now apply (stand_flags_nodup _ _ S).
Qed.

(** ** The scan *)
Lemma same_flags : forall k s g x r f, same f s || same f g = true <-> In f (flags_of (Flag k s g x r)).
Proof.
  intros. cbn [flags_of]. rewrite in_app_iff, orb_true_iff. destruct s, g; cbn; rewrite ?String.eqb_eq; intuition congruence.
Qed.

Lemma arg_of_some : forall kw l, stand kw l -> forall f v k, arg_of l f = Some (v, k) -> exists d, In (v, d) kw /\ In f (names d) /\ kind_of d = k /\ d <> DAnon.
Proof.
  induction 1 as [ | [v d] [w a] kw l [E S] F IH]; intros f v' k H; [discriminate H | ]. cbn in E, S. subst w.
  assert (REC : arg_of l f = Some (v', k) -> exists d', In (v', d') ((v, d) :: kw) /\ In f (names d') /\ kind_of d' = k /\ d' <> DAnon).
  { intros H'. destruct (IH _ _ _ H') as (d' & I & R). exists d'. split; [now right | exact R]. }
  pose proof (stands_flags _ _ S f) as SF.
  destruct d; cbn in S; [ | | | subst a; cbn in H; auto | subst a; cbn in H; auto].
  all: destruct S as (s & g & -> & _); cbn [arg_of] in H;
    match type of SF with In _ (flags_of (Flag ?k ?s ?g ?x ?r)) <-> _ => pose proof (same_flags k s g x r f) as SM end;
    destruct (same f s || same f g); [ | now apply REC]; injection H as <- <-;
    eexists; split; [now left | ]; split; [apply SF, SM; reflexivity | split; [reflexivity | discriminate]].
Qed.
Lemma arg_of_in : forall kw l, stand kw l -> NoDup (flat_map (fun a => names (snd a)) kw) -> forall v d f, In (v, d) kw -> In f (names d) ->
  arg_of l f = Some (v, kind_of d).
Proof.
  induction 1 as [ | [v d] [w a] kw l [E S] F IH]; intros N v' d' f I J; [destruct I | ]. cbn in E, S. subst w.
  cbn in N. apply nodup_app in N. destruct N as (_ & N & D). pose proof (stands_flags _ _ S f) as SF.
  assert (J' : In (v', d') kw -> ~ In f (names d)).
  { intros I' X. apply (D f X). apply in_flat_map. exists (v', d'). auto. }
  assert (REC : In (v', d') kw -> arg_of l f = Some (v', kind_of d')) by (intros I'; now apply IH).
  destruct d; cbn in S.
  4-5: subst a; cbn [arg_of]; destruct I as [Q | I]; [injection Q as <- <-; destruct J | now apply REC].
  all: destruct S as (s & g & -> & _); cbn [arg_of];
    match type of SF with In _ (flags_of (Flag ?k ?s ?g ?x ?r)) <-> _ => pose proof (same_flags k s g x r f) as SM end;
    destruct (same f s || same f g); destruct I as [Q | I];
    [ injection Q as <- <-; reflexivity
    | destruct (J' I); apply SF, SM; reflexivity
    | injection Q as <- <-; exfalso; apply SF, SM in J; discriminate J
    | now apply REC ].
Qed.

(** What the scan finds for a use *)
Definition token (to_int : string -> option Z) (l : list (string * arg)) (u : use) : option string * val :=
  match u with
  | Switch f => (option_map fst (arg_of l f), VBool true)
  | Given f y => (option_map fst (arg_of l f), match arg_of l f with Some (_, KInt) => match to_int y with Some z => VInt z | None => VNone end | _ => VStr y end)
  | Word w => (None, VStr w)
  end.

Lemma names_dashed : forall d f, proper_names (names d) -> In f (names d) -> dashed f.
Proof.
  intros d f P I. assert (D : short_flag f \/ long_flag f -> dashed f) by (intros [(c & r & -> & _) | (c & r & ->)]; eexists; reflexivity).
  apply D. destruct (names d) as [ | a [ | b [ | c l]]]; cbn in P; try contradiction; cbn in I; intuition congruence.
Qed.

Lemma scan_written : forall to_int kw l us, stand kw l -> well_formed kw -> Forall (proper to_int kw) us ->
  scan to_int l (flat_map written us) = Ok (map (token to_int l) us).
Proof.
  intros to_int kw l us S W P.
  assert (DA : forall v d f, In (v, d) kw -> In f (names d) -> isflag f = true).
  { intros v d f I J. apply isflag_dashed. destruct (wf_decls _ W v d I) as [-> | Q]; [destruct J | exact (names_dashed _ _ Q J)]. }
  induction P as [ | u us PU _ IH]; [reflexivity | ]. cbn [flat_map map].
  destruct PU as [v f1 f2 x f I J | v f1 f2 x r f y I J Y | v f1 f2 x r f y z I J Y Z | w N]; cbn [written app scan token].
  - rewrite (DA _ _ _ I J), (arg_of_in _ _ S (wf_flags _ W) _ _ _ I J). cbn [kind_of option_map fst]. rewrite IH. reflexivity.
  - rewrite (DA _ _ _ I J), (arg_of_in _ _ S (wf_flags _ W) _ _ _ I J). cbn [kind_of option_map fst]. rewrite (isflag_not _ Y), IH. reflexivity.
  - rewrite (DA _ _ _ I J), (arg_of_in _ _ S (wf_flags _ W) _ _ _ I J). cbn [kind_of option_map fst]. rewrite (isflag_not _ Y), Z, IH. reflexivity.
  - rewrite (isflag_not _ N), IH. reflexivity.
Qed.

Lemma scan_inv : forall to_int kw l, stand kw l -> (forall v d, In (v, d) kw -> d = DAnon \/ proper_names (names d)) ->
  forall n argv r, length argv <= n -> scan to_int l argv = Ok r -> exists us, Forall (proper to_int kw) us /\ argv = flat_map written us.
Proof.
  intros to_int kw l S D. assert (ND : forall y, isflag y = false -> ~ dashed y) by (intros y E Y; apply isflag_dashed in Y; congruence).
  induction n as [ | n IH]; intros argv r L H; (destruct argv as [ | t argv]; [exists []; split; [constructor | reflexivity] | ]); [cbn in L; lia | ].
  cbn [scan] in H. cbn in L. destruct (isflag t) eqn:T.
  - destruct (arg_of l t) as [[v k] | ] eqn:A; [ | discriminate H].
    destruct (arg_of_some _ _ S _ _ _ A) as (d & I & J & K & NA).
    destruct k.
    + destruct argv as [ | x argv]; [discriminate H | ]. destruct (isflag x) eqn:X; [discriminate H | ].
      apply bind_ok in H. destruct H as (r' & R & _). destruct (IH argv r') as (us & P & E); [cbn in L; lia | exact R | ].
      exists (Given t x :: us). split; [ | cbn; now rewrite E]. constructor; [ | exact P].
      destruct (D v d I) as [-> | PN]; [now destruct NA | ]. destruct d; try discriminate K; try destruct PN. eapply p_given; eauto.
    + destruct argv as [ | x argv]; [discriminate H | ]. destruct (isflag x) eqn:X; [discriminate H | ]. destruct (to_int x) as [z | ] eqn:Z; [ | discriminate H].
      apply bind_ok in H. destruct H as (r' & R & _). destruct (IH argv r') as (us & P & E); [cbn in L; lia | exact R | ].
      exists (Given t x :: us). split; [ | cbn; now rewrite E]. constructor; [ | exact P]. destruct d; try discriminate K. eapply p_number; eauto.
    + apply bind_ok in H. destruct H as (r' & R & _). destruct (IH argv r') as (us & P & E); [lia | exact R | ].
      exists (Switch t :: us). split; [ | cbn; now rewrite E]. constructor; [ | exact P]. destruct d; try discriminate K. eapply p_switch; eauto.
  - apply bind_ok in H. destruct H as (r' & R & _). destruct (IH argv r') as (us & P & E); [lia | exact R | ].
    exists (Word t :: us). split; [ | cbn; now rewrite E]. constructor; [now apply p_word, ND | exact P].
Qed.
