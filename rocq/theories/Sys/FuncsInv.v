(** Proofs for C60: the invariant, and the steps that keep it. *)
From Coq Require Import List Bool Arith Lia.
From Verif.Sys Require Import Funcs FuncsSpec FuncsFacts.
Import ListNotations.

(** ** Tables. *)
Lemma kind_eq : forall a b : kind, {a = b} + {a <> b}. Proof. decide equality. Defined.
Lemma field_eq : forall a b : field, {a = b} + {a <> b}. Proof. decide equality. Defined.
Lemma kf_eq : forall a b : kind * field, {a = b} + {a <> b}. Proof. decide equality; auto using kind_eq, field_eq. Defined.
Definition inb (x : kind * field) (l : list (kind * field)) : bool := if in_dec kf_eq x l then true else false.
Lemma inb_in : forall x l, inb x l = true <-> In x l.
Proof. intros x l. unfold inb. destruct (in_dec kf_eq x l); split; auto; easy. Qed.
Definition usableb (pl : place) (k : kind) (f : field) : bool :=
  inb (k, f) everywhere || match pl with
                           | Script => true
                           | Prompt => inb (k, f) prompt_too
                           | PromptDefault => inb (k, f) [(KFilter, FCompare); (KCase, FPredicate)]
                           | Process => false
                           end.
Lemma usableb_ok : forall pl k f, usableb pl k f = true <-> usable pl k f.
Proof.
  intros pl k f. unfold usableb, usable. rewrite orb_true_iff, inb_in. destruct pl; rewrite ?inb_in; intuition discriminate.
Qed.

Definition base (pl : place) (k : kind) (f : field) : bool :=
  match pl with Script => true | Prompt | PromptDefault => job_makes k f | Process => false end.
Definition flag (pl : place) (sd : bool) (k : kind) (f : field) : bool := base pl k f || (sd && setup_makes k f).
Definition eval0 (pl : place) (k : kind) (f : field) : bool :=
  match pl with Script => true | Prompt => job_makes k f | PromptDefault | Process => false end.

Lemma evaluated_ok : forall k f, inb (k, f) evaluated = setup_evaluates k f.
Proof. intros k f. destruct k, f; reflexivity. Qed.
Lemma applied_ok : forall k f, inb (k, f) applied = run_calls k f.
Proof. intros k f. destruct k, f; reflexivity. Qed.
Lemma usable_evaluated : forall pl k f, setup_evaluates k f = true -> usableb pl k f = eval0 pl k f.
Proof. intros pl k f. destruct k, f; try discriminate; intros _; destruct pl; reflexivity. Qed.
Lemma usable_applied : forall pl k f, run_calls k f = true -> usableb pl k f = flag pl true k f.
Proof. intros pl k f. destruct k, f; try discriminate; intros _; destruct pl; reflexivity. Qed.
Lemma not_both : forall k f, setup_evaluates k f = true -> setup_makes k f = false.
Proof. intros k f. destruct k, f; auto; discriminate. Qed.

(** ** The invariant. *)
Definition sdx (pl : place) (sd : bool) (k : kind) : bool :=
  sd || match pl, k with Prompt, KCase => true | _, _ => false end.
Inductive inv : place -> bool -> op -> Prop :=
| inv_op : forall pl sd k args subs,
    (forall f i r, In (f, Fun i r) args -> r = flag pl sd k f) ->
    (forall f i r, In (f, Fun i r) args -> sd = true -> setup_evaluates k f = true -> eval0 pl k f = true) ->
    (k = KCase -> length subs = length args \/ length subs = S (length args)) ->
    (forall st sub, In (st, sub) subs -> st = match how_run k with SetUp => sdx pl sd k | _ => false end) ->
    (how_run k <> Elsewhere -> forall n st sub o, nth_error subs n = Some (st, sub) -> In o sub ->
       inv (enter pl (k, is_default k args n)) st o) ->
    (how_run k = Elsewhere -> forall st sub o, In (st, sub) subs -> In o sub -> inv Process false (pickle_op o)) ->
    inv pl sd (Op k args subs).

Lemma pickle_pickle : forall o, pickle_op (pickle_op o) = pickle_op o.
Proof.
  induction o as [k args subs IH] using op_ind2.
  assert (A : map (fun fa => (fst fa, pickle_arg (snd fa))) (map (fun fa => (fst fa, pickle_arg (snd fa))) args)
              = map (fun fa : field * arg => (fst fa, pickle_arg (snd fa))) args).
  { rewrite map_map. apply map_ext. now intros [f []]. }
  assert (B : map (fun p => (fst p, map pickle_op (snd p))) (map (fun p => (fst p, map pickle_op (snd p))) subs)
              = map (fun p : pipe => (fst p, map pickle_op (snd p))) subs).
  { rewrite map_map. apply map_ext_in. intros [st sub] I. cbn. f_equal. rewrite map_map. apply map_ext_in. intros o Io. eapply IH; eauto. }
  destruct k; cbn [pickle_op]; now rewrite ?A, ?B.
Qed.

Lemma enter_script : forall k d, how_run k <> Elsewhere -> enter Script (k, d) = Script.
Proof. intros [] d H; cbn in *; congruence. Qed.
Lemma enter_process : forall k d, how_run k <> Elsewhere -> k <> KRunPipeline -> enter Process (k, d) = Process.
Proof. intros [] d H; cbn in *; congruence. Qed.

Lemma pickle_op_args : forall k args subs, exists subs',
  pickle_op (Op k args subs) = Op k (map (fun fa => (fst fa, pickle_arg (snd fa))) args) subs' /\
  (k = KRunPipeline -> subs' = subs) /\ (k <> KRunPipeline -> subs' = map (fun p => (fst p, map pickle_op (snd p))) subs).
Proof. intros [] args subs; eexists; (split; [reflexivity|]); split; auto; congruence. Qed.

Lemma parsed_inv : forall o, parsed o -> inv Script false o /\ inv Process false (pickle_op o).
Proof.
  induction o as [k args subs IH] using op_ind2. intros P. inversion P as [? ? ? A C S R]; subst. split.
  - constructor.
    + intros f i r I. unfold flag, base. cbn. eauto.
    + discriminate.
    + auto.
    + intros st sub I. destruct (how_run k); [|now eauto|now eauto]. cbn. eauto.
    + intros E n st sub o N Io. rewrite enter_script by auto. apply nth_error_In in N. rewrite (S st sub) by auto.
      eapply IH; eauto.
    + intros E st sub o I Io. eapply IH; eauto.
  - destruct (pickle_op_args k args subs) as (subs' & -> & ER & EN).
    assert (L : length subs' = length subs).
    { destruct (kind_eq k KRunPipeline) as [K|K]; [now rewrite ER|]. rewrite EN by auto. now rewrite map_length. }
    constructor.
    + intros f i r I. apply in_map_iff in I. destruct I as ([f0 [|i0 r0]] & E & I); cbn in E; inversion E; subst. reflexivity.
    + discriminate.
    + rewrite map_length, L. auto.
    + intros st sub I. assert (st = false) as ->.
      { destruct (kind_eq k KRunPipeline) as [K|K]; [rewrite ER in I by auto; eauto|]. rewrite EN in I by auto.
        apply in_map_iff in I. destruct I as ([st0 sub0] & E & I). cbn in E. inversion E; subst. eauto. }
      now destruct (how_run k).
    + intros E n st sub o N Io. destruct (kind_eq k KRunPipeline) as [K|K].
      * rewrite ER in N by auto. subst k. cbn [enter fst]. apply nth_error_In in N. rewrite (S st sub) by auto. eapply IH; eauto.
      * rewrite EN in N by auto. rewrite nth_error_map in N. destruct (nth_error subs n) as [[st0 sub0]|] eqn:N0; [|easy].
        cbn in N. inversion N; subst. apply in_map_iff in Io. destruct Io as (o0 & <- & Io). apply nth_error_In in N0.
        rewrite (S st sub0) by auto. rewrite enter_process by auto. eapply IH; eauto.
    + intros E st sub o I Io. assert (K : k <> KRunPipeline) by (intros ->; discriminate). rewrite EN in I by auto.
      apply in_map_iff in I. destruct I as ([st0 sub0] & X & I). cbn in X. inversion X; subst.
      apply in_map_iff in Io. destruct Io as (o0 & <- & Io). rewrite pickle_pickle. eapply IH; eauto.
Qed.

(** ** Setup. *)
Lemma setup_pipe_unfold : forall subs,
  each (fun p : pipe => match p with
                 | (true, ops) => ret (true, ops)
                 | (false, ops) => bind (each setup_op ops) (fun ops' => ret (true, ops'))
                 end) subs = each setup_pipe subs.
Proof. reflexivity. Qed.

Lemma setup_arg_in : forall k args args' f i r, Forall2 (fun a b => snd (setup_arg k a) = Some b) args args' ->
  In (f, Fun i r) args' -> exists r0, In (f, Fun i r0) args /\
    (if setup_evaluates k f then r0 = true /\ r = true else r = (r0 || setup_makes k f)).
Proof.
  intros k args args' f i r F I. destruct (Forall2_in_r _ _ _ _ _ _ F I) as ([f0 a0] & I0 & E). cbn [setup_arg] in E.
  destruct (setup_evaluates k f0) eqn:X.
  - destruct a0 as [|i0 []]; cbn in E; inversion E; subst. exists true. rewrite X. auto.
  - destruct a0 as [|i0 r0]; unfold make_if, make in E; destruct (setup_makes k f0) eqn:Y; cbn in E; inversion E; subst;
      [exists r0|exists r]; rewrite X, Y; (split; [auto|]); now destruct r0 + destruct r.
Qed.

Lemma sets_up_how : forall k, sets_up k = true <-> how_run k = SetUp.
Proof. intros []; cbn; split; congruence. Qed.

(** After setup: the same place, with setup done. *)
Definition set_up_place (pl : place) : Prop := pl <> PromptDefault.
Lemma enter_set_up : forall pl k d, set_up_place pl -> how_run k = SetUp -> sdx pl false k = false -> set_up_place (enter pl (k, d)).
Proof. intros [] [] d H E X; cbn in *; congruence. Qed.

Lemma setup_ok : forall o pl o', set_up_place pl -> inv pl false o -> snd (setup_op o) = Some o' -> inv pl true o'.
Proof.
  induction o as [k args subs IH] using op_ind2. intros pl o' SP H E. inversion H as [? ? ? ? ? A _ C S T U]; subst.
  cbn [setup_op] in E. rewrite setup_pipe_unfold in E. apply bind_some in E. destruct E as (args' & Ea & E).
  apply bind_some in E. destruct E as (subs' & Es & E). inversion E; subst o'; clear E.
  pose proof (each_some _ _ _ _ _ Ea) as Fa. pose proof (Forall2_len _ _ _ _ _ Fa) as La.
  assert (Ls : length subs = length subs').
  { destruct (sets_up k); [apply each_some in Es; eapply Forall2_len; eauto|now inversion Es]. }
  assert (P : forall n st' sub', nth_error subs' n = Some (st', sub') -> exists st sub, nth_error subs n = Some (st, sub) /\
             (if sets_up k then snd (setup_pipe (st, sub)) = Some (st', sub') else st = st' /\ sub = sub')).
  { intros n st' sub' N. destruct (sets_up k).
    - apply each_some in Es. destruct (Forall2_nth _ _ _ _ _ n Es _ N) as ([st sub] & N0 & E). eauto.
    - inversion Es; subst. eauto. }
  constructor.
  - intros f i r I. destruct (setup_arg_in _ _ _ _ _ _ Fa I) as (r0 & I0 & M). pose proof (A _ _ _ I0) as Er. unfold flag in *. cbn in *.
    rewrite orb_false_r in Er. subst r0. destruct (setup_evaluates k f) eqn:X; [|auto]. destruct M as (B & ->). now rewrite B.
  - intros f i r I _ X. destruct (setup_arg_in _ _ _ _ _ _ Fa I) as (r0 & I0 & M). rewrite X in M. destruct M as (-> & _).
    pose proof (A _ _ _ I0) as Er. unfold flag in Er. cbn in Er. rewrite orb_false_r in Er.
    destruct pl; cbn in *; auto; congruence.
  - intros K. specialize (C K). now rewrite <- La, <- Ls.
  - intros st' sub' I. apply In_nth_error in I. destruct I as (n & N). destruct (P _ _ _ N) as (st & sub & N0 & E).
    apply nth_error_In in N0. specialize (S _ _ N0). destruct (sets_up k) eqn:Z.
    + apply sets_up_how in Z. rewrite Z. unfold sdx at 1. cbn [orb].
      destruct st; cbn in E; [now inversion E|]. apply bind_some in E. destruct E as (q & _ & E). now inversion E.
    + destruct E as (<- & <-). destruct (how_run k) eqn:Y; auto. apply sets_up_how in Y. congruence.
  - intros Z n st' sub' o' N Io. destruct (P _ _ _ N) as (st & sub & N0 & E).
    assert (D : is_default k args' n = is_default k args n) by (unfold is_default; now rewrite La). rewrite D.
    pose proof (nth_error_In _ _ N0) as I0. specialize (S _ _ I0). destruct (sets_up k) eqn:Y.
    + destruct st; cbn in E.
      * inversion E; subst. eapply T; eauto.
      * apply bind_some in E. destruct E as (q & Eq & E). inversion E; subst. apply each_some in Eq.
        destruct (Forall2_in_r _ _ _ _ _ _ Eq Io) as (o & I & Eo). apply (IH false sub o I0 I); auto.
        { apply enter_set_up; auto; [now apply sets_up_how|]. apply sets_up_how in Y. rewrite Y in S. auto. }
        { eapply T; eauto. }
    + destruct E as (<- & <-). eapply T; eauto.
  - intros Z st' sub' o' I Io. apply In_nth_error in I. destruct I as (n & N). destruct (P _ _ _ N) as (st & sub & N0 & E).
    destruct (sets_up k) eqn:Y; [apply sets_up_how in Y; congruence|]. destruct E as (<- & <-). apply nth_error_In in N0. eauto.
Qed.

Lemma written_in : forall ops o path k f i, In o ops -> written [o] path k f i -> written ops path k f i.
Proof.
  intros ops o path k f i I W. inversion W as [? ? ? ? ? ? ? J|? ? ? ? ? ? ? ? ? ? ? J]; subst; destruct J as [->|[]]; econstructor; eauto.
Qed.

Lemma usable_not : forall pl k f, usableb pl k f = false -> ~ usable pl k f.
Proof. intros pl k f E U. apply usableb_ok in U. congruence. Qed.

(** A failure in setup is that of a function that is evaluated where it cannot be used. *)
Lemma setup_bad : forall o pl u, set_up_place pl -> inv pl false o -> In u (fst (setup_op o)) -> works u = false ->
  exists path k f, written [o] path k f (used u) /\ setup_evaluates k f = true /\ ~ usable (along pl path) k f /\
    Forall (fun kd => sets_up (fst kd) = true) path.
Proof.
  induction o as [k args subs IH] using op_ind2. intros pl u SP H I W. inversion H as [? ? ? ? ? A _ C S T U]; subst.
  cbn [setup_op] in I. rewrite setup_pipe_unfold in I. apply bind_in in I. destruct I as [I|(args' & _ & I)].
  - apply each_in in I. destruct I as ([f a] & Ia & I). unfold setup_arg in I. destruct (setup_evaluates k f) eqn:X; [|easy].
    destruct a as [|i r]; [easy|]. exists [], k, f. pose proof (A _ _ _ Ia) as Er. unfold flag in Er. cbn in Er. rewrite orb_false_r in Er.
    assert (r = false /\ used u = i) as (-> & <-).
    { destruct r; cbn in I; destruct I as [<-|[]]; cbn in *; auto; discriminate. }
    split; [econstructor; [now left|eauto]|]. split; auto. split; [|constructor].
    cbn. apply usable_not. rewrite usable_evaluated by auto. destruct pl; cbn in *; congruence.
  - apply bind_in in I. destruct I as [I|(? & _ & [])]. destruct (sets_up k) eqn:Y; [|easy].
    apply each_in in I. destruct I as ([st sub] & Is & I). destruct st; [easy|]. cbn [setup_pipe] in I.
    apply bind_in in I. destruct I as [I|(? & _ & [])]. apply each_in in I. destruct I as (o & Io & I).
    pose proof (S _ _ Is) as Z. pose proof (proj1 (sets_up_how _) Y) as Y'. rewrite Y' in Z.
    destruct (In_nth_error _ _ Is) as (n & N).
    destruct (IH false sub o Is Io (enter pl (k, is_default k args n)) u) as (path & k' & f & Wr & X & V & F); auto.
    + apply enter_set_up; auto.
    + eapply T; eauto. congruence.
    + exists ((k, is_default k args n) :: path), k', f. split; [|split; [auto|split; auto]].
      econstructor; [now left|eauto|]. now apply written_in with o.
Qed.
Lemma setups_bad : forall ops pl u, set_up_place pl -> Forall (inv pl false) ops -> In u (fst (setup ops)) -> works u = false ->
  exists path k f, written ops path k f (used u) /\ setup_evaluates k f = true /\ ~ usable (along pl path) k f /\
    Forall (fun kd => sets_up (fst kd) = true) path.
Proof.
  intros ops pl u SP F I W. apply each_in in I. destruct I as (o & Io & I). rewrite Forall_forall in F.
  destruct (setup_bad o pl u SP (F _ Io) I W) as (path & k & f & Wr & R). exists path, k, f. split; auto. now apply written_in with o.
Qed.
Lemma setups_ok : forall ops ops' pl, set_up_place pl -> Forall (inv pl false) ops -> snd (setup ops) = Some ops' -> Forall (inv pl true) ops'.
Proof.
  intros ops ops' pl SP F E. apply each_some in E. rewrite Forall_forall in *. intros o' I.
  destruct (Forall2_in_r _ _ _ _ _ _ E I) as (o & Io & Eo). eapply setup_ok; eauto.
Qed.

(** ** Running. *)
Lemma evaluated_app : forall k f, setup_evaluates k f = true -> In (k, f) (applied ++ evaluated).
Proof. intros k f E. apply in_or_app. right. apply inb_in. now rewrite evaluated_ok. Qed.
Lemma applied_app : forall k f, run_calls k f = true -> In (k, f) (applied ++ evaluated).
Proof. intros k f E. apply in_or_app. left. apply inb_in. now rewrite applied_ok. Qed.
Lemma app_cases : forall k f, In (k, f) (applied ++ evaluated) -> run_calls k f = true \/ setup_evaluates k f = true.
Proof.
  intros k f I. apply in_app_or in I. rewrite <- applied_ok, <- evaluated_ok. destruct I as [I|I]; apply inb_in in I; auto.
Qed.
(** A Here operator does not lead to the default of a case. *)
Lemma enter_here : forall pl k d, how_run k = Here -> set_up_place (enter pl (k, d)).
Proof. intros [] [] d E; cbn in *; try easy. Qed.
Lemma enter_elsewhere : forall pl k d, how_run k = Elsewhere -> enter pl (k, d) = Process.
Proof. intros pl [] d E; cbn in *; try easy; auto. Qed.

Lemma happens_bad : forall ops u, happens ops u -> works u = false -> forall pl, Forall (inv pl true) ops ->
  exists path k f, written ops path k f (used u) /\ In (k, f) (applied ++ evaluated) /\ ~ usable (along pl path) k f.
Proof.
  intros ops u Hp W. induction Hp as
    [ops k args subs f i r Io Ia X|ops k args subs st sub u Io E Is Hp IH|ops k args subs p u Io E Is I|ops k args subs p st sub u Io E Is Ep Hp IH
    |ops k args subs st p u Io E Is I|ops k args subs st p sub u Io E Is Ep Hp IH]; intros pl F;
    (rewrite Forall_forall in F; pose proof (F _ Io) as H; inversion H as [? ? ? ? ? A B C S T U]; subst).
  - exists [], k, f. split; [econstructor; eauto|]. split; [now apply applied_app|]. cbn. apply usable_not. rewrite usable_applied by auto.
    rewrite <- (A _ _ _ Ia). auto.
  - destruct (In_nth_error _ _ Is) as (n & N). pose proof (S _ _ Is) as Z. rewrite E in Z. cbn in Z. subst st.
    destruct (IH W (enter pl (k, is_default k args n))) as (path & k' & f & Wr & X & V).
    { apply Forall_forall. intros o I. eapply T; eauto. congruence. }
    exists ((k, is_default k args n) :: path), k', f. split; [|auto]. econstructor; eauto.
  - destruct p as [st sub]. destruct (In_nth_error _ _ Is) as (n & N). pose proof (S _ _ Is) as Z. rewrite E in Z. subst st.
    cbn [setup_pipe] in I. apply bind_in in I. destruct I as [I|(? & _ & [])].
    destruct (setups_bad sub (enter pl (k, is_default k args n)) u) as (path & k' & f & Wr & X & V & _); auto.
    { now apply enter_here. }
    { apply Forall_forall. intros o Ix. eapply T; eauto. congruence. }
    exists ((k, is_default k args n) :: path), k', f. split; [econstructor; eauto|]. split; auto using evaluated_app.
  - destruct p as [st0 sub0]. destruct (In_nth_error _ _ Is) as (n & N). pose proof (S _ _ Is) as Z. rewrite E in Z. subst st0.
    cbn [setup_pipe] in Ep. apply bind_some in Ep. destruct Ep as (q & Eq & Ep). inversion Ep; subst.
    destruct (IH W (enter pl (k, is_default k args n))) as (path & k' & f & Wr & X & V).
    { eapply setups_ok; [now apply enter_here| |eassumption]. apply Forall_forall. intros o Ix. eapply T; eauto. congruence. }
    exists ((k, is_default k args n) :: path), k', f. split; [|auto]. econstructor; eauto. eapply same_written; eauto. now apply setups_same.
  - destruct (In_nth_error _ _ Is) as (n & N).
    destruct (setups_bad (pickle p) Process u) as (path & k' & f & Wr & X & V & _); auto; [discriminate| |].
    { apply Forall_forall. intros o Ix. apply in_map_iff in Ix. destruct Ix as (o0 & <- & Ix). eapply U; eauto. }
    exists ((k, is_default k args n) :: path), k', f. split; [|split; [auto using evaluated_app|]].
    { econstructor; eauto. eapply same_written; eauto. apply pickles_same. }
    { cbn [along fold_left]. now rewrite enter_elsewhere by auto. }
  - destruct (In_nth_error _ _ Is) as (n & N).
    destruct (IH W Process) as (path & k' & f & Wr & X & V).
    { eapply setups_ok; [discriminate| |eassumption]. apply Forall_forall. intros o Ix. apply in_map_iff in Ix. destruct Ix as (o0 & <- & Ix).
      eapply U; eauto. }
    exists ((k, is_default k args n) :: path), k', f. split; [|split; auto].
    { econstructor; eauto. eapply same_written; eauto. eapply sames_trans; [apply pickles_same|]. now apply setups_same. }
    { cbn [along fold_left]. now rewrite enter_elsewhere by auto. }
Qed.

(** A function that is used where it cannot be: something fails. *)
Lemma unusable_happens : forall path ops k f i pl, Forall (inv pl true) ops -> written ops path k f i -> In (k, f) (applied ++ evaluated) ->
  ~ usable (along pl path) k f -> exists u, happens ops u /\ works u = false.
Proof.
  induction path as [|kd path IH]; intros ops k f i pl F Wr X V; inversion Wr as [? ? args subs ? ? r Io Ia|? k0 args subs n st sub ? ? ? ? Io N Wi]; subst;
    (rewrite Forall_forall in F; pose proof (F _ Io) as H; inversion H as [? ? ? ? ? A B C S T U]; subst).
  - cbn in V. pose proof (proj2 (not_true_iff_false _) (match usableb pl k f as b return usableb pl k f = b -> b = false with true => fun e => match V (proj1 (usableb_ok _ _ _) e) with end | false => fun _ => eq_refl end eq_refl)) as Nu.
    apply not_true_iff_false in Nu. destruct (app_cases _ _ X) as [Y|Y].
    + rewrite usable_applied in Nu by auto. exists (mkuse i r). split; [econstructor; eauto|]. cbn. rewrite (A _ _ _ Ia). auto.
    + rewrite usable_evaluated in Nu by auto. rewrite (B _ _ _ Ia) in Nu by auto. discriminate.
  - pose proof (nth_error_In _ _ N) as Is. pose proof (S _ _ Is) as Z. cbn [along fold_left] in V. destruct (how_run k0) eqn:E.
    + cbn in Z. subst st. destruct (IH sub k f i (enter pl (k0, is_default k0 args n))) as (u & Hu & W); auto.
      { apply Forall_forall. intros o I. eapply T; eauto. congruence. }
      exists u. split; auto. eapply happens_set_up; eauto.
    + destruct (snd (setup (pickle sub))) as [sub'|] eqn:Es.
      * rewrite enter_elsewhere in V by auto. destruct (IH sub' k f i Process) as (u & Hu & W); auto.
        { eapply setups_ok; [discriminate| |eassumption]. apply Forall_forall. intros o Ix. apply in_map_iff in Ix. destruct Ix as (o0 & <- & Ix).
          eapply U; eauto. }
        { eapply same_written; eauto. apply sames_sym. eapply sames_trans; [apply pickles_same|]. now apply setups_same. }
        exists u. split; auto. eapply happens_elsewhere; eauto.
      * destruct (setups_none _ Es) as (u & I & W). exists u. split; auto. eapply happens_elsewhere_setup; eauto.
    + subst st. destruct (snd (setup_pipe (false, sub))) as [[st' sub']|] eqn:Es.
      * destruct (IH sub' k f i (enter pl (k0, is_default k0 args n))) as (u & Hu & W); auto.
        { cbn [setup_pipe] in Es. apply bind_some in Es. destruct Es as (q & Eq & Es). inversion Es; subst.
          eapply setups_ok; [now apply enter_here| |eassumption]. apply Forall_forall. intros o Ix. eapply T; eauto. congruence. }
        { eapply same_written; eauto. apply sames_sym. apply setup_pipe_same in Es. auto. }
        exists u. split; auto. eapply happens_here; eauto.
      * destruct (setup_pipe_none _ Es) as (u & I & W). exists u. split; auto. eapply happens_here_setup; eauto.
Qed.

Lemma usable_dec : forall pl k f, usable pl k f \/ ~ usable pl k f.
Proof. intros pl k f. destruct (usableb pl k f) eqn:E; [left; now apply usableb_ok|right; now apply usable_not]. Qed.

Lemma running_ok : forall ops pl, set_up_place pl -> Forall (inv pl false) ops ->
  (forall u, running ops u -> works u = true) <-> all_usable pl ops.
Proof.
  intros ops pl SP F. split.
  - intros H path k f i Wr X. destruct (usable_dec (along pl path) k f) as [Y|N]; auto. exfalso.
    destruct (snd (setup ops)) as [ops'|] eqn:E.
    + destruct (unusable_happens path ops' k f i pl) as (u & Hu & W); auto.
      * eapply setups_ok; eauto.
      * eapply same_written; eauto. apply sames_sym. now apply setups_same.
      * rewrite H in W; [discriminate|]. right. eauto.
    + destruct (setups_none _ E) as (u & I & W). rewrite H in W; [discriminate|]. now left.
  - intros H u R. destruct (works u) eqn:W; auto. exfalso. destruct R as [I|(ops' & E & Hp)].
    + destruct (setups_bad ops pl u SP F I W) as (path & k & f & Wr & X & V & _). apply V. eapply H; eauto using evaluated_app.
    + destruct (happens_bad ops' u Hp W pl) as (path & k & f & Wr & X & V); [eapply setups_ok; eauto|]. apply V. eapply H; eauto.
      eapply same_written; eauto. now apply setups_same.
Qed.
