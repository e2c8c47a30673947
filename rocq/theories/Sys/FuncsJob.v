(** Proofs for C60: jobs. *)
From Coq Require Import List Bool Arith Lia.
From Verif.Sys Require Import Funcs FuncsSpec FuncsFacts FuncsInv.
Import ListNotations.

Local Ltac plia := unfold pipe in *; lia.

Definition made (k : kind) (args : list (field * arg)) : list (field * arg) :=
  map (fun fa => (fst fa, make_if (job_makes k (fst fa)) (snd fa))) args.
Definition compile_op (n : nat) (o : op) : result op :=
  match n, o with
  | O, Op k args subs => ([], None)
  | S n, Op k args subs =>
    match k with
    | KCase =>
      bind (each setup_pipe subs) (fun subs' =>
      match default_of args subs' with
      | Some (st, d) => bind (compile n d) (fun d' => ret (Op k (made k args) (removelast subs' ++ [(st, d')])))
      | None => ret (Op k (made k args) subs')
      end)
    | _ => if job_descends k
           then bind (each (fun p => bind (compile n (snd p)) (fun ops' => ret (fst p, ops'))) subs) (fun subs' =>
                ret (Op k (made k args) subs'))
           else ret (Op k (made k args) subs)
    end
  end.
Lemma compile_unfold : forall n ops, compile n ops = each (compile_op n) ops.
Proof. intros [|n] ops; reflexivity. Qed.

Lemma compile_op_other : forall n k args subs, k <> KCase ->
  compile_op (S n) (Op k args subs) =
  if job_descends k
  then bind (each (fun p => bind (compile n (snd p)) (fun ops' => ret (fst p, ops'))) subs) (fun subs' => ret (Op k (made k args) subs'))
  else ret (Op k (made k args) subs).
Proof. intros n [] args subs N; try reflexivity. congruence. Qed.
Lemma compile_op_case : forall n args subs,
  compile_op (S n) (Op KCase args subs) =
  bind (each setup_pipe subs) (fun subs' =>
      match default_of args subs' with
      | Some (st, d) => bind (compile n d) (fun d' => ret (Op KCase (made KCase args) (removelast subs' ++ [(st, d')])))
      | None => ret (Op KCase (made KCase args) subs')
      end).
Proof. reflexivity. Qed.
Lemma compile_ind : forall P : nat -> op -> Prop,
  (forall o, P 0 o) ->
  (forall n k args subs, (forall o, P n o) -> P (S n) (Op k args subs)) -> forall n o, P n o.
Proof. intros P H0 HS. induction n; auto. intros [k args subs]. auto. Qed.

(** Depths. *)
Lemma depth_sub : forall n k args subs st sub, depth (Op k args subs) <= S n -> In (st, sub) subs -> depths sub <= n.
Proof.
  intros n k args subs st sub L I. cbn [depth] in L. apply le_S_n in L. apply list_max_le in L. rewrite Forall_forall in L.
  specialize (L (list_max (map depth sub))). unfold depths. apply L. apply in_map_iff. now exists (st, sub).
Qed.
Lemma depths_in : forall n ops o, depths ops <= n -> In o ops -> depth o <= n.
Proof.
  intros n ops o L I. unfold depths in L. apply list_max_le in L. rewrite Forall_forall in L. apply L. now apply in_map.
Qed.

Lemma made_same : forall k args, Forall2 same_arg args (made k args).
Proof.
  intros k args. unfold made. induction args as [|[f [|i r]] args IH]; constructor; auto; unfold make_if; cbn; destruct (job_makes k f); now split.
Qed.
Lemma made_in : forall k args f i r, In (f, Fun i r) (made k args) -> exists r0, In (f, Fun i r0) args /\ r = (r0 || job_makes k f).
Proof.
  intros k args f i r I. unfold made in I. apply in_map_iff in I. destruct I as ([f0 [|i0 r0]] & E & I); cbn in E; unfold make_if in E.
  - destruct (job_makes k f0); cbn in E; inversion E.
  - destruct (job_makes k f0) eqn:J; cbn in E; inversion E; subst; [exists r0|exists r]; (split; [auto|]); rewrite J; now destruct r0 + destruct r.
Qed.

(** The default pipeline of a case is the last. *)
Lemma default_some : forall args subs st d, default_of args subs = Some (st, d) ->
  subs = removelast subs ++ [(st, d)] /\ length (removelast subs) = length args.
Proof.
  intros args subs st d E. unfold default_of in E. destruct (length subs =? S (length args)) eqn:L; [|discriminate].
  apply Nat.eqb_eq in L. injection E as E1. assert (N : subs <> []) by (intros ->; discriminate).
  assert (X : subs = removelast subs ++ [(st, d)]) by (rewrite <- E1; now apply app_removelast_last).
  split; auto. pose proof (f_equal (@length _) X) as Y. rewrite app_length in Y. cbn in Y. plia.
Qed.
Lemma default_none : forall args subs, default_of args subs = None -> length subs <> S (length args).
Proof. intros args subs E L. unfold default_of in E. rewrite L, Nat.eqb_refl in E. discriminate. Qed.

Lemma Forall2_refl : forall A (P : A -> A -> Prop), (forall a, P a a) -> forall l, Forall2 P l l.
Proof. intros A P H. induction l; constructor; auto. Qed.
Lemma Forall2_trans : forall A (P : A -> A -> Prop), (forall a b c, P a b -> P b c -> P a c) ->
  forall l l' l'', Forall2 P l l' -> Forall2 P l' l'' -> Forall2 P l l''.
Proof. intros A P H l l' l'' F. revert l''. induction F; intros m F'; inversion F'; subst; constructor; eauto. Qed.

(** ** Structure. *)
Lemma compile_same : forall n o o', snd (compile_op n o) = Some o' -> same o o'.
Proof.
  refine (compile_ind _ _ _).
  - intros [k args subs] o' E. discriminate.
  - intros n k args subs IH o' E.
    assert (IHs : forall ops ops', snd (compile n ops) = Some ops' -> Forall2 same ops ops').
    { intros ops ops' X. rewrite compile_unfold in X. apply each_some in X. clear - X IH. induction X; constructor; auto. }
    destruct (kind_eq k KCase) as [->|N].
    + rewrite compile_op_case in E. apply bind_some in E. destruct E as (subs' & Es & E). apply each_some in Es.
      assert (Ss : Forall2 (fun p q : pipe => Forall2 same (snd p) (snd q)) subs subs').
      { clear - Es. induction Es; constructor; auto using setup_pipe_same. }
      destruct (default_of args subs') as [[st d]|] eqn:D.
      * apply default_some in D. destruct D as (X & _). apply bind_some in E. destruct E as (d' & Ed & E). inversion E; subst.
        constructor; [apply made_same|]. eapply Forall2_trans; [|exact Ss|].
        { intros a b c P Q. eapply sames_trans; eauto. }
        rewrite X at 1. apply Forall2_app; [apply Forall2_refl; intros; apply sames_refl|]. constructor; [|constructor]. cbn. auto.
      * inversion E; subst. constructor; auto using made_same.
    + rewrite compile_op_other in E by auto. destruct (job_descends k).
      * apply bind_some in E. destruct E as (subs' & Es & E). inversion E; subst. constructor; [apply made_same|].
        apply each_some in Es. clear - Es IHs. induction Es as [|[st sub] q l l' H F IHF]; constructor; auto.
        apply bind_some in H. destruct H as (ops' & X & H). inversion H; subst. cbn. auto.
      * inversion E; subst. constructor; [apply made_same|]. apply Forall2_refl. intros. apply sames_refl.
Qed.
Lemma compiles_same : forall n ops ops', snd (compile n ops) = Some ops' -> Forall2 same ops ops'.
Proof.
  intros n ops ops' E. rewrite compile_unfold in E. apply each_some in E. clear - E. induction E; constructor; eauto using compile_same.
Qed.

(** ** Without case: nothing is set up, and pickling undoes it all. *)
Lemma made_pickle : forall k args,
  map (fun fa => (fst fa, pickle_arg (snd fa))) (made k args) = map (fun fa : field * arg => (fst fa, pickle_arg (snd fa))) args.
Proof.
  intros k args. unfold made. rewrite map_map. apply map_ext. intros [f [|i r]]; cbn; unfold make_if; destruct (job_makes k f); reflexivity.
Qed.
Lemma each_all : forall A B (f : A -> result B) (P : A -> B -> Prop) l,
  (forall a, In a l -> exists b, f a = ([], Some b) /\ P a b) -> exists l', each f l = ([], Some l') /\ Forall2 P l l'.
Proof.
  intros A B f P. induction l as [|a l IH]; intros H; [exists []; split; [reflexivity|constructor]|].
  destruct (H a (or_introl eq_refl)) as (b & E & Pb). destruct IH as (l' & El & F); [intros; apply H; now right|].
  exists (b :: l'). split; [|now constructor]. cbn. rewrite E. cbn. rewrite El. reflexivity.
Qed.
Lemma compile_caseless : forall n o, caseless o -> depth o <= n ->
  exists o', compile_op n o = ([], Some o') /\ pickle_op o' = pickle_op o.
Proof.
  refine (compile_ind _ _ _).
  - intros [k args subs] _ L. cbn in L. plia.
  - intros n k args subs IH C L. inversion C as [? ? ? N Cs]; subst. rewrite compile_op_other by auto.
    assert (X : job_descends k = true -> exists subs',
              each (fun p => bind (compile n (snd p)) (fun ops' => ret (fst p, ops'))) subs = ([], Some subs') /\
              Forall2 (fun p q : pipe => fst p = fst q /\ map pickle_op (snd q) = map pickle_op (snd p)) subs subs').
    { intros _. apply each_all. intros [st sub] I. pose proof (depth_sub _ _ _ _ _ _ L I) as Ls.
      destruct (each_all _ _ (compile_op n) (fun o o' => pickle_op o' = pickle_op o) sub) as (sub' & E & F).
      { intros o Io. apply IH; eauto using depths_in. }
      exists (st, sub'). rewrite compile_unfold. cbn [fst snd]. rewrite E. split; [reflexivity|]. split; auto.
      clear - F. induction F; [reflexivity|]. cbn. congruence. }
    destruct (job_descends k) eqn:J.
    + destruct (X eq_refl) as (subs' & E & F). exists (Op k (made k args) subs'). rewrite E. split; [reflexivity|].
      assert (K : k <> KRunPipeline) by (intros ->; discriminate).
      destruct (pickle_op_args k (made k args) subs') as (s1 & -> & _ & E1). destruct (pickle_op_args k args subs) as (s2 & -> & _ & E2).
      rewrite E1, E2, made_pickle by auto. f_equal. clear - F. induction F as [|[] [] ? ? (H1 & H2) ? IHF]; [reflexivity|]. cbn in *. congruence.
    + exists (Op k (made k args) subs). split; [reflexivity|].
      destruct (pickle_op_args k (made k args) subs) as (s1 & -> & R1 & E1). destruct (pickle_op_args k args subs) as (s2 & -> & R2 & E2).
      rewrite made_pickle. f_equal. destruct (kind_eq k KRunPipeline) as [K|K]; [rewrite R1, R2|rewrite E1, E2]; auto.
Qed.
Lemma compiles_caseless : forall n ops, (forall o, In o ops -> caseless o) -> depths ops <= n ->
  exists ops', compile n ops = ([], Some ops') /\ map pickle_op ops' = map pickle_op ops.
Proof.
  intros n ops C L. destruct (each_all _ _ (compile_op n) (fun o o' => pickle_op o' = pickle_op o) ops) as (ops' & E & F).
  { intros o Io. apply compile_caseless; eauto using depths_in. }
  exists ops'. rewrite compile_unfold. split; auto. clear - F. induction F; [reflexivity|]. cbn. congruence.
Qed.

(** ** The invariant. *)
Definition job_place (sd : bool) : place := if sd then PromptDefault else Prompt.
Lemma job_flag : forall sd k f, flag Process sd k f || job_makes k f = flag (job_place sd) sd k f.
Proof. intros [] k f; unfold flag; cbn; destruct (job_makes k f), (setup_makes k f); reflexivity. Qed.
Lemma job_sdx : forall sd k, k <> KCase -> sdx (job_place sd) sd k = sdx Process sd k.
Proof. intros [] k N; unfold sdx; cbn; auto. destruct k; auto. congruence. Qed.
Lemma enter_job : forall sd k d, job_descends k = true -> k <> KRemote -> enter (job_place sd) (k, d) = Prompt.
Proof. intros [] [] d E N; cbn in *; congruence. Qed.
Lemma enter_not_job : forall sd k d, job_descends k = false -> k <> KCase -> enter (job_place sd) (k, d) = enter Process (k, d).
Proof. intros [] [] d E N; cbn in *; congruence. Qed.
Lemma descends_process : forall k d, job_descends k = true -> enter Process (k, d) = Process.
Proof. intros [] d E; cbn in *; congruence. Qed.
Lemma descends_here : forall k, job_descends k = true -> k <> KRemote -> how_run k = Here.
Proof. intros [] E N; cbn in *; congruence. Qed.

Lemma setup_pipes : forall subs subs' n st' sub', Forall2 (fun p q => snd (setup_pipe p) = Some q) subs subs' ->
  nth_error subs' n = Some (st', sub') -> exists st sub, nth_error subs n = Some (st, sub) /\ st' = true /\
    ((st = true /\ sub = sub') \/ (st = false /\ snd (setup sub) = Some sub')).
Proof.
  intros subs subs' n st' sub' F N. destruct (Forall2_nth _ _ _ _ _ n F _ N) as ([st sub] & N0 & E). exists st, sub. split; auto.
  destruct st; cbn in E; [inversion E; subst; auto|]. apply bind_some in E. destruct E as (q & Eq & E). inversion E; subst. auto.
Qed.

Lemma compile_ok : forall n o o' sd, inv Process sd o -> remotes_caseless o -> depth o <= n -> snd (compile_op n o) = Some o' ->
  inv (job_place sd) sd o'.
Proof.
  refine (compile_ind _ _ _).
  - intros [k args subs] o' sd _ _ _ E. discriminate.
  - intros n k args subs IH o' sd H R L E. inversion H as [? ? ? ? ? A B C S T U]; subst.
    inversion R as [? ? ? Rs Rc]; subst.
    assert (IHs : forall ops ops' sd, Forall (inv Process sd) ops -> Forall remotes_caseless ops -> depths ops <= n ->
              snd (compile n ops) = Some ops' -> Forall (inv (job_place sd) sd) ops').
    { intros ops ops' sd' F Fr Ls X. rewrite compile_unfold in X. apply each_some in X. rewrite Forall_forall in *. intros o'' Io.
      destruct (Forall2_in_r _ _ _ _ _ _ X Io) as (o & I & Eo). eapply (IH o); eauto using depths_in. }
    assert (A' : forall f i r, In (f, Fun i r) (made k args) -> r = flag (job_place sd) sd k f).
    { intros f i r I. apply made_in in I. destruct I as (r0 & I & ->). rewrite (A _ _ _ I). apply job_flag. }
    assert (B' : forall f i r, In (f, Fun i r) (made k args) -> sd = true -> setup_evaluates k f = true -> eval0 (job_place sd) k f = true).
    { intros f i r I -> X. apply made_in in I. destruct I as (r0 & I & ->). exact (B _ _ _ I eq_refl X). }
    assert (LM : length (made k args) = length args) by (unfold made; now rewrite map_length).
    assert (DM : forall n, is_default k (made k args) n = is_default k args n) by (intros m; unfold is_default; now rewrite LM).
    destruct (kind_eq k KCase) as [->|N].
    + rewrite compile_op_case in E. apply bind_some in E. destruct E as (subs' & Es & E). apply each_some in Es.
      pose proof (Forall2_len _ _ _ _ _ Es) as Ls. specialize (C eq_refl).
      assert (Z : forall n st' sub' o, nth_error subs' n = Some (st', sub') -> In o sub' -> st' = true /\ inv Process true o).
      { intros m st' sub' o N Io. destruct (setup_pipes _ _ _ _ _ Es N) as (st & sub & N0 & -> & [(-> & ->)|(-> & Eq)]); (split; [reflexivity|]).
        - exact (T ltac:(discriminate) _ _ _ _ N0 Io).
        - assert (F : Forall (inv Process true) sub').
          { eapply setups_ok; [discriminate| |eassumption]. apply Forall_forall. intros o0 I0. exact (T ltac:(discriminate) _ _ _ _ N0 I0). }
          rewrite Forall_forall in F. auto. }
      assert (Z1 : forall n st' sub', nth_error subs' n = Some (st', sub') -> st' = true).
      { intros m st' sub' N. now destruct (setup_pipes _ _ _ _ _ Es N) as (st & sub & N0 & -> & _). }
      assert (SX : sdx (job_place sd) sd KCase = true) by now destruct sd.
      destruct (default_of args subs') as [[st d]|] eqn:D.
      * apply default_some in D. destruct D as (X & Lr). apply bind_some in E. destruct E as (d' & Ed & E). inversion E; subst o'; clear E.
        assert (Nd : nth_error subs' (length args) = Some (st, d)).
        { rewrite X, nth_error_app2 by plia. now rewrite Lr, Nat.sub_diag. }
        destruct (setup_pipes _ _ _ _ _ Es Nd) as (st0 & sub0 & N0 & Est & Hd).
        assert (Sd : Forall2 same sub0 d).
        { destruct Hd as [(_ & ->)|(_ & Eq)]; [apply sames_refl|now apply setups_same]. }
        constructor; auto.
        { intros _. right. rewrite app_length, Lr, LM. cbn. plia. }
        { intros st' sub' I. cbn [how_run]. rewrite SX. apply in_app_or in I. destruct I as [I|[I|[]]].
          - assert (I' : In (st', sub') subs') by (rewrite X; apply in_or_app; now left).
            destruct (In_nth_error _ _ I') as (m & N). eauto.
          - inversion I; subst. auto. }
        { intros _ m st' sub' o N Io. rewrite DM. destruct (Nat.lt_ge_cases m (length args)) as [Lt|Ge].
          - rewrite nth_error_app1 in N by plia. assert (N' : nth_error subs' m = Some (st', sub')) by (rewrite X, nth_error_app1 by plia; auto).
            destruct (Z _ _ _ _ N' Io) as (-> & Hi). cbn. replace (m =? length args) with false by (symmetry; apply Nat.eqb_neq; plia).
            now destruct sd.
          - rewrite nth_error_app2 in N by plia. destruct (m - length (removelast subs')) as [|[|q]] eqn:Q; cbn in N; try easy.
            inversion N; subst st' sub'. assert (m = length args) as -> by plia.
            assert (F : Forall (inv (job_place true) true) d').
            { eapply (IHs d d' true); auto.
              - apply Forall_forall. intros o0 I0. eapply Z; eauto.
              - apply Forall_forall. intros o0 I0. destruct (Forall2_in_r _ _ _ _ _ _ Sd I0) as (o1 & I1 & S1).
                eapply same_remotes; eauto. eapply Rs; eauto using nth_error_In.
              - rewrite <- (sames_depths _ _ Sd). eapply depth_sub; eauto using nth_error_In. }
            rewrite Forall_forall in F. cbn. rewrite Nat.eqb_refl. subst st. destruct sd; cbn; auto. }
        { discriminate. }
      * inversion E; subst o'; clear E. apply default_none in D. constructor; auto.
        { intros _. rewrite LM. plia. }
        { intros st' sub' I. cbn [how_run]. rewrite SX. destruct (In_nth_error _ _ I) as (m & N). eauto. }
        { intros _ m st' sub' o N Io. rewrite DM. destruct (Z _ _ _ _ N Io) as (-> & Hi). assert (M : m < length subs') by (apply nth_error_Some; intros Q0; pose proof (eq_trans (eq_sym N) Q0); discriminate).
          cbn. replace (m =? length args) with false by (symmetry; apply Nat.eqb_neq; plia). now destruct sd. }
        { discriminate. }
    + rewrite compile_op_other in E by auto. destruct (job_descends k) eqn:J.
      * apply bind_some in E. destruct E as (subs' & Es & E). inversion E; subst o'; clear E.
        apply each_some in Es. pose proof (Forall2_len _ _ _ _ _ Es) as Ls.
        assert (Z' : forall m st' sub', nth_error subs' m = Some (st', sub') -> exists sub, nth_error subs m = Some (st', sub) /\ snd (compile n sub) = Some sub').
        { intros m st' sub' N'. destruct (Forall2_nth _ _ _ _ _ m Es _ N') as ([st sub] & N0 & X). cbn in X. apply bind_some in X.
          destruct X as (q & Eq & X). inversion X; subst. exists sub. auto. }
        constructor; auto.
        { intros; congruence. }
        { intros st' sub' I. destruct (In_nth_error _ _ I) as (m & N'). destruct (Z' _ _ _ N') as (sub & N0 & X).
          rewrite (S st' sub) by eauto using nth_error_In. destruct (how_run k) eqn:Y; auto.
          destruct (kind_eq k KRemote) as [->|Kr]; [discriminate|]. rewrite descends_here in Y by auto. discriminate. }
        { intros Y m st' sub' o N' Io. rewrite DM. destruct (Z' _ _ _ N') as (sub & N0 & X).
          assert (Kr : k <> KRemote) by (intros ->; now apply Y). rewrite enter_job by auto.
          pose proof (nth_error_In _ _ N0) as I0. pose proof (S _ _ I0) as Q. rewrite descends_here in Q by auto. subst st'.
          assert (F : Forall (inv (job_place false) false) sub').
          { eapply (IHs sub); eauto.
            - apply Forall_forall. intros o0 Ix. rewrite <- (descends_process k (is_default k args m)) by auto. exact (T Y _ _ _ _ N0 Ix).
            - apply Forall_forall. eauto.
            - eapply depth_sub; eauto. }
          rewrite Forall_forall in F. cbn in F. auto. }
        { intros Y st' sub' o I Io. assert (k = KRemote) as -> by (destruct (kind_eq k KRemote) as [Q|Q]; auto; rewrite descends_here in Y by auto; discriminate).
          destruct (In_nth_error _ _ I) as (m & N'). destruct (Z' _ _ _ N') as (sub & N0 & X). pose proof (nth_error_In _ _ N0) as I0.
          destruct (compiles_caseless n sub) as (q & Eq & P).
          { intros o0 Ix. eapply Rc; eauto. }
          { eapply depth_sub; eauto. }
          rewrite Eq in X. cbn in X. inversion X; subst q. assert (Ip : In (pickle_op o) (map pickle_op sub)) by (rewrite <- P; now apply in_map).
          apply in_map_iff in Ip. destruct Ip as (o0 & E0 & Ix). rewrite <- E0. eauto. }
      * inversion E; subst o'; clear E. constructor; auto.
        { intros; congruence. }
        { intros st' sub' I. rewrite job_sdx by auto. eauto. }
        { intros Y m st' sub' o N' Io. rewrite DM, enter_not_job by auto. eauto. }
Qed.

(** If it is not completed, some function has failed; and a function fails only where it cannot be used. *)
Lemma each_pipe_none : forall subs, snd (each setup_pipe subs) = None -> exists u, In u (fst (each setup_pipe subs)) /\ works u = false.
Proof.
  intros subs E. apply each_none in E. destruct E as (p & I & N & U). destruct (setup_pipe_none p N) as (u & Iu & W). eauto.
Qed.
Lemma compile_none : forall n o, remotes_caseless o -> depth o <= n -> snd (compile_op n o) = None ->
  exists u, In u (fst (compile_op n o)) /\ works u = false.
Proof.
  refine (compile_ind _ _ _).
  - intros [k args subs] _ L. cbn in L. plia.
  - intros n k args subs IH R L E. inversion R as [? ? ? Rs Rc]; subst.
    assert (IHs : forall ops, Forall remotes_caseless ops -> depths ops <= n -> snd (compile n ops) = None ->
              exists u, In u (fst (compile n ops)) /\ works u = false).
    { intros ops Fr Ls X. rewrite compile_unfold in *. apply each_none in X. destruct X as (o & I & No & U). rewrite Forall_forall in Fr.
      destruct (IH o) as (u & Iu & W); eauto using depths_in. }
    destruct (kind_eq k KCase) as [->|N].
    + rewrite compile_op_case in *. apply bind_none in E. destruct E as [E|(subs' & Es & E)].
      * destruct (each_pipe_none _ E) as (u & I & W). exists u. split; auto. apply bind_in. now left.
      * destruct (default_of args subs') as [[st d]|] eqn:D; [|easy]. apply bind_none in E. destruct E as [E|(? & _ & E)]; [|easy].
        apply default_some in D. destruct D as (X & Lr).
        assert (Nd : nth_error subs' (length args) = Some (st, d)).
        { rewrite X, nth_error_app2 by plia. now rewrite Lr, Nat.sub_diag. }
        pose proof (each_some _ _ _ _ _ Es) as Es'. destruct (setup_pipes _ _ _ _ _ Es' Nd) as (st0 & sub0 & N0 & Est & Hd).
        assert (Sd : Forall2 same sub0 d).
        { destruct Hd as [(_ & ->)|(_ & Eq)]; [apply sames_refl|now apply setups_same]. }
        destruct (IHs d) as (u & Iu & W); auto.
        { apply Forall_forall. intros o0 I0. destruct (Forall2_in_r _ _ _ _ _ _ Sd I0) as (o1 & I1 & S1).
          eapply same_remotes; eauto. eapply Rs; eauto using nth_error_In. }
        { rewrite <- (sames_depths _ _ Sd). eapply depth_sub; eauto using nth_error_In. }
        exists u. split; auto. apply bind_in. right. exists subs'. split; auto. unfold default_of. rewrite X, app_length, Lr, last_last. cbn.
        replace (length args + 1 =? S (length args)) with true by (symmetry; apply Nat.eqb_eq; plia). apply bind_in. now left.
    + rewrite compile_op_other in * by auto. destruct (job_descends k) eqn:J; [|easy].
      apply bind_none in E. destruct E as [E|(? & _ & E)]; [|easy]. apply each_none in E. destruct E as ([st sub] & I & Np & U).
      apply bind_none in Np. destruct Np as [Np|(? & _ & Np)]; [|easy]. cbn [snd] in Np.
      destruct (IHs sub) as (u & Iu & W); auto.
      { apply Forall_forall. eauto. }
      { eapply depth_sub; eauto. }
      exists u. split; auto. apply bind_in. left. apply U. apply bind_in. now left.
Qed.
Lemma compiles_none : forall n ops, Forall remotes_caseless ops -> depths ops <= n -> snd (compile n ops) = None ->
  exists u, In u (fst (compile n ops)) /\ works u = false.
Proof.
  intros n ops F L E. rewrite compile_unfold in *. apply each_none in E. destruct E as (o & I & N & U). rewrite Forall_forall in F.
  destruct (compile_none n o) as (u & Iu & W); eauto using depths_in.
Qed.

(** Where setup goes, the default pipeline of a case is no better than the others. *)
Lemma along_default : forall path k f, Forall (fun kd => sets_up (fst kd) = true) path -> setup_evaluates k f = true ->
  ~ usable (along Process path) k f -> ~ usable (along PromptDefault path) k f.
Proof.
  induction path as [|[k0 d] path IH]; intros k f F X V.
  - cbn [along fold_left] in *. apply usable_not. rewrite usable_evaluated by auto. reflexivity.
  - inversion F as [|? ? H F']; subst. cbn [along fold_left] in *. cbn in H. destruct k0; try discriminate; cbn in *; auto.
    destruct d; auto.
Qed.

Lemma compile_bad : forall n o u sd, inv Process sd o -> remotes_caseless o -> depth o <= n ->
  In u (fst (compile_op n o)) -> works u = false ->
  exists path k f, written [o] path k f (used u) /\ setup_evaluates k f = true /\ ~ usable (along (job_place sd) path) k f.
Proof.
  refine (compile_ind _ _ _).
  - intros [k args subs] u sd _ _ L. cbn in L. plia.
  - intros n k args subs IH u sd H R L I W. inversion H as [? ? ? ? ? A B C S T U]; subst.
    inversion R as [? ? ? Rs Rc]; subst.
    assert (IHs : forall ops sd, Forall (inv Process sd) ops -> Forall remotes_caseless ops -> depths ops <= n ->
              In u (fst (compile n ops)) -> 
              exists path k f, written ops path k f (used u) /\ setup_evaluates k f = true /\ ~ usable (along (job_place sd) path) k f).
    { intros ops sd' F Fr Ls X. rewrite compile_unfold in X. apply each_in in X. destruct X as (o & Io & X). rewrite Forall_forall in *.
      destruct (IH o u sd') as (path & k' & f & Wr & Q); eauto using depths_in. exists path, k', f. split; auto. now apply written_in with o. }
    destruct (kind_eq k KCase) as [->|N].
    + rewrite compile_op_case in I. apply bind_in in I. destruct I as [I|(subs' & Es & I)].
      * apply each_in in I. destruct I as ([st sub] & Is & I). destruct st; [easy|]. cbn [setup_pipe] in I.
        apply bind_in in I. destruct I as [I|(? & _ & [])]. destruct (In_nth_error _ _ Is) as (m & Nm).
        pose proof (S _ _ Is) as Q. cbn in Q. assert (sd = false) as -> by (destruct sd; auto).
        destruct (setups_bad sub Process u) as (path & k' & f & Wr & X & V & F); auto; [discriminate| |].
        { apply Forall_forall. intros o Io. exact (T ltac:(discriminate) _ _ _ _ Nm Io). }
        exists ((KCase, is_default KCase args m) :: path), k', f. split; [|split; auto].
        { econstructor; [now left|eauto|auto]. }
        { cbn. destruct (m =? length args); [now apply along_default|auto]. }
      * apply each_some in Es. destruct (default_of args subs') as [[st d]|] eqn:D; [|easy].
        apply default_some in D. destruct D as (X & Lr). apply bind_in in I. destruct I as [I|(? & _ & [])].
        assert (Nd : nth_error subs' (length args) = Some (st, d)).
        { rewrite X, nth_error_app2 by plia. now rewrite Lr, Nat.sub_diag. }
        destruct (setup_pipes _ _ _ _ _ Es Nd) as (st0 & sub0 & N0 & Est & Hd).
        assert (Sd : Forall2 same sub0 d).
        { destruct Hd as [(_ & ->)|(_ & Eq)]; [apply sames_refl|now apply setups_same]. }
        destruct (IHs d true) as (path & k' & f & Wr & Y & V); auto.
        { destruct Hd as [(-> & ->)|(-> & Eq)].
          - apply Forall_forall. intros o Io. exact (T ltac:(discriminate) _ _ _ _ N0 Io).
          - eapply setups_ok; [discriminate| |eassumption]. apply Forall_forall. intros o0 I0. exact (T ltac:(discriminate) _ _ _ _ N0 I0). }
        { apply Forall_forall. intros o0 I0. destruct (Forall2_in_r _ _ _ _ _ _ Sd I0) as (o1 & I1 & S1).
          eapply same_remotes; eauto. eapply Rs; eauto using nth_error_In. }
        { rewrite <- (sames_depths _ _ Sd). eapply depth_sub; eauto using nth_error_In. }
        exists ((KCase, is_default KCase args (length args)) :: path), k', f. split; [|split; auto].
        { econstructor; [now left|eauto|]. eapply same_written; eauto. }
        { cbn. rewrite Nat.eqb_refl. now destruct sd. }
    + rewrite compile_op_other in I by auto. destruct (job_descends k) eqn:J; [|easy].
      apply bind_in in I. destruct I as [I|(? & _ & [])]. apply each_in in I. destruct I as ([st sub] & Is & I).
      apply bind_in in I. destruct I as [I|(? & _ & [])]. cbn [snd] in I. destruct (In_nth_error _ _ Is) as (m & Nm).
      destruct (kind_eq k KRemote) as [->|Kr].
      { destruct (compiles_caseless n sub) as (q & Eq & P); [eauto|eapply depth_sub; eauto|]. rewrite Eq in I. easy. }
      pose proof (S _ _ Is) as Q. rewrite descends_here in Q by auto. subst st.
      destruct (IHs sub false) as (path & k' & f & Wr & X & V); auto.
      { apply Forall_forall. intros o Io. rewrite <- (descends_process k (is_default k args m)) by auto. eapply T; eauto.
        rewrite descends_here by auto. discriminate. }
      { apply Forall_forall. eauto. }
      { eapply depth_sub; eauto. }
      exists ((k, is_default k args m) :: path), k', f. split; [|split; auto].
      { econstructor; [now left|eauto|auto]. }
      { cbn [along fold_left]. rewrite enter_job by auto. auto. }
Qed.
