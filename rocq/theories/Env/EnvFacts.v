(** Consequences: what a call leaves alone, immutability, transmission of changes, restart. *)
From Verif.Env Require Export NamespaceFacts.
Local Open Scope string_scope.
Local Open Scope list_scope.

(** ** Calls leave alone what they do not touch *)

Definition agree_at (x : string) (fs fs' : list frame) : Prop :=
  Forall2 (fun a b => lookup a x = lookup b x) fs fs'.

Lemma agree_refl : forall x fs, agree_at x fs fs.
Proof. induction fs; constructor; auto. Qed.

Lemma agree_trans : forall x a b c, agree_at x a b -> agree_at x b c -> agree_at x a c.
Proof.
  intros x a; induction a; intros b c H K; inversion H; subst; inversion K; subst; constructor.
  - congruence.
  - eapply IHa; eauto.
Qed.

Lemma swrite_agree_neq : forall fs g y v x, y <> x ->
  agree_at x fs (snd (swrite g fs y v)) /\ fst (swrite g fs y v) x = g x.
Proof.
  induction fs as [|fr r IH]; intros g y v x N; cbn.
  - split; [constructor|]. unfold update. destruct (String.eqb y x) eqn:E; auto.
    apply String.eqb_eq in E; congruence.
  - destruct (lookup fr y) eqn:L; cbn.
    + split; auto. constructor; [|apply agree_refl]. rewrite lookup_overwrite by congruence.
      destruct (String.eqb y x) eqn:E; auto. apply String.eqb_eq in E; congruence.
    + destruct (IH g y v x N) as [A B]. destruct (swrite g r y v). cbn in *.
      split; auto. constructor; auto.
Qed.

Lemma swrite_app : forall fs1 fs2 g x v, is_param fs1 x = true ->
  swrite g (fs1 ++ fs2) x v = (g, snd (swrite g fs1 x v) ++ fs2).
Proof.
  induction fs1 as [|fr r IH]; intros fs2 g x v P; cbn in *; [easy|].
  destruct (lookup fr x) eqn:L; auto.
  rewrite IH by auto. now destruct (swrite g r x v).
Qed.

Lemma is_param_shape : forall fs fs' x, same_shape fs fs' -> is_param fs' x = is_param fs x.
Proof.
  induction 1; cbn; auto. fold (is_param l x) (is_param l' x). rewrite IHForall2. f_equal.
  specialize (H x). destruct (lookup x0 x), (lookup y x); auto.
  - destruct H as [_ H]. now specialize (H eq_refl).
  - destruct H as [H _]. now specialize (H eq_refl).
Qed.

Lemma is_param_app : forall a b x, is_param (a ++ b) x = (is_param a x || is_param b x)%bool.
Proof. intros. unfold is_param. apply existsb_app. Qed.

Lemma sexec_frame : forall locked x p fs1 fs2 g g' fs' rs ok,
  is_param fs1 x = true \/ ~ touches p x ->
  sexec locked p g (fs1 ++ fs2) = Some (g', fs', rs, ok) ->
  exists fs1' fs2', fs' = fs1' ++ fs2' /\ same_shape fs1 fs1' /\ agree_at x fs2 fs2' /\ g' x = g x.
Proof.
  intros locked x. induction p; intros fs1 fs2 g g' fs' rs ok T E; cbn in E.
  - inversion E; subst. exists fs1, fs2. repeat split; auto using same_shape_refl, agree_refl.
  - inversion E; subst. exists fs1, fs2. repeat split; auto using same_shape_refl, agree_refl.
  - destruct (locked x0).
    { inversion E; subst. exists fs1, fs2. repeat split; auto using same_shape_refl, agree_refl. }
    assert (SW : exists a b g1, swrite g (fs1 ++ fs2) x0 v = (g1, a ++ b) /\ same_shape fs1 a /\
                               agree_at x fs2 b /\ g1 x = g x).
    { destruct (is_param fs1 x0) eqn:P.
      - rewrite swrite_app by auto. exists (snd (swrite g fs1 x0 v)), fs2, g.
        repeat split; auto using swrite_shape, agree_refl.
      - assert (NX : x0 <> x).
        { destruct T as [T|T]; [congruence|]. intros ->. apply T. now left. }
        destruct (swrite_agree_neq fs2 g x0 v x NX) as [A B].
        exists fs1, (snd (swrite g fs2 x0 v)), (fst (swrite g fs2 x0 v)).
        repeat split; auto using same_shape_refl.
        clear - P. revert P. induction fs1 as [|fr r IH]; cbn; intros P.
        + now destruct (swrite g fs2 x0 v).
        + destruct (lookup fr x0); [easy|]. now rewrite IH. }
    destruct SW as (a & b & g1 & W & S1 & A1 & G1). rewrite W in E.
    destruct (IHp a b g1 g' fs' rs ok) as (a' & b' & Q & S2 & A2 & G2); auto.
    { rewrite (is_param_shape _ _ _ S1). destruct T as [T|T]; auto. right. intro Z; apply T; now right. }
    exists a', b'. repeat split; eauto using same_shape_trans, agree_trans. congruence.
  - destruct (locked x0).
    { inversion E; subst. exists fs1, fs2. repeat split; auto using same_shape_refl, agree_refl. }
    assert (SW : exists a b g1, swrite g (fs1 ++ fs2) x0 v = (g1, a ++ b) /\ same_shape fs1 a /\
                               agree_at x fs2 b /\ g1 x = g x).
    { destruct (is_param fs1 x0) eqn:P.
      - rewrite swrite_app by auto. exists (snd (swrite g fs1 x0 v)), fs2, g.
        repeat split; auto using swrite_shape, agree_refl.
      - assert (NX : x0 <> x).
        { destruct T as [T|T]; [congruence|]. intros ->. apply T. now left. }
        destruct (swrite_agree_neq fs2 g x0 v x NX) as [A B].
        exists fs1, (snd (swrite g fs2 x0 v)), (fst (swrite g fs2 x0 v)).
        repeat split; auto using same_shape_refl.
        clear - P. revert P. induction fs1 as [|fr r IH]; cbn; intros P.
        + now destruct (swrite g fs2 x0 v).
        + destruct (lookup fr x0); [easy|]. now rewrite IH. }
    destruct SW as (a & b & g1 & W & S1 & A1 & G1). rewrite W in E.
    destruct (IHp a b g1 g' fs' rs ok) as (a' & b' & Q & S2 & A2 & G2); auto.
    { rewrite (is_param_shape _ _ _ S1). destruct T as [T|T]; auto. right. intro Z; apply T; now right. }
    exists a', b'. repeat split; eauto using same_shape_trans, agree_trans. congruence.
  - destruct (locked x0).
    { inversion E; subst. exists fs1, fs2. repeat split; auto using same_shape_refl, agree_refl. }
    rewrite is_param_app in E. destruct (is_param fs1 x0) eqn:P1; cbn in E; [discriminate|].
    destruct (is_param fs2 x0) eqn:P2; [discriminate|].
    assert (NX : x0 <> x).
    { destruct T as [T|T]; [congruence|]. intros ->. apply T. now left. }
    destruct (IHp fs1 fs2 (update g x0 None) g' fs' rs ok) as (a' & b' & Q & S2 & A2 & G2); auto.
    { destruct T as [T|T]; auto. right. intro Z; apply T; now right. }
    exists a', b'. repeat split; auto. rewrite G2. unfold update.
    destruct (String.eqb x0 x) eqn:E2; auto. apply String.eqb_eq in E2; congruence.
  - destruct (sexec locked (k (sread g (fs1 ++ fs2) x0)) g (fs1 ++ fs2)) as [[[[a b] c] d]|] eqn:Q; [|discriminate].
    inversion E; subst. eapply H; [|exact Q]. destruct T as [T|T]; auto.
    right. intro Z. apply T. cbn. eauto.
  - destruct (existsb _ (map fst b)) eqn:B; [discriminate|].
    destruct (sexec locked p1 g (b :: fs1 ++ fs2)) as [[[[g1 fsx] r1] ok1]|] eqn:Q; [|discriminate].
    destruct (IHp1 (b :: fs1) fs2 g g1 fsx r1 ok1) as (a' & b' & Q1 & S1 & A1 & G1); auto.
    { cbn. destruct (lookup b x) eqn:L; auto. cbn. destruct T as [T|T]; auto.
      right. intro Z. apply T. cbn. left. split; auto.
      apply dget_None_keys. exact L. }
    subst fsx. destruct a' as [|fr a']; [inversion S1|]. cbn [tl app] in E.
    assert (S1' : same_shape fs1 a') by now inversion S1.
    destruct ok1.
    + destruct (sexec locked p2 g1 (a' ++ b')) as [[[[g2 fs2'] r2] ok2]|] eqn:Q2; [|discriminate].
      inversion E; subst.
      destruct (IHp2 a' b' g1 g' fs' r2 ok) as (a2 & b2 & Q3 & S2 & A2 & G2); auto.
      { rewrite (is_param_shape _ _ _ S1'). destruct T as [T|T]; auto.
        right. intro Z. apply T. cbn. now right. }
      exists a2, b2. repeat split; eauto using same_shape_trans, agree_trans. congruence.
    + inversion E; subst. exists a', b'. repeat split; auto.
Qed.

Lemma sread_agree : forall x fs fs' g g', agree_at x fs fs' -> g' x = g x -> sread g' fs' x = sread g fs x.
Proof. induction 1; intros G; cbn; auto. rewrite <- H. destruct (lookup x0 x); auto. Qed.

(** ** Immutability *)

Definition no_scope_has (x : string) (ss : list scope) : Prop :=
  Forall (fun s => ~ In x (params s) /\ ~ In x (keys (svars s))) ss.

Lemma keys_dset_iff : forall d x v y, In y (keys (dset d x v)) <-> y = x \/ In y (keys d).
Proof.
  intros. destruct (in_dec string_dec x (keys d)) as [I|I].
  - rewrite keys_dset_in by auto. split; auto. intros [->|]; auto.
  - rewrite keys_dset_new by auto. rewrite in_app_iff. cbn. split; intros; intuition.
Qed.

Lemma store_no_scope : forall ss g x v y, no_scope_has x ss -> y <> x ->
  no_scope_has x (snd (store_item g ss y v)).
Proof.
  induction ss as [|s r IH]; intros g x v y H N; cbn; auto.
  inversion H as [|? ? [A B] R]; subst. destruct (mem y (params s)); cbn.
  - constructor; auto. split; auto. cbn. rewrite keys_dset_iff. intros [->|]; auto.
  - specialize (IH g x v y R N). destruct (store_item g r y v). cbn in *. constructor; auto.
Qed.

Lemma assign_other : forall n x y v, no_scope_has x (inner n) -> y <> x ->
  dget (flat (assign n y v)) x = dget (flat n) x /\ no_scope_has x (inner (assign n y v)).
Proof.
  intros n x y v H N. unfold assign.
  pose proof (store_no_scope (inner n) (glob n) x v y H N) as Q.
  destruct (store_item (glob n) (inner n) y v). cbn in *. split; auto. now apply dget_dset_neq.
Qed.

Lemma keys_dsets : forall ups d x, In x (keys (dsets d ups)) -> In x (keys ups) \/ In x (keys d).
Proof.
  induction ups as [|[y v] r IH]; intros d x H; cbn in *; auto.
  apply IH in H as [H|H]; auto. apply keys_dset_iff in H as [->|H]; auto.
Qed.

Lemma push_other : forall n x b, no_scope_has x (inner n) -> ~ In x (keys b) ->
  dget (flat (push_scope n b)) x = dget (flat n) x /\ no_scope_has x (inner (push_scope n b)).
Proof.
  intros n x b H N. rewrite push_eq. cbn. split.
  - rewrite dget_dsets. apply lastget_None in N. now rewrite N.
  - constructor; auto. cbn. split; auto. intro I. apply keys_dsets in I as [I|I]; auto.
    apply keys_dsets in I as [I|I]; auto. unfold keys in I. rewrite map_map in I. auto.
Qed.

Lemma unset_all_other : forall xs f x, ~ In x xs -> dget (fst (unset_all f xs)) x = dget f x.
Proof.
  induction xs as [|y xs IH]; intros f x N; cbn; auto.
  destruct (dget f y); cbn; auto. rewrite IH.
  - apply dget_ddel_neq. intros ->. apply N; now left.
  - intro; apply N; now right.
Qed.

Lemma restore_other : forall ss f x, no_scope_has x ss -> dget (restore f ss) x = dget f x.
Proof.
  induction ss as [|s r IH]; intros f x H; cbn; auto. inversion H as [|? ? [A B] R]; subst.
  rewrite dget_dsets. apply lastget_None in B. rewrite B. auto.
Qed.

Lemma pop_other : forall n x, no_scope_has x (inner n) ->
  dget (flat (fst (pop_scope n))) x = dget (flat n) x /\ no_scope_has x (inner (fst (pop_scope n))).
Proof.
  intros n x H. unfold pop_scope. destruct (inner n) as [|s r] eqn:I; cbn.
  - split; auto. rewrite I. constructor.
  - inversion H as [|? ? [A B] R]; subst.
    pose proof (unset_all_other (keys (svars s)) (flat n) x B) as U.
    destruct (unset_all (flat n) (keys (svars s))) as [f ok]. destruct ok; cbn in *; split; auto.
    now rewrite restore_other.
Qed.

Lemma immutable_kept : forall x p h, locked_of h x = true -> ~ binds p x ->
  no_scope_has x (inner (nsp h)) ->
  let h' := fst (fst (exec p h)) in
  getvar h' x = getvar h x /\ no_scope_has x (inner (nsp h')).
Proof.
  intros x. unfold getvar. induction p; intros h L B N; cbn in *; auto.
  - unfold setvar. rewrite mutable_locked. destruct (locked_of h x0) eqn:L0; cbn; auto.
    assert (NX : x0 <> x) by congruence.
    destruct (assign_other (nsp h) x x0 v N NX) as [A1 A2].
    destruct (IHp (mkh (assign (nsp h) x0 v) (immutable h) (x0 :: written h) (enforce h))) as [C1 C2]; auto.
    split; auto. rewrite C1. auto.
  - unfold setvar_import. rewrite mutable_locked. destruct (locked_of h x0) eqn:L0; cbn; auto.
    assert (NX : x0 <> x) by congruence.
    destruct (assign_other (nsp h) x x0 v N NX) as [A1 A2].
    destruct (IHp (with_ns h (assign (nsp h) x0 v))) as [C1 C2]; auto.
    split; auto. rewrite C1. auto.
  - unfold delvar. rewrite mutable_locked. destruct (locked_of h x0) eqn:L0; cbn; auto.
    assert (NX : x0 <> x) by congruence.
    destruct (getvar h x0); auto.
    match goal with |- context [exec p ?hh] => destruct (IHp hh) as [C1 C2]; auto end.
    split; auto. rewrite C1. cbn. now apply dget_ddel_neq.
  - assert (NB : ~ binds (k (getvar h x0)) x) by eauto.
    destruct (H (getvar h x0) h L NB N) as [C1 C2].
    now destruct (exec (k (getvar h x0)) h) as [[h' rs] ok].
  - assert (NB1 : ~ In x (keys b)) by (intro; apply B; now left).
    assert (NB2 : ~ binds p1 x) by tauto.
    assert (NB3 : ~ binds p2 x) by tauto.
    destruct (push_other (nsp h) x b N NB1) as [A1 A2].
    destruct (IHp1 (with_ns h (push_scope (nsp h) b))) as [C1 C2]; auto.
    pose proof (exec_locked p1 (with_ns h (push_scope (nsp h) b))) as [K1 K2].
    destruct (exec p1 (with_ns h (push_scope (nsp h) b))) as [[h1 rs] ok]. cbn in *.
    destruct (pop_other (nsp h1) x C2) as [D1 D2].
    destruct (pop_scope (nsp h1)) as [n2 popped]. cbn in *.
    assert (L1 : locked_of (with_ns h1 n2) x = true).
    { unfold locked_of in *. cbn. now rewrite K1, K2. }
    destruct (ok && popped)%bool; cbn.
    + destruct (IHp2 (with_ns h1 n2) L1 NB3 D2) as [F1 F2].
      destruct (exec p2 (with_ns h1 n2)) as [[h3 rs'] ok']. cbn in *. split; auto. congruence.
    + split; auto. congruence.
Qed.

(** ** The topmost scope and the permanent variables *)

Definition globals_stored (perm : dict) (n : ns) (g : string -> option val) : Prop :=
  forall x, g x = match dget (glob n) x with Some v => Some v | None => dget perm x end.

Lemma store_glob : forall ss fs g0 g x v, inner_of ss fs ->
  forall y, (dget (fst (store_item g0 ss x v)) y = dget g0 y /\ fst (swrite g fs x v) y = g y) \/
            (dget (fst (store_item g0 ss x v)) y = Some v /\ fst (swrite g fs x v) y = Some v).
Proof.
  induction ss as [|s r IH]; intros fs g0 g x v H y; inversion H; subst; cbn.
  - rewrite dget_dset. unfold update. destruct (String.eqb x y); auto.
  - rewrite (scope_of_mem _ _ x H2). destruct (lookup y0 x); cbn; auto.
    specialize (IH l' g0 g x v H4 y).
    destruct (store_item g0 r x v), (swrite g l' x v). cbn in *. auto.
Qed.

Lemma assign_stored : forall perm n g fs x v, inner_of (inner n) fs -> globals_stored perm n g ->
  globals_stored perm (assign n x v) (fst (swrite g fs x v)).
Proof.
  intros perm n g fs x v I S y. unfold assign.
  pose proof (store_glob (inner n) fs (glob n) g x v I y) as Q.
  destruct (store_item (glob n) (inner n) x v). cbn in *.
  destruct Q as [[-> ->]|[-> ->]]; auto.
Qed.

(** Everything at once, for deletion-free commands. *)
Lemma exec_stored : forall perm p, calls_ok p -> (forall x, ~ deletes p x) ->
  forall h g fs g' fs' rs ok h' rs' ok',
  simulates (nsp h) g fs -> globals_stored perm (nsp h) g ->
  sexec (locked_of h) p g fs = Some (g', fs', rs, ok) -> exec p h = (h', rs', ok') ->
  globals_stored perm (nsp h') g' /\
  (forall x, In x (written h) -> In x (written h')) /\
  (forall x, ~ imports p x -> g' x = g x \/ In x (written h')) /\
  (forall x, In x (written h') -> In x (written h) \/ locked_of h x = false).
Proof.
  intros perm. induction p; intros OK ND h g fs g' fs' rs ok h' rs' ok' S GS E X; cbn in OK, ND, E, X.
  - inversion E; inversion X; subst. repeat split; auto.
  - inversion E; inversion X; subst. repeat split; auto.
  - unfold setvar in X. rewrite mutable_locked in X.
    destruct (locked_of h x) eqn:L; cbn in X.
    { inversion E; inversion X; subst. repeat split; auto. }
    set (h1 := mkh (assign (nsp h) x v) (immutable h) (x :: written h) (enforce h)) in *.
    pose proof (assign_sim _ _ _ x v S) as S1.
    pose proof (assign_stored perm _ _ _ x v (sim_inner _ _ _ S) GS) as GS1.
    pose proof (fun y N => proj2 (swrite_agree_neq fs g x v y N)) as GW.
    destruct (swrite g fs x v) as [g1 fs1]. cbn in S1, GS1, GW.
    destruct (IHp OK ND h1 g1 fs1 g' fs' rs ok h' rs' ok') as (A & B & C & D); auto.
    repeat split; auto.
    + intros y I. apply B. now right.
    + intros y NI. destruct (string_dec x y) as [->|NX]; [right; apply B; now left|].
      destruct (C y NI) as [C1|C1]; auto. left. rewrite C1. now apply GW.
    + intros y I. apply D in I as [[<-|I]|I]; auto.
  - unfold setvar_import in X. rewrite mutable_locked in X.
    destruct (locked_of h x) eqn:L; cbn in X.
    { inversion E; inversion X; subst. repeat split; auto. }
    set (h1 := with_ns h (assign (nsp h) x v)) in *.
    pose proof (assign_sim _ _ _ x v S) as S1.
    pose proof (assign_stored perm _ _ _ x v (sim_inner _ _ _ S) GS) as GS1.
    pose proof (fun y N => proj2 (swrite_agree_neq fs g x v y N)) as GW.
    destruct (swrite g fs x v) as [g1 fs1]. cbn in S1, GS1, GW.
    destruct (IHp OK ND h1 g1 fs1 g' fs' rs ok h' rs' ok') as (A & B & C & D); auto.
    repeat split; auto.
    intros y NI. cbn in NI. destruct (C y) as [C1|C1]; [tauto| |auto]. left. rewrite C1.
    apply GW. tauto.
  - exfalso. apply (ND x). now left.
  - assert (Gx : getvar h x = sread g fs x) by apply S. rewrite Gx in X.
    destruct (sexec (locked_of h) (k (sread g fs x)) g fs) as [[[[a b] c] d]|] eqn:Q; [|discriminate].
    destruct (exec (k (sread g fs x)) h) as [[h1 r1] o1] eqn:X1.
    inversion E; inversion X; subst.
    destruct (H (sread g fs x) (OK _)) with (h := h) (g := g) (fs := fs) (g' := g') (fs' := fs') (rs := c) (ok := ok) (h' := h') (rs' := r1) (ok' := ok') as (A & B & C & D); auto.
    { intros y Z. apply (ND y). eauto. }
    repeat split; auto. intros y NI. apply C; auto. intro Z; apply NI; cbn; eauto.
  - destruct OK as (N & OK1 & OK2).
    destruct (existsb _ (map fst b)) eqn:B; [discriminate|].
    pose proof (existsb_bound_false _ _ B) as GB. clear B.
    destruct (sexec (locked_of h) p1 g (b :: fs)) as [[[[g1 fs1] r1] ok1]|] eqn:Q; [|discriminate].
    set (h0 := with_ns h (push_scope (nsp h) b)) in *.
    assert (S0 : simulates (nsp h0) g (b :: fs)) by (apply push_sim; auto).
    assert (GS0 : globals_stored perm (nsp h0) g).
    { intros y. subst h0. cbn. rewrite push_eq. cbn. apply GS. }
    destruct (exec_sim p1 OK1 h0 g (b :: fs) g1 fs1 r1 ok1) as (h1 & X1 & S1 & SH1); auto.
    rewrite X1 in X.
    destruct (IHp1 OK1) with (h := h0) (g := g) (fs := b :: fs) (g' := g1) (fs' := fs1) (rs := r1) (ok := ok1) (h' := h1) (rs' := r1) (ok' := ok1) as (A & B & C & D); auto.
    { intros y Z. apply (ND y). now left. }
    destruct fs1 as [|fr1 fs1]; [inversion SH1|].
    destruct (pop_sim _ _ _ _ S1) as (n2 & PP & S2 & GG). rewrite PP in X.
    assert (GS2 : globals_stored perm n2 g1) by (intros y; rewrite GG; apply A).
    cbn [tl] in E.
    assert (LK : locked_of (with_ns h1 n2) = locked_of h).
    { unfold locked_of. cbn. pose proof (exec_locked p1 h0) as [A1 A2].
      rewrite X1 in A1, A2. cbn in A1, A2. now rewrite A1, A2. }
    destruct ok1; cbn in X.
    + destruct (sexec (locked_of h) p2 g1 fs1) as [[[[g2 fs2] r2] ok2]|] eqn:Q2; [|discriminate].
      destruct (exec p2 (with_ns h1 n2)) as [[h3 r3] o3] eqn:X3.
      inversion E; inversion X; subst.
      destruct (IHp2 OK2) with (h := with_ns h1 n2) (g := g1) (fs := fs1) (g' := g') (fs' := fs') (rs := r2) (ok := ok) (h' := h') (rs' := r3) (ok' := ok') as (A' & B' & C' & D'); auto.
      { intros y Z. apply (ND y). now right. }
      { now rewrite LK. }
      split; [exact A'|]. split; [|split].
      * intros y I. apply B'. cbn. apply B. exact I.
      * intros y NI. cbn in NI.
        destruct (C y) as [C1|C1]; [tauto| |right; apply B'; exact C1].
        destruct (C' y) as [C2|C2]; [tauto| |auto]. left. congruence.
      * intros y I. apply D' in I as [I|I]; cbn in I.
        { apply D in I as [I|I]; auto. }
        { rewrite LK in I. now right. }
    + inversion E; inversion X; subst. repeat split; auto.
      intros y NI. cbn in NI. apply C; auto.
Qed.

(** ** Applying changes *)

Lemma getvar_assign_top : forall h x v y, inner (nsp h) = [] ->
  dget (flat (assign (nsp h) x v)) y = (if String.eqb x y then Some v else dget (flat (nsp h)) y) /\
  inner (assign (nsp h) x v) = [].
Proof.
  intros h x v y I. unfold assign. rewrite I. cbn. split; auto. apply dget_dset.
Qed.

Lemma apply_changes_get : forall c h, inner (nsp h) = [] -> (forall x, In x (keys c) -> locked_of h x = false) ->
  forall y, getvar (fst (apply_changes h c)) y = match lastget c y with Some v => Some v | None => getvar h y end.
Proof.
  induction c as [|[x v] r IH]; intros h I L y; cbn; auto.
  unfold setvar. rewrite mutable_locked, (L x) by now left. cbn.
  destruct (getvar_assign_top h x v y I) as [G T].
  rewrite IH; auto.
  - destruct (lastget r y); auto. unfold getvar. cbn. rewrite G, String.eqb_sym. now destruct (String.eqb y x).
  - intros z J. apply (L z). now right.
Qed.

Lemma changes_get : forall h x, lastget (changes h) x = if mem x (written h) then getvar h x else None.
Proof.
  intros h x. unfold changes. induction (written h) as [|y r IH]; cbn; auto.
  unfold mem in *. cbn.
  assert (A : forall a b, lastget (a ++ b) x = match lastget b x with Some v => Some v | None => lastget a x end).
  { clear. induction a as [|[z w] a IH]; intros b; cbn.
    - now destruct (lastget b x).
    - rewrite IH. now destruct (lastget b x). }
  rewrite A, IH. destruct (String.eqb x y) eqn:E; cbn.
  - apply String.eqb_eq in E; subst. destruct (existsb (String.eqb y) r).
    + destruct (getvar h y); auto.
    + destruct (getvar h y); cbn; auto. now rewrite String.eqb_refl.
  - destruct (existsb (String.eqb x) r).
    + destruct (getvar h x); auto. destruct (getvar h y); cbn; auto. now rewrite E.
    + destruct (getvar h y); cbn; auto. now rewrite E.
Qed.

Lemma changes_keys : forall h x, In x (keys (changes h)) -> In x (written h).
Proof.
  intros h x. unfold changes. induction (written h) as [|y r IH]; cbn; auto.
  unfold keys in *. rewrite map_app, in_app_iff. intros [I|I]; auto.
  destruct (getvar h y); cbn in I; [destruct I as [->|[]]; auto | easy].
Qed.

(** ** Names kept apart *)

Definition named_in (p : prog) (g : string -> option val) (fs : list frame) : Prop :=
  (forall x, binds p x -> g x = None /\ (is_param fs x = true \/ ~ touches p x) /\ ~ deletes p x) /\
  (forall x, is_param fs x = true -> ~ deletes p x).

Lemma swrite_param : forall fs g x v, is_param fs x = true -> fst (swrite g fs x v) = g.
Proof.
  induction fs as [|fr r IH]; intros g x v P; cbn in *; [easy|].
  destruct (lookup fr x); auto. specialize (IH g x v P). now destruct (swrite g r x v).
Qed.

Lemma sexec_frames_shape : forall locked p g fs g' fs' rs ok,
  sexec locked p g fs = Some (g', fs', rs, ok) -> same_shape fs fs'.
Proof.
  intros locked. induction p; intros g fs g' fs' rs ok E; cbn in E.
  - inversion E; subst; apply same_shape_refl.
  - inversion E; subst; apply same_shape_refl.
  - destruct (locked x); [inversion E; subst; apply same_shape_refl|].
    pose proof (swrite_shape fs g x v). destruct (swrite g fs x v). eauto using same_shape_trans.
  - destruct (locked x); [inversion E; subst; apply same_shape_refl|].
    pose proof (swrite_shape fs g x v). destruct (swrite g fs x v). eauto using same_shape_trans.
  - destruct (locked x); [inversion E; subst; apply same_shape_refl|].
    destruct (is_param fs x); [discriminate|]. eauto.
  - destruct (sexec locked (k (sread g fs x)) g fs) as [[[[a b] c] d]|] eqn:Q; [|discriminate].
    inversion E; subst. eauto.
  - destruct (existsb _ _); [discriminate|].
    destruct (sexec locked p1 g (b :: fs)) as [[[[g1 fsx] r1] ok1]|] eqn:Q; [|discriminate].
    apply IHp1 in Q. inversion Q; subst. cbn [tl] in E. destruct ok1.
    + destruct (sexec locked p2 g1 l') as [[[[g2 fs2'] r2] ok2]|] eqn:Q2; [|discriminate].
      inversion E; subst. eauto using same_shape_trans.
    + inversion E; subst. auto.
Qed.

Lemma named_defined : forall locked p g fs, named_in p g fs -> sexec locked p g fs <> None.
Proof.
  intros locked. induction p; intros g fs [A B]; cbn in *; try easy.
  - destruct (locked x); [easy|].
    pose proof (swrite_shape fs g x v) as SH. pose proof (swrite_param fs g x v) as SP.
    pose proof (fun y N => proj2 (swrite_agree_neq fs g x v y N)) as GW.
    destruct (swrite g fs x v) as [g1 fs1]. cbn in *. apply IHp. split.
    + intros y Y. destruct (A y Y) as (A1 & A2 & A3). rewrite (is_param_shape _ _ _ SH).
      split; [|split; auto; tauto].
      destruct (string_dec x y) as [->|NX]; [|now rewrite GW].
      destruct A2 as [A2|A2]; [now rewrite SP | tauto].
    + intros y Y. rewrite (is_param_shape _ _ _ SH) in Y. auto.
  - destruct (locked x); [easy|].
    pose proof (swrite_shape fs g x v) as SH. pose proof (swrite_param fs g x v) as SP.
    pose proof (fun y N => proj2 (swrite_agree_neq fs g x v y N)) as GW.
    destruct (swrite g fs x v) as [g1 fs1]. cbn in *. apply IHp. split.
    + intros y Y. destruct (A y Y) as (A1 & A2 & A3). rewrite (is_param_shape _ _ _ SH).
      split; [|split; auto; tauto].
      destruct (string_dec x y) as [->|NX]; [|now rewrite GW].
      destruct A2 as [A2|A2]; [now rewrite SP | tauto].
    + intros y Y. rewrite (is_param_shape _ _ _ SH) in Y. auto.
  - destruct (locked x); [easy|].
    destruct (is_param fs x) eqn:P. { exfalso. eapply B; eauto. }
    apply IHp. split.
    + intros y Y. destruct (A y Y) as (A1 & A2 & A3). split; [|split; tauto].
      unfold update. now destruct (String.eqb x y).
    + intros y Y. specialize (B y Y). tauto.
  - assert (K : sexec locked (k (sread g fs x)) g fs <> None).
    { apply H. split.
      - intros y Y. destruct (A y) as (A1 & A2 & A3); eauto. split; auto. split; eauto.
        destruct A2 as [A2|A2]; auto. right. eauto.
      - intros y Y Z. eapply B; eauto. }
    destruct (sexec locked (k (sread g fs x)) g fs) as [[[[? ?] ?] ?]|]; easy.
  - destruct (existsb _ (map fst b)) eqn:EX.
    { exfalso. apply existsb_exists in EX as (y & I & G). destruct (A y) as (A1 & _); [now left|].
      now rewrite A1 in G. }
    assert (K : sexec locked p1 g (b :: fs) <> None).
    { apply IHp1. split.
      - intros y Y. destruct (A y) as (A1 & A2 & A3); [tauto|]. split; auto. split; [|tauto].
        cbn. destruct (lookup b y) eqn:L; auto. cbn.
        destruct A2 as [A2|A2]; auto. right. intro Z. apply A2. left. split; auto.
        apply dget_None_keys. exact L.
      - intros y Y. cbn in Y. destruct (lookup b y) eqn:L; cbn in Y.
        + destruct (A y) as (A1 & A2 & A3); [left|tauto].
          assert (dget b y <> None) by (change (dget b y) with (lookup b y); congruence).
          now apply dget_keys.
        + specialize (B y Y). tauto. }
    destruct (sexec locked p1 g (b :: fs)) as [[[[g1 fsx] r1] ok1]|] eqn:Q; [|easy].
    pose proof (sexec_frames_shape _ _ _ _ _ _ _ _ Q) as SH. inversion SH; subst. cbn [tl].
    destruct ok1; [|easy].
    assert (K2 : sexec locked p2 g1 l' <> None).
    { apply IHp2. split.
      - intros z Z. destruct (A z) as (A1 & A2 & A3); [tauto|].
        rewrite (is_param_shape _ _ _ H3). split; [|split; [tauto|tauto]].
        destruct (sexec_frame locked z p1 (b :: fs) [] g g1 (y :: l') r1 true) as (? & ? & _ & _ & _ & G); auto.
        + cbn. destruct (lookup b z) eqn:L; auto. cbn. destruct A2 as [A2|A2]; auto.
          right. intro T. apply A2. left. split; auto. apply dget_None_keys. exact L.
        + now rewrite app_nil_r.
        + congruence.
      - intros z Z. rewrite (is_param_shape _ _ _ H3) in Z. specialize (B z Z). tauto. }
    destruct (sexec locked p2 g1 l') as [[[[? ?] ?] ?]|]; easy.
Qed.

Lemma well_named_in : forall p g, well_named p g -> named_in p g [].
Proof.
  intros p g W. split; [|easy]. intros x B. destruct (W x B) as (? & ? & ?). auto.
Qed.

(** ** Starting points *)

Lemma top_simulates : forall h, at_top h -> simulates (nsp h) (getvar h) [].
Proof.
  intros h T. constructor.
  - reflexivity.
  - rewrite T. constructor.
  - intros fr x [].
Qed.

Lemma inside_sim : forall bs n g fs, simulates n g fs ->
  Forall (fun b => NoDup (keys b) /\ forall x, In x (keys b) -> g x = None) bs ->
  simulates (fold_left push_scope bs n) g (rev bs ++ fs).
Proof.
  induction bs as [|b bs IH]; intros n g fs S F; cbn; auto.
  inversion F as [|? ? [N G] F']; subst. rewrite <- app_assoc. cbn. apply IH; auto.
  now apply push_sim.
Qed.

Lemma reopen_top : forall perm saved, inner (reopen perm saved) = [].
Proof. reflexivity. Qed.

Lemma reopen_get : forall perm saved x,
  dget (flat (reopen perm saved)) x = match dget (glob (reopen perm saved)) x with Some v => Some v | None => dget perm x end.
Proof.
  intros. cbn. rewrite !dget_dsets. cbn. now destruct (lastget saved x).
Qed.

Lemma store_nodup : forall ss g x v, NoDup (keys g) -> NoDup (keys (fst (store_item g ss x v))).
Proof.
  induction ss as [|s r IH]; intros g x v N; cbn.
  - now apply nodup_dset.
  - destruct (mem x (params s)); auto. specialize (IH g x v N). now destruct (store_item g r x v).
Qed.

Lemma assign_nodup : forall n x v, NoDup (keys (glob n)) -> NoDup (keys (glob (assign n x v))).
Proof.
  intros n x v N. unfold assign. pose proof (store_nodup (inner n) (glob n) x v N).
  now destruct (store_item (glob n) (inner n) x v).
Qed.

Lemma exec_nodup : forall p h, NoDup (keys (glob (nsp h))) -> NoDup (keys (glob (nsp (fst (fst (exec p h)))))).
Proof.
  induction p; intros h N; cbn; auto.
  - unfold setvar. destruct (mutable h x); cbn; auto. apply IHp. now apply assign_nodup.
  - unfold setvar_import. destruct (mutable h x); cbn; auto. apply IHp. now apply assign_nodup.
  - unfold delvar. destruct (mutable h x); cbn; auto. destruct (getvar h x); auto.
  - specialize (H (getvar h x) h N). now destruct (exec (k (getvar h x)) h) as [[? ?] ?].
  - assert (N0 : NoDup (keys (glob (nsp (with_ns h (push_scope (nsp h) b)))))).
    { cbn. rewrite push_eq. exact N. }
    specialize (IHp1 _ N0).
    destruct (exec p1 (with_ns h (push_scope (nsp h) b))) as [[h1 rs] ok]. cbn in *.
    assert (GG : glob (fst (pop_scope (nsp h1))) = glob (nsp h1)).
    { unfold pop_scope. destruct (inner (nsp h1)); auto.
      destruct (unset_all (flat (nsp h1)) (keys (svars s))) as [f o]. now destruct o. }
    destruct (pop_scope (nsp h1)) as [n2 popped]. cbn in GG.
    destruct (ok && popped)%bool; cbn.
    + assert (N2 : NoDup (keys (glob (nsp (with_ns h1 n2))))) by (cbn; now rewrite GG).
      specialize (IHp2 _ N2). now destruct (exec p2 (with_ns h1 n2)) as [[? ?] ?].
    + now rewrite GG.
Qed.
