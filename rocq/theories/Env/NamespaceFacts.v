(** The namespace implements the environment of NamespaceSpec.v. *)
From Verif.Env Require Export NamespaceSpec.
Local Open Scope string_scope.
Local Open Scope list_scope.

(** ** Dictionaries *)

Lemma eqb_false_neq : forall x y, String.eqb x y = false -> x <> y.
Proof. intros x y H ->. rewrite String.eqb_refl in H. discriminate. Qed.

Lemma dget_dset_eq : forall d x v, dget (dset d x v) x = Some v.
Proof.
  induction d as [|[y w] r IH]; intros x v; cbn.
  - now rewrite String.eqb_refl.
  - destruct (String.eqb x y) eqn:E; cbn; rewrite E; auto.
Qed.

Lemma dget_dset_neq : forall d x y v, x <> y -> dget (dset d x v) y = dget d y.
Proof.
  induction d as [|[z w] r IH]; intros x y v N; cbn.
  - destruct (String.eqb y x) eqn:E; auto. apply String.eqb_eq in E. congruence.
  - destruct (String.eqb x z) eqn:E; cbn.
    + apply String.eqb_eq in E; subst z.
      destruct (String.eqb y x) eqn:E2; auto. apply String.eqb_eq in E2. congruence.
    + destruct (String.eqb y z); auto.
Qed.

Lemma dget_dset : forall d x y v, dget (dset d x v) y = if String.eqb x y then Some v else dget d y.
Proof.
  intros. destruct (String.eqb x y) eqn:E.
  - apply String.eqb_eq in E; subst. apply dget_dset_eq.
  - apply dget_dset_neq. now apply eqb_false_neq.
Qed.

Lemma dget_ddel_eq : forall d x, dget (ddel d x) x = None.
Proof.
  induction d as [|[y w] r IH]; intros x; cbn; auto.
  destruct (String.eqb x y) eqn:E; cbn; auto. now rewrite E.
Qed.

Lemma dget_ddel_neq : forall d x y, x <> y -> dget (ddel d x) y = dget d y.
Proof.
  induction d as [|[z w] r IH]; intros x y N; cbn; auto.
  destruct (String.eqb x z) eqn:E; cbn.
  - apply String.eqb_eq in E; subst z.
    destruct (String.eqb y x) eqn:E2; auto. apply String.eqb_eq in E2; congruence.
  - destruct (String.eqb y z); auto.
Qed.

Lemma mem_In : forall x xs, mem x xs = true <-> In x xs.
Proof.
  intros. unfold mem. rewrite existsb_exists. split.
  - intros [y [I E]]. apply String.eqb_eq in E. now subst.
  - intros I. exists x. split; auto. apply String.eqb_refl.
Qed.

Lemma mem_not_In : forall x xs, mem x xs = false <-> ~ In x xs.
Proof.
  intros. rewrite <- mem_In. destruct (mem x xs); split; intro H; try easy; exfalso; now apply H.
Qed.

Lemma dget_keys : forall d x, dget d x <> None <-> In x (keys d).
Proof.
  induction d as [|[y w] r IH]; intros x; cbn.
  - easy.
  - destruct (String.eqb x y) eqn:E.
    + apply String.eqb_eq in E; subst. split; [now left | easy].
    + rewrite IH. apply eqb_false_neq in E. split; [now right|]. intros [->|H]; easy.
Qed.

Lemma dget_None_keys : forall d x, dget d x = None <-> ~ In x (keys d).
Proof.
  intros. rewrite <- dget_keys. destruct (dget d x); split; intro H; try easy; exfalso; now apply H.
Qed.

Lemma keys_dset_in : forall d x v, In x (keys d) -> keys (dset d x v) = keys d.
Proof.
  induction d as [|[y w] r IH]; intros x v H; cbn in *.
  - easy.
  - destruct (String.eqb x y) eqn:E; cbn; auto. f_equal. apply IH.
    destruct H; auto. subst. rewrite String.eqb_refl in E. discriminate.
Qed.

Lemma keys_dset_new : forall d x v, ~ In x (keys d) -> keys (dset d x v) = keys d ++ [x].
Proof.
  induction d as [|[y w] r IH]; intros x v H; cbn in *; auto.
  destruct (String.eqb x y) eqn:E; cbn.
  - apply String.eqb_eq in E; subst. exfalso; apply H; now left.
  - f_equal. apply IH. intro; apply H; now right.
Qed.

(** The last binding of a key. *)
Fixpoint lastget (d : dict) (x : string) : option val :=
  match d with
  | [] => None
  | (y, v) :: r => match lastget r x with
                   | Some w => Some w
                   | None => if String.eqb x y then Some v else None
                   end
  end.

Lemma dget_dsets : forall ups d x,
  dget (dsets d ups) x = match lastget ups x with Some v => Some v | None => dget d x end.
Proof.
  induction ups as [|[y v] r IH]; intros d x; cbn; auto.
  change (dsets (dset d y v) r) with (dsets (dset d y v) r).
  unfold dsets in IH. rewrite IH.
  destruct (lastget r x); auto. rewrite dget_dset, String.eqb_sym. now destruct (String.eqb x y).
Qed.

Lemma lastget_nodup : forall d x, NoDup (keys d) -> lastget d x = dget d x.
Proof.
  induction d as [|[y v] r IH]; intros x N; cbn; auto.
  inversion N as [|? ? N1 N2]; subst. rewrite IH by auto.
  destruct (String.eqb x y) eqn:E.
  - apply String.eqb_eq in E; subst. apply dget_None_keys in N1. now rewrite N1.
  - now destruct (dget r x).
Qed.

Lemma lookup_dget : forall fr x, lookup fr x = dget fr x.
Proof. induction fr as [|[y v] r IH]; intros; cbn; auto. Qed.

(** ** Scopes *)

(** A scope stands for a frame. *)
Definition scope_of (s : scope) (fr : frame) : Prop :=
  (forall x, In x (params s) <-> In x (keys fr)) /\
  (forall x, dget (svars s) x = lookup fr x) /\
  NoDup (keys (svars s)).

Definition inner_of (ss : list scope) (fs : list frame) : Prop := Forall2 scope_of ss fs.

Lemma scope_of_mem : forall s fr x, scope_of s fr ->
  mem x (params s) = match lookup fr x with Some _ => true | None => false end.
Proof.
  intros s fr x (P & D & N).
  destruct (mem x (params s)) eqn:M.
  - apply mem_In in M. apply P in M. apply dget_keys in M. rewrite lookup_dget.
    destruct (dget fr x); easy.
  - apply mem_not_In in M. rewrite P in M. apply dget_None_keys in M. now rewrite lookup_dget, M.
Qed.

Lemma lookup_overwrite : forall fr x v y, lookup fr x <> None ->
  lookup (overwrite fr x v) y = if String.eqb x y then Some v else lookup fr y.
Proof.
  induction fr as [|[z w] r IH]; intros x v y H; cbn in *; try easy.
  fold (overwrite r x v).
  destruct (String.eqb x z) eqn:E; cbn.
  - apply String.eqb_eq in E; subst z. rewrite (String.eqb_sym y x).
    destruct (String.eqb x y) eqn:E2; auto.
    destruct (lookup r x) eqn:L.
    + rewrite IH by congruence. now rewrite E2.
    + clear - E2 L. revert L. induction r as [|[a b] r IH]; cbn; auto.
      destruct (String.eqb x a) eqn:Ea; [easy|]. cbn. intros L.
      destruct (String.eqb y a) eqn:Eb; auto.
  - destruct (String.eqb y z) eqn:E2.
    + apply String.eqb_eq in E2; subst z. now rewrite E.
    + now apply IH.
Qed.

Lemma keys_overwrite : forall fr x v, keys (overwrite fr x v) = keys fr.
Proof.
  induction fr as [|[z w] r IH]; intros; cbn; auto.
  fold (overwrite r x v). fold (keys (overwrite r x v)). fold (keys r).
  destruct (String.eqb x z); cbn; f_equal; apply IH.
Qed.

Lemma nodup_dset : forall d x v, NoDup (keys d) -> NoDup (keys (dset d x v)).
Proof.
  intros d x v N. destruct (in_dec string_dec x (keys d)) as [I|I].
  - now rewrite keys_dset_in.
  - rewrite keys_dset_new by auto.
    apply NoDup_rev in N. rewrite <- (rev_involutive (keys d ++ [x])).
    apply NoDup_rev. rewrite rev_app_distr. cbn. constructor; auto.
    now rewrite <- in_rev.
Qed.

Lemma scope_of_write : forall s fr x v, scope_of s fr -> lookup fr x <> None ->
  scope_of (mkscope (params s) (dset (svars s) x v)) (overwrite fr x v).
Proof.
  intros s fr x v (P & D & N) L. repeat split; cbn.
  - rewrite keys_overwrite. apply P.
  - rewrite keys_overwrite. apply P.
  - intros y. rewrite dget_dset, lookup_overwrite by auto. now rewrite D.
  - now apply nodup_dset.
Qed.

Lemma store_refines : forall ss fs g0 g x v, inner_of ss fs ->
  inner_of (snd (store_item g0 ss x v)) (snd (swrite g fs x v)).
Proof.
  induction ss as [|s r IH]; intros fs g0 g x v H; inversion H; subst; cbn.
  - constructor.
  - rewrite (scope_of_mem _ _ x H2). destruct (lookup y x) eqn:L.
    + cbn. constructor; auto. apply scope_of_write; congruence.
    + specialize (IH l' g0 g x v H4).
      destruct (store_item g0 r x v), (swrite g l' x v); cbn in *. now constructor.
Qed.

Lemma sread_swrite : forall fs g x v y,
  sread (fst (swrite g fs x v)) (snd (swrite g fs x v)) y
  = if String.eqb x y then Some v else sread g fs y.
Proof.
  induction fs as [|fr r IH]; intros g x v y; cbn.
  - reflexivity.
  - destruct (lookup fr x) eqn:L.
    + cbn. rewrite lookup_overwrite by congruence.
      destruct (String.eqb x y); auto.
    + specialize (IH g x v y). destruct (swrite g r x v) as [g' r'] eqn:W. cbn in *.
      rewrite IH. destruct (String.eqb x y) eqn:E; auto.
      apply String.eqb_eq in E; subst. now rewrite L.
Qed.

(** Names of parameters are not names of globals. *)
Definition disjoint (g : string -> option val) (fs : list frame) : Prop :=
  forall fr x, In fr fs -> lookup fr x <> None -> g x = None.

Definition same_shape (fs fs' : list frame) : Prop :=
  Forall2 (fun a b => forall x, lookup a x = None <-> lookup b x = None) fs fs'.

Lemma same_shape_refl : forall fs, same_shape fs fs.
Proof. induction fs; constructor; auto. easy. Qed.

Lemma same_shape_trans : forall a b c, same_shape a b -> same_shape b c -> same_shape a c.
Proof.
  induction a; intros b c H K; inversion H; subst; inversion K; subst; constructor.
  - intros x. rewrite H2. apply H3.
  - eapply IHa; eauto.
Qed.

Lemma swrite_shape : forall fs g x v, same_shape fs (snd (swrite g fs x v)).
Proof.
  induction fs as [|fr r IH]; intros g x v; cbn.
  - constructor.
  - destruct (lookup fr x) eqn:L; cbn.
    + constructor; [|apply same_shape_refl]. intros y. rewrite lookup_overwrite by congruence.
      destruct (String.eqb x y) eqn:E; [|easy]. apply String.eqb_eq in E; subst. rewrite L. easy.
    + specialize (IH g x v). destruct (swrite g r x v). cbn in *. constructor; auto. easy.
Qed.

Lemma shape_in : forall fs fs' fr' x, same_shape fs fs' -> In fr' fs' -> lookup fr' x <> None ->
  exists fr, In fr fs /\ lookup fr x <> None.
Proof.
  induction 1; intros I L; cbn in I; [easy|]. destruct I as [->|I].
  - exists x0. split; [now left|]. now rewrite H.
  - destruct (IHForall2 I L) as (fr & I1 & L1). exists fr; split; auto. now right.
Qed.

Lemma swrite_global : forall fs g x v y, fst (swrite g fs x v) y <> g y ->
  y = x /\ (forall fr, In fr fs -> lookup fr x = None).
Proof.
  induction fs as [|fr r IH]; intros g x v y; cbn.
  - unfold update. destruct (String.eqb x y) eqn:E; [|easy]. apply String.eqb_eq in E; subst.
    intros _. split; auto; easy.
  - destruct (lookup fr x) eqn:L; cbn; [easy|].
    specialize (IH g x v y). destruct (swrite g r x v). cbn in *. intros H. apply IH in H as [-> H].
    split; auto. intros fr' [->|I]; auto.
Qed.

Lemma swrite_disjoint : forall fs g x v, disjoint g fs ->
  disjoint (fst (swrite g fs x v)) (snd (swrite g fs x v)).
Proof.
  intros fs g x v D fr' y I L.
  destruct (shape_in _ _ _ _ (swrite_shape fs g x v) I L) as (fr & I1 & L1).
  destruct (fst (swrite g fs x v) y) eqn:E; auto. exfalso.
  assert (G : g y = None) by (eapply D; eauto).
  destruct (swrite_global fs g x v y) as [-> H]; [congruence|]. now rewrite H in L1.
Qed.

(** ** Refinement *)

Record simulates (n : ns) (g : string -> option val) (fs : list frame) : Prop := {
  sim_flat : forall x, dget (flat n) x = sread g fs x;
  sim_inner : inner_of (inner n) fs;
  sim_disjoint : disjoint g fs }.

Lemma assign_sim : forall n g fs x v, simulates n g fs ->
  simulates (assign n x v) (fst (swrite g fs x v)) (snd (swrite g fs x v)).
Proof.
  intros n g fs x v [F I D]. unfold assign.
  destruct (store_item (glob n) (inner n) x v) as [g0 ss] eqn:S.
  constructor; cbn.
  - intros y. rewrite dget_dset, sread_swrite. now rewrite F.
  - change ss with (snd (g0, ss)). rewrite <- S. now apply store_refines.
  - now apply swrite_disjoint.
Qed.

Lemma is_param_sread : forall fs g x, is_param fs x = false -> sread g fs x = g x.
Proof.
  induction fs as [|fr r IH]; intros g x H; cbn in *; auto.
  destruct (lookup fr x); [easy|]. now apply IH.
Qed.

Lemma is_param_false : forall fs x, is_param fs x = false <-> forall fr, In fr fs -> lookup fr x = None.
Proof.
  induction fs as [|fr r IH]; intros x; cbn.
  - split; easy.
  - fold (is_param r x). rewrite Bool.orb_false_iff, IH. split.
    + intros [A B] fr' [->|I]; auto. now destruct (lookup fr' x).
    + intros H. split; [rewrite (H fr); auto | auto].
Qed.

Lemma sread_update_other : forall fs g x v y, is_param fs x = false ->
  sread (update g x v) fs y = if String.eqb x y then v else sread g fs y.
Proof.
  induction fs as [|fr r IH]; intros g x v y H; cbn in *; auto.
  destruct (lookup fr x) eqn:L; [easy|]. rewrite IH by auto.
  destruct (lookup fr y) eqn:L2; auto.
  destruct (String.eqb x y) eqn:E; auto. apply String.eqb_eq in E; subst. congruence.
Qed.

Lemma delete_sim : forall n g fs x, simulates n g fs -> is_param fs x = false ->
  simulates (mkns (ddel (flat n) x) (glob n) (inner n)) (update g x None) fs.
Proof.
  intros n g fs x [F I D] P. constructor; cbn; auto.
  - intros y. rewrite sread_update_other by auto. destruct (String.eqb x y) eqn:E.
    + apply String.eqb_eq in E; subst. apply dget_ddel_eq.
    + rewrite dget_ddel_neq by now apply eqb_false_neq. apply F.
  - intros fr y J L. unfold update. destruct (String.eqb x y); auto. eapply D; eauto.
Qed.

(** Pushing: writing the bindings one by one into the new scope. *)
Lemma push_fold : forall b n,
  (exists s r, inner n = s :: r) ->
  (forall s r, inner n = s :: r -> forall x, In x (keys b) -> In x (params s)) ->
  let n' := fold_left (fun n kv => assign n (fst kv) (snd kv)) b n in
  flat n' = dsets (flat n) b /\ glob n' = glob n /\
  (forall s r, inner n = s :: r -> inner n' = mkscope (params s) (dsets (svars s) b) :: r).
Proof.
  induction b as [|[y v] b IH]; intros n (s & r & E2) HP; cbn.
  - repeat split; auto. intros s' r' E. rewrite E. now destruct s'.
  - assert (A : assign n y v = mkns (dset (flat n) y v) (glob n) (mkscope (params s) (dset (svars s) y v) :: r)).
    { unfold assign. rewrite E2. cbn.
      assert (M : mem y (params s) = true) by (apply mem_In; eapply HP; eauto; now left).
      now rewrite M. }
    rewrite A.
    destruct (IH (mkns (dset (flat n) y v) (glob n) (mkscope (params s) (dset (svars s) y v) :: r))
                 ) as (H1 & H2 & H3); cbn; auto.
    { eauto. }
    { intros s' r' E x I. inversion E; subst. cbn. eapply HP; eauto. now right. }
    cbn in *. repeat split; auto.
    intros s' r' E. rewrite E2 in E. inversion E; subst. rewrite (H3 _ _ eq_refl). reflexivity.
Qed.

Lemma push_eq : forall n b,
  push_scope n b
  = mkns (dsets (flat n) b) (glob n)
         (mkscope (keys b) (dsets (dsets [] (map (fun kv => (fst kv, VNone)) b)) b) :: inner n).
Proof.
  intros. unfold push_scope. cbv zeta.
  set (n0 := mkns (flat n) (glob n)
    (mkscope (keys b) (dsets [] (map (fun kv => (fst kv, VNone)) b)) :: inner n)).
  destruct (@push_fold b n0) as (H1 & H2 & H3); auto.
  { subst n0; cbn; eauto. }
  { subst n0; cbn. intros s r E x I. inversion E; subst; auto. }
  specialize (H3 _ _ eq_refl).
  destruct (fold_left (fun n1 kv => assign n1 (fst kv) (snd kv)) b n0) as [f g i].
  cbn in *. now subst.
Qed.

Lemma lastget_None : forall d x, lastget d x = None <-> ~ In x (keys d).
Proof.
  induction d as [|[y w] r IH]; intros x; cbn.
  - split; easy.
  - destruct (lastget r x) eqn:L.
    + split; [easy|]. intros H. exfalso. apply H. right.
      destruct (in_dec string_dec x (keys r)); auto. apply IH in n. congruence.
    + destruct (String.eqb x y) eqn:E.
      * apply String.eqb_eq in E; subst. split; [easy|]. intros H. exfalso; apply H; now left.
      * apply eqb_false_neq in E. split; auto. intros _ [->|I]; [easy|]. now apply IH in L.
Qed.

Lemma keys_nodup_dsets : forall ups d, NoDup (keys d) -> NoDup (keys (dsets d ups)).
Proof.
  induction ups as [|[y v] r IH]; intros d N; cbn; auto. apply IH. now apply nodup_dset.
Qed.

Lemma push_sim : forall n g fs b, simulates n g fs -> NoDup (keys b) ->
  (forall x, In x (keys b) -> g x = None) ->
  simulates (push_scope n b) g (b :: fs).
Proof.
  intros n g fs b [F I D] N G. rewrite push_eq. constructor; cbn.
  - intros x. rewrite dget_dsets, lastget_nodup by auto. change (lookup b x) with (dget b x).
    destruct (dget b x); auto.
  - constructor; auto. repeat split; cbn; auto.
    + intros x. rewrite dget_dsets, lastget_nodup by auto. change (lookup b x) with (dget b x).
      destruct (dget b x) eqn:E; auto. rewrite dget_dsets.
      assert (K : lastget (map (fun kv => (fst kv, VNone)) b) x = None).
      { apply lastget_None. unfold keys. rewrite map_map. cbn.
        apply dget_None_keys in E. exact E. }
      now rewrite K.
    + apply keys_nodup_dsets. apply keys_nodup_dsets. constructor.
  - intros fr x [<-|J] L.
    + apply G. rewrite lookup_dget in L. now apply dget_keys.
    + eapply D; eauto.
Qed.

(** Popping. *)
Lemma unset_all_ok : forall xs f, NoDup xs -> (forall x, In x xs -> dget f x <> None) ->
  exists f', unset_all f xs = (f', true) /\
             forall y, dget f' y = if mem y xs then None else dget f y.
Proof.
  induction xs as [|x xs IH]; intros f N H; cbn.
  - exists f. split; auto.
  - inversion N; subst. destruct (dget f x) eqn:E; [|exfalso; eapply H; eauto; now left].
    destruct (IH (ddel f x)) as (f' & U & G); auto.
    { intros y I. rewrite dget_ddel_neq; [apply H; now right | congruence]. }
    exists f'. split; auto. intros y. rewrite G.
    unfold mem in *. cbn. destruct (String.eqb y x) eqn:Eyx; cbn.
    + apply String.eqb_eq in Eyx; subst. rewrite dget_ddel_eq. now destruct (existsb _ xs).
    + rewrite dget_ddel_neq; auto. intro; subst. rewrite String.eqb_refl in Eyx. discriminate.
Qed.

Lemma restore_get : forall ss fs f x, inner_of ss fs ->
  dget (restore f ss) x = sread (dget f) fs x.
Proof.
  induction ss as [|s r IH]; intros fs f x H; inversion H; subst; cbn; auto.
  destruct H2 as (P & Dv & N).
  rewrite dget_dsets, lastget_nodup by auto. rewrite Dv.
  destruct (lookup y x); auto.
Qed.

Lemma pop_sim : forall n g fr fs, simulates n g (fr :: fs) ->
  exists n', pop_scope n = (n', true) /\ simulates n' g fs /\ glob n' = glob n.
Proof.
  intros n g fr fs [F I D]. inversion I; subst. unfold pop_scope. rewrite <- H.
  destruct H2 as (P & Dv & N).
  assert (K : forall y, mem y (keys (svars x)) = match lookup fr y with Some _ => true | None => false end).
  { intros y. destruct (mem y (keys (svars x))) eqn:M.
    - apply mem_In in M. apply dget_keys in M. rewrite Dv in M. now destruct (lookup fr y).
    - apply mem_not_In in M. apply dget_None_keys in M. rewrite Dv in M. now rewrite M. }
  destruct (@unset_all_ok (keys (svars x)) (flat n)) as (f' & U & G); auto.
  { intros y M. rewrite F. cbn. apply mem_In in M. rewrite K in M. now destruct (lookup fr y). }
  rewrite U. eexists; split; [reflexivity|]. split; [|reflexivity].
  constructor; cbn; auto.
  - intros y. rewrite restore_get with (fs := fs); auto.
    assert (E : dget f' y = if mem y (keys (svars x)) then None else dget (flat n) y) by apply G.
    rewrite K in E. rewrite F in E. cbn in E.
    destruct (lookup fr y) eqn:L.
    + assert (Gy : g y = None) by (eapply D; [now left | congruence]).
      clear - E Gy. induction fs; cbn; [congruence|]. destruct (lookup a y); auto.
    + clear - E. revert E. generalize (dget f') as gf. intros gf E.
      assert (Q : forall fs2, (forall z, sread g fs2 z = sread g fs2 z) -> True) by auto.
      induction fs; cbn in *; auto. destruct (lookup a y); auto.
  - intros fr' y J L. eapply D; eauto. now right.
Qed.

(** Locked names. *)
Definition locked_of (h : handler) (x : string) : bool := enforce h && mem x (immutable h).

Lemma mutable_locked : forall h x, mutable h x = negb (locked_of h x).
Proof. reflexivity. Qed.

Lemma exec_locked : forall p h, immutable (fst (fst (exec p h))) = immutable h /\
                                enforce (fst (fst (exec p h))) = enforce h.
Proof.
  induction p; intros h; cbn; auto.
  - unfold setvar. destruct (mutable h x); cbn; auto. now destruct (IHp (mkh (assign (nsp h) x v) (immutable h) (x :: written h) (enforce h))).
  - unfold setvar_import. destruct (mutable h x); cbn; auto. now destruct (IHp (with_ns h (assign (nsp h) x v))).
  - unfold delvar. destruct (mutable h x); cbn; auto. destruct (getvar h x); cbn; auto.
    match goal with |- context [exec p ?hh] => destruct (IHp hh) as [A B]; split; [rewrite A | rewrite B]; reflexivity end.
  - specialize (H (getvar h x) h). now destruct (exec (k (getvar h x)) h) as [[h' rs] ok].
  - specialize (IHp1 (with_ns h (push_scope (nsp h) b))).
    destruct (exec p1 (with_ns h (push_scope (nsp h) b))) as [[h1 rs] ok]. cbn in *.
    destruct (pop_scope (nsp h1)) as [n2 popped]. destruct IHp1 as [A B].
    destruct (ok && popped)%bool; cbn; auto.
    specialize (IHp2 (with_ns h1 n2)). destruct (exec p2 (with_ns h1 n2)) as [[h3 rs'] ok']. cbn in *.
    destruct IHp2. split; congruence.
Qed.

Definition exec_refines (p : prog) : Prop := forall h g fs g' fs' rs ok,
  simulates (nsp h) g fs ->
  sexec (locked_of h) p g fs = Some (g', fs', rs, ok) ->
  exists h', exec p h = (h', rs, ok) /\ simulates (nsp h') g' fs' /\ same_shape fs fs'.

Lemma existsb_bound_false : forall (g : string -> option val) xs,
  existsb (fun x => match g x with Some _ => true | None => false end) xs = false ->
  forall x, In x xs -> g x = None.
Proof.
  intros g xs E x I. destruct (g x) eqn:Gx; auto. exfalso.
  assert (T : existsb (fun x => match g x with Some _ => true | None => false end) xs = true).
  { apply existsb_exists. exists x. now rewrite Gx. }
  congruence.
Qed.

Lemma exec_sim : forall p, calls_ok p -> exec_refines p.
Proof.
  induction p; intros OK h g fs g' fs' rs ok S E; cbn in E, OK.
  - inversion E; subst. exists h; repeat split; auto; apply S || apply same_shape_refl.
  - inversion E; subst. exists h; repeat split; auto; apply S || apply same_shape_refl.
  - cbn. unfold setvar. rewrite mutable_locked. destruct (locked_of h x) eqn:L; cbn.
    + inversion E; subst. exists h; repeat split; auto; apply S || apply same_shape_refl.
    + destruct (swrite g fs x v) as [g1 fs1] eqn:W.
      set (h1 := mkh (assign (nsp h) x v) (immutable h) (x :: written h) (enforce h)).
      destruct (IHp OK h1 g1 fs1 g' fs' rs ok) as (h' & X & S' & SH); auto.
      { pose proof (assign_sim _ _ _ x v S) as A. now rewrite W in A. }
      exists h'; repeat split; auto; try apply S'. eapply same_shape_trans; eauto.
      pose proof (swrite_shape fs g x v) as Q. now rewrite W in Q.
  - cbn. unfold setvar_import. rewrite mutable_locked. destruct (locked_of h x) eqn:L; cbn.
    + inversion E; subst. exists h; repeat split; auto; apply S || apply same_shape_refl.
    + destruct (swrite g fs x v) as [g1 fs1] eqn:W.
      set (h1 := with_ns h (assign (nsp h) x v)).
      destruct (IHp OK h1 g1 fs1 g' fs' rs ok) as (h' & X & S' & SH); auto.
      { pose proof (assign_sim _ _ _ x v S) as A. now rewrite W in A. }
      exists h'; repeat split; auto; try apply S'. eapply same_shape_trans; eauto.
      pose proof (swrite_shape fs g x v) as Q. now rewrite W in Q.
  - cbn. unfold delvar. rewrite mutable_locked. destruct (locked_of h x) eqn:L; cbn.
    + inversion E; subst. exists h; repeat split; auto; apply S || apply same_shape_refl.
    + destruct (is_param fs x) eqn:P; [discriminate|].
      destruct (getvar h x) eqn:Gx.
      * match goal with |- context [exec p ?hh] => set (h1 := hh) end.
        destruct (IHp OK h1 (update g x None) fs g' fs' rs ok) as (h' & X & S' & SH); auto.
        { now apply delete_sim. }
        exists h'; auto.
      * destruct (IHp OK h (update g x None) fs g' fs' rs ok) as (h' & X & S' & SH); auto.
        { destruct S as [F I D]. constructor; auto.
          - intros y. rewrite sread_update_other by auto. destruct (String.eqb x y) eqn:Exy; auto.
            apply String.eqb_eq in Exy; subst. exact Gx.
          - intros fr y J L2. unfold update. destruct (String.eqb x y); auto. eapply D; eauto. }
        exists h'; auto.
  - cbn. assert (Gx : getvar h x = sread g fs x) by apply S.
    rewrite Gx in *. destruct (sexec (locked_of h) (k (sread g fs x)) g fs) as [[[[a b] c] d]|] eqn:Q; [|discriminate].
    inversion E; subst. destruct (H (sread g fs x) (OK _) h g fs g' fs' c ok) as (h' & X & S' & SH); auto.
    rewrite X. exists h'; auto.
  - destruct OK as (N & OK1 & OK2).
    destruct (existsb _ (map fst b)) eqn:B; [discriminate|].
    pose proof (existsb_bound_false _ _ B) as GB. clear B.
    destruct (sexec (locked_of h) p1 g (b :: fs)) as [[[[g1 fs1] r1] ok1]|] eqn:Q; [|discriminate].
    cbn. set (h0 := with_ns h (push_scope (nsp h) b)).
    assert (S0 : simulates (nsp h0) g (b :: fs)) by (apply push_sim; auto).
    destruct (IHp1 OK1 h0 g (b :: fs) g1 fs1 r1 ok1) as (h1 & X1 & S1 & SH1); auto.
    rewrite X1.
    destruct fs1 as [|fr1 fs1]; [inversion SH1|].
    destruct (pop_sim _ _ _ _ S1) as (n2 & PP & S2 & _). rewrite PP.
    assert (SHt : same_shape fs fs1) by now inversion SH1.
    destruct ok1; cbn.
    + cbn [tl] in E.
      destruct (sexec (locked_of h) p2 g1 fs1) as [[[[g2 fs2] r2] ok2]|] eqn:Q2; [|discriminate].
      inversion E; subst.
      destruct (IHp2 OK2 (with_ns h1 n2) g1 fs1 g' fs' r2 ok) as (h3 & X3 & S3 & SH3); auto.
      { rewrite <- Q2. unfold locked_of. cbn. pose proof (exec_locked p1 h0) as [A1 A2].
        rewrite X1 in A1, A2. cbn in A1, A2. now rewrite A1, A2. }
      rewrite X3. exists h3; repeat split; auto; try apply S3. eapply same_shape_trans; eauto.
    + inversion E; subst. exists (with_ns h1 n2). repeat split; auto; apply S2.
Qed.
