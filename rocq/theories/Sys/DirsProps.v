(** C31: the directory stack is consistent. *)
From Verif.Sys Require Import DirsSpec.
Local Open Scope string_scope.
Local Open Scope list_scope.

(** ** PWD is always the process's directory *)
Lemma clean_cwd : forall f s, cwd (clean f s) = cwd s /\ pwd (clean f s) = pwd s.
Proof. intros f s. unfold clean. destruct (forallb _ _); auto. Qed.

Lemma change_pwd : forall n f home p s, pwd s = cwd s -> pwd (fst (change n f home p s)) = cwd (fst (change n f home p s)).
Proof.
  induction n as [|n IH]; intros f home p s H; [exact H|]. cbn [change].
  pose proof (clean_cwd f s) as (C & P).
  destruct (f_exists f (f_resolve f p)).
  - destruct (f_isdir f _); [|cbn; congruence]. destruct (f_access f _); cbn; [reflexivity|congruence].
  - destruct (top_is_not _ _); [|cbn; congruence].
    pose proof (clean_cwd f (clean f s)) as (C' & P').
    specialize (IH f home (f_resolve f home) (clean f (clean f s))).
    destruct (change n f home (f_resolve f home) (clean f (clean f s))) as [s' o]. cbn in IH.
    assert (X : pwd s' = cwd s') by (apply IH; congruence). destruct o; cbn; auto.
Qed.

Lemma ccd_pwd : forall f home p s, pwd s = cwd s ->
  pwd (fst (change_current_dir f home p s)) = cwd (fst (change_current_dir f home p s)).
Proof. intros. unfold change_current_dir. generalize recursion_limit. intros n. now apply change_pwd. Qed.
Opaque change_current_dir.

Lemma show_pwd : forall f r, pwd (fst r) = cwd (fst r) -> pwd (fst (fst (show f r))) = cwd (fst (fst (show f r))).
Proof. intros f [s o] H. cbn in H. destruct o; cbn; auto. destruct (clean_cwd f s). congruence. Qed.

Lemma push_pwd : forall f home d s, pwd s = cwd s -> pwd (fst (push_dir f home d s)) = cwd (fst (push_dir f home d s)).
Proof.
  intros f home d s H. unfold push_dir. destruct (clean_cwd f s) as (C & P). destruct (top _) as [t|]; [|cbn; congruence].
  pose proof (ccd_pwd f home (epath t) (clean f s)) as X.
  destruct (change_current_dir f home (epath t) (clean f s)) as [s' o]. cbn in X.
  assert (Y : pwd s' = cwd s') by (apply X; congruence). destruct o; cbn; auto.
Qed.
Lemma pop_pwd : forall f home s, pwd s = cwd s -> pwd (fst (pop_dir f home s)) = cwd (fst (pop_dir f home s)).
Proof.
  intros f home s H. unfold pop_dir. destruct (clean_cwd f s) as (C & P). destruct (rev _) as [|a [|b r]]; try (cbn; congruence).
  pose proof (ccd_pwd f home (epath b) (clean f s)) as X.
  destruct (change_current_dir f home (epath b) (clean f s)) as [s' o]. cbn in X.
  assert (Y : pwd s' = cwd s') by (apply X; congruence). destruct o; cbn; auto.
Qed.

Lemma cmd_pwd : forall f home c s, pwd s = cwd s -> pwd (fst (fst (run_cmd f home c s))) = cwd (fst (fst (run_cmd f home c s))).
Proof.
  intros f home c s H. destruct (clean_cwd f s) as (C & P).
  destruct c as [ps|[ps|]| |b|]; cbn -[show].
  - destruct ps as [|p [|q ps]]; cbn; try congruence. destruct (f_isdir f p); [|cbn; congruence].
    pose proof (ccd_pwd f home p (clean f s)) as X.
    destruct (change_current_dir f home p (clean f s)) as [s' o]. cbn in *. apply X. congruence.
  - destruct ps as [|p [|q ps]]; cbn -[show]; try congruence. apply show_pwd, push_pwd. congruence.
  - apply show_pwd, push_pwd, H.
  - apply show_pwd, pop_pwd, H.
  - apply show_pwd. destruct b; cbn; auto.
  - cbn. congruence.
Qed.

(** Whatever happens to the file system between commands, and however they end, PWD is the directory
    the process is in. *)
Theorem c31_pwd_is_cwd : forall home cs d, pwd (session home cs (startup d)) = cwd (session home cs (startup d)).
Proof.
  intros home cs d. assert (H : pwd (startup d) = cwd (startup d)) by reflexivity. revert H. generalize (startup d).
  induction cs as [|[f c] cs IH]; intros s H; cbn [session]; auto. apply IH. now apply cmd_pwd.
Qed.

(** ** The stack *)
Lemma filter_all : forall A (g : A -> bool) l, forallb g l = true -> filter g l = l.
Proof. induction l as [|a l IH]; cbn; intros H; auto. apply andb_true_iff in H as [-> H]. now rewrite IH. Qed.
Lemma filter_map' : forall A B (h : A -> B) (g : B -> bool) l, filter g (map h l) = map h (filter (fun x => g (h x)) l).
Proof. induction l as [|a l IH]; cbn; auto. destruct (g (h a)); cbn; now rewrite IH. Qed.
Lemma filter_rev' : forall A (g : A -> bool) l, filter g (rev l) = rev (filter g l).
Proof.
  induction l as [|a l IH]; cbn; auto. rewrite filter_app, IH. cbn. destruct (g a); cbn; auto. apply app_nil_r.
Qed.

Lemma clean_stack : forall f s, stack (clean f s) = kept f (stack s).
Proof.
  intros f s. unfold stack, kept. rewrite filter_rev', filter_map'. unfold clean.
  change (fun x : entry => f_exists f (epath x) && f_access f (epath x)) with (usable f).
  destruct (forallb (usable f) (dirs s)) eqn:E.
  - now rewrite (filter_all _ _ _ E).
  - cbn. rewrite map_map. reflexivity.
Qed.
Lemma kept_kept : forall f l, kept f (kept f l) = kept f l.
Proof. intros. unfold kept. induction l as [|a l IH]; cbn; auto. destruct (_ && _) eqn:E; cbn; rewrite ?E; congruence. Qed.
Lemma clean_clean : forall f s, stack (clean f (clean f s)) = kept f (stack s).
Proof. intros. now rewrite !clean_stack, kept_kept. Qed.

Lemma stack_dirs : forall s, map epath (dirs s) = rev (stack s).
Proof. intros. unfold stack. now rewrite rev_involutive. Qed.
Lemma removelast_rev_tl : forall A (l : list A), rev (removelast l) = tl (rev l).
Proof.
  intros A l. destruct l as [|a l] using rev_ind; auto. now rewrite removelast_last, rev_app_distr.
Qed.
Lemma map_removelast' : forall A B (h : A -> B) l, map h (removelast l) = removelast (map h l).
Proof. induction l as [|a [|b l] IH]; cbn in *; auto. now rewrite <- IH. Qed.
Lemma stack_set_top : forall c p l q, stack (Dstate c p (set_top l q)) = q :: tl (rev (map epath l)).
Proof.
  intros. unfold stack, set_top. cbn. rewrite map_app, rev_app_distr. cbn. now rewrite map_removelast', removelast_rev_tl.
Qed.

Lemma change_ok : forall n f home p s, fs_ok f -> reachable f p ->
  exists s', change (S n) f home p s = (s', DOk) /\ cwd s' = f_resolve f p /\ pwd s' = f_resolve f p /\
             stack s' = f_resolve f p :: tl (kept f (stack s)).
Proof.
  intros n f home p s F (D & A). cbn [change].
  rewrite (res_exists f F), (res_isdir f F), (res_access f F), (isdir_exists f F p D), D, A.
  eexists. split; [reflexivity|]. repeat split. rewrite stack_set_top. fold (stack (clean f s)). now rewrite clean_stack.
Qed.
(** An existing path that one cannot go to. *)
Lemma change_bad : forall n f home p s, fs_ok f -> f_exists f p = true -> ~ reachable f p ->
  exists o, change (S n) f home p s = (clean f s, o) /\ o <> DOk.
Proof.
  intros n f home p s F E R. cbn [change].
  rewrite (res_exists f F), (res_isdir f F), (res_access f F), E.
  destruct (f_isdir f p) eqn:D; [|exists DCrash; split; [reflexivity|discriminate]].
  destruct (f_access f p) eqn:A; [|exists DKill; split; [reflexivity|discriminate]].
  elim R. now split.
Qed.

Lemma ccd_ok : forall f home p s, fs_ok f -> reachable f p ->
  exists s', change_current_dir f home p s = (s', DOk) /\ cwd s' = f_resolve f p /\ pwd s' = f_resolve f p /\
             stack s' = f_resolve f p :: tl (kept f (stack s)).
Proof. Transparent change_current_dir. intros. unfold change_current_dir. change recursion_limit with (S (pred recursion_limit)). now apply change_ok. Qed.
Lemma ccd_bad : forall f home p s, fs_ok f -> f_exists f p = true -> ~ reachable f p ->
  exists o, change_current_dir f home p s = (clean f s, o) /\ o <> DOk.
Proof. intros. unfold change_current_dir. change recursion_limit with (S (pred recursion_limit)). now apply change_bad. Qed.
Opaque change_current_dir.

Lemma kept_in : forall f p l, In p (kept f l) -> In p l /\ f_exists f p = true /\ f_access f p = true.
Proof. intros f p l H. apply filter_In in H as [I H]. now apply andb_true_iff in H. Qed.

Lemma rev_map_cons : forall l p r, rev (map epath l) = p :: r -> exists e q, rev l = e :: q /\ epath e = p /\ map epath q = r.
Proof. intros l p r H. rewrite <- map_rev in H. destruct (rev l) as [|e q]; [discriminate|]. cbn in H. injection H as <- <-. now exists e, q. Qed.

(** The entries still usable are directories, without links on the way. *)
Definition settled (f : fsys) (l : list path) : Prop :=
  forall p, In p l -> f_exists f p = true -> f_access f p = true -> f_isdir f p = true /\ resolved f p.
(** The argument of pushd is there. *)
Definition arg_exists (f : fsys) (c : dcmd) : Prop :=
  match c with CPushd (Some [p]) => f_exists f p = true | _ => True end.
(** What the commands output. *)
Definition shown (c : dcmd) (d : path) (l : list path) : list path :=
  match c with CCd _ => [] | CPwd => [d] | _ => l end.

Lemma show_ok : forall f s l, stack s = l -> (forall p, In p l -> f_exists f p && f_access f p = true) ->
  exists s', show f (s, DOk) = (s', l, DOk) /\ stack s' = l /\ cwd s' = cwd s /\ pwd s' = pwd s.
Proof.
  intros f s l E H. exists (clean f s). assert (K : stack (clean f s) = l).
  { rewrite clean_stack, E. apply filter_all, forallb_forall. exact H. }
  destruct (clean_cwd f s). repeat split; auto. cbn. fold (stack (clean f s)). now rewrite K.
Qed.

Lemma reach_dec : forall f p, {reachable f p} + {~ reachable f p}.
Proof.
  intros f p. unfold reachable. destruct (f_isdir f p), (f_access f p); try (left; split; reflexivity);
  right; intros [? ?]; discriminate.
Qed.
Lemma reach_true : forall f p, reachable f p -> f_isdir f p && f_access f p = true.
Proof. intros f p [-> ->]. reflexivity. Qed.
Lemma reach_false : forall f p, ~ reachable f p -> f_isdir f p && f_access f p = false.
Proof. intros f p H. destruct (f_isdir f p) eqn:E, (f_access f p) eqn:E'; auto. elim H. now split. Qed.

Ltac sp := repeat match goal with |- _ /\ _ => split end; auto; try congruence; try discriminate.

Theorem c31_effect_partial : forall f home c s,
  fs_ok f -> consistent s -> reachable f (cwd s) -> settled f (stack s) -> arg_exists f c ->
  exists s' out o, run_cmd f home c s = (s', out, o) /\ consistent s' /\
  match effect f c (kept f (stack s)) with
  | Some l => o = DOk /\ stack s' = l /\ out = shown c (cwd s') l
  | None => o <> DOk /\ out = [] /\ stack s' = kept f (stack s) /\ cwd s' = cwd s
  end.
Proof.
  intros f home c s F (PW & r & ST) R SE AE.
  assert (K : kept f (stack s) = cwd s :: kept f r).
  { rewrite ST. cbn. destruct R as (D & A). now rewrite (isdir_exists f F _ D), A. }
  assert (KL : kept f (kept f (stack s)) = kept f (stack s)) by apply kept_kept.
  set (l := kept f (stack s)) in *.
  assert (KU : forall p, In p l -> f_exists f p && f_access f p = true).
  { intros p I. apply kept_in in I as (_ & -> & ->). reflexivity. }
  assert (KD : forall p, In p l -> reachable f p /\ resolved f p).
  { intros p I. apply kept_in in I as (I & E & A). destruct (SE p I E A) as (D & Q). split; [split|]; auto. }
  destruct (clean_cwd f s) as (CC & CP).
  assert (CS : stack (clean f s) = l) by apply clean_stack.
  assert (CON : consistent (clean f s)).
  { split; [congruence|]. exists (kept f r). rewrite CS, CC. exact K. }
  destruct c as [ps|[ps|]| |b|]; cbn [run_cmd].
  - (* cd *)
    destruct ps as [|p [|q ps]]; cbn [effect].
    + exists (clean f s), [], DKill. sp.
    + destruct (reach_dec f p) as [RE|RE].
      * rewrite (reach_true _ _ RE), (proj1 RE). destruct (ccd_ok f home p (clean f s) F RE) as (s' & E & C' & P' & S').
        rewrite E.
        exists s', [], DOk. rewrite CS, KL in S'. sp. split; [congruence|].
        rewrite C'. rewrite S'. eauto.
      * rewrite (reach_false _ _ RE). destruct (f_isdir f p) eqn:D.
        -- destruct (ccd_bad f home p (clean f s) F (isdir_exists f F p D) RE) as (o & E & O).
           rewrite E.
           exists (clean f (clean f s)), [], o. destruct (clean_cwd f (clean f s)) as (C2 & P2).
           assert (S2 : stack (clean f (clean f s)) = l) by (rewrite clean_stack, CS; exact KL).
           sp. split; [congruence|]. exists (kept f r). rewrite S2, C2, CC. exact K.
        -- exists (clean f s), [], DKill. sp.
    + exists (clean f s), [], DKill. sp.
  - (* pushd d *)
    destruct ps as [|p [|q ps]]; cbn [effect].
    + exists (clean f s), [], DKill. sp.
    + cbn in AE. unfold push_dir. cbn [pushed].
      set (s2 := clean f (clean f s)) in *.
      assert (S2 : stack s2 = l) by (unfold s2; rewrite clean_stack, CS; exact KL).
      assert (T : top (dirs s2 ++ [EStr (f_resolve f p)]) = Some (EStr (f_resolve f p))).
      { unfold top. now rewrite rev_app_distr. }
      rewrite T. cbn [epath].
      assert (RR : reachable f (f_resolve f p) <-> reachable f p).
      { unfold reachable. now rewrite (res_isdir f F), (res_access f F). }
      destruct (reach_dec f p) as [RE|RE].
      * destruct (ccd_ok f home (f_resolve f p) s2 F (proj2 RR RE)) as (s' & E & C' & P' & S').
        rewrite E, (reach_true _ _ RE).
        rewrite (res_idem f F) in C', P'.
        destruct (show_ok f (Dstate (cwd s') (pwd s') (dirs s2 ++ [EStr (f_resolve f p)])) (f_resolve f p :: l)) as (s3 & E3 & S3 & C3 & P3).
        { unfold stack. cbn. rewrite map_app, rev_app_distr. cbn. f_equal. exact S2. }
        { intros x [<-|I]; [|now apply KU]. destruct (proj2 RR RE) as (D & ->). now rewrite (isdir_exists f F _ D). }
        rewrite E3. exists s3, (f_resolve f p :: l), DOk. cbn in C3, P3. sp. split; [congruence|].
        exists l. rewrite S3. congruence.
      * rewrite (reach_false _ _ RE).
        destruct (ccd_bad f home (f_resolve f p) s2 F) as (o & E & O).
        { rewrite (res_exists f F). exact AE. }
        { now rewrite RR. }
        rewrite E.
        assert (S3 : stack (clean f s2) = l) by (rewrite clean_stack, S2; exact KL).
        destruct (clean_cwd f s2) as (C3 & P3). destruct (clean_cwd f (clean f s)) as (C2 & P2). fold s2 in C2, P2.
        exists (clean f s2), [], o. destruct o; [easy| |]; cbn; sp; (split; [congruence|]; exists (kept f r); rewrite S3, C3, C2, CC; exact K).
    + exists (clean f s), [], DKill. sp.
  - (* pushd *)
    cbn [effect]. unfold push_dir.
    pose proof CS as CS'. rewrite K in CS'. apply rev_map_cons in CS' as (a & q & RV & Ea & Q).
    destruct q as [|b q].
    + (* one entry *)
      assert (PU : pushed f (dirs (clean f s)) None = dirs (clean f s)) by (unfold pushed; now rewrite RV).
      rewrite PU. unfold top. rewrite RV.
      cbn in Q. assert (RE : reachable f (epath a)) by (now rewrite Ea).
      destruct (ccd_ok f home (epath a) (clean f s) F RE) as (s' & E & C' & P' & S').
      rewrite E.
      rewrite <- Q in K. rewrite K in KU, KD |- *.
      assert (FR : f_resolve f (epath a) = cwd s).
      { rewrite Ea. apply (KD (cwd s)). now left. }
      destruct (show_ok f (Dstate (cwd s') (pwd s') (dirs (clean f s))) [cwd s]) as (s3 & E3 & S3 & C3 & P3).
      { change (stack (Dstate (cwd s') (pwd s') (dirs (clean f s)))) with (stack (clean f s)). now rewrite CS. }
      { exact KU. }
      rewrite E3. exists s3, [cwd s], DOk. cbn in C3, P3. sp. split; [congruence|]. exists []. rewrite S3. congruence.
    + assert (PU : pushed f (dirs (clean f s)) None = rev q ++ [a; b]) by (unfold pushed; now rewrite RV).
      rewrite PU. unfold top. rewrite rev_app_distr. cbn [rev app]. cbn in Q.
      rewrite <- Q in K. rewrite K in KU, KD |- *.
      assert (IB : In (epath b) (cwd s :: epath b :: map epath q)) by (right; now left).
      destruct (KD _ IB) as (RE & FR).
      destruct (ccd_ok f home (epath b) (clean f s) F RE) as (s' & E & C' & P' & S').
      rewrite E. rewrite FR in C', P'.
      destruct (show_ok f (Dstate (cwd s') (pwd s') (rev q ++ [a; b])) (epath b :: cwd s :: map epath q)) as (s3 & E3 & S3 & C3 & P3).
      { unfold stack. cbn. rewrite map_app, rev_app_distr. cbn. rewrite map_rev, rev_involutive. congruence. }
      { intros p [<-|[<-|I]]; apply KU; cbn; auto. }
      rewrite E3. exists s3, (epath b :: cwd s :: map epath q), DOk. cbn in C3, P3. sp. split; [congruence|].
      exists (cwd s :: map epath q). rewrite S3. congruence.
  - (* popd *)
    cbn [effect]. unfold pop_dir.
    pose proof CS as CS'. rewrite K in CS'. apply rev_map_cons in CS' as (a & q & RV & Ea & Q). rewrite RV.
    destruct q as [|b q]; cbn in Q; rewrite <- Q in K; rewrite K in KU, KD |- *.
    + destruct (show_ok f (clean f s) [cwd s]) as (s3 & E3 & S3 & C3 & P3); [congruence|exact KU|].
      rewrite E3. exists s3, [cwd s], DOk. sp. split; [congruence|]. exists []. rewrite S3. congruence.
    + assert (IB : In (epath b) (cwd s :: epath b :: map epath q)) by (right; now left).
      destruct (KD _ IB) as (RE & FR).
      destruct (ccd_ok f home (epath b) (clean f s) F RE) as (s' & E & C' & P' & S').
      rewrite E. rewrite FR in C', P', S'.
      rewrite CS, KL, K in S'. cbn [tl] in S'.
      destruct (show_ok f (Dstate (cwd s') (pwd s') (removelast (dirs s'))) (epath b :: map epath q)) as (s3 & E3 & S3 & C3 & P3).
      { unfold stack. cbn [dirs]. rewrite map_removelast', removelast_rev_tl. fold (stack s'). now rewrite S'. }
      { intros p I. apply KU. now right. }
      rewrite E3. exists s3, (epath b :: map epath q), DOk. cbn in C3, P3. sp. split; [congruence|].
      exists (map epath q). rewrite S3. congruence.
  - (* dirs *)
    destruct b; cbn [effect].
    + rewrite K in KU, KD |- *. cbn [firstn].
      destruct (show_ok f (reset_dir_stack s) [cwd s]) as (s3 & E3 & S3 & C3 & P3).
      { unfold stack. cbn. now rewrite PW. }
      { intros p [<-|[]]. apply KU. now left. }
      rewrite E3. exists s3, [cwd s], DOk. cbn in C3, P3. sp. split; [congruence|]. exists []. rewrite S3. congruence.
    + exists (clean f s), l, DOk. cbn [show]. fold (stack (clean f s)). rewrite CS. sp.
  - exists (clean f s), [pwd (clean f s)], DOk. cbn [effect shown]. sp.
Qed.

(** In a file system nobody else changes: after any commands, the stack is consistent. *)
Theorem c31_consistent_partial : forall f home d cs,
  fs_ok f -> reachable f d -> resolved f d -> Forall (arg_exists f) cs ->
  consistent (session home (map (pair f) cs) (startup d)).
Proof.
  intros f home d cs F R Q A.
  assert (H : consistent (startup d) /\ forall p, In p (stack (startup d)) -> reachable f p /\ resolved f p).
  { split; [split; [reflexivity|now exists []]|]. intros p [<-|[]]. now split. }
  revert H. generalize (startup d). induction A as [|c cs AE A IH]; intros s (C & G); cbn [map session]; auto.
  assert (RC : reachable f (cwd s)) by (destruct C as (_ & r & ST); apply G; rewrite ST; now left).
  assert (SE : settled f (stack s)) by (intros p I _ _; destruct (G p I) as ((D & _) & X); now split).
  destruct (c31_effect_partial f home c s F C RC SE AE) as (s' & out & o & E & C' & X).
  rewrite E. cbn [fst]. apply IH. split; auto.
  assert (GK : forall p, In p (kept f (stack s)) -> reachable f p /\ resolved f p) by (intros p I; apply kept_in in I as (I & _); auto).
  assert (GR : forall p, f_isdir f p && f_access f p = true -> reachable f (f_resolve f p) /\ resolved f (f_resolve f p)).
  { intros p I. apply andb_true_iff in I as (D & AC). split; [|apply (res_idem f F)].
    unfold reachable. now rewrite (res_isdir f F), (res_access f F). }
  destruct (effect f c (kept f (stack s))) as [l|] eqn:EF.
  - destruct X as (_ & -> & _). intros p I.
    destruct c as [[|q [|? ?]]|[[|q [|? ?]]|]| |[|]|]; cbn in EF; try discriminate.
    + destruct (f_isdir f q && f_access f q) eqn:Y; [|discriminate]. injection EF as <-.
      destruct I as [<-|I]; [auto|]. apply GK. destruct (kept f (stack s)); [destruct I|now right].
    + destruct (f_isdir f q && f_access f q) eqn:Y; [|discriminate]. injection EF as <-. destruct I as [<-|I]; auto.
    + destruct (kept f (stack s)) as [|a [|b r]]; injection EF as <-; auto. apply GK. cbn in *. tauto.
    + destruct (kept f (stack s)) as [|a [|b r]]; injection EF as <-; auto. apply GK. now right.
    + injection EF as <-. apply GK. destruct (kept f (stack s)); [destruct I|]. destruct I as [<-|[]]. now left.
    + injection EF as <-. auto.
    + injection EF as <-. auto.
  - destruct X as (_ & _ & -> & _). exact GK.
Qed.

(** pushd then popd: back to the same directory and the same stack. *)
Theorem c31_pushd_popd : forall f home p s,
  fs_ok f -> consistent s -> settled f (stack s) -> reachable f (cwd s) -> reachable f p ->
  kept f (stack s) = stack s ->
  let s' := session home [(f, CPushd (Some [p])); (f, CPopd)] s in
  stack s' = stack s /\ cwd s' = cwd s /\ pwd s' = pwd s.
Proof.
  intros f home p s F C SE RC RP KS.
  destruct (c31_effect_partial f home (CPushd (Some [p])) s F C RC SE) as (s1 & o1 & x1 & E1 & C1 & X1).
  { cbn. apply (isdir_exists f F). apply RP. }
  cbn [session]. rewrite E1. cbn [fst]. cbn [effect] in X1. rewrite (reach_true _ _ RP), KS in X1.
  destruct X1 as (-> & S1 & _).
  assert (RR : reachable f (f_resolve f p)).
  { unfold reachable. now rewrite (res_isdir f F), (res_access f F). }
  assert (W : cwd s1 = f_resolve f p) by (destruct C1 as (_ & r & Y); rewrite S1 in Y; congruence).
  destruct (c31_effect_partial f home CPopd s1 F C1) as (s2 & o2 & x2 & E2 & C2 & X2).
  { now rewrite W. }
  { rewrite S1. intros q [<-|I] Hx Ha; [split; [apply RR|apply (res_idem f F)]|]. now apply SE. }
  { exact I. }
  rewrite E2. cbn [fst]. cbn [effect] in X2. rewrite S1 in X2. destruct C as (PW & r & ST).
  assert (K2 : kept f (f_resolve f p :: stack s) = f_resolve f p :: stack s).
  { cbn. destruct RR as (D & ->). rewrite (isdir_exists f F _ D). cbn. f_equal. exact KS. }
  rewrite K2, ST in X2. destruct X2 as (-> & S2 & _). destruct C2 as (P2 & r2 & Y). rewrite S2 in Y. injection Y as Y _.
  repeat split; congruence.
Qed.

(** ** What does not hold *)
(** pushd of a path that does not exist (a wildcard matching a broken link does this): the shell goes home,
    and a directory that does not exist is left at the top of the stack. *)
Definition fs1 : fsys :=
  let known p := (p =? "/") || (p =? "/home") in
  Fsys known known known (fun p => p).
Lemma fs1_ok : fs_ok fs1.
Proof. constructor; auto. Qed.

Theorem c31_missing_refuted :
  let '(s, out, o) := run_cmd fs1 "/home" (CPushd (Some ["/gone"])) (startup "/") in
  o = DOk /\ cwd s = "/home" /\ stack s = ["/"] /\ ~ consistent s.
Proof. vm_compute. repeat split; auto. intros (_ & r & E). discriminate E. Qed.

(** The current directory is deleted: it disappears from the stack but is still PWD, and then cd replaces
    another directory of the stack. *)
Theorem c31_deleted_refuted :
  let f a := Fsys (fun p => negb (p =? a)) (fun p => negb (p =? a)) (fun p => negb (p =? a)) (fun p => p) in
  let s0 := startup "/a" in
  let s1 := session "/" [(f "", CPushd (Some ["/b"]))] s0 in
  let s2 := session "/" [(f "/b", CDirs false)] s1 in
  let s3 := session "/" [(f "/b", CCd ["/c"])] s1 in
  consistent s1 /\ stack s1 = ["/b"; "/a"] /\
  ~ consistent s2 /\ pwd s2 = "/b" /\ stack s2 = ["/a"] /\
  stack s3 = ["/c"].
Proof.
  vm_compute. repeat split; auto; [exists ["/a"]; reflexivity|]. intros (_ & r & E). discriminate E.
Qed.

(** pushd of a file: refused, by an exception no operator handles. *)
Theorem c31_file_crash : forall f home p s, fs_ok f -> f_exists f p = true -> f_isdir f p = false ->
  snd (run_cmd f home (CPushd (Some [p])) s) = DCrash.
Proof.
  intros f home p s F E D. cbn [run_cmd]. unfold push_dir. cbn [pushed].
  set (s2 := clean f (clean f s)). unfold top. rewrite rev_app_distr. cbn [rev app epath].
  Transparent change_current_dir. unfold change_current_dir.
  change recursion_limit with (S (pred recursion_limit)). generalize (pred recursion_limit). intros n. cbn [change].
  now rewrite (res_idem f F), (res_exists f F), (res_isdir f F), E, D.
Qed.

(** ** Cases *)
Example c31_case : fs_ok fs1 /\ reachable fs1 "/" /\ resolved fs1 "/" /\ consistent (startup "/") /\
  settled fs1 (stack (startup "/")) /\ arg_exists fs1 (CPushd (Some ["/home"])) /\
  stack (session "/home" [(fs1, CPushd (Some ["/home"])); (fs1, CPushd None)] (startup "/")) = ["/"; "/home"].
Proof.
  split; [exact fs1_ok|]. split; [now split|]. split; [reflexivity|].
  split; [split; [reflexivity|now exists []]|]. split; [|split; reflexivity].
  intros p [<-|[]] _ _. now split.
Qed.

Print Assumptions c31_pwd_is_cwd.
Print Assumptions c31_effect_partial.
Print Assumptions c31_consistent_partial.
Print Assumptions c31_pushd_popd.
Print Assumptions c31_missing_refuted.
Print Assumptions c31_deleted_refuted.
Print Assumptions c31_file_crash.
