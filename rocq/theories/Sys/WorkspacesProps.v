(** Workspaces on disk: C57. *)
From Verif.Sys Require Export WorkspacesStart.
Local Open Scope string_scope.
Local Open Scope list_scope.

Lemma below : forall w p, (forall q x, there (q ++ [x]) w -> look q w = Some D) -> look p w = None -> forall r, look (p ++ r) w = None.
Proof.
  intros w p T N r. induction r as [ | x r IH] using rev_ind; [now rewrite app_nil_r | ].
  rewrite app_assoc. destruct (look ((p ++ r) ++ [x]) w) eqn:E; [ | reflexivity].
  assert (look (p ++ r) w = Some D); [ | congruence]. apply (T _ x). unfold there. congruence.
Qed.

Lemma whole_dirs : forall alive n w, tidy w -> whole alive n w -> there (place Config n) w /\ there (place Data n) w.
Proof.
  intros alive n w T W. split; [ | exact (has_data _ _ _ W)]. unfold there. rewrite (tree w T _ _ (has_startup _ _ _ W)). discriminate.
Qed.

Lemma reported_damaged : forall alive w l, tidy w -> whole alive DEF w -> reported alive w l -> forall n, In n l <-> damaged alive n w.
Proof.
  intros alive w l T WD R n. rewrite (R n). split.
  - intros [(b & b' & A & B) | (s & A & B & E & N)].
    + split; [exists b; exact A | ]. intros W. destruct (whole_dirs alive n w T W) as [X Y]. destruct b'; auto.
    + assert (s <> DEF) by (intros ->; contradiction). rewrite usable_obj in E by assumption. cbn in E. subst n. split; [ | exact N]. exists Config. exact A.
  - intros [(b & A) N].
    destruct (look (place Config n) w) eqn:EC; [ | left; exists b, Config; split; [exact A | ]; unfold there; congruence].
    destruct (look (place Data n) w) eqn:ED; [ | left; exists b, Data; split; [exact A | ]; unfold there; congruence].
    right. exists n. unfold there. split; [congruence | ]. split; [congruence | ]. split; [ | exact N].
    assert (n <> DEF) by (intros ->; contradiction). now rewrite usable_obj.
Qed.

Lemma damaged_proper : forall alive n w, tidy w -> damaged alive n w -> proper n.
Proof. intros alive n w T [(b & A) _]. destruct (named_dirs w T b (Nm n) A) as (n' & E & P & _). injection E as <-. exact P. Qed.

(** At no point of a start is anything lost, or anything of another workspace touched *)
Definition kept_safe (alive : nat -> bool) (now : string) (w w' : fs) : Prop :=
  (forall b n r e, ~ marker_path (place b n ++ r) -> look (place b n ++ r) w = Some e ->
     look (place b n ++ r) w' = Some e \/ look (aside b now n ++ r) w' = Some e) /\
  (forall b n r, ~ damaged alive n w -> ~ marker_path (place b n ++ r) -> look (place b n ++ r) w' = look (place b n ++ r) w) /\
  (forall p, (forall b n r, p <> place b n ++ r) -> (forall b r, p <> [root b; Nm "broken"; Nm now] ++ r) -> look p w' = look p w).

Lemma startup_wp : forall pid alive now w, tidy w -> whole alive DEF w -> (forall b, free [root b; Nm "broken"; Nm now] w) ->
  wp (kept_safe alive now w)
     (fun l w' =>
       (forall n, In n l <-> damaged alive n w) /\
       (forall n, damaged alive n w -> absent n w' /\
          forall b r, ~ marker_path (place b n ++ r) -> look (aside b now n ++ r) w' = look (place b n ++ r) w) /\
       (forall n, whole alive n w -> whole alive n w' /\ exists m, live alive m /\ file (place Config n ++ [Mark m]) w'))
     (fun _ _ => False) (startup pid alive now) w.
Proof.
  intros pid alive now w T WD FR. unfold startup. apply wp_bind.
  assert (SAFE : forall w', same_but_markers w w' -> kept_safe alive now w w').
  { intros w' S. split; [ | split].
    - intros b n r e N E. left. rewrite (S _ N). exact E.
    - intros b n r _ N. apply (S _ N).
    - intros p N _. apply S. intros (n & m & ->). destruct (N Config n [Mark m] eq_refl). }
  eapply wp_weaken; [apply (validate_all_ok pid alive w T) | exact SAFE | | intros ? ? ? []].
  cbn beta. intros l v _ (R & SB & ST & AL). pose proof (reported_damaged alive w l T WD R) as RD.
  assert (NM : forall b s, ~ marker_path (place b s)).
  { intros b s (n & m & E). discriminate E. }
  assert (TV : forall b s r, look (place b s) v = None -> look (place b s ++ r) v = None).
  { intros b s r E. rewrite (SB _ (NM b s)) in E. pose proof (below w (place b s) (tree w T) E) as B. destruct b.
    - rewrite (AL s); [apply B | ]. unfold there. congruence.
    - rewrite SB; [apply B | ]. intros (n & m & X). discriminate X. }
  assert (I0 : inv now v (fun _ _ => false) v).
  { assert (FV : forall b r, look ([root b; Nm "broken"; Nm now] ++ r) v = None).
    { intros b r. rewrite SB; [apply FR | ]. intros (n & m & X). discriminate X. }
    constructor; try discriminate; auto.
    - intros b s x r _. apply (FV b (Nm s :: x :: r)).
    - intros b. left. apply (FV b []).
    - intros b s. left. apply (FV b [Nm s]). }
  apply wp_bind. eapply wp_weaken; [apply (each_aside now l l v (fun _ _ => false) v) | | | intros ? ? ? []].
  - intros b s X. discriminate X.
  - apply incl_refl.
  - exact I0.
  - exact TV.
  - intros s I. apply RD in I. eapply damaged_proper; eassumption.
  - intros w' (M & WI & I). split; [ | split].
    + intros b n r e N E. rewrite <- (SB _ N) in E. destruct (M b n) eqn:Z.
      * right. rewrite (moved _ _ _ _ I) by assumption. exact E.
      * left. rewrite (kept _ _ _ _ I) by assumption. exact E.
    + intros b n r ND N. assert (Z : M b n = false).
      { destruct (M b n) eqn:Z; [ | reflexivity]. destruct ND. apply RD, (WI _ _ Z). }
      rewrite (kept _ _ _ _ I) by assumption. apply (SB _ N).
    + intros p N N'. rewrite (rest _ _ _ _ I); [ | exact N | intros b r; apply N'].
      apply SB. intros (n & m & ->). destruct (N Config n [Mark m] eq_refl).
  - cbn beta. intros _ w' SI I.
    assert (KS : kept_safe alive now w w').
    { destruct SI as (M & WI & I'). split; [ | split].
      + intros b n r e N E. rewrite <- (SB _ N) in E. destruct (M b n) eqn:Z.
        * right. rewrite (moved _ _ _ _ I') by assumption. exact E.
        * left. rewrite (kept _ _ _ _ I') by assumption. exact E.
      + intros b n r ND N. assert (Z : M b n = false).
        { destruct (M b n) eqn:Z; [ | reflexivity]. destruct ND. apply RD, (WI _ _ Z). }
        rewrite (kept _ _ _ _ I') by assumption. apply (SB _ N).
      + intros p N N'. rewrite (rest _ _ _ _ I'); [ | exact N | intros b r; apply N'].
        apply SB. intros (n & m & ->). destruct (N Config n [Mark m] eq_refl). }
    split; [exact KS | ]. split; [exact RD | ]. split.
    + intros n Dn. apply RD in Dn. apply mem_in in Dn. split.
      * intros b r. apply (gone _ _ _ _ I). now rewrite Dn.
      * intros b r N. rewrite (moved _ _ _ _ I) by now rewrite Dn. apply (SB _ N).
    + intros n W. assert (Z : forall b : side, false || mem n l = false).
      { intros _. cbn. destruct (mem n l) eqn:Z; [ | reflexivity]. apply mem_in, RD in Z. destruct Z. contradiction. }
      assert (AV : alike n v w') by (intros b r; apply (kept _ _ _ _ I), Z, b).
      destruct (whole_dirs alive n w T W) as [TC TD]. destruct (ST n TC TD) as [STn MFn].
      assert (MV : markers_of n w v \/ True) by auto. clear MV.
      assert (WV : whole alive n v).
      { destruct W. constructor.
        - unfold there. rewrite SB; [assumption | intros (x & m & E); apply (place_inj Config n _ Config x) in E; destruct E as (_ & _ & E); discriminate E].
        - intros x TX. destruct x as [z | m | q]; [ | eauto | ]; apply config_only; unfold there in *; rewrite <- SB; try assumption;
            intros (y & m & E); apply (place_inj Config n _ Config y) in E; destruct E as (_ & _ & E); discriminate E.
        - intros m m' L L' X Y. apply STn in X. apply STn in Y.
          destruct X as [[_ X] | [-> X]], Y as [[_ Y] | [-> Y]]; [auto | destruct (Y m L X) | destruct (X m' L' Y) | reflexivity].
        - unfold there. rewrite SB; [assumption | apply NM].
        - intros N. destruct (has_state N) as [X Y]. unfold there. rewrite !SB; [auto | intros (x & m & E); discriminate E | intros (x & m & E); discriminate E].
        - unfold there. rewrite SB; [assumption | intros (x & m & E); discriminate E].
        - rewrite SB; [assumption | intros (x & m & E); discriminate E].
        - intros x X. apply data_only. unfold there in *. rewrite SB in X; [assumption | intros (y & m & E); discriminate E]. }
      split; [apply (alike_whole alive n v w' AV); exact WV | ].
      destruct (settled_marker alive n w v STn) as (m & L & TM). exists m. split; [exact L | ].
      destruct (MFn m TM) as (t & E). exists t. now rewrite (AV Config).
Qed.

Theorem c57_start : forall pid alive now w,
  tidy w -> whole alive DEF w -> (forall b, free [root b; Nm "broken"; Nm now] w) ->
  exists l w', run (startup pid alive now) w = (Ok l, w') /\
    (forall n, In n l <-> damaged alive n w) /\
    (forall n, damaged alive n w -> absent n w' /\
       forall b r, ~ marker_path (place b n ++ r) -> look (aside b now n ++ r) w' = look (place b n ++ r) w) /\
    (forall n, whole alive n w -> whole alive n w' /\ exists m, live alive m /\ file (place Config n ++ [Mark m]) w') /\
    kept_safe alive now w w'.
Proof.
  intros pid alive now w T WD FR. pose proof (wp_run _ _ _ _ _ _ (startup_wp pid alive now w T WD FR)) as H.
  destruct (run (startup pid alive now) w) as [[l | e] w']; [ | destruct H as [_ []]]. destruct H as (KS & H1 & H2 & H3). exists l, w'. auto.
Qed.

Theorem c57_start_interrupted : forall pid alive now w w',
  tidy w -> whole alive DEF w -> (forall b, free [root b; Nm "broken"; Nm now] w) ->
  In w' (states (startup pid alive now) w) -> kept_safe alive now w w'.
Proof. intros pid alive now w w' T WD FR. apply (wp_states _ _ _ _ _ _ (startup_wp pid alive now w T WD FR)). Qed.
