(** What creating, opening, closing and deleting do to all workspaces together. *)
From Verif.Sys Require Export WorkspacesCases WsOpSpec.
From Coq Require Import Sorted Permutation.
Local Open Scope string_scope.
Local Open Scope list_scope.

Lemma run_catch : forall A (p : prog A) h w,
  run (catch p h) w = match run p w with (Ok a, w') => (Ok a, w') | (Raise e, w') => run (h e) w' end.
Proof. intros A p h. induction p as [a | e | x k IH | k IH]; intros w; cbn [catch run]; auto. Qed.

Definition info := string -> option ((option nat -> bool) * string * option string).
Definition is_at (n : string) (x : option ((option nat -> bool) * string * option string)) (w : fs) : Prop :=
  match x with
  | None => absent n w
  | Some (mk, e, h) => exists st hist res, contents n mk st e (pickle_home h) hist res w
  end.
Definition stored (f : info) (w : fs) : Prop := forall n, usable n -> is_at n (f n) w.
Definition put (f : info) (n : string) x : info := fun m => if String.eqb m n then x else f m.

Section Disk.
Variable pid : nat.
Variable alive : nat -> bool.
Hypothesis AL : alive pid = true.

Record ground (d : option entry) (w : fs) : Prop := {
  g_tidy : tidy w;
  g_broken : forall b, look [root b; Nm "broken"] w = Some D;
  g_startup : exists t, look (place Config DEF ++ [Nm "startup.py"]) w = Some (F t);
  g_data : look (place Data DEF) w = Some D;
  g_env : look (place Data DEF ++ [EnvOf pid]) w = d;
  g_env_file : d <> Some D
}.

Lemma config_tree : forall mk st r x, config_files mk st (r ++ [x]) <> None -> config_files mk st r = Some D.
Proof. intros mk st r x H. destruct r as [ | y r]; [reflexivity | ]. destruct y as [z | m | q], r as [ | y' r]; cbn in H; congruence. Qed.
Lemma data_tree : forall e p hist res r x, data_files e p hist res (r ++ [x]) <> None -> data_files e p hist res r = Some D.
Proof.
  intros e p hist res r x H. destruct r as [ | y r]; [reflexivity | ]. destruct y as [z | m | q]; [ | destruct r as [ | y' [ | y'' r]]; cbn in H; congruence | destruct r as [ | y' [ | y'' r]]; cbn in H; congruence].
  destruct r as [ | y' r]; [ | destruct r; cbn in H; congruence]. cbn in *. destruct (String.eqb_spec z "reservoirs") as [-> | ]; [reflexivity | congruence].
Qed.

Lemma outside_other : forall n m b r, m <> n -> forall b' r', place b m ++ r <> place b' n ++ r'.
Proof. intros n m b r N b' r' E. apply place_inj in E. destruct E as (_ & E & _). contradiction. Qed.
Lemma is_at_same : forall n m x w w', same_outside n w w' -> m <> n -> is_at m x w -> is_at m x w'.
Proof.
  intros n m x w w' S N H. assert (E : forall b r, look (place b m ++ r) w' = look (place b m ++ r) w) by (intros; apply S, outside_other; exact N).
  destruct x as [[[mk e] h] | ]; cbn [is_at] in *.
  - destruct H as (st & hist & res & [C DD]). exists st, hist, res. split; intros r; rewrite E; auto.
  - intros b r. rewrite E. apply H.
Qed.

Lemma tidy_same : forall n x w w', usable n -> tidy w -> same_outside n w w' -> is_at n x w' -> tidy w'.
Proof.
  intros n x w w' [PR ND] T S H.
  assert (IN : forall p, (exists b r, p = place b n ++ r) \/ forall b r, p <> place b n ++ r).
  { intros p. destruct (after (place Config n) p) as [r | ] eqn:A; [apply after_some in A; eauto | ].
    destruct (after (place Data n) p) as [r | ] eqn:B; [apply after_some in B; eauto | ].
    right. intros [ | ] r; now apply after_none. }
  assert (BD : forall b, look [root b; Nm "workspace"] w' = Some D).
  { intros b. rewrite S; [apply (base_dirs w T) | ]. intros b' r E. destruct b, b'; discriminate E. }
  assert (TR : forall b r y, there (place b n ++ r ++ [y]) w' -> look (place b n ++ r) w' = Some D).
  { intros b r y TH. unfold there in TH. destruct x as [[[mk e] h] | ]; cbn [is_at] in H.
    - destruct H as (st & hist & res & [C DD]). destruct b; [rewrite C in * | rewrite DD in *].
      + eapply config_tree; exact TH.
      + eapply data_tree; exact TH.
    - rewrite H in TH. congruence. }
  constructor.
  - intros p y TH. destruct (IN (p ++ [y])) as [(b & r & E) | N].
    + destruct r as [ | z r _] using rev_ind.
      * rewrite app_nil_r in E. change (place b n) with ([root b; Nm "workspace"] ++ [Nm n]) in E. apply app_inj_tail in E. destruct E as [-> _]. apply BD.
      * rewrite app_assoc in E. apply app_inj_tail in E. destruct E as [-> <-]. eapply TR. rewrite <- app_assoc in TH. exact TH.
    + unfold there in TH. rewrite (S _ N) in TH. pose proof (tree w T p y TH) as L. rewrite S; [exact L | ].
      intros b r ->. apply (N b (r ++ [y])). now rewrite app_assoc.
  - intros b y TH. destruct (IN [root b; Nm "workspace"; y]) as [(b' & r & E) | N].
    + destruct r as [ | ? r]; [ | destruct r; discriminate E]. rewrite app_nil_r in E.
      assert (b = b' /\ y = Nm n) as [<- ->] by (unfold place in E; destruct b, b'; cbn in E; split; congruence).
      exists n. split; [reflexivity | ]. split; [exact PR | ].
      unfold there in TH. change [root b; Nm "workspace"; Nm n] with (place b n) in TH. destruct x as [[[mk e] h] | ]; cbn [is_at] in H.
      * destruct H as (st & hist & res & [C DD]). destruct b; [specialize (C []) | specialize (DD [])]; rewrite app_nil_r in *; [exact C | exact DD].
      * specialize (H b []). rewrite app_nil_r in H. congruence.
    + unfold there in TH. rewrite (S _ N) in TH. destruct (named_dirs w T b y TH) as (m & -> & P & L). exists m. split; [reflexivity | ]. split; [exact P | ].
      rewrite S; [exact L | ]. exact N.
  - intros m k TH. destruct (string_dec m n) as [-> | NE].
    + destruct x as [[[mk e] h] | ]; cbn [is_at] in H.
      * destruct H as (st & hist & res & [C DD]). unfold there, file in *. rewrite C in *. cbn [config_files] in *. destruct (mk k); [eauto | congruence].
      * unfold there in TH. now rewrite H in TH.
    + assert (E : look (place Config m ++ [Mark k]) w' = look (place Config m ++ [Mark k]) w) by (apply S, outside_other; exact NE).
      unfold there, file in *. rewrite E in *. apply (marker_files w T). exact TH.
  - exact BD.
Qed.

(** A change of one named workspace *)
Lemma stored_put : forall d f n x w w', ground d w -> stored f w -> usable n -> same_outside n w w' -> is_at n x w' ->
  ground d w' /\ stored (put f n x) w'.
Proof.
  intros d f n x w w' G ST U S H. assert (ND : DEF <> n) by (intros <-; now destruct U). split.
  - constructor.
    + eapply tidy_same; eauto. apply (g_tidy d w G).
    + intros b. rewrite S; [apply (g_broken d w G) | ]. intros b' r E. destruct b, b'; discriminate E.
    + destruct (g_startup d w G) as (t & E). exists t. rewrite S; [exact E | ]. apply outside_other, ND.
    + rewrite S; [apply (g_data d w G) | ]. intros b' r E. rewrite <- (app_nil_r (place Data DEF)) in E. revert E. apply outside_other, ND.
    + rewrite S; [apply (g_env d w G) | ]. apply outside_other, ND.
    + apply (g_env_file d w G).
  - intros m UM. unfold put. destruct (String.eqb_spec m n) as [-> | N]; [exact H | ]. eapply is_at_same; eauto.
Qed.

Section Named.
Variable n : string.
Hypothesis U : usable n.

Lemma exists_named : forall f w mk e h, stored f w -> f n = Some (mk, e, h) -> (exists m, mk m = true) -> ws_exists (named n) w = true.
Proof.
  intros f w mk e h ST E M. specialize (ST n U). rewrite E in ST. destruct ST as (st & hist & res & C). apply contents_view in C.
  eapply (exists_marks n (proj1 U)); [exact C | intros r; reflexivity | exact M].
Qed.
Lemma exists_absent : forall f w, stored f w -> f n = None -> ws_exists (named n) w = false.
Proof.
  intros f w ST E. specialize (ST n U). rewrite E in ST. unfold ws_exists. cbn [named default_class]. fold (named n).
  destruct (marker_exists (named n) w) eqn:M; [ | reflexivity]. apply marker_exists_there in M. destruct M as (m & M). rewrite (config_dir_named n (proj1 U)) in M.
  unfold there in M. rewrite (ST Config) in M. congruence.
Qed.

Lemma create_all : forall d f w, ground d w -> stored f w -> f n = None ->
  exists w', run (create pid (named n) (pickle_home None)) w = (Ok tt, w') /\ ground d w' /\ stored (put f n (Some (nobody, empty_env, None))) w'.
Proof.
  intros d f w G ST E. pose proof (ST n U) as A. rewrite E in A. destruct (g_startup d w G) as (t & L).
  destruct (c57_create pid alive n (pickle_home None) t w U (g_tidy d w G) A L) as (w' & R & C & _). exists w'. split; [exact R | ].
  eapply stored_put; eauto.
  - apply (proj1 (c57_own_files_only pid alive n (proj1 U)) (pickle_home None)). rewrite <- (f_equal snd R : _ = w'). apply last_state.
  - cbn. eauto.
Qed.

Lemma open_all : forall d f w e h, ground d w -> stored f w -> f n = Some (nobody, e, h) -> e <> "" ->
  exists w', run (open pid alive (named n)) w = (Ok e, w') /\ ground d w' /\ stored (put f n (Some (held pid, e, h))) w'.
Proof.
  intros d f w e h G ST E NE. pose proof (ST n U) as A. rewrite E in A. destruct A as (st & hist & res & C).
  destruct (c57_open pid alive n nobody st e (pickle_home h) hist res w U AL (or_introl eq_refl) C NE) as (w' & R & C'); [now destruct h | ].
  exists w'. split; [exact R | ]. eapply stored_put; eauto.
  - apply (proj1 (proj2 (c57_own_files_only pid alive n (proj1 U)))). rewrite <- (f_equal snd R : _ = w'). apply last_state.
  - cbn. eauto.
Qed.

Lemma close_all : forall d f w e v h h' restart, ground d w -> stored f w -> f n = Some (held pid, e, h) ->
  exists w', run (close pid alive (named n) v (pickle_home h') restart) w = (Ok tt, w') /\ ground d w' /\ stored (put f n (Some (nobody, v, h'))) w'.
Proof.
  intros d f w e v h h' restart G ST E. pose proof (ST n U) as A. rewrite E in A. destruct A as (st & hist & res & C).
  destruct (c57_close pid alive n st e (pickle_home h) hist res v (pickle_home h') restart w U AL C) as (w' & R & C' & _).
  exists w'. split; [exact R | ]. eapply stored_put; eauto.
  - apply (proj1 (proj2 (proj2 (c57_own_files_only pid alive n (proj1 U)))) v (pickle_home h') restart). rewrite <- (f_equal snd R : _ = w'). apply last_state.
  - cbn. eauto.
Qed.

Lemma delete_all : forall d f w e h, ground d w -> stored f w -> f n = Some (nobody, e, h) ->
  exists w', run (delete pid alive (named n)) w = (Ok tt, w') /\ ground d w' /\ stored (put f n None) w'.
Proof.
  intros d f w e h G ST E. pose proof (ST n U) as A. rewrite E in A. destruct A as (st & hist & res & C).
  destruct (c57_delete pid alive n nobody st e (pickle_home h) hist res w U AL (or_introl eq_refl) C) as (w' & R & C' & _).
  exists w'. split; [exact R | ]. eapply stored_put; eauto.
  apply (proj2 (proj2 (proj2 (c57_own_files_only pid alive n (proj1 U))))). rewrite <- (f_equal snd R : _ = w'). apply last_state.
Qed.

Lemma busy_all : forall f w q e h, stored f w -> f n = Some (held q, e, h) -> alive q = true -> q <> pid ->
  run (open pid alive (named n)) w = (Raise KillCommand, w) /\ run (delete pid alive (named n)) w = (Raise KillCommand, w).
Proof.
  intros f w q e h ST E A N. specialize (ST n U). rewrite E in ST. destruct ST as (st & hist & res & C). eapply c57_in_use; eauto.
Qed.

Lemma missing_all : forall f w, stored f w -> f n = None -> run (delete pid alive (named n)) w = (Raise KillCommand, w).
Proof. intros f w ST E. unfold delete. cbn [run]. rewrite (exists_absent f w ST E). reflexivity. Qed.

(** Its home is set *)
Lemma home_all : forall d f w e h h', ground d w -> stored f w -> f n = Some (held pid, e, h) ->
  exists w', run (write_file (prop_file (named n)) (pickle_home h')) w = (Ok tt, w') /\ ground d w' /\ stored (put f n (Some (held pid, e, h'))) w'.
Proof.
  intros d f w e h h' G ST E. pose proof (ST n U) as A. rewrite E in A. destruct A as (st & hist & res & [C DD]).
  unfold prop_file. rewrite (data_dir_named n (proj1 U)). unfold write_file. cbn [run]. rewrite removelast_last.
  pose proof (DD []) as X. rewrite app_nil_r in X. rewrite (proj2 (is_dir_true _ _) X). cbn [run apply]. eexists. split; [reflexivity | ].
  eapply stored_put; eauto.
  - intros p N. rewrite !look_set. specialize (N Data [Nm "properties.pickle"]). destruct (path_dec (place Data n ++ [Nm "properties.pickle"]) p); congruence.
  - exists st, hist, res. split; intros r.
    + rewrite !look_set. destruct (path_dec (place Data n ++ [Nm "properties.pickle"]) (place Config n ++ r)) as [Y | _]; [apply place_inj in Y; destruct Y; discriminate | ]. apply C.
    + rewrite !look_set_head. destruct (path_dec [Nm "properties.pickle"] r) as [<- | NR]; [reflexivity | ]. rewrite DD.
      destruct r as [ | [z | | ] [ | y [ | ? ?]]]; try reflexivity. cbn [data_files].
      destruct (String.eqb_spec z "properties.pickle") as [-> | ]; [contradiction | ]. reflexivity.
Qed.
End Named.

(** The default workspace *)
Lemma close_default : forall d f w v props, ground d w -> stored f w ->
  exists w', run (close pid alive default v props true) w = (Ok tt, w') /\ ground (Some (F v)) w' /\ stored f w'.
Proof.
  intros d f w v props G ST. unfold close. cbn [default default_class]. unfold write_file. change (env_file pid default) with (place Data DEF ++ [EnvOf pid]).
  cbn [run]. rewrite removelast_last, (proj2 (is_dir_true _ _) (g_data d w G)). cbn [run apply]. eexists. split; [reflexivity | ].
  set (w' := set _ (F v) _).
  assert (S : forall p, p <> place Data DEF ++ [EnvOf pid] -> look p w' = look p w).
  { intros p N. unfold w'. rewrite !look_set. destruct (path_dec (place Data DEF ++ [EnvOf pid]) p); congruence. }
  assert (X : look (place Data DEF ++ [EnvOf pid]) w' = Some (F v)).
  { unfold w'. rewrite look_set. destruct (path_dec (place Data DEF ++ [EnvOf pid]) (place Data DEF ++ [EnvOf pid])); congruence. }
  clearbody w'. split.
  - assert (ND : d <> Some D) by apply (g_env_file d w G).
    constructor; [ | intros b; rewrite S; [apply (g_broken d w G) | destruct b; discriminate] | | rewrite S; [apply (g_data d w G) | discriminate] | exact X | discriminate].
    + pose proof (g_tidy d w G) as T. constructor.
      * intros p x TH. destruct (path_dec (p ++ [x]) (place Data DEF ++ [EnvOf pid])) as [E | N].
        -- apply app_inj_tail in E. destruct E as [-> ->]. rewrite S; [apply (g_data d w G) | discriminate].
        -- unfold there in TH. rewrite (S _ N) in TH. rewrite S; [apply (tree w T p x TH) | ].
           intros ->. apply ND. rewrite <- (g_env d w G). apply (tree w T _ x TH).
      * intros b x TH. assert (E : forall b x, look [root b; Nm "workspace"; x] w' = look [root b; Nm "workspace"; x] w) by (intros; apply S; discriminate).
        unfold there in TH. rewrite E in TH. destruct (named_dirs w T b x TH) as (n & -> & P & L). exists n. split; [reflexivity | ]. split; [exact P | ]. unfold place in *. now rewrite E.
      * intros n m TH. assert (E : look (place Config n ++ [Mark m]) w' = look (place Config n ++ [Mark m]) w) by (apply S; discriminate).
        unfold there, file in *. rewrite E in *. apply (marker_files w T). exact TH.
      * intros b. rewrite S; [apply (base_dirs w T) | discriminate].
    + destruct (g_startup d w G) as (t & E). exists t. rewrite S; [exact E | discriminate].
  - intros n UN. specialize (ST n UN). assert (E : forall b r, look (place b n ++ r) w' = look (place b n ++ r) w).
    { intros b r. apply S. intros Y. apply place_inj in Y. destruct Y as (_ & -> & _). now destruct UN. }
    destruct (f n) as [[[mk e] h] | ]; cbn [is_at] in *.
    + destruct ST as (st & hist & res & [C DD]). exists st, hist, res. split; intros r; rewrite E; auto.
    + intros b r. rewrite E. apply ST.
Qed.

Lemma open_default : forall d f w v, ground d w -> stored f w -> v <> "" -> d = None /\ v = empty_env \/ d = Some (F v) ->
  run (open pid alive default) w = (Ok v, w).
Proof.
  intros d f w v G ST NE DV. unfold open, lock. cbn [ws_exists default default_class run bind]. unfold read_text. change (startup_file default) with (place Config DEF ++ [Nm "startup.py"]).
  cbn [catch bind run]. destruct (g_startup d w G) as (t & ->). cbn [catch bind run]. unfold exists_, unpickle, read_text.
  change (env_file pid default) with (place Data DEF ++ [EnvOf pid]). rewrite (g_env d w G). destruct DV as [[-> ->] | ->]; [reflexivity | ].
  cbn [bind run]. rewrite (g_env _ w G). cbn [bind run]. destruct (string_dec v ""); [contradiction | ]. reflexivity.
Qed.

(** The switch to another workspace *)
Lemma switch_named_named : forall d f w c n e v h h0 e' h', usable c -> usable n -> c <> n -> ground d w -> stored f w ->
  f c = Some (held pid, e, h0) -> f n = Some (nobody, e', h') -> e' <> "" ->
  exists w', run (switch pid alive (named c) v (pickle_home h) (named n)) w = (Ok (named n, e'), w') /\ ground d w' /\ stored (put (put f c (Some (nobody, v, h))) n (Some (held pid, e', h'))) w'.
Proof.
  intros d f w c n e v h h0 e' h' UC UN NE G ST FC FN NE'. unfold switch. rewrite run_bind, run_catch.
  destruct (close_all c UC d f w e v h0 h true G ST FC) as (w1 & -> & G1 & S1). unfold start. rewrite run_catch, run_bind.
  destruct (open_all n UN d _ w1 e' h' G1 S1) as (w2 & -> & G2 & S2); [ | exact NE' | cbn [run]; eauto].
  unfold put. destruct (String.eqb_spec n c); congruence.
Qed.
Lemma switch_default_named : forall d f w n v h e' h', usable n -> ground d w -> stored f w -> f n = Some (nobody, e', h') -> e' <> "" ->
  exists w', run (switch pid alive default v (pickle_home h) (named n)) w = (Ok (named n, e'), w') /\ ground (Some (F v)) w' /\ stored (put f n (Some (held pid, e', h'))) w'.
Proof.
  intros d f w n v h e' h' UN G ST FN NE'. unfold switch. rewrite run_bind, run_catch.
  destruct (close_default d f w v (pickle_home h) G ST) as (w1 & -> & G1 & S1). unfold start. rewrite run_catch, run_bind.
  destruct (open_all n UN _ _ w1 e' h' G1 S1 FN NE') as (w2 & -> & G2 & S2). cbn [run]. eauto.
Qed.
Lemma switch_named_default : forall d f w c e v h h0 v', usable c -> ground d w -> stored f w -> f c = Some (held pid, e, h0) ->
  v' <> "" -> d = None /\ v' = empty_env \/ d = Some (F v') ->
  exists w', run (switch pid alive (named c) v (pickle_home h) default) w = (Ok (default, v'), w') /\ ground d w' /\ stored (put f c (Some (nobody, v, h))) w'.
Proof.
  intros d f w c e v h h0 v' UC G ST FC NE DV. unfold switch. rewrite run_bind, run_catch.
  destruct (close_all c UC d f w e v h0 h true G ST FC) as (w1 & -> & G1 & S1). unfold start. rewrite run_catch, run_bind.
  rewrite (open_default d _ w1 v' G1 S1 NE DV). cbn [run]. eauto.
Qed.
(** to one that another process is using *)
Lemma switch_busy : forall d f w c n q e v h h0 e' h', usable c -> usable n -> c <> n -> ground d w -> stored f w ->
  f c = Some (held pid, e, h0) -> f n = Some (held q, e', h') -> alive q = true -> q <> pid ->
  exists w', run (switch pid alive (named c) v (pickle_home h) (named n)) w = (Raise KillCommand, w') /\ ground d w' /\ stored (put f c (Some (nobody, v, h))) w'.
Proof.
  intros d f w c n q e v h h0 e' h' UC UN NE G ST FC FN A NQ. unfold switch. rewrite run_bind, run_catch.
  destruct (close_all c UC d f w e v h0 h true G ST FC) as (w1 & -> & G1 & S1). unfold start. rewrite run_catch, run_bind.
  destruct (busy_all n UN _ w1 q e' h' S1) as [-> _]; [ | exact A | exact NQ | cbn [run is_exception]; eauto].
  unfold put. destruct (String.eqb_spec n c); congruence.
Qed.
End Disk.
