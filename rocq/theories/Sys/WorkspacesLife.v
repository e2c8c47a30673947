(** The life of a workspace: C57, continued. *)
From Verif.Sys Require Export WorkspacesOps.
Local Open Scope string_scope.
Local Open Scope list_scope.

(** * Nothing but the workspace's own files is touched, at any time *)
Theorem c57_own_files_only : forall pid alive n, proper n ->
  (forall props w w', In w' (states (create pid (named n) props) w) -> same_outside n w w') /\
  (forall w w', In w' (states (open pid alive (named n)) w) -> same_outside n w w') /\
  (forall env props restart w w', In w' (states (close pid alive (named n) env props restart) w) -> same_outside n w w') /\
  (forall w w', In w' (states (delete pid alive (named n)) w) -> same_outside n w w').
Proof.
  intros pid alive n PR.
  assert (X : forall A (p : prog A), touches (of_ws n) p -> forall w w', In w' (states p w) -> same_outside n w w').
  { intros A p T w w' I q N. apply (touches_frame A (of_ws n) p w w' q T I). intros (b & r & E). exact (N b r E). }
  split; [intros props; apply X, touches_create, PR | ]. split; [apply X, touches_open, PR | ].
  split; [intros env props restart; apply X, touches_close, PR | apply X, touches_delete, PR].
Qed.

(** * Contents *)
Lemma contents_view : forall n m s e p h r w, contents n m s e p h r w <-> view n (config_files m s) (data_files e p h r) w.
Proof. intros n m s e p h r w. split; intros [A B]; split; assumption. Qed.
Lemma absent_view : forall n w, absent n w <-> view n (fun _ => None) (fun _ => None) w.
Proof. intros n w. split; [intros A; split; intros r; apply A | intros [A B] [ | ] r; [apply A | apply B]]. Qed.

Lemma contents_whole : forall alive n m s e p h r w, (forall a b, m a = true -> m b = true -> a = b) -> contents n m s e p h r w -> whole alive n w.
Proof.
  intros alive n m s e p h r w ONE [C DD]. constructor; unfold there.
  - rewrite C. discriminate.
  - intros x. rewrite C. destruct x as [z | a | q]; cbn [config_files]; [ | eauto | congruence].
    destruct (String.eqb_spec z "startup.py") as [-> | ]; [auto | congruence].
  - intros a b _ _. rewrite !C. cbn [config_files]. destruct (m a) eqn:A; [ | congruence]. destruct (m b) eqn:B; [ | congruence]. auto.
  - pose proof (DD []) as X. rewrite app_nil_r in X. rewrite X. discriminate.
  - intros _. rewrite !DD. split; discriminate.
  - rewrite DD. discriminate.
  - rewrite DD. reflexivity.
  - intros x. rewrite DD. destruct x as [z | a | q]; cbn [data_files]; [ | congruence | congruence].
    destruct (String.eqb_spec z "env.pickle") as [-> | ]; [intros _; left; cbn; auto | ].
    destruct (String.eqb_spec z "properties.pickle") as [-> | ]; [intros _; left; cbn; auto | ].
    destruct (String.eqb_spec z "history") as [-> | ]; [intros _; left; cbn; auto | ].
    destruct (String.eqb_spec z "reservoirs") as [-> | ]; [intros _; left; cbn; auto | ]. congruence.
Qed.

Ltac rest_of r :=
  destruct r as [ | [?x | ?m | ?q] [ | ?y ?r]]; cbn [config_files data_files option_map nobody]; try reflexivity; try congruence.
Ltac eqbs := repeat match goal with |- context [String.eqb ?a ?b] => destruct (String.eqb_spec a b); subst; try congruence end; try reflexivity.

(** * Creation *)
Theorem c57_create : forall pid alive n props s w,
  usable n -> tidy w -> absent n w -> look (place Config DEF ++ [Nm "startup.py"]) w = Some (F s) ->
  exists w', run (create pid (named n) props) w = (Ok tt, w') /\
    contents n nobody s empty_env props "" no_reservoirs w' /\
  forall w'', In w'' (states (create pid (named n) props) w) ->
    absent n w'' \/ damaged alive n w'' \/ contents n nobody s empty_env props "" no_reservoirs w''.
Proof.
  intros pid alive n props s w [PR ND] T AB ST.
  set (R := fun c d : path -> option entry => ((forall r, c r = None) /\ (forall r, d r = None)) \/ (c [] <> None /\ d [Nm "history"] = None) \/
              ((forall r, c r = config_files nobody s r) /\ (forall r, d r = data_files empty_env props "" no_reservoirs r))).
  assert (W : wp (some_view n R) (fun _ w' => contents n nobody s empty_env props "" no_reservoirs w') (fun _ _ => False)
                 (create pid (named n) props) w).
  { apply absent_view in AB. unfold create, create_on_disk. change (dir_name (named n)) with n. rewrite (comps_proper n PR).
    change (startup_file default) with (place Config DEF ++ [Nm "startup.py"]).
    change (env_file pid (named n)) with (data_dir (named n) ++ [Nm "env.pickle"]). cbn [make_dirs].
    change (default_class (named n)) with false. cbn iota. paths n PR.
    change (config_ws ++ [Nm n]) with (place Config n). change (data_ws ++ [Nm n]) with (place Data n).
    pose (none := fun _ : path => @None entry). fold none in AB.
    assert (R0 : R none none) by (left; split; reflexivity).
    assert (P0 : some_view n R w) by (exists none, none; auto).
    apply wp_bind. unfold read_text. split; [exact P0 | ]. rewrite ST. split; [exact P0 | ].
    apply wp_bind. split; [exact P0 | ].
    pose proof (vc _ _ _ _ AB []) as L. rewrite app_nil_r in L. rewrite L. unfold none at 1. split; [exact P0 | ].
    pose proof (view_set_c n none none w [] D AB) as V1. rewrite app_nil_r in V1. cbn [apply].
    assert (RM : forall c d, c [] <> None -> d [Nm "history"] = None -> R c d) by (intros; right; left; auto).
    Ltac mid RM := apply RM; upds.
    split; [exists (upd none [] (Some D)), none; split; [exact V1 | mid RM] | ].
    apply wp_bind. eapply wp_write_c; [exact V1 | mid RM | upds | mid RM | mid RM | ]. intros w2 V2.
    apply wp_bind. eapply wp_touch_c; [exact V2 | mid RM | upds | upds | mid RM | ]. intros w3 V3.
    match type of V3 with view _ ?c _ _ => assert (PM : some_view n R w3) by (exists c, none; split; [exact V3 | mid RM]) end.
    apply wp_bind. split; [exact PM | ]. pose proof (vd _ _ _ _ V3 []) as L3. rewrite app_nil_r in L3. rewrite L3. unfold none at 1. split; [exact PM | ].
    pose proof (view_set_d n _ none w3 [] D V3) as V4. rewrite app_nil_r in V4. cbn [apply].
    match type of V4 with view _ ?c ?d ?w => assert (PM4 : some_view n R w) by (exists c, d; split; [exact V4 | mid RM]) end.
    split; [exact PM4 | ]. apply wp_bind. split; [exact PM4 | ].
    rewrite (vd _ _ _ _ V4). replace (upd none [] (Some D) [Nm "reservoirs"]) with (@None entry) by upds. split; [exact PM4 | ].
    pose proof (view_set_d n _ _ _ [Nm "reservoirs"] D V4) as V5. cbn [apply].
    match type of V5 with view _ ?c ?d ?w => assert (PM5 : some_view n R w) by (exists c, d; split; [exact V5 | mid RM]) end.
    split; [exact PM5 | ]. apply wp_bind.
    eapply wp_write_d; [exact V5 | mid RM | upds | mid RM | mid RM | ]. intros w6 V6.
    apply wp_bind. eapply wp_write_d; [exact V6 | mid RM | upds | mid RM | mid RM | ]. intros w7 V7.
    match type of V7 with view _ ?c ?d _ =>
      assert (EC : forall r, c r = config_files nobody s r);
      [ | assert (ED : forall r, upd d [Nm "history"] (Some (F "")) r = data_files empty_env props "" no_reservoirs r)] end.
    { intros r. upds. unfold none. rest_of r; [eqbs | ]. destruct m; [reflexivity | congruence]. }
    { intros r. upds. unfold none. rest_of r; [eqbs | ]. destruct r; [ | reflexivity]. eqbs. }
    eapply wp_touch_d; [exact V7 | mid RM | upds | upds | right; right; auto | ]. intros w8 V8. apply contents_view.
    eapply view_ext; [exact V8 | exact EC | exact ED]. }
  pose proof (wp_run _ _ _ _ _ _ W) as H. destruct (run (create pid (named n) props) w) as [[[] | e] w']; [ | destruct H as [_ []]].
  exists w'. split; [reflexivity | ]. split; [apply H | ].
  intros w'' I. apply (wp_states _ _ _ _ _ _ W) in I. destruct I as (c & d & V & [[A B] | [[A B] | [A B]]]).
  - left. apply absent_view. eapply view_ext; [exact V | exact A | exact B].
  - right. left. split.
    + exists Config. unfold there. pose proof (vc _ _ _ _ V []) as X. rewrite app_nil_r in X. now rewrite X.
    + intros X. apply (has_history _ _ _ X). rewrite (vd _ _ _ _ V). exact B.
  - right. right. apply contents_view. eapply view_ext; [exact V | exact A | exact B].
Qed.

(** * Opening and closing *)
Theorem c57_open : forall pid alive n marks s e p h r w,
  usable n -> alive pid = true -> marks = nobody \/ marks = held pid -> contents n marks s e p h r w -> e <> "" -> p <> "" ->
  exists w', run (open pid alive (named n)) w = (Ok e, w') /\ contents n (held pid) s e p h r w'.
Proof.
  intros pid alive n marks s e p h r w [PR ND] AL MK C NE NP. apply contents_view in C.
  assert (W : wp (some_view n (fun _ _ => True)) (fun v w' => v = e /\ contents n (held pid) s e p h r w') (fun _ _ => False) (open pid alive (named n)) w).
  { unfold open. split; [eexists _, _; split; [exact C | exact I] | ].
    rewrite (exists_marks n PR _ _ w s marks C (fun r => eq_refl)).
    2: { destruct MK as [-> | ->]; [exists None; reflexivity | exists (Some pid); apply Nat.eqb_refl]. }
    change (env_file pid (named n)) with (data_dir (named n) ++ [Nm "env.pickle"]). change (default_class (named n)) with false. cbn iota. paths n PR.
    apply wp_bind. eapply wp_lock with (marks := marks) (s := s); [exact PR | exact C | exact I | intros x; reflexivity | | auto | ].
    { destruct MK as [-> | ->]; auto. }
    intros w1 V1. cbn iota. apply wp_bind. eapply wp_unpickle_d; [exact V1 | exact I | reflexivity | exact NP | ].
    apply wp_bind, wp_catch. eapply wp_read_c; [exact V1 | exact I | reflexivity | ].
    eapply wp_unpickle_d; [exact V1 | exact I | reflexivity | exact NE | ]. split; [reflexivity | ]. now apply contents_view. }
  apply wp_run in W. destruct (run _ w) as [[v | x] w']; [ | destruct W as [_ []]]. destruct W as (_ & -> & W). exists w'. auto.
Qed.

(** A workspace that another process has open cannot be opened, and nothing happens to it *)
Theorem c57_in_use : forall pid alive n q s e p h r w,
  usable n -> alive q = true -> q <> pid -> contents n (held q) s e p h r w ->
  run (open pid alive (named n)) w = (Raise KillCommand, w) /\ run (delete pid alive (named n)) w = (Raise KillCommand, w).
Proof.
  intros pid alive n q s e p h r w [PR ND] AL NQ C. apply contents_view in C.
  assert (L : forall (A : Type) (k : bool -> prog A) x, wp (fun w' => w' = w) (fun _ _ => False) (fun y _ => y = x) (k false) w ->
     wp (fun w' => w' = w) (fun _ _ => False) (fun y _ => y = x) (bind (lock pid alive (named n)) k) w).
  { intros A k x K. apply wp_bind. unfold lock. change (default_class (named n)) with false. cbn iota. apply wp_bind.
    assert (O : wp (some_view n (fun _ _ => True)) (fun o w' => o = Some q) (fun _ _ => False) (owner alive (named n)) w).
    { eapply wp_owner_held with (q := q); [exact PR | exact C | exact I | discriminate | | exact AL | reflexivity].
      apply (has_held _ s). intros y; reflexivity. }
    clear O. unfold owner. paths n PR. split; [reflexivity | ]. unfold exists_. rewrite (vc _ _ _ _ C). cbn [config_files held].
    pose proof (vc _ _ _ _ C []) as L0. rewrite app_nil_r in L0. rewrite L0. cbn [config_files negb].
    pose proof (has_held (config_files (held q) s) s q (fun _ => eq_refl)) as HM.
    apply wp_bind. unfold delete_abandoned_markers. paths n PR. split; [reflexivity | ].
    set (f := fun x => match x with Mark (Some q) => if alive q then Ret tt else unlink (place Config n ++ [x]) false | _ => Ret tt end).
    assert (X : forall l, incl l (children (place Config n) w) -> forall (Q : unit -> fs -> Prop) E, Q tt w -> wp (fun w' => w' = w) Q E (each l f) w).
    { induction l as [ | y l IH]; intros IC Q E KQ; cbn [each]; [split; [reflexivity | exact KQ] | ].
      assert (S : f y = Ret tt).
      { destruct y as [ | [q' | ] | ]; try reflexivity. assert (IX : In (Mark (Some q')) (children (place Config n) w)) by (apply IC; left; reflexivity).
        apply in_children in IX. rewrite (vc _ _ _ _ C) in IX. apply HM in IX. injection IX as ->. cbn. now rewrite AL. }
      rewrite S. apply wp_bind. split; [reflexivity | ]. apply IH; [intros z Z; apply IC; right; exact Z | exact KQ]. }
    apply X; [apply incl_refl | ]. split; [reflexivity | ].
    rewrite (singleton _ (filter is_mark (children (place Config n) w)) (Mark (Some q))).
    - split; [reflexivity | ]. destruct (Nat.eqb_spec q pid); [contradiction | ]. rewrite AL. split; [reflexivity | exact K].
    - apply NoDup_filter, children_nodup.
    - intros y. rewrite filter_In, in_children, (vc _ _ _ _ C). split.
      + intros [IY M]. destruct y as [ | m | ]; try discriminate. apply HM in IY. congruence.
      + intros ->. split; [now apply HM | reflexivity]. }
  assert (EX : ws_exists (named n) w = true).
  { apply (exists_marks n PR _ _ w s (held q) C (fun r => eq_refl)). exists (Some q). apply Nat.eqb_refl. }
  assert (Z : forall A (p : prog A), wp (fun w' => w' = w) (fun _ _ => False) (fun y _ => y = KillCommand) p w -> run p w = (Raise KillCommand, w)).
  { intros A x W. apply wp_run in W. destruct (run x w) as [[a | y] w']; [destruct W as [_ []] | ]. destruct W as [-> ->]. reflexivity. }
  split; apply Z; [unfold open | unfold delete]; (split; [reflexivity | ]); rewrite EX; apply L; split; reflexivity.
Qed.

(** Closing stores the variables.  When it is interrupted, they, or the properties, may be lost, but nothing else *)
Theorem c57_close : forall pid alive n s e p h r env props restart w,
  usable n -> alive pid = true -> contents n (held pid) s e p h r w ->
  exists w', run (close pid alive (named n) env props restart) w = (Ok tt, w') /\ contents n nobody s env props h r w' /\
  forall w'', In w'' (states (close pid alive (named n) env props restart) w) ->
    exists marks e' p', (marks = held pid \/ marks = nobody) /\ In e' [e; ""; env] /\ In p' [p; ""; props] /\ contents n marks s e' p' h r w''.
Proof.
  intros pid alive n s e p h r env props restart w [PR ND] AL C. apply contents_view in C.
  set (R := fun c d : path -> option entry => exists marks e' p', (marks = held pid \/ marks = nobody) /\ In e' [e; ""; env] /\ In p' [p; ""; props] /\
              (forall x, c x = config_files marks s x) /\ (forall x, d x = data_files e' p' h r x)).
  assert (RI : forall c d marks e' p', (marks = held pid \/ marks = nobody) -> In e' [e; ""; env] -> In p' [p; ""; props] ->
                (forall x, c x = config_files marks s x) -> (forall x, d x = data_files e' p' h r x) -> R c d).
  { intros c d marks e' p' H1 H2 H3 H4 H5. exists marks, e', p'. auto. }
  assert (R0 : R (config_files (held pid) s) (data_files e p h r)) by (apply (RI _ _ (held pid) e p); cbn; auto).
  assert (UP : forall t x, upd (data_files e p h r) [Nm "properties.pickle"] (Some (F t)) x = data_files e t h r x).
  { intros t x. upds. rest_of x. eqbs. }
  assert (UE : forall t x, upd (data_files e props h r) [Nm "env.pickle"] (Some (F t)) x = data_files t props h r x).
  { intros t x. upds. rest_of x. eqbs. }
  assert (W : wp (some_view n R) (fun _ w' => contents n nobody s env props h r w') (fun _ _ => False) (close pid alive (named n) env props restart) w).
  { unfold close. change (env_file pid (named n)) with (data_dir (named n) ++ [Nm "env.pickle"]). change (default_class (named n)) with false. cbn iota. paths n PR.
    apply wp_bind. eapply wp_lock with (marks := held pid) (s := s); [exact PR | exact C | exact R0 | intros x; reflexivity | auto | auto | ].
    intros w1 V1. cbn iota. apply wp_bind.
    eapply wp_write_d; [exact V1 | exact R0 | reflexivity | | | ].
    { apply (RI _ _ (held pid) e ""); cbn [In]; auto. }
    { apply (RI _ _ (held pid) e props); cbn [In]; auto. }
    intros w2 V2. pose proof (view_ext _ _ _ _ _ _ V2 (fun r => eq_refl) (UP props)) as V2'. apply wp_bind.
    eapply wp_write_d; [exact V2' | | reflexivity | | | ].
    { apply (RI _ _ (held pid) e props); cbn [In]; auto. }
    { apply (RI _ _ (held pid) "" props); cbn [In]; auto. }
    { apply (RI _ _ (held pid) env props); cbn [In]; auto. }
    intros w3 V3. pose proof (view_ext _ _ _ _ _ _ V3 (fun r => eq_refl) (UE env)) as V3'.
    eapply wp_unlock with (s := s); [exact PR | exact V3' | | intros x; reflexivity | exact AL | | ].
    { apply (RI _ _ (held pid) env props); cbn [In]; auto. }
    { apply (RI _ _ nobody env props); cbn [In]; auto. }
    intros w4 V4. now apply contents_view. }
  pose proof (wp_run _ _ _ _ _ _ W) as H. destruct (run _ w) as [[[] | x] w']; [ | destruct H as [_ []]].
  exists w'. split; [reflexivity | ]. split; [apply H | ]. intros w'' I. apply (wp_states _ _ _ _ _ _ W) in I.
  destruct I as (c & d & V & marks & e' & p' & H1 & H2 & H3 & H4 & H5). exists marks, e', p'. split; [exact H1 | ]. split; [exact H2 | ]. split; [exact H3 | ].
  apply contents_view. eapply view_ext; eassumption.
Qed.

(** So what was there when it was closed is there when it is opened, by whichever process *)
Corollary c57_close_then_open : forall pid pid' alive n s e p h r env props restart w,
  usable n -> alive pid = true -> alive pid' = true -> contents n (held pid) s e p h r w -> env <> "" -> props <> "" ->
  exists w' w'', run (close pid alive (named n) env props restart) w = (Ok tt, w') /\
                 run (open pid' alive (named n)) w' = (Ok env, w'') /\ contents n (held pid') s env props h r w''.
Proof.
  intros pid pid' alive n s e p h r env props restart w U AL AL' C NE NP.
  destruct (c57_close pid alive n s e p h r env props restart w U AL C) as (w' & E & C' & _).
  destruct (c57_open pid' alive n nobody s env props h r w' U AL' (or_introl eq_refl) C' NE NP) as (w'' & E' & C''). eauto.
Qed.

(** * Deletion *)
Theorem c57_delete : forall pid alive n marks s e p h r w,
  usable n -> alive pid = true -> marks = nobody \/ marks = held pid -> contents n marks s e p h r w ->
  exists w', run (delete pid alive (named n)) w = (Ok tt, w') /\ absent n w' /\
  forall w'', In w'' (states (delete pid alive (named n)) w) ->
    (exists marks', contents n marks' s e p h r w'') \/ damaged alive n w'' \/ absent n w''.
Proof.
  intros pid alive n marks s e p h r w [PR ND] AL MK C. apply contents_view in C.
  set (R := fun c d : path -> option entry =>
     (exists m, (forall x, c x = config_files m s x) /\ (forall x, d x = data_files e p h r x)) \/
     (c [Nm "startup.py"] = None /\ (c [] <> None \/ d [] <> None)) \/ ((forall x, c x = None) /\ (forall x, d x = None))).
  assert (RW : forall c d m, (forall x, c x = config_files m s x) -> (forall x, d x = data_files e p h r x) -> R c d) by (intros; left; eauto).
  assert (RP : forall c d, c [Nm "startup.py"] = None -> c [] <> None \/ d [] <> None -> R c d) by (intros; right; left; auto).
  pose (none := fun _ : path => @None entry).
  assert (W : wp (some_view n R) (fun _ w' => absent n w') (fun _ _ => False) (delete pid alive (named n)) w).
  { unfold delete. change (env_file pid (named n)) with (data_dir (named n) ++ [Nm "env.pickle"]). paths n PR.
    split; [eexists _, _; split; [exact C | apply (RW _ _ marks); reflexivity] | ].
    rewrite (exists_marks n PR _ _ w s marks C (fun r => eq_refl)).
    2: { destruct MK as [-> | ->]; [exists None; reflexivity | exists (Some pid); apply Nat.eqb_refl]. }
    apply wp_bind. eapply wp_lock with (marks := marks) (s := s); [exact PR | exact C | apply (RW _ _ marks); reflexivity | intros x; reflexivity | | | ].
    { destruct MK as [-> | ->]; auto. }
    { intros _. apply (RW _ _ (held pid)); reflexivity. }
    intros w1 V1. cbn iota. apply wp_bind.
    assert (U1 : forall x, upd (config_files (held pid) s) [Mark (Some pid)] None x = config_files unmarked s x).
    { intros x. upds. rest_of x. destruct m as [q | ]; cbn [held]; [ | reflexivity]. destruct (Nat.eqb_spec pid q); [congruence | reflexivity]. }
    eapply wp_unlink_c; [exact V1 | apply (RW _ _ (held pid)); reflexivity | cbn [config_files held]; rewrite Nat.eqb_refl; reflexivity | | ].
    { apply (RW _ _ unmarked); [exact U1 | reflexivity]. }
    intros w2 V2. pose proof (view_ext _ _ _ _ _ _ V2 U1 (fun r => eq_refl)) as V2'. apply wp_bind.
    assert (U2 : forall x, upd (upd (config_files unmarked s) [Nm "startup.py"] None) [] None x = none x).
    { intros x. upds. unfold none. rest_of x. eqbs. }
    eapply wp_unlink_c; [exact V2' | apply (RW _ _ unmarked); reflexivity | reflexivity | | ].
    { apply RP; [upds | left; upds; cbn; discriminate]. }
    intros w3 V3. apply wp_bind. rewrite <- (app_nil_r (place Config n)).
    eapply wp_rmdir_c; [exact V3 | | upds | | | ].
    { apply RP; [upds | left; upds; cbn; discriminate]. }
    { intros x. cbn [app]. upds. destruct x as [z | m | q]; cbn [config_files unmarked]; try reflexivity. eqbs. }
    { apply RP; [now rewrite U2 | right; cbn; discriminate]. }
    intros w4 V4. pose proof (view_ext _ _ _ _ _ _ V4 U2 (fun r => eq_refl)) as V4'.
    assert (RD : forall d, d [] <> None -> R none d) by (intros d H; apply RP; [reflexivity | right; exact H]).
    Ltac midd RD := apply RD; upds; cbn; discriminate.
    apply wp_bind. eapply wp_unlink_d; [exact V4' | midd RD | reflexivity | midd RD | ]. intros w5 V5.
    apply wp_bind. eapply wp_unlink_d; [exact V5 | midd RD | upds; reflexivity | midd RD | ]. intros w6 V6.
    apply wp_bind. eapply wp_unlink_d; [exact V6 | midd RD | upds; reflexivity | midd RD | ]. intros w7 V7.
    match type of V7 with view _ _ ?d _ => set (d7 := d) in * end.
    assert (D7 : forall x, d7 x = match x with [] => Some D | [Nm y] => if String.eqb y "reservoirs" then Some D else None
                                   | [Nm z; y] => if String.eqb z "reservoirs" then option_map F (r y) else None | _ => None end).
    { intros x. unfold d7. upds. rest_of x. eqbs. }
    assert (P7 : some_view n R w7) by (exists none, d7; split; [exact V7 | apply RD; rewrite D7; discriminate]).
    apply wp_bind. split; [exact P7 | ]. unfold is_dir. rewrite (vd _ _ _ _ V7), D7. cbn [String.eqb].
    replace (String.eqb "reservoirs" "reservoirs") with true by reflexivity.
    assert (LOOP : forall l d w1, NoDup l -> view n none d w1 -> d [] = Some D -> (forall x, In x l -> exists t, d [Nm "reservoirs"; x] = Some (F t)) ->
      wp (some_view n R) (fun _ w' => exists d', view n none d' w' /\ (forall x, In x l -> d' [Nm "reservoirs"; x] = None) /\
                                (forall y, (forall x, In x l -> y <> [Nm "reservoirs"; x]) -> d' y = d y)) (fun _ _ => False)
        (each l (fun x => unlink ((place Data n ++ [Nm "reservoirs"]) ++ [x]) false)) w1).
    { induction l as [ | x l IH]; intros d wl NDl V D0 FL; cbn [each].
      - split; [exists none, d; split; [exact V | apply RD; congruence] | ]. exists d. split; [exact V | ]. split; [intros x [] | reflexivity].
      - inversion NDl as [ | ? ? NI NDl']; subst. destruct (FL x (or_introl eq_refl)) as (t & Et). apply wp_bind. rewrite <- app_assoc.
        eapply wp_unlink_d; [exact V | apply RD; congruence | exact Et | apply RD; upds | ].
        intros w' V'. eapply wp_weaken; [apply (IH _ w' NDl' V') | auto | | auto].
        + upds.
        + intros y Y. destruct (FL y (or_intror Y)) as (t' & Et'). exists t'. cbn [app]. upds.
        + cbn beta. intros _ w'' _ (d' & Vd & A & B). exists d'. split; [exact Vd | ]. split.
          * intros y [<- | Y]; [ | auto]. destruct (in_dec name_dec x l) as [IX | NIX]; [auto | ]. rewrite B; [cbn [app]; upds | ].
            intros z Z EQ. injection EQ as ->. contradiction.
          * intros y Y. rewrite B; [ | intros z Z; apply Y; right; exact Z]. cbn [app]. upds. destruct (Y x (or_introl eq_refl)). reflexivity. }
    apply wp_bind. eapply wp_weaken; [apply (LOOP (children (place Data n ++ [Nm "reservoirs"]) w7) d7 w7) | auto | | auto].
    { apply children_nodup. }
    { exact V7. }
    { now rewrite D7. }
    { intros x IX. apply in_children in IX. rewrite <- app_assoc, (vd _ _ _ _ V7), D7 in IX. cbn [app] in IX. rewrite D7. cbn in IX |- *.
      destruct (r x) as [t | ] eqn:RX; [exists t; reflexivity | destruct IX; now rewrite ?RX]. }
    cbn beta. intros _ w8 _ (d8 & V8 & A8 & B8).
    assert (D8 : forall x, d8 x = match x with [] => Some D | [Nm y] => if String.eqb y "reservoirs" then Some D else None | _ => None end).
    { intros x. destruct x as [ | a [ | b [ | c x]]].
      - rewrite B8, D7 by (intros; discriminate). reflexivity.
      - rewrite B8, D7 by (intros; discriminate). now destruct a.
      - destruct (in_dec name_dec b (children (place Data n ++ [Nm "reservoirs"]) w7)) as [IB | NB].
        + destruct (path_dec [Nm "reservoirs"; b] [a; b]) as [EQ | NQ].
          * injection EQ as <-. now apply A8.
          * rewrite B8, D7; [ | intros x _ EQ; injection EQ as -> ->; contradiction]. destruct a as [z | | ]; try reflexivity.
            destruct (String.eqb_spec z "reservoirs"); [subst; contradiction | reflexivity].
        + rewrite B8, D7; [ | intros x X EQ; injection EQ as -> ->; contradiction]. destruct a as [z | | ]; try reflexivity.
          destruct (String.eqb_spec z "reservoirs"); [subst | reflexivity].
          destruct (r b) eqn:RB; [ | reflexivity]. destruct NB. apply in_children. rewrite <- app_assoc, (vd _ _ _ _ V7), D7. cbn. rewrite RB. discriminate.
      - rewrite B8, D7 by (intros; discriminate). now destruct a. }
    eapply wp_rmdir_d; [exact V8 | apply RD; rewrite D8; discriminate | now rewrite D8 | | | ].
    { intros x. rewrite D8. now destruct x. }
    { apply RD. upds. rewrite D8. discriminate. }
    intros w9 V9. rewrite <- (app_nil_r (place Data n)).
    assert (U9 : forall x, upd (upd d8 [Nm "reservoirs"] None) [] None x = none x).
    { intros x. upds. unfold none. rewrite D8. rest_of x. eqbs. }
    eapply wp_rmdir_d; [exact V9 | apply RD; upds; rewrite D8; discriminate | upds; now rewrite D8 | | | ].
    { intros x. cbn [app]. upds. rewrite D8. destruct x; try reflexivity. eqbs. }
    { right. right. split; [reflexivity | exact U9]. }
    intros w10 V10. apply absent_view. eapply view_ext; [exact V10 | reflexivity | exact U9]. }
  pose proof (wp_run _ _ _ _ _ _ W) as H. destruct (run _ w) as [[[] | x] w']; [ | destruct H as [_ []]].
  exists w'. split; [reflexivity | ]. split; [apply H | ]. intros w'' I. apply (wp_states _ _ _ _ _ _ W) in I.
  destruct I as (c & d & V & [(m & A & B) | [[A B] | [A B]]]).
  - left. exists m. apply contents_view. eapply view_ext; eassumption.
  - right. left. split.
    + destruct B as [B | B]; [exists Config | exists Data]; unfold there.
      * pose proof (vc _ _ _ _ V []) as X. rewrite app_nil_r in X. now rewrite X.
      * pose proof (vd _ _ _ _ V []) as X. rewrite app_nil_r in X. now rewrite X.
    + intros X. apply (has_startup _ _ _ X). now rewrite (vc _ _ _ _ V).
  - right. right. apply absent_view. eapply view_ext; eassumption.
Qed.
