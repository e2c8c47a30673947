(** Validation: which workspaces are reported, and what it changes. *)
From Verif.Sys Require Export WorkspacesFacts WorkspacesSpec.
Local Open Scope string_scope.
Local Open Scope list_scope.

(** * Paths of workspaces *)
Lemma append_assoc : forall a b c : string, ((a ++ b) ++ c = a ++ (b ++ c))%string.
Proof. induction a as [ | x a IH]; intros b c; cbn; [reflexivity | now rewrite IH]. Qed.
Lemma split_one : forall s cur, (forall a b, s <> (a ++ String slash b)%string) -> split cur s = [(cur ++ s)%string].
Proof.
  induction s as [ | c s IH]; intros cur H; cbn [split].
  - f_equal. clear. induction cur as [ | x cur IH]; cbn; [reflexivity | now rewrite <- IH].
  - destruct (Ascii.ascii_dec c slash) as [-> | N]; [destruct (H "" s eq_refl) | ]. rewrite IH.
    + now rewrite append_assoc.
    + intros a b E. apply (H (String c a) b). now rewrite E.
Qed.
Lemma comps_proper : forall s, proper s -> comps s = [Nm s].
Proof.
  intros s (E & E' & H). unfold comps. rewrite split_one by assumption. cbn [append filter].
  destruct (string_dec s ""); [contradiction | ]. destruct (string_dec s "."); [contradiction | ]. reflexivity.
Qed.
Lemma proper_def : proper DEF.
Proof.
  split; [discriminate | ]. split; [discriminate | ]. intros a b.
  do 12 (destruct a as [ | ? a]; [intros E; discriminate E | ]; cbn; intros E; try discriminate E; injection E as _ E; revert E).
Qed.
Lemma dir_name_obj : forall s, dir_name (obj_of s) = s.
Proof. intros s. unfold obj_of. destruct (String.eqb_spec s DEF); [now subst | reflexivity]. Qed.
Lemma config_dir_obj : forall s, proper s -> config_dir (obj_of s) = place Config s.
Proof. intros s H. unfold config_dir. rewrite dir_name_obj, comps_proper by assumption. reflexivity. Qed.
Lemma data_dir_obj : forall s, proper s -> data_dir (obj_of s) = place Data s.
Proof. intros s H. unfold data_dir. rewrite dir_name_obj, comps_proper by assumption. reflexivity. Qed.
Lemma usable_obj : forall s, s <> DEF -> obj_of s = named s.
Proof. intros s H. unfold obj_of. destruct (String.eqb_spec s DEF); congruence. Qed.
Lemma config_dir_named : forall s, proper s -> config_dir (named s) = place Config s.
Proof. intros s H. unfold config_dir. cbn [named dir_name default_class wname]. now rewrite comps_proper. Qed.
Lemma data_dir_named : forall s, proper s -> data_dir (named s) = place Data s.
Proof. intros s H. unfold data_dir. cbn [named dir_name default_class wname]. now rewrite comps_proper. Qed.

Lemma exists_there : forall p w, exists_ p w = true <-> there p w.
Proof. intros p w. unfold exists_, there. destruct (look p w); split; congruence. Qed.
Lemma exists_not : forall p w, exists_ p w = false <-> look p w = None.
Proof. intros p w. unfold exists_. destruct (look p w); split; congruence. Qed.
Lemma is_dir_true : forall p w, is_dir p w = true <-> look p w = Some D.
Proof. intros p w. unfold is_dir. destruct (look p w) as [[ | ] | ]; split; congruence. Qed.
Lemma there_same : forall p w w', look p w' = look p w -> (there p w' <-> there p w).
Proof. intros p w w' E. unfold there. now rewrite E. Qed.

Section Valid.
Variable pid : nat.
Variable alive : nat -> bool.

(** * Markers of dead processes *)
Definition dead_gone (c : path) (w w' : fs) : Prop :=
  forall p, look p w' = look p w \/ (look p w' = None /\ exists q, alive q = false /\ p = c ++ [Mark (Some q)]).

Definition step (c : path) (n : name) : prog unit :=
  match n with
  | Mark (Some q) => if alive q then Ret tt else unlink (c ++ [n]) false
  | _ => Ret tt
  end.

Lemma each_dead : forall c l w0 w, dead_gone c w0 w -> NoDup l ->
  (forall q, In (Mark (Some q)) l -> file (c ++ [Mark (Some q)]) w) ->
  wp (dead_gone c w0)
     (fun _ w' => (forall p, (forall q, In (Mark (Some q)) l -> alive q = false -> p <> c ++ [Mark (Some q)]) -> look p w' = look p w) /\
                  (forall q, In (Mark (Some q)) l -> alive q = false -> look (c ++ [Mark (Some q)]) w' = None))
     (fun _ _ => False) (each l (step c)) w.
Proof.
  intros c l. induction l as [ | n l IH]; intros w0 w G N M; cbn [each].
  - split; [exact G | ]. split; [reflexivity | intros q []].
  - apply wp_bind. inversion N as [ | ? ? NI N']; subst.
    assert (K : step c n = Ret tt -> (forall q, n = Mark (Some q) -> alive q = true) ->
      wp (dead_gone c w0) (fun a w' => wp (dead_gone c w0)
        (fun _ w' => (forall p, (forall q, In (Mark (Some q)) (n :: l) -> alive q = false -> p <> c ++ [Mark (Some q)]) -> look p w' = look p w) /\
                  (forall q, In (Mark (Some q)) (n :: l) -> alive q = false -> look (c ++ [Mark (Some q)]) w' = None))
        (fun _ _ => False) (each l (step c)) w') (fun _ _ => False) (step c n) w).
    { intros E A. rewrite E. split; [exact G | ]. eapply wp_weaken; [apply (IH w0 w G N') | | | ].
      - intros q I. apply M. right. exact I.
      - auto.
      - intros u w' _ [Q1 Q2]. split.
        + intros p Hp. apply Q1. intros q I. apply Hp. right. exact I.
        + intros q [-> | I] Aq; [rewrite (A q eq_refl) in Aq; discriminate | auto].
      - auto. }
    destruct n as [s | [q | ] | e]; try (apply K; [reflexivity | congruence]).
    destruct (alive q) eqn:Aq.
    { apply K; [cbn [step]; now rewrite Aq | ]. intros q' E. congruence. }
    cbn [step]. rewrite Aq. unfold unlink. split; [exact G | ].
    destruct (M q (or_introl eq_refl)) as [t Et]. rewrite Et. split; [exact G | ].
    assert (G' : dead_gone c w0 (apply (Del (c ++ [Mark (Some q)])) w)).
    { intros p. cbn [apply]. rewrite look_remove. destruct (path_dec (c ++ [Mark (Some q)]) p) as [E | NE]; [ | apply G].
      right. split; [reflexivity | ]. exists q. auto. }
    split; [exact G' | ]. eapply wp_weaken; [apply (IH w0 _ G' N') | | | ].
    + intros q' I. destruct (M q' (or_intror I)) as [t' Et']. exists t'. cbn [apply]. rewrite look_remove.
      destruct (path_dec _ _) as [E | _]; [ | exact Et']. apply app_inv_head in E. injection E as E. subst q'. contradiction.
    + auto.
    + intros u w' _ [Q1 Q2]. cbn [apply] in Q1. split.
      * intros p Hp. rewrite Q1.
        -- rewrite look_remove. destruct (path_dec _ _) as [E | _]; [ | reflexivity]. symmetry in E. destruct (Hp q (or_introl eq_refl) Aq E).
        -- intros q' I. apply Hp. right. exact I.
      * intros q' [E | I] Aq'; [ | auto]. injection E as E. subst q'.
        destruct (in_dec name_dec (Mark (Some q)) l) as [I | NI']; [auto | ]. rewrite Q1.
        -- rewrite look_remove. destruct (path_dec _ _); [reflexivity | congruence].
        -- intros q' I _ E. apply app_inv_head in E. injection E as E. subst q'. contradiction.
    + auto.
Qed.

Definition markers_are_files (c : path) (w : fs) : Prop := forall m, there (c ++ [Mark m]) w -> file (c ++ [Mark m]) w.

Lemma abandoned : forall o w, markers_are_files (config_dir o) w ->
  wp (dead_gone (config_dir o) w)
     (fun _ w' => dead_gone (config_dir o) w w' /\ forall q, alive q = false -> look (config_dir o ++ [Mark (Some q)]) w' = None)
     (fun _ _ => False) (delete_abandoned_markers alive o) w.
Proof.
  intros o w M. unfold delete_abandoned_markers.
  assert (G : dead_gone (config_dir o) w w) by (intros p; left; reflexivity).
  split; [exact G | ]. eapply wp_weaken; [apply (each_dead (config_dir o) (children (config_dir o) w) w w G (children_nodup _ _)) | | | ].
  - intros q I. apply M. now apply in_children.
  - auto.
  - intros u w' G' [Q1 Q2]. split; [exact G' | ]. intros q Aq.
    destruct (in_dec name_dec (Mark (Some q)) (children (config_dir o) w)) as [I | NI]; [auto | ].
    rewrite Q1.
    + destruct (look (config_dir o ++ [Mark (Some q)]) w) eqn:E; [ | reflexivity]. destruct NI. apply in_children. congruence.
    + intros q' I _ E. apply app_inv_head in E. injection E as E. subst q'. contradiction.
  - auto.
Qed.

Lemma marker_exists_there : forall o w, marker_exists o w = true <-> exists m, there (config_dir o ++ [Mark m]) w.
Proof.
  intros o w. unfold marker_exists. rewrite existsb_exists. split.
  - intros (n & I & H). destruct n; try discriminate. apply in_children in I. eauto.
  - intros (m & H). exists (Mark m). split; [now apply in_children | reflexivity].
Qed.

(** * Validation of one workspace *)

(** Only markers of [s] differ *)
Definition markers_of (s : string) (w w' : fs) : Prop :=
  forall p, (forall m, p <> place Config s ++ [Mark m]) -> look p w' = look p w.

Lemma place_neq : forall b s x y, x <> y -> place b s ++ [x] <> place b s ++ [y].
Proof. intros b s x y N E. apply app_inv_head in E. congruence. Qed.

(** Which markers there are after it *)
Definition settled (s : string) (w w' : fs) : Prop :=
  forall m, there (place Config s ++ [Mark m]) w' <->
            (live alive m /\ there (place Config s ++ [Mark m]) w) \/
            (m = None /\ forall m', live alive m' -> ~ there (place Config s ++ [Mark m']) w).

Lemma settled_marker : forall s w w', settled s w w' -> exists m, live alive m /\ there (place Config s ++ [Mark m]) w'.
Proof.
  intros s w w' S. destruct (look (place Config s ++ [Mark None]) w') eqn:E.
  { exists None. split; [exact I | ]. unfold there. congruence. }
  assert (NN : ~ there (place Config s ++ [Mark None]) w') by (unfold there; congruence).
  assert (NN' : ~ ((live alive None /\ there (place Config s ++ [Mark None]) w) \/
                   (@None nat = None /\ forall m', live alive m' -> ~ there (place Config s ++ [Mark m']) w))) by (intros X; apply NN, S, X).
  destruct (existsb (fun n => match n with Mark (Some q) => alive q | Mark None => true | _ => false end) (children (place Config s) w)) eqn:X.
  - apply existsb_exists in X. destruct X as (n & I & H). apply in_children in I. destruct n as [ | [q | ] | ]; try discriminate.
    + exists (Some q). split; [exact H | ]. apply S. left. split; assumption.
    + exists None. split; [exact Logic.I | ]. apply S. left. split; [exact Logic.I | assumption].
  - destruct NN'. right. split; [reflexivity | ]. intros m L T. apply in_children in T.
    assert (existsb (fun n => match n with Mark (Some q) => alive q | Mark None => true | _ => false end) (children (place Config s) w) = true); [ | congruence].
    apply existsb_exists. exists (Mark m). split; [exact T | ]. now destruct m.
Qed.

Lemma settled_live : forall s w w' m, settled s w w' -> there (place Config s ++ [Mark m]) w' -> live alive m.
Proof. intros s w w' m S T. apply S in T. destruct T as [[L _] | [-> _]]; [exact L | exact I]. Qed.

Lemma whole_settled : forall s w w', settled s w w' -> markers_of s w w' -> (whole alive s w <-> whole alive s w').
Proof.
  intros s w w' S M.
  assert (C : forall x, (forall m, x <> Mark m) -> look (place Config s ++ [x]) w' = look (place Config s ++ [x]) w).
  { intros x N. apply M. intros m. now apply place_neq. }
  assert (DD : forall r, look (place Data s ++ r) w' = look (place Data s ++ r) w).
  { intros r. apply M. intros m E. discriminate E. }
  pose proof (DD []) as D0. cbn [app] in D0. rewrite app_nil_r in D0.
  split; intros W; destruct W.
  - constructor.
    + unfold there. rewrite C; [assumption | congruence].
    + intros x T. destruct x as [z | m | q]; [ | eauto | ]; apply config_only; unfold there in *; rewrite <- C; try assumption; congruence.
    + intros m m' L L' T T'. apply S in T. apply S in T'.
      destruct T as [[_ T] | [-> T]], T' as [[_ T'] | [-> T']]; [auto | | | reflexivity].
      * destruct (T' m L T).
      * destruct (T m' L' T').
    + unfold there. now rewrite D0.
    + unfold there. now rewrite !DD.
    + unfold there. now rewrite !DD.
    + now rewrite DD.
    + intros x. unfold there. rewrite DD. apply data_only.
  - constructor.
    + unfold there. rewrite <- C; [assumption | congruence].
    + intros x T. destruct x as [z | m | q]; [ | eauto | ]; apply config_only; unfold there in *; rewrite C; try assumption; congruence.
    + intros m m' L L' T T'. apply one_marker; try assumption; apply S; left; auto.
    + unfold there. now rewrite <- D0.
    + unfold there. now rewrite <- !DD.
    + unfold there. now rewrite <- !DD.
    + now rewrite <- DD.
    + intros x. unfold there. rewrite <- DD. apply data_only.
Qed.

Lemma flaws_whole : forall s w, proper s ->
  (forall m, there (place Config s ++ [Mark m]) w -> live alive m) -> (exists m, there (place Config s ++ [Mark m]) w) ->
  (flaws pid (obj_of s) w = false <-> whole alive s w).
Proof.
  intros s w PR L (m & TM). unfold flaws.
  unfold startup_file, env_file, prop_file, hist_file, res_dir. rewrite config_dir_obj, data_dir_obj by assumption.
  rewrite !orb_false_iff, !negb_false_iff, !exists_there, is_dir_true, Nat.ltb_ge, forallb_forall.
  assert (DC : default_class (obj_of s) = String.eqb s DEF) by (unfold obj_of; destruct (String.eqb s DEF); reflexivity).
  rewrite DC. split.
  - intros ((((((H1 & H2) & H3) & H4) & H5) & H6) & H7).
    assert (IN : incl (children (place Config s) w) [Nm "startup.py"; Mark m]).
    { apply NoDup_length_incl.
      - constructor; [intros [E | []]; discriminate E | constructor; [intros [] | constructor]].
      - exact H2.
      - intros x [<- | [<- | []]]; now apply in_children. }
    constructor; try assumption.
    + intros x T. apply in_children, IN in T. destruct T as [<- | [<- | []]]; eauto.
    + intros a a' _ _ T T'. apply in_children, IN in T. apply in_children, IN in T'.
      destruct T as [E | [E | []]], T' as [E' | [E' | []]]; congruence.
    + intros N. apply String.eqb_neq in N. rewrite N in H4. cbn [negb andb] in H4. apply orb_false_iff in H4. destruct H4 as [H4 H4'].
      apply negb_false_iff in H4, H4'. apply exists_there in H4, H4'. auto.
    + intros x T. apply in_children in T. apply H7 in T. destruct x as [z | a | q]; cbn [allowed_data] in T; [ | discriminate | eauto].
      left. rewrite !orb_true_iff, !String.eqb_eq in T. cbn [In]. destruct T as [[[-> | ->] | ->] | ->]; auto 6.
  - intros W. destruct W. repeat apply conj; try assumption.
    + assert (IN : incl (children (place Config s) w) [Nm "startup.py"; Mark m]).
      { intros x T. apply in_children in T. destruct (config_only x T) as [-> | (a & ->)]; [left; reflexivity | ].
        right. left. f_equal. apply one_marker; auto. }
      apply NoDup_incl_length in IN; [exact IN | apply children_nodup].
    + destruct (String.eqb_spec s DEF) as [-> | N]; [reflexivity | ]. cbn [negb andb]. destruct (has_state N) as [A B].
      apply exists_there in A, B. now rewrite A, B.
    + intros x T. apply in_children in T. destruct (data_only x T) as [I | (q & ->)]; [ | reflexivity].
      cbn [In] in I. destruct I as [<- | [<- | [<- | [<- | []]]]]; reflexivity.
Qed.

Lemma validate_ok : forall s w, proper s -> look (place Config s) w = Some D -> markers_are_files (place Config s) w ->
  wp (markers_of s w)
     (fun b w' => (b = false <-> whole alive s w) /\ settled s w w' /\ markers_of s w w' /\ markers_are_files (place Config s) w')
     (fun _ _ => False) (validate pid alive (obj_of s)) w.
Proof.
  intros s w PR CD MF. unfold validate.
  assert (DM : forall w', dead_gone (config_dir (obj_of s)) w w' -> markers_of s w w').
  { intros w' G p N. destruct (G p) as [E | (_ & q & _ & E)]; [exact E | ]. rewrite config_dir_obj in E by assumption. destruct (N _ E). }
  apply wp_bind. eapply wp_weaken; [apply abandoned; now rewrite config_dir_obj | exact DM | | intros ? ? ? []].
  cbn beta. intros _ w1 _ [G DN]. pose proof (DM _ G) as M1.
  rewrite config_dir_obj in G, DN by assumption.
  assert (T1 : forall m, there (place Config s ++ [Mark m]) w1 <-> live alive m /\ there (place Config s ++ [Mark m]) w).
  { intros m. split.
    - intros T. destruct (G (place Config s ++ [Mark m])) as [E | (E & _)]; [ | unfold there in T; congruence].
      split; [ | unfold there in *; congruence]. destruct m as [q | ]; [ | exact I]. cbn. destruct (alive q) eqn:A; [reflexivity | ].
      unfold there in T. rewrite (DN q A) in T. congruence.
    - intros [L T]. destruct (G (place Config s ++ [Mark m])) as [E | (_ & q & A & E)]; [unfold there in *; congruence | ].
      apply app_inv_head in E. injection E as ->. cbn in L. congruence. }
  apply wp_bind.
  set (MID := fun (_ : unit) w' => settled s w w' /\ markers_of s w w' /\ markers_are_files (place Config s) w').
  assert (X : wp (markers_of s w) MID (fun _ _ => False)
      (Read (fun w => if marker_exists (obj_of s) w then Ret tt else touch (marker (obj_of s) None))) w1).
  { split; [exact M1 | ]. destruct (marker_exists (obj_of s) w1) eqn:ME.
    - split; [exact M1 | ]. split; [ | split; [exact M1 | ]].
      + intros m. rewrite T1. split; [auto | ]. intros [ | (-> & N)]; [assumption | ].
        apply marker_exists_there in ME. destruct ME as (m & T). rewrite config_dir_obj in T by assumption. apply T1 in T. destruct T as [L T].
        destruct (N m L T).
      + intros m T. pose proof T as T'. apply T1 in T'. destruct T' as [_ T']. destruct (MF m T') as (t & E). exists t.
        destruct (G (place Config s ++ [Mark m])) as [E' | (E' & _)]; [congruence | unfold there in T; congruence].
    - assert (N : forall m, ~ there (place Config s ++ [Mark m]) w1).
      { intros m T. assert (marker_exists (obj_of s) w1 = true); [ | congruence]. apply marker_exists_there. exists m.
        now rewrite config_dir_obj. }
      unfold touch. split; [exact M1 | ]. unfold marker. rewrite config_dir_obj by assumption.
      replace (exists_ (place Config s ++ [Mark None]) w1) with false.
      2: { symmetry. apply exists_not. destruct (look _ w1) eqn:E; [ | reflexivity]. destruct (N None). unfold there. congruence. }
      rewrite removelast_last. assert (CD1 : look (place Config s) w1 = Some D).
      { rewrite M1; [exact CD | ]. intros m E. discriminate E. }
      unfold is_dir. rewrite CD1. split; [exact M1 | ].
      assert (M2 : markers_of s w (apply (Put (place Config s ++ [Mark None]) "") w1)).
      { intros p Hp. cbn [apply]. rewrite look_set. destruct (path_dec _ p) as [E | _]; [symmetry in E; destruct (Hp _ E) | now apply M1]. }
      split; [exact M2 | ]. split; [ | split; [exact M2 | ]].
      + intros m. unfold there at 1. cbn [apply]. rewrite look_set. destruct (path_dec _ _) as [E | NE].
        * apply app_inv_head in E. injection E as <-. split; [ | discriminate]. intros _. right. split; [reflexivity | ].
          intros m' L T. apply (N m'). apply T1. auto.
        * split.
          -- intros T. destruct (N m T).
          -- intros [T | (-> & _)]; [apply T1 in T; destruct (N _ T) | congruence].
      + intros m T. unfold there, file in *. cbn [apply] in *. rewrite look_set in *. destruct (path_dec _ _); [eauto | destruct (N m T)]. }
  eapply wp_weaken; [exact X | auto | | auto].
  unfold MID. cbn beta. intros _ w2 _ (S2 & M2 & F2). split; [exact M2 | ]. split; [exact M2 | ]. split; [ | auto].
  rewrite (whole_settled s w w2 S2 M2). apply flaws_whole; [assumption | | ].
  - intros m. exact (settled_live s w w2 m S2).
  - destruct (settled_marker s w w2 S2) as (m & _ & T). eauto.
Qed.
End Valid.
