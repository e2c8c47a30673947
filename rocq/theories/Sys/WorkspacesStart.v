(** What a start does: validation of all workspaces, and putting the damaged ones aside. *)
From Verif.Sys Require Export WorkspacesValid.
Local Open Scope string_scope.
Local Open Scope list_scope.

Section Start.
Variable pid : nat.
Variable alive : nat -> bool.
Variable now : string.

(** * All workspaces *)
Definition alike (s : string) (w w' : fs) : Prop := forall b r, look (place b s ++ r) w' = look (place b s ++ r) w.

Lemma alike_one : forall s w w' b, alike s w w' -> look (place b s) w' = look (place b s) w.
Proof. intros s w w' b A. specialize (A b []). now rewrite app_nil_r in A. Qed.
Lemma alike_sym : forall s w w', alike s w w' -> alike s w' w.
Proof. intros s w w' A b r. symmetry. apply A. Qed.
Lemma alike_there : forall s w w' b r, alike s w w' -> (there (place b s ++ r) w' <-> there (place b s ++ r) w).
Proof. intros s w w' b r A. unfold there. now rewrite (A b r). Qed.
Lemma alike_whole_1 : forall s w w', alike s w w' -> whole alive s w -> whole alive s w'.
Proof.
  intros s w w' A W. destruct W. constructor.
  - now apply (alike_there _ _ _ _ _ A).
  - intros x T. apply (alike_there _ _ _ _ _ A) in T. auto.
  - intros m m' L L' T T'. apply (alike_there _ _ _ _ _ A) in T, T'. auto.
  - unfold there. now rewrite (alike_one _ _ _ _ A).
  - intros N. destruct (has_state N) as [X Y]. split; now apply (alike_there _ _ _ _ _ A).
  - now apply (alike_there _ _ _ _ _ A).
  - now rewrite (A Data).
  - intros x T. apply (alike_there _ _ _ _ _ A) in T. auto.
Qed.
Lemma alike_whole : forall s w w', alike s w w' -> (whole alive s w <-> whole alive s w').
Proof. intros s w w' A. split; apply alike_whole_1; [assumption | now apply alike_sym]. Qed.
Lemma alike_settled : forall s w w1 w', alike s w w1 -> settled alive s w1 w' -> settled alive s w w'.
Proof.
  intros s w w1 w' A S m. specialize (S m). rewrite (alike_there _ _ _ _ _ A) in S. rewrite S. split; intros [X | [X Y]]; [auto | | auto | ].
  - right. split; [exact X | ]. intros m' L T. apply (Y m' L). now apply (alike_there _ _ _ _ _ A).
  - right. split; [exact X | ]. intros m' L T. apply (alike_there _ _ _ _ _ A) in T. exact (Y m' L T).
Qed.

Lemma place_inj : forall b s r b' s' r', place b s ++ r = place b' s' ++ r' -> b = b' /\ s = s' /\ r = r'.
Proof. intros b s r b' s' r' E. cbn in E. injection E as E1 E2 E3. split; [destruct b, b'; cbn in E1; congruence | auto]. Qed.
Lemma markers_of_alike : forall s s' w w', s <> s' -> markers_of s w w' -> alike s' w w'.
Proof. intros s s' w w' N M b r. apply M. intros m E. apply place_inj in E. destruct E as (_ & E & _). congruence. Qed.
Lemma markers_of_but : forall s w w', markers_of s w w' -> same_but_markers w w'.
Proof. intros s w w' M p N. apply M. intros m ->. apply N. exists s, m. reflexivity. Qed.
Lemma but_trans : forall w1 w2 w3, same_but_markers w1 w2 -> same_but_markers w2 w3 -> same_but_markers w1 w3.
Proof. intros w1 w2 w3 A B p N. rewrite (B p N). apply (A p N). Qed.
Lemma but_refl : forall w, same_but_markers w w.
Proof. intros w p _. reflexivity. Qed.

Lemma validate_each_ok : forall l w0 w, NoDup l -> same_but_markers w0 w ->
  (forall s, In s l -> proper s /\ look (place Config s) w0 = Some D /\ markers_are_files (place Config s) w0 /\ alike s w0 w) ->
  wp (same_but_markers w0)
     (fun r w' => (forall x, In x r <-> exists s, In s l /\ x = wname (obj_of s) /\ ~ whole alive s w0) /\
                  (forall s, In s l -> settled alive s w0 w' /\ markers_are_files (place Config s) w') /\
                  (forall s, ~ In s l -> alike s w w') /\ same_but_markers w0 w')
     (fun _ _ => False) (validate_each pid alive l) w.
Proof.
  induction l as [ | s l IH]; intros w0 w ND SB H; cbn [validate_each].
  - split; [exact SB | ]. split; [ | split; [intros s [] | split; [intros s _ b r; reflexivity | exact SB]]].
    intros x. split; [intros [] | intros (s & [] & _)].
  - inversion ND as [ | ? ? NI ND']; subst. destruct (H s (or_introl eq_refl)) as (PR & CD & MF & AL).
    assert (CD' : look (place Config s) w = Some D) by (rewrite (alike_one _ _ _ _ AL); exact CD).
    assert (MF' : markers_are_files (place Config s) w).
    { intros m T. unfold there, file in *. rewrite (AL Config) in *. apply MF. exact T. }
    apply wp_bind. eapply wp_weaken; [apply (validate_ok pid alive s w PR CD' MF') | | | intros ? ? ? []].
    { intros w1 M1. eapply but_trans; [exact SB | ]. eapply markers_of_but; exact M1. }
    cbn beta. intros b w1 _ (HB & ST & M1 & MF1).
    assert (SB1 : same_but_markers w0 w1) by (eapply but_trans; [exact SB | eapply markers_of_but; exact M1]).
    apply wp_bind. eapply wp_weaken; [apply (IH w0 w1 ND' SB1) | auto | | intros ? ? ? []].
    + intros s' I. destruct (H s' (or_intror I)) as (PR' & CDs & MFs & ALs). split; [exact PR' | ]. split; [exact CDs | ]. split; [exact MFs | ].
      intros b' r. rewrite (markers_of_alike s s' w w1); [apply ALs | | exact M1]. intros ->. contradiction.
    + cbn beta. intros r w2 _ (HR & HS & HA & SB2). split; [exact SB2 | ].
      pose proof (HA s NI) as As.
      split; [ | split; [ | split; [ | exact SB2]]].
      * assert (HB' : b = false <-> whole alive s w0) by (rewrite HB; symmetry; apply alike_whole; exact AL).
        intros x. destruct b.
        -- cbn [In]. rewrite HR. split.
           ++ intros [<- | (s' & I & E)]; [ | exists s'; auto]. exists s. split; [left; reflexivity | ]. split; [reflexivity | ].
              intros W. apply HB' in W. discriminate W.
           ++ intros (s' & [<- | I] & E & N); [left; now symmetry | right; exists s'; auto].
        -- rewrite HR. split.
           ++ intros (s' & I & E). exists s'. split; [right; exact I | exact E].
           ++ intros (s' & [<- | I] & E & N); [destruct N; now apply HB' | exists s'; auto].
      * intros s' [<- | I]; [ | auto]. split.
        -- eapply alike_settled; [exact AL | ]. intros m. rewrite (alike_there _ _ _ _ _ As). apply ST.
        -- intros m T. apply (alike_there _ _ _ _ _ As) in T. destruct (MF1 m T) as (t & E). exists t. now rewrite (As Config).
      * intros s' N b' r'. rewrite (HA s'); [ | intros I; apply N; right; exact I]. apply (markers_of_alike s); [ | exact M1]. intros ->. apply N. left. reflexivity.
Qed.

Lemma names_in : forall s l, In s (names l) <-> In (Nm s) l.
Proof.
  intros s l. unfold names. rewrite in_flat_map. split.
  - intros (n & I & H). destruct n; cbn in H; try destruct H as [ | []]; try contradiction. now subst.
  - intros I. exists (Nm s). split; [exact I | left; reflexivity].
Qed.
Lemma names_nodup : forall l, NoDup l -> NoDup (names l).
Proof.
  induction l as [ | n l IH]; intros N; [constructor | ]. inversion N; subst. cbn. fold (names l). destruct n; cbn; auto.
  constructor; auto. rewrite names_in. assumption.
Qed.
Lemma mem_in : forall s l, mem s l = true <-> In s l.
Proof.
  intros s l. unfold mem. rewrite existsb_exists. split; [intros (x & I & E); apply String.eqb_eq in E; now subst | ].
  intros I. exists s. split; [exact I | apply String.eqb_refl].
Qed.
Lemma mem_not : forall s l, negb (mem s l) = true <-> ~ In s l.
Proof. intros s l. rewrite negb_true_iff, <- mem_in. destruct (mem s l); split; congruence. Qed.

Lemma child_place : forall b s w, In (Nm s) (children (match b with Config => config_ws | Data => data_ws end) w) <-> there (place b s) w.
Proof. intros b s w. rewrite in_children. now destruct b. Qed.

(** What is reported, and the state after *)
Definition reported (w : fs) (l : list string) : Prop :=
  forall x, In x l <->
    (exists b b', there (place b x) w /\ ~ there (place b' x) w) \/
    (exists s, there (place Config s) w /\ there (place Data s) w /\ x = wname (obj_of s) /\ ~ whole alive s w).

Lemma validate_all_ok : forall w, tidy w ->
  wp (same_but_markers w)
     (fun l w' => reported w l /\ same_but_markers w w' /\
                  (forall s, there (place Config s) w -> there (place Data s) w -> settled alive s w w' /\ markers_are_files (place Config s) w') /\
                  (forall s, ~ there (place Config s) w -> alike s w w'))
     (fun _ _ => False) (validate_all pid alive) w.
Proof.
  intros w T. unfold validate_all. split; [apply but_refl | ]. apply wp_bind.
  set (cn := names (children config_ws w)). set (dn := names (children data_ws w)).
  assert (CN : forall s, In s cn <-> there (place Config s) w) by (intros s; unfold cn; rewrite names_in; apply (child_place Config)).
  assert (DN : forall s, In s dn <-> there (place Data s) w) by (intros s; unfold dn; rewrite names_in; apply (child_place Data)).
  eapply wp_weaken; [apply (validate_each_ok (filter (fun s => mem s dn) cn) w w) | auto | | intros ? ? ? []].
  - apply NoDup_filter, names_nodup, children_nodup.
  - apply but_refl.
  - intros s I. apply filter_In in I. destruct I as [I _]. apply CN in I.
    destruct (named_dirs w T Config (Nm s) I) as (n & E & PR & DI). injection E as <-. split; [exact PR | ]. split; [exact DI | ].
    split; [intros m; apply (marker_files w T) | ]. intros b r. reflexivity.
  - cbn beta. intros r w' _ (HR & HS & HA & SB). split; [exact SB | ]. split; [ | split; [exact SB | ]].
    + intros x. rewrite !in_app_iff, !filter_In, !mem_not, HR, CN, DN. split.
      * intros [[A B] | [[A B] | (s & I & E & N)]].
        -- left. exists Config, Data. auto.
        -- left. exists Data, Config. auto.
        -- apply filter_In in I. destruct I as [I J]. apply mem_in in J. apply CN in I. apply DN in J. right. exists s. auto.
      * intros [(b & b' & A & B) | (s & A & B & E & N)].
        -- destruct b, b'; try contradiction; auto.
        -- right. right. exists s. rewrite filter_In, mem_in, CN, DN. auto.
    + split.
      * intros s A B. apply HS. apply filter_In. rewrite mem_in, CN, DN. auto.
      * intros s A. apply HA. intros I. apply filter_In in I. destruct I as [I _]. apply CN in I. contradiction.
Qed.

(** * Putting aside *)
Definition bws (b : side) : path := [root b; Nm "broken"].

(** [M b s]: the directory of [s] has been moved.  [v]: the state after validation *)
Record inv (v : fs) (M : side -> string -> bool) (w : fs) : Prop := {
  kept : forall b s r, M b s = false -> look (place b s ++ r) w = look (place b s ++ r) v;
  gone : forall b s r, M b s = true -> look (place b s ++ r) w = None;
  moved : forall b s r, M b s = true -> look (aside b now s ++ r) w = look (place b s ++ r) v;
  fresh : forall b s x r, M b s = false -> look (bws b ++ Nm now :: Nm s :: x :: r) w = None;
  now_dir : forall b, look (bws b ++ [Nm now]) w = None \/ look (bws b ++ [Nm now]) w = Some D;
  its_dir : forall b s, look (bws b ++ [Nm now; Nm s]) w = None \/ look (bws b ++ [Nm now; Nm s]) w = Some D;
  rest : forall p, (forall b s r, p <> place b s ++ r) -> (forall b r, p <> bws b ++ Nm now :: r) -> look p w = look p v
}.
Definition within (M : side -> string -> bool) (L : list string) : Prop := forall b s, M b s = true -> In s L.
Definition some_inv (L : list string) (v w : fs) : Prop := exists M, within M L /\ inv v M w.

Lemma inv_ext : forall v M M' w, (forall b s, M b s = M' b s) -> inv v M w -> inv v M' w.
Proof. intros v M M' w E I. destruct I. constructor; intros; try rewrite <- E in *; auto. Qed.

Lemma inv_mkdir : forall v M b p w, inv v M w -> (p = bws b ++ [Nm now] \/ exists s, p = bws b ++ [Nm now; Nm s]) -> inv v M (set p D w).
Proof.
  intros v M b p w I H.
  assert (X : forall q, p <> q -> look q (set p D w) = look q w).
  { intros q N. rewrite look_set. now destruct (path_dec p q). }
  destruct I. constructor.
  - intros b' s r E. rewrite X; auto. destruct H as [-> | (z & ->)]; discriminate.
  - intros b' s r E. rewrite X; auto. destruct H as [-> | (z & ->)]; discriminate.
  - intros b' s r E. rewrite X; auto. destruct H as [-> | (z & ->)]; discriminate.
  - intros b' s x r E. rewrite X; auto. destruct H as [-> | (z & ->)]; discriminate.
  - intros b'. rewrite look_set. destruct (path_dec _ _); auto.
  - intros b' s. rewrite look_set. destruct (path_dec _ _); auto.
  - intros q N N'. rewrite X; auto. destruct H as [-> | (z & ->)]; intros <-; eapply N'; reflexivity.
Qed.

Definition add (M : side -> string -> bool) (b : side) (s : string) (b' : side) (s' : string) : bool :=
  M b' s' || (match b, b' with Config, Config | Data, Data => true | _, _ => false end && String.eqb s s').
Lemma add_spec : forall M b s b' s', add M b s b' s' = true <-> M b' s' = true \/ (b' = b /\ s' = s).
Proof.
  intros M b s b' s'. unfold add. rewrite orb_true_iff, andb_true_iff, String.eqb_eq. destruct b, b'; split; intros [ | [ ]]; subst; try discriminate; auto.
Qed.

Lemma root_inj : forall b b', root b = root b' -> b = b'.
Proof. intros [ | ] [ | ]; cbn; congruence. Qed.

Lemma inv_move : forall v M b s w, inv v M w -> M b s = false ->
  inv v (add M b s) (move (place b s) (aside b now s) w).
Proof.
  intros v M b s w I E0. destruct I.
  assert (F : free (aside b now s) w) by (intros r; apply (fresh0 b s (Nm s) r E0)).
  assert (NP : forall r, aside b now s <> place b s ++ r) by (intros r; discriminate).
  assert (LM := look_move (place b s) (aside b now s) w).
  assert (PA : forall b' s' r, after (aside b now s) (place b' s' ++ r) = None).
  { intros b' s' r. destruct (after _ _) eqn:A; [ | reflexivity]. apply after_some in A. discriminate A. }
  assert (AP : forall b' r, after (place b s) (bws b' ++ r) = None).
  { intros b' r. destruct (after _ _) eqn:A; [ | reflexivity]. apply after_some in A. discriminate A. }
  constructor.
  - intros b' s' r A. rewrite LM, PA by assumption.
    destruct (after (place b s) (place b' s' ++ r)) eqn:B.
    + apply after_some in B. apply place_inj in B. destruct B as (-> & -> & _).
      assert (add M b s b s = true) by (apply add_spec; auto). congruence.
    + apply kept0. destruct (M b' s') eqn:Z; [ | reflexivity]. assert (add M b s b' s' = true) by (apply add_spec; auto). congruence.
  - intros b' s' r A. rewrite LM, PA by assumption. destruct (after (place b s) (place b' s' ++ r)) eqn:B; [reflexivity | ].
    apply add_spec in A. destruct A as [A | (-> & ->)]; [now apply gone0 | ]. rewrite after_app in B. discriminate.
  - intros b' s' r A. rewrite LM by assumption. destruct (after (aside b now s) (aside b' now s' ++ r)) as [r' | ] eqn:B.
    + apply after_some in B. cbn in B. injection B as B1 B2 _ B3. apply root_inj in B1. subst b' s' r'. now apply kept0.
    + change (aside b' now s' ++ r) with (bws b' ++ (Nm now :: Nm s' :: Nm s' :: r)) at 1. rewrite AP.
      apply add_spec in A. destruct A as [A | (-> & ->)]; [now apply moved0 | ]. rewrite after_app in B. discriminate.
  - intros b' s' x r A. rewrite LM by assumption. rewrite AP.
    destruct (after (aside b now s) _) as [r' | ] eqn:B.
    + apply after_some in B. cbn in B. injection B as B1 B2 _ _. apply root_inj in B1. subst b' s'.
      assert (add M b s b s = true) by (apply add_spec; auto). congruence.
    + apply fresh0. destruct (M b' s') eqn:Z; [ | reflexivity]. assert (add M b s b' s' = true) by (apply add_spec; auto). congruence.
  - intros b'. rewrite LM, AP by assumption. destruct (after (aside b now s) _) as [r' | ] eqn:B; [ | apply now_dir0].
    apply after_some in B. discriminate B.
  - intros b' s'. rewrite LM, AP by assumption. destruct (after (aside b now s) _) as [r' | ] eqn:B; [ | apply its_dir0].
    apply after_some in B. discriminate B.
  - intros p N N'. rewrite LM by assumption. destruct (after (aside b now s) p) as [r' | ] eqn:B.
    { apply after_some in B. destruct (N' b _ B). }
    destruct (after (place b s) p) as [r' | ] eqn:B'; [apply after_some in B'; destruct (N _ _ _ B') | ]. now apply rest0.
Qed.

Lemma put_aside_ok : forall L v M b s w, within M L -> In s L -> inv v M w ->
  (forall r, look (place b s) v = None -> look (place b s ++ r) v = None) ->
  wp (some_inv L v) (fun _ w' => inv v (add M b s) w') (fun _ _ => False) (put_aside (place b s) (bws b) [Nm now; Nm s]) w.
Proof.
  intros L v M b s w WI IL I TV. assert (WA : within (add M b s) L).
  { intros b' s' A. apply add_spec in A. destruct A as [A | (_ & ->)]; [exact (WI _ _ A) | exact IL]. }
  unfold put_aside. assert (SI : some_inv L v w) by (exists M; auto). split; [exact SI | ].
  destruct (exists_ (place b s) w) eqn:EX.
  - assert (E0 : M b s = false).
    { destruct (M b s) eqn:E0; [ | reflexivity]. pose proof (gone v M w I b s [] E0) as G. rewrite app_nil_r in G.
      apply exists_there in EX. unfold there in EX. congruence. }
    assert (K : forall w1, inv v M w1 -> wp (some_inv L v) (fun _ w' => inv v (add M b s) w') (fun _ _ => False)
                 (rename (place b s) (bws b ++ [Nm now; Nm s] ++ [last (place b s) (Nm "")])) w1).
    { intros w1 I1. assert (SI1 : some_inv L v w1) by (exists M; auto). split; [exact SI1 | ].
      assert (E1 : look (place b s) w1 = look (place b s) w).
      { pose proof (kept v M w1 I1 b s [] E0) as K1. pose proof (kept v M w I b s [] E0) as K2. rewrite app_nil_r in K1, K2. congruence. }
      unfold exists_ in EX |- *. rewrite E1. destruct (look (place b s) w); [ | discriminate]. split; [exact SI1 | ]. cbn [apply].
      change (bws b ++ [Nm now; Nm s] ++ [last (place b s) (Nm "")]) with (aside b now s).
      pose proof (inv_move v M b s w1 I1 E0) as I2. split; [exists (add M b s); auto | exact I2]. }
    apply wp_bind. cbn [make_dirs]. split; [exact SI | ].
    assert (Z : forall w1, inv v M w1 -> wp (some_inv L v) (fun a w' => wp (some_inv L v) (fun _ w' => inv v (add M b s) w') (fun _ _ => False)
                 (rename (place b s) (bws b ++ [Nm now; Nm s] ++ [last (place b s) (Nm "")])) w') (fun _ _ => False)
                 (Read (fun w0 => match look ((bws b ++ [Nm now]) ++ [Nm s]) w0 with
                                  | Some D => Ret tt | Some (F _) => Fail OSError | None => Do (Mk ((bws b ++ [Nm now]) ++ [Nm s])) (Ret tt) end)) w1).
    { intros w1 I1. split; [exists M; auto | ]. rewrite <- app_assoc. change ([Nm now] ++ [Nm s]) with [Nm now; Nm s].
      destruct (its_dir v M w1 I1 b s) as [E | E]; rewrite E.
      - split; [exists M; auto | ]. cbn [apply]. pose proof (inv_mkdir v M b (bws b ++ [Nm now; Nm s]) w1 I1) as I2.
        specialize (I2 (or_intror (ex_intro _ s eq_refl))). split; [exists M; auto | ]. now apply K.
      - split; [exists M; auto | ]. now apply K. }
    destruct (now_dir v M w I b) as [E | E]; rewrite E.
    + split; [exact SI | ]. cbn [apply]. apply Z. apply (inv_mkdir v M b); [exact I | left; reflexivity].
    + now apply Z.
  - split; [exact SI | ]. destruct (M b s) eqn:E0.
    + eapply inv_ext; [ | exact I]. intros b' s'. destruct (add M b s b' s') eqn:A.
      * apply add_spec in A. destruct A as [A | (-> & ->)]; congruence.
      * destruct (M b' s') eqn:Z; [ | reflexivity]. assert (add M b s b' s' = true) by (apply add_spec; auto). congruence.
    + apply exists_not in EX. pose proof (kept v M w I b s [] E0) as K1. rewrite app_nil_r in K1. rewrite EX in K1. symmetry in K1.
      pose proof (fun r => TV r K1) as FV. destruct I.
      assert (OLD : forall b' s', add M b s b' s' = false -> M b' s' = false).
      { intros b' s' A. destruct (M b' s') eqn:Z; [ | reflexivity]. assert (add M b s b' s' = true) by (apply add_spec; auto). congruence. }
      constructor; auto.
      * intros b' s' r A. apply add_spec in A. destruct A as [A | (-> & ->)]; [now apply gone0 | ]. rewrite kept0, FV; auto.
      * intros b' s' r A. apply add_spec in A. destruct A as [A | (-> & ->)]; [now apply moved0 | ]. rewrite FV.
        apply (fresh0 b s (Nm s) r E0).
Qed.

Lemma each_aside : forall L l v M w, within M L -> incl l L -> inv v M w -> (forall b s r, look (place b s) v = None -> look (place b s ++ r) v = None) ->
  (forall s, In s l -> proper s) ->
  wp (some_inv L v) (fun _ w' => inv v (fun b s => M b s || mem s l) w') (fun _ _ => False)
     (each l (fun s => mark_broken now (named s))) w.
Proof.
  induction l as [ | s l IH]; intros v M w WI IL I TV PR; cbn [each].
  - split; [exists M; auto | ]. eapply inv_ext; [ | exact I]. intros b s. cbn. now rewrite orb_false_r.
  - assert (IS : In s L) by (apply IL; left; reflexivity).
    assert (W1 : within (add M Config s) L).
    { intros b' s' A. apply add_spec in A. destruct A as [A | (_ & ->)]; [exact (WI _ _ A) | exact IS]. }
    assert (W2 : within (add (add M Config s) Data s) L).
    { intros b' s' A. apply add_spec in A. destruct A as [A | (_ & ->)]; [exact (W1 _ _ A) | exact IS]. }
    apply wp_bind. unfold mark_broken. rewrite config_dir_named, data_dir_named by (apply PR; left; reflexivity).
    change (dir_name (named s)) with s. rewrite comps_proper by (apply PR; left; reflexivity).
    apply wp_bind. eapply wp_weaken; [apply (put_aside_ok L v M Config s w WI IS I (TV Config s)) | auto | | intros ? ? ? []].
    cbn beta. intros _ w1 _ I1. eapply wp_weaken; [apply (put_aside_ok L v _ Data s w1 W1 IS I1 (TV Data s)) | auto | | intros ? ? ? []].
    cbn beta. intros _ w2 _ I2. eapply wp_weaken; [apply (IH v _ w2 W2 (fun x J => IL x (or_intror J)) I2 TV) | auto | | intros ? ? ? []].
    + intros s' J. apply PR. right. exact J.
    + cbn beta. intros _ w3 _ I3. eapply inv_ext; [ | exact I3]. intros b s'. cbn [mem existsb]. fold (mem s' l).
      unfold add. rewrite (String.eqb_sym s' s). destruct b, (M _ s'), (String.eqb s s'), (mem s' l); reflexivity.
Qed.
End Start.
