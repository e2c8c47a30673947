(** Sessions of ws commands: C77. *)
From Verif.Sys Require Export WsOpStep.
From Coq Require Import Sorted.
Local Open Scope string_scope.
Local Open Scope list_scope.

Section Session.
Variable pid : nat.
Variable alive : nat -> bool.
Variable absolute : string -> string.
Variable busy : string -> option nat.
Hypothesis AL : alive pid = true.

Definition agrees (f : info) (a : state) : Prop := forall n, usable n ->
  match shelf a n with
  | None => f n = None
  | Some (v, h) => v <> "" /\ exists e, f n = Some (marks_of pid busy a n, e, h) /\ (current a <> Some n -> e = v)
  end.
(** The part of [represents] that is not about files *)
Record sane (s : session) (a : state) : Prop := {
  s_here : here s = match current a with None => default | Some n => named n end;
  s_vars : vars s = variables a;
  s_home : home s = current_home a;
  s_only : forall n, shelf a n <> None -> usable n;
  s_current : forall n, current a = Some n -> shelf a n <> None /\ busy n = None;
  s_busy : forall n q, busy n = Some q -> alive q = true /\ q <> pid /\ shelf a n <> None;
  s_base : base a <> ""
}.
Definition default_saved (d : option entry) (a : state) : Prop :=
  current a <> None -> d = None /\ base a = no_variables \/ d = Some (F (base a)).

Lemma rep_open : forall s a, represents pid alive busy s a ->
  sane s a /\ exists d f, ground pid d (disk s) /\ stored f (disk s) /\ agrees f a /\ default_saved d a.
Proof.
  intros s a [T B ST DA H V HO NM ON CU BU BA EN DE]. split; [constructor; assumption | ].
  exists (look (place Data DEF ++ [EnvOf pid]) (disk s)).
  assert (X : exists e0, forall n, usable n -> current a = Some n -> match shelf a n with None => True | Some (v, h) => exists st hist res, contents n (marks_of pid busy a n) st e0 (pickle_home h) hist res (disk s) end).
  { destruct (current a) as [c | ] eqn:C; [ | exists ""; discriminate].
    assert (UC : usable c) by apply ON, (CU c eq_refl). pose proof (NM c UC) as OC. unfold on_disk in OC.
    destruct (shelf a c) as [[v h] | ] eqn:SC.
    - destruct OC as (NE & st & e & hist & res & CO & _). exists e. intros n U E. injection E as <-. rewrite SC. eauto.
    - exists "". intros n U E. injection E as <-. now rewrite SC. }
  destruct X as (e0 & X).
  exists (fun n => match shelf a n with
                   | None => None
                   | Some (v, h) => Some (marks_of pid busy a n, match current a with Some c => if String.eqb c n then e0 else v | None => v end, h)
                   end).
  split; [constructor; auto | ]. split; [ | split; [ | exact DE]].
  - intros n U. specialize (NM n U). unfold on_disk in NM. specialize (X n U). destruct (shelf a n) as [[v h] | ]; [ | exact NM]. cbn [is_at].
    destruct NM as (NE & st & e & hist & res & CO & EV). destruct (current a) as [c | ] eqn:C.
    + destruct (String.eqb_spec c n) as [-> | N]; [apply X; reflexivity | ]. rewrite EV in CO by congruence. eauto.
    + rewrite EV in CO by congruence. eauto.
  - intros n U. specialize (NM n U). unfold on_disk in NM. destruct (shelf a n) as [[v h] | ] eqn:SN; [ | reflexivity].
    destruct NM as (NE & _). split; [exact NE | ]. eexists. split; [reflexivity | ]. intros N. destruct (current a) as [c | ]; [ | reflexivity].
    destruct (String.eqb_spec c n); congruence.
Qed.

Lemma rep_close : forall s a d f, sane s a -> ground pid d (disk s) -> stored f (disk s) -> agrees f a -> default_saved d a -> represents pid alive busy s a.
Proof.
  intros s a d f [H V HO ON CU BU BA] [T B ST DA EN EF] SF AG DE. constructor; try assumption.
  - intros n U. specialize (SF n U). specialize (AG n U). unfold on_disk. destruct (shelf a n) as [[v h] | ].
    + destruct AG as (NE & e & E & EV). rewrite E in SF. cbn [is_at] in SF. destruct SF as (st & hist & res & CO). split; [exact NE | ]. exists st, e, hist, res. auto.
    + rewrite AG in SF. exact SF.
  - now rewrite EN.
  - rewrite EN. exact DE.
Qed.

Lemma marked : forall f a, (forall n, shelf a n <> None -> usable n) -> agrees f a -> forall n mk e h, usable n -> f n = Some (mk, e, h) -> exists m, mk m = true.
Proof.
  intros f a ON AG n mk e h U E. specialize (AG n U). destruct (shelf a n) as [[v h'] | ]; [ | congruence].
  destruct AG as (_ & e' & E' & _). rewrite E' in E. injection E as <- _ _. unfold marks_of.
  assert (X : forall q, exists m, held q m = true) by (intros q; exists (Some q); apply Nat.eqb_refl).
  assert (Y : exists m, nobody m = true) by (exists None; reflexivity).
  destruct (current a) as [c | ]; [destruct (String.eqb c n); [apply X | ] | ]; destruct (busy n); auto.
Qed.

Lemma marks_not_current : forall a n, current a <> Some n -> busy n = None -> marks_of pid busy a n = nobody.
Proof. intros a n N B. unfold marks_of. rewrite B. destruct (current a) as [c | ]; [ | reflexivity]. destruct (String.eqb_spec c n); [congruence | reflexivity]. Qed.
Lemma marks_current : forall a n, current a = Some n -> marks_of pid busy a n = held pid.
Proof. intros a n E. unfold marks_of. rewrite E, String.eqb_refl. reflexivity. Qed.
Lemma marks_busy : forall a n q, current a <> Some n -> busy n = Some q -> marks_of pid busy a n = held q.
Proof. intros a n q N B. unfold marks_of. rewrite B. destruct (current a) as [c | ]; [ | reflexivity]. destruct (String.eqb_spec c n); [congruence | reflexivity]. Qed.
(** the marks of others do not change when the current workspace does *)
Lemma marks_same : forall sh sh' b b' c c' n, c <> Some n -> c' <> Some n -> marks_of pid busy (mkst sh b c) n = marks_of pid busy (mkst sh' b' c') n.
Proof.
  intros sh sh' b b' c c' n N N'. unfold marks_of. cbn [current]. destruct c as [c | ], c' as [c' | ]; try destruct (String.eqb_spec c n); try destruct (String.eqb_spec c' n); congruence.
Qed.

(** From the current workspace to workspace [n] *)
Lemma switch_to : forall s a d f n v' h', sane s a -> ground pid d (disk s) -> stored f (disk s) -> agrees f a -> default_saved d a ->
  usable n -> busy n = None -> current a <> Some n -> shelf a n = Some (v', h') ->
  exists w', run (reopen pid alive s (named n)) (disk s) = (Ok (named n, v', h'), w') /\
    represents pid alive busy (mks w' (named n) v' h') (mkst (shelf a) (base a) (Some n)).
Proof.
  intros s a d f n v' h' SA G ST AG DS U BN NC SN. pose proof (AG n U) as AN. rewrite SN in AN. destruct AN as (NE & e & FN & EV). specialize (EV NC). subst e.
  rewrite (marks_not_current a n NC BN) in FN.
  assert (FIN : forall d' f' w', ground pid d' w' -> stored f' w' -> agrees f' (mkst (shelf a) (base a) (Some n)) -> default_saved d' (mkst (shelf a) (base a) (Some n)) ->
            represents pid alive busy (mks w' (named n) v' h') (mkst (shelf a) (base a) (Some n))).
  { intros d' f' w' G' ST' AG' DS'. apply (rep_close _ _ d' f'); try assumption. destruct SA as [HE VA HO ON CU BU BA]. constructor; cbn [here vars home current shelf base variables current_home]; auto.
    - unfold variables. cbn. now rewrite SN.
    - unfold current_home. cbn. now rewrite SN.
    - intros m E. injection E as <-. rewrite SN. split; [discriminate | exact BN]. }
  assert (PROP : forall f' w', stored f' w' -> f' n = Some (held pid, v', h') -> (match look (prop_file (named n)) w' with Some (F t) => unpickle_home t | _ => None end) = h').
  { intros f' w' ST' E. specialize (ST' n U). rewrite E in ST'. destruct ST' as (st & hist & res & [C DD]). unfold prop_file. rewrite (data_dir_named n (proj1 U)), DD. cbn. apply pickled. }
  unfold reopen. rewrite run_bind. rewrite (s_here _ _ SA), (s_home _ _ SA), (s_vars _ _ SA). destruct (current a) as [c | ] eqn:CA.
  - destruct (s_current _ _ SA c CA) as [SC BC]. assert (UC : usable c) by now apply (s_only _ _ SA).
    pose proof (AG c UC) as AC. destruct (shelf a c) as [[v h] | ] eqn:SHC; [ | contradiction]. destruct AC as (NEV & e0 & FC & _). rewrite (marks_current a c CA) in FC.
    assert (c <> n) by congruence.
    destruct (switch_named_named pid alive AL d f (disk s) c n e0 (variables a) (current_home a) h v' h' UC U H G ST FC FN NE) as (w' & E & G' & ST').
    rewrite E. cbn [run fst snd named default_class]. fold (named n). rewrite (PROP _ w' ST'); [ | unfold put; now rewrite String.eqb_refl].
    exists w'. split; [reflexivity | ]. apply (FIN d _ w' G' ST').
    + intros m UM. specialize (AG m UM). cbn [shelf]. unfold put.
      destruct (String.eqb_spec m n) as [-> | N1].
      * rewrite SN. split; [exact NE | ]. exists v'. rewrite marks_current by reflexivity. split; [reflexivity | ]. intros X. now destruct X.
      * destruct (String.eqb_spec m c) as [-> | N2].
        -- rewrite SHC in *. split; [exact NEV | ]. exists (variables a). rewrite marks_not_current; [ | cbn; congruence | exact BC].
           unfold current_home, variables. rewrite CA, SHC. split; reflexivity || auto.
        -- destruct (shelf a m) as [[vm hm] | ]; [ | exact AG]. destruct AG as (NM & em & FM & EM). split; [exact NM | ]. exists em. rewrite FM. split.
           ++ do 3 f_equal. destruct a as [sh ba cu]. cbn [shelf base current] in *. subst cu. apply marks_same; congruence.
           ++ intros _. apply EM. congruence.
    + intros _. cbn [base]. apply DS. congruence.
  - destruct (switch_default_named pid alive AL d f (disk s) n (variables a) (current_home a) v' h' U G ST FN NE) as (w' & E & G' & ST').
    rewrite E. cbn [run fst snd named default_class]. fold (named n). rewrite (PROP _ w' ST'); [ | unfold put; now rewrite String.eqb_refl].
    exists w'. split; [reflexivity | ]. apply (FIN _ _ w' G' ST').
    + intros m UM. specialize (AG m UM). cbn [shelf]. unfold put.
      destruct (String.eqb_spec m n) as [-> | N1].
      * rewrite SN. split; [exact NE | ]. exists v'. rewrite marks_current by reflexivity. split; [reflexivity | ]. intros X. now destruct X.
      * destruct (shelf a m) as [[vm hm] | ]; [ | exact AG]. destruct AG as (NM & em & FM & EM). split; [exact NM | ]. exists em. rewrite FM. split.
        -- do 3 f_equal. destruct a as [sh ba cu]. cbn [shelf base current] in *. subst cu. apply marks_same; congruence.
        -- intros _. apply EM. congruence.
    + intros _. cbn [base]. right. unfold variables. now rewrite CA.
Qed.

Lemma put_agrees : forall f a n x sh cu, agrees f a -> (forall m, m <> n -> sh m = shelf a m) -> cu = current a ->
  (match sh n with None => x = None | Some (v, h) => v <> "" /\ exists e, x = Some (marks_of pid busy a n, e, h) /\ (cu <> Some n -> e = v) end) ->
  agrees (put f n x) (mkst sh (base a) cu).
Proof.
  intros f a n x sh cu AG SH -> HX m U. cbn [shelf current]. unfold put.
  assert (MK : forall k, marks_of pid busy (mkst sh (base a) (current a)) k = marks_of pid busy a k) by reflexivity.
  destruct (String.eqb_spec m n) as [-> | N]; [ | rewrite (SH m N); exact (AG m U)]. exact HX.
Qed.

Lemma step : forall s a words c, represents pid alive busy s a -> written words c -> fair_cmd busy c ->
  exists r s' a', command pid alive absolute s words = (r, Going s') /\ does absolute busy a c r a' /\ represents pid alive busy s' a'.
Proof.
  intros s a words c R W FC. destruct (written_impl words c W) as (m & PM & CM & KM). unfold command. rewrite PM, CM, KM.
  destruct (rep_open s a R) as (SA & d & f & G & ST & AG & DS). assert (RS : represents pid alive busy (mks (disk s) (here s) (vars s) (home s)) a) by now destruct s.
  assert (WN : wname (here s) = current_name a) by (rewrite (s_here _ _ SA); unfold current_name; now destruct (current a)).
  pose proof (s_only _ _ SA) as ON.
  destruct c as [ | | n | n | | n | | p]; cbn [impl_of perform].
  - cbn [run]. eexists _, _, a. split; [reflexivity | ]. split; [ | exact RS]. rewrite WN, (s_home _ _ SA). constructor.
  - rewrite run_bind.
    set (f' := fun n => match shelf a n with None => None | Some _ => f n end).
    assert (ST' : stored f' (disk s)).
    { intros n U. specialize (ST n U). specialize (AG n U). unfold f'. destruct (shelf a n); [exact ST | ]. now rewrite AG in ST. }
    destruct (list_all pid d f' (disk s) G ST') as (l & E & IO & IN).
    { intros n mk e h E. unfold f' in E. destruct (shelf a n) eqn:SN; [ | discriminate E]. eapply (marked f a ON AG n mk e h); [ | exact E]. apply ON. congruence. }
    rewrite E. cbn [run]. eexists _, _, a. split; [reflexivity | ]. split; [ | exact RS]. constructor; [exact IO | ].
    intros n h. rewrite IN. assert (X : (usable n /\ exists mk e, f' n = Some (mk, e, h)) <-> exists v, shelf a n = Some (v, h)); [ | tauto].
    unfold f'. split.
    + intros (U & mk & e & X). specialize (AG n U). destruct (shelf a n) as [[v h'] | ]; [ | discriminate X]. destruct AG as (_ & e' & X' & _). rewrite X' in X. injection X as _ _ <-. eauto.
    + intros (v & X). assert (U : usable n) by (apply ON; congruence). split; [exact U | ]. specialize (AG n U). rewrite X in *. destruct AG as (_ & e' & X' & _). eauto.
  - cbn [fair_cmd] in FC. cbn [run]. destruct (shelf a n) as [[v h] | ] eqn:SN.
    + pose proof (AG n FC) as AN. rewrite SN in AN. destruct AN as (NE & e & FN & EV).
      rewrite (exists_named n FC f (disk s) _ e h ST FN) by (eapply marked; eauto). cbn [run].
      eexists _, _, a. split; [reflexivity | ]. split; [ | exact RS]. apply D_new_refused. congruence.
    + pose proof (AG n FC) as AN. rewrite SN in AN. rewrite (exists_absent n FC f (disk s) ST AN). rewrite run_bind.
      destruct (create_all pid alive n FC d f (disk s) G ST AN) as (w1 & E & G1 & ST1). rewrite E. cbn [run].
      assert (NC : current a <> Some n) by (intros X; apply (s_current _ _ SA) in X; destruct X; contradiction).
      assert (BN : busy n = None).
      { destruct (busy n) as [q | ] eqn:B; [ | reflexivity]. destruct (s_busy _ _ SA n q B) as (_ & _ & X). contradiction. }
      set (sh := upd_shelf (shelf a) n (Some (no_variables, None))).
      assert (SH : forall k, k <> n -> sh k = shelf a k) by (intros k N; unfold sh, upd_shelf; destruct (String.eqb_spec k n); [contradiction | reflexivity]).
      assert (SHN : sh n = Some (no_variables, None)) by (unfold sh, upd_shelf; now rewrite String.eqb_refl).
      set (a1 := mkst sh (base a) (current a)). set (s1 := mks w1 (here s) (vars s) (home s)).
      assert (CS : forall k, current a = Some k -> sh k = shelf a k) by (intros k X; apply SH; congruence).
      assert (SA1 : sane s1 a1).
      { destruct SA as [HE VA HO ON' CU BU BA]. constructor; cbn; auto.
        - rewrite VA. unfold variables. cbn. destruct (current a) as [k | ]; [ | reflexivity]. now rewrite CS.
        - rewrite HO. unfold current_home. cbn. destruct (current a) as [k | ]; [ | reflexivity]. now rewrite CS.
        - intros k X. destruct (string_dec k n) as [-> | N]; [exact FC | ]. rewrite SH in X by exact N. auto.
        - intros k X. rewrite CS by exact X. auto.
        - intros k q X. destruct (BU k q X) as (A1 & A2 & A3). split; [exact A1 | ]. split; [exact A2 | ]. rewrite SH; [exact A3 | congruence]. }
      assert (AG1 : agrees (put f n (Some (nobody, empty_env, None))) a1).
      { apply put_agrees; auto. rewrite SHN. split; [discriminate | ]. exists no_variables. split; [ | auto]. now rewrite marks_not_current. }
      destruct (switch_to s1 a1 d _ n no_variables None SA1 G1 ST1 AG1 DS FC BN NC SHN) as (w2 & E2 & R2).
      change (reopen pid alive s (named n)) with (reopen pid alive s1 (named n)). change w1 with (disk s1). rewrite E2.
      eexists _, _, _. split; [reflexivity | ]. split; [apply D_new; exact SN | exact R2].
  - cbn [fair_cmd] in FC. destruct FC as [U BN]. cbn [run]. destruct (shelf a n) as [[v h] | ] eqn:SN.
    + pose proof (AG n U) as AN. rewrite SN in AN. destruct AN as (NE & e & FN & EV).
      rewrite (exists_named n U f (disk s) _ e h ST FN) by (eapply marked; eauto).
      assert (NN : n <> "") by apply U.
      destruct (String.eqb_spec (wname (here s)) n) as [E | N].
      * cbn [run]. eexists _, _, a. split; [reflexivity | ]. split; [ | exact RS]. apply D_open_again; [congruence | ].
        rewrite WN in E. unfold current_name in E. destruct (current a); congruence.
      * cbn [run]. assert (NC : current a <> Some n) by (intros X; apply N; rewrite WN; unfold current_name; now rewrite X).
        destruct (switch_to s a d f n v h SA G ST AG DS U BN NC SN) as (w2 & E2 & R2). rewrite E2.
        eexists _, _, _. split; [reflexivity | ]. split; [apply D_open; congruence | exact R2].
    + pose proof (AG n U) as AN. rewrite SN in AN. rewrite (exists_absent n U f (disk s) ST AN). cbn [run].
      eexists _, _, a. split; [reflexivity | ]. split; [ | exact RS]. now apply D_open_refused.
  - destruct (current a) as [k | ] eqn:CA; assert (HE := s_here _ _ SA); rewrite CA in HE; rewrite HE; cbn [default named default_class run]; fold default.
    + destruct (s_current _ _ SA k CA) as [SK BK]. assert (UK : usable k) by now apply ON.
      pose proof (AG k UK) as AK. destruct (shelf a k) as [[v h] | ] eqn:SHK; [ | contradiction]. destruct AK as (NE & e & FK & _). rewrite (marks_current a k CA) in FK.
      unfold reopen. rewrite run_bind, HE, (s_home _ _ SA), (s_vars _ _ SA).
      destruct (switch_named_default pid alive AL d f (disk s) k e (variables a) (current_home a) h (base a) UK G ST FK (s_base _ _ SA)) as (w' & E & G' & ST').
      { apply DS. congruence. }
      rewrite E. cbn [run fst snd default default_class]. eexists _, _, _. split; [reflexivity | ]. split; [eapply D_close; exact CA | ].
      eapply (rep_close _ _ d); [ | exact G' | exact ST' | | intros X; now destruct X].
      * destruct SA as [HE' VA HO ON' CU BU BA]. constructor; cbn; auto. discriminate.
      * intros n U. specialize (AG n U). cbn [shelf]. unfold put. destruct (String.eqb_spec n k) as [-> | N].
        -- rewrite SHK in *. split; [exact NE | ]. exists (variables a). rewrite marks_not_current; [ | discriminate | exact BK].
           unfold variables, current_home. rewrite CA, SHK. split; [reflexivity | auto].
        -- destruct (shelf a n) as [[vn hn] | ]; [ | exact AG]. destruct AG as (NM & en & FN & EN). split; [exact NM | ]. exists en. rewrite FN. split.
           ++ do 3 f_equal. destruct a as [sh ba cu]. cbn [shelf base current] in *. subst cu. apply marks_same; congruence.
           ++ intros _. apply EN. congruence.
    + eexists _, _, a. split; [reflexivity | ]. split; [now apply D_close_again | ]. destruct s; cbn in *; congruence || (rewrite <- HE; exact RS).
  - cbn [fair_cmd] in FC. assert (NN : n <> "") by apply FC. rewrite WN. destruct (String.eqb_spec n (current_name a)) as [E | N].
    + cbn [run]. eexists _, _, a. split; [reflexivity | ]. split; [ | exact RS]. apply D_delete_refused. right. left.
      unfold current_name in E. destruct (current a); congruence.
    + assert (NC : current a <> Some n) by (intros X; apply N; unfold current_name; now rewrite X). rewrite run_bind.
      pose proof (AG n FC) as AN. destruct (shelf a n) as [[v h] | ] eqn:SN.
      * destruct AN as (NE & e & FN & EV). destruct (busy n) as [q | ] eqn:BN.
        -- rewrite (marks_busy a n q NC BN) in FN. destruct (s_busy _ _ SA n q BN) as (AQ & NQ & _).
           destruct (busy_all pid alive n FC f (disk s) q e h ST FN AQ NQ) as [_ E]. rewrite E.
           eexists _, _, a. split; [reflexivity | ]. split; [ | exact RS]. apply D_delete_refused. right. right. congruence.
        -- rewrite (marks_not_current a n NC BN) in FN.
           destruct (delete_all pid alive AL n FC d f (disk s) e h G ST FN) as (w' & E & G' & ST'). rewrite E. cbn [run].
           eexists _, _, _. split; [reflexivity | ]. split; [apply D_delete; congruence | ].
           assert (SH : forall k, k <> n -> upd_shelf (shelf a) n None k = shelf a k) by (intros k X; unfold upd_shelf; destruct (String.eqb_spec k n); [contradiction | reflexivity]).
           assert (SHN : upd_shelf (shelf a) n None n = None) by (unfold upd_shelf; now rewrite String.eqb_refl).
           assert (CS : forall k, current a = Some k -> upd_shelf (shelf a) n None k = shelf a k) by (intros k X; apply SH; congruence).
           eapply (rep_close _ _ d); [ | exact G' | exact ST' | apply put_agrees; auto; now rewrite SHN | exact DS].
           destruct SA as [HE VA HO ON' CU BU BA]. constructor; cbn [here vars home shelf base current]; auto.
           ++ rewrite VA. unfold variables. cbn [shelf base current]. destruct (current a) as [k | ]; [ | reflexivity]. now rewrite CS.
           ++ rewrite HO. unfold current_home. cbn [shelf base current]. destruct (current a) as [k | ]; [ | reflexivity]. now rewrite CS.
           ++ intros k X. apply ON'. intros Y. apply X. unfold upd_shelf. now destruct (String.eqb k n).
           ++ intros k X. rewrite CS by exact X. auto.
           ++ intros k q X. destruct (BU k q X) as (A1 & A2 & A3). split; [exact A1 | ]. split; [exact A2 | ]. rewrite SH; [exact A3 | congruence].
      * rewrite (missing_all pid alive n FC f (disk s) ST AN). eexists _, _, a. split; [reflexivity | ]. split; [ | exact RS]. apply D_delete_refused. auto.
  - rewrite run_bind. destruct (broken_all pid d f (disk s) G ST) as (w' & E & G' & ST'). rewrite E. cbn [run].
    eexists _, _, a. split; [reflexivity | ]. split; [constructor | ]. apply (rep_close _ _ d f); try assumption. destruct SA; constructor; assumption.
  - destruct (current a) as [k | ] eqn:CA; assert (HE := s_here _ _ SA); rewrite CA in HE; rewrite HE; cbn [default named default_class run]; fold (named p).
    + destruct (s_current _ _ SA k CA) as [SK BK]. assert (UK : usable k) by now apply ON.
      pose proof (AG k UK) as AK. destruct (shelf a k) as [[v h] | ] eqn:SHK; [ | contradiction]. destruct AK as (NE & e & FK & EV). rewrite (marks_current a k CA) in FK.
      change (mkws k false) with (named k). rewrite run_bind.
      destruct (home_all pid k UK d f (disk s) e h (Some (absolute p)) G ST FK) as (w' & E & G' & ST'). rewrite E. cbn [run wname named].
      eexists _, _, _. split; [reflexivity | ]. split; [eapply D_home; eassumption | ].
      assert (SH : forall j x, j <> k -> upd_shelf (shelf a) k x j = shelf a j) by (intros j x X; unfold upd_shelf; destruct (String.eqb_spec j k); [contradiction | reflexivity]).
      assert (SHN : forall x, upd_shelf (shelf a) k x k = x) by (intros x; unfold upd_shelf; now rewrite String.eqb_refl).
      eapply (rep_close _ _ d); [ | exact G' | exact ST' | apply put_agrees; auto | exact DS].
      * destruct SA as [HE' VA HO ON' CU BU BA]. constructor; cbn [here vars home shelf base current]; auto.
        -- now rewrite CA.
        -- rewrite VA. unfold variables. cbn [shelf base current]. rewrite CA, SHN, SHK. reflexivity.
        -- unfold current_home. cbn [shelf base current]. now rewrite CA, SHN.
        -- intros j X. destruct (string_dec j k) as [-> | N]; [exact UK | ]. rewrite SH in X by exact N. auto.
        -- intros j X. assert (j = k) by congruence. subst j. rewrite SHN. split; [discriminate | exact BK].
        -- intros j q X. destruct (BU j q X) as (A1 & A2 & A3). split; [exact A1 | ]. split; [exact A2 | ].
           destruct (string_dec j k) as [-> | N]; [rewrite SHN; discriminate | now rewrite SH].
      * rewrite SHN. split; [exact NE | ]. exists e. rewrite (marks_current a k CA). split; [reflexivity | ]. intros X. now destruct X.
    + eexists _, _, a. split; [reflexivity | ]. split; [now apply D_home_refused | ]. rewrite <- HE. exact RS.
Qed.

Lemma assign_step : forall s a v, represents pid alive busy s a -> v <> "" ->
  represents pid alive busy (mks (disk s) (here s) v (home s)) (assign v a).
Proof.
  intros s a v R NE. destruct (rep_open s a R) as (SA & d & f & G & ST & AG & DS). unfold assign.
  destruct (current a) as [k | ] eqn:CA.
  - destruct (s_current _ _ SA k CA) as [SK BK]. assert (UK : usable k) by now apply (s_only _ _ SA).
    assert (SH : forall j x, j <> k -> upd_shelf (shelf a) k x j = shelf a j) by (intros j x X; unfold upd_shelf; destruct (String.eqb_spec j k); [contradiction | reflexivity]).
    assert (SHN : forall x, upd_shelf (shelf a) k x k = x) by (intros x; unfold upd_shelf; now rewrite String.eqb_refl).
    apply (rep_close _ _ d f); [ | exact G | exact ST | | intros _; apply DS; congruence].
    + destruct SA as [HE VA HO ON CU BU BA]. constructor; cbn [here vars home shelf base current]; auto.
      * now rewrite CA in HE.
      * unfold variables. cbn [shelf current]. now rewrite SHN.
      * rewrite HO. unfold current_home at 2. cbn [shelf current]. now rewrite SHN.
      * intros j X. destruct (string_dec j k) as [-> | N]; [exact UK | ]. rewrite SH in X by exact N. auto.
      * intros j X. injection X as <-. rewrite SHN. split; [discriminate | exact BK].
      * intros j q X. destruct (BU j q X) as (A1 & A2 & A3). split; [exact A1 | ]. split; [exact A2 | ].
        destruct (string_dec j k) as [-> | N]; [rewrite SHN; discriminate | now rewrite SH].
    + intros m U. specialize (AG m U). cbn [shelf current].
      assert (MK : forall sh, marks_of pid busy (mkst sh (base a) (Some k)) m = marks_of pid busy a m) by (intros sh; unfold marks_of; cbn; now rewrite CA).
      rewrite MK. destruct (string_dec m k) as [-> | N].
      * rewrite SHN. destruct (shelf a k) as [[v0 h0] | ] eqn:SHK; [ | contradiction]. destruct AG as (_ & e & FE & _). split; [exact NE | ]. exists e. split; [ | intros X; now destruct X].
        unfold current_home. now rewrite CA, SHK.
      * rewrite SH by exact N. destruct (shelf a m) as [[v0 h0] | ]; [ | exact AG]. destruct AG as (N0 & e & FE & EV). split; [exact N0 | ]. exists e. split; [exact FE | ]. intros X. apply EV. now rewrite CA.
  - apply (rep_close _ _ d f); [ | exact G | exact ST | | intros X; now destruct X].
    + destruct SA as [HE VA HO ON CU BU BA]. rewrite CA in HE. constructor; cbn [here vars home shelf base current]; auto.
      * rewrite HO. unfold current_home. now rewrite CA.
      * discriminate.
    + intros m U. specialize (AG m U). cbn [shelf current].
      assert (MK : forall b, marks_of pid busy (mkst (shelf a) b None) m = marks_of pid busy a m) by (intros b; unfold marks_of; cbn; now rewrite CA).
      rewrite MK. now rewrite CA in AG.
Qed.
End Session.

(** Every session of ws commands is as the specification says, and leaves on disk what it says *)
Theorem c77_session_partial : forall pid alive absolute busy s a es,
  alive pid = true -> represents pid alive busy s a -> Forall (fair busy) es ->
  exists rs s' a', execute pid alive absolute s es = (rs, Going s') /\ session_does absolute busy a es rs a' /\ represents pid alive busy s' a'.
Proof.
  intros pid alive absolute busy s a es AL R FA. revert s a R. induction FA as [ | e es FE FA IH]; intros s a R.
  - exists [], s, a. split; [reflexivity | ]. split; [constructor | exact R].
  - destruct e as [words | v]; cbn [fair] in FE.
    + destruct FE as (c & W & FC). destruct (step pid alive absolute busy AL s a words c R W FC) as (r & s1 & a1 & E & DO & R1).
      destruct (IH s1 a1 R1) as (rs & s' & a' & E' & SD & R'). exists (r :: rs), s', a'. cbn [execute]. rewrite E, E'. split; [reflexivity | ].
      split; [econstructor; eassumption | exact R'].
    + destruct (IH _ _ (assign_step pid alive busy s a v R FE)) as (rs & s' & a' & E & SD & R'). exists rs, s', a'. cbn [execute].
      split; [exact E | ]. split; [constructor; exact SD | exact R'].
Qed.

(** What a workspace had when it was left is there when it is opened again, whatever was done in others meanwhile *)
Definition about (n : string) (e : event) : Prop := exists words, e = Ws words /\ (written words (Open n) \/ written words (Delete n)).

Lemma written_once : forall words c c', written words c -> written words c' -> c = c'.
Proof.
  intros words c c' W W'. destruct (written_impl words c W) as (m & P & C & _). destruct (written_impl words c' W') as (m' & P' & C' & _).
  rewrite P in P'. injection P' as <-. rewrite C in C'. destruct c, c'; cbn in C'; congruence.
Qed.

Lemma kept_meanwhile : forall absolute busy a es rs a' n x, session_does absolute busy a es rs a' ->
  Forall (fun e => ~ about n e) es -> current a <> Some n -> shelf a n = Some x -> current a' <> Some n /\ shelf a' n = Some x.
Proof.
  intros absolute busy a es rs a' n x SD. induction SD as [a | a v es rs a' SD IH | a words c r a1 es rs a' W DO SD IH]; intros NA NC SN; [auto | | ].
  - inversion NA; subst. apply IH; [assumption | | ]; unfold assign; destruct (current a) as [k | ] eqn:CA; cbn [current shelf]; try congruence.
    unfold upd_shelf. destruct (String.eqb_spec n k); congruence.
  - inversion NA as [ | ? ? N NA']; subst. assert (NO : c <> Open n /\ c <> Delete n) by (split; intros ->; apply N; exists words; auto). destruct NO as [NO ND].
    destruct DO; cbn [current shelf] in IH; try (apply IH; auto; fail).
    + apply IH; [assumption | intros E; injection E as ->; congruence | ]. unfold upd_shelf. destruct (String.eqb_spec n n0); congruence.
    + apply IH; congruence.
    + apply IH; [assumption | discriminate | assumption].
    + apply IH; [assumption | assumption | ]. unfold upd_shelf. destruct (String.eqb_spec n n0); congruence.
    + apply IH; [assumption | assumption | ]. unfold upd_shelf. destruct (String.eqb_spec n n0); congruence.
Qed.

Lemma execute_app : forall pid alive absolute es es' s, execute pid alive absolute s (es ++ es') =
  match execute pid alive absolute s es with
  | (rs, Going s') => let (rs', l) := execute pid alive absolute s' es' in (rs ++ rs', l)
  | (rs, Ended w) => (rs, Ended w)
  end.
Proof.
  intros pid alive absolute es es'. induction es as [ | [words | v] es IH]; intros s; cbn [app execute].
  - now destruct (execute pid alive absolute s es').
  - destruct (command pid alive absolute s words) as [r [s' | w]]; [ | reflexivity]. rewrite IH.
    destruct (execute pid alive absolute s' es) as [rs [s'' | w]]; [ | reflexivity]. now destruct (execute pid alive absolute s'' es').
  - apply IH.
Qed.

Theorem c77_variables_kept_partial : forall pid alive absolute busy s a n leave r s1 es,
  alive pid = true -> represents pid alive busy s a -> here s = named n -> plain n ->
  fair busy (Ws leave) -> command pid alive absolute s leave = (r, Going s1) -> here s1 <> named n ->
  Forall (fair busy) es -> Forall (fun e => ~ about n e) es ->
  exists rs s', execute pid alive absolute s1 (es ++ [Ws [word n]]) = (rs, Going s') /\
    here s' = named n /\ vars s' = vars s /\ home s' = home s.
Proof.
  intros pid alive absolute busy s a n leave r s1 es AL R HE PL FL CO NH FA NA.
  destruct FL as (c & W & FC). destruct (step pid alive absolute busy AL s a leave c R W FC) as (r' & s1' & a1 & E & DO & R1).
  rewrite CO in E. injection E as <- <-.
  assert (CA : current a = Some n) by (pose proof (r_here _ _ _ _ _ R) as H; rewrite HE in H; destruct (current a); [injection H as ->; reflexivity | discriminate H]).
  assert (CA1 : current a1 <> Some n) by (intros X; apply NH; rewrite (r_here _ _ _ _ _ R1), X; reflexivity).
  destruct (r_current _ _ _ _ _ R n CA) as [SN BN]. assert (U : usable n) by apply (r_only _ _ _ _ _ R n SN).
  assert (SA : shelf a n = Some (vars s, home s)).
  { rewrite (r_vars _ _ _ _ _ R), (r_home _ _ _ _ _ R). unfold variables, current_home. rewrite CA. destruct (shelf a n) as [[v h] | ]; [reflexivity | contradiction]. }
  assert (SA1 : shelf a1 n = Some (vars s, home s)).
  { destruct DO; cbn [shelf current] in *; try assumption; try congruence. unfold upd_shelf. destruct (String.eqb_spec n n0); congruence. }
  destruct (c77_session_partial pid alive absolute busy s1 a1 es AL R1 FA) as (rs & s2 & a2 & E2 & SD & R2).
  destruct (kept_meanwhile _ _ _ _ _ _ n _ SD NA CA1 SA1) as [CA2 SA2].
  destruct (step pid alive absolute busy AL s2 a2 [word n] (Open n) R2 (W_name n PL) (conj U BN)) as (r3 & s3 & a3 & E3 & DO3 & R3).
  exists (rs ++ [r3]), s3. rewrite execute_app, E2. cbn [execute]. rewrite E3. split; [reflexivity | ].
  inversion DO3; subst; try congruence.
  rewrite (r_here _ _ _ _ _ R3), (r_vars _ _ _ _ _ R3), (r_home _ _ _ _ _ R3). unfold variables, current_home. cbn [current shelf]. rewrite SA2. auto.
Qed.

(** ws --delete-broken removes everything that was put aside, and nothing else *)
Theorem c77_delete_broken : forall pid alive absolute busy s a f, represents pid alive busy s a -> In f ["-b"; "--delete-broken"] ->
  exists s', command pid alive absolute s [word f] = (Shown [], Going s') /\
    (forall b x r, look ([root b; Nm "broken"; x] ++ r) (disk s') = None) /\
    (forall q, (forall b x r, q <> [root b; Nm "broken"; x] ++ r) -> look q (disk s') = look q (disk s)) /\
    here s' = here s /\ vars s' = vars s /\ home s' = home s.
Proof.
  intros pid alive absolute busy s a f R I. destruct (written_impl _ _ (W_broken f I)) as (m & P & C & K). unfold command. rewrite P, C, K. cbn [impl_of perform].
  rewrite run_bind. destruct (run_delete_broken (disk s) (tree _ (r_tidy _ _ _ _ _ R)) (r_broken _ _ _ _ _ R)) as (w' & E & N & S). rewrite E. cbn [run].
  eexists. split; [reflexivity | ]. cbn [disk here vars home]. split; [intros b x r; apply N; exists b, x, r; reflexivity | ]. split; [ | auto].
  intros q H. apply S. intros (b & x & r & Y). exact (H b x r Y).
Qed.

(** * What is wrong *)

(** Opening a workspace that another process is using ends the session.  (What it had was saved.) *)
Theorem c77_busy_refuted : forall pid alive absolute busy s a c n q words,
  alive pid = true -> represents pid alive busy s a -> current a = Some c -> usable n -> busy n = Some q -> written words (Open n) ->
  exists r w, command pid alive absolute s words = (r, Ended w) /\
    exists st hist res, contents c nobody st (vars s) (pickle_home (home s)) hist res w.
Proof.
  intros pid alive absolute busy s a c n q words AL R CA U BN W. destruct (written_impl words _ W) as (m & PM & CM & KM). unfold command. rewrite PM, CM, KM.
  destruct (rep_open pid alive busy s a R) as (SA & d & f & G & ST & AG & DS). destruct (s_busy _ _ _ _ _ SA n q BN) as (AQ & NQ & SN).
  destruct (s_current _ _ _ _ _ SA c CA) as [SC BC]. assert (UC : usable c) by now apply (s_only _ _ _ _ _ SA). assert (NE : c <> n) by congruence.
  pose proof (AG n U) as AN. destruct (shelf a n) as [[v h] | ] eqn:SHN; [ | contradiction]. destruct AN as (_ & e & FN & _).
  pose proof (AG c UC) as AC. destruct (shelf a c) as [[vc hc] | ] eqn:SHC; [ | contradiction]. destruct AC as (_ & ec & FC & _).
  rewrite (marks_current pid busy a c CA) in FC.
  pose proof FN as FN'. rewrite (marks_busy pid busy a n q) in FN' by congruence.
  cbn [impl_of perform run]. rewrite (exists_named n U f (disk s) _ e h ST FN) by (exact (marked pid busy f a (s_only _ _ _ _ _ SA) AG n _ e h U FN)).
  rewrite (s_here _ _ _ _ _ SA), CA. cbn [named wname]. destruct (String.eqb_spec c n); [contradiction | ]. cbn [run]. unfold reopen. rewrite run_bind, (s_here _ _ _ _ _ SA), CA.
  destruct (switch_busy pid alive AL d f (disk s) c n q ec (vars s) (home s) hc e h UC U NE G ST FC FN' AQ NQ) as (w' & E & G' & ST').
  rewrite E. exists (Shown [(n, None)]), w'. split; [reflexivity | ]. specialize (ST' c UC). unfold put in ST'. rewrite String.eqb_refl in ST'. exact ST'.
Qed.

(** A name that a command has no use for is silently ignored *)
Theorem c77_extra_name_refuted : forall pid alive absolute s f n m, In f ["-n"; "--new"; "-o"; "--open"; "-d"; "--delete"; "-h"; "--home"] -> plain n -> plain m ->
  command pid alive absolute s [word f; word n; word m] = command pid alive absolute s [word f; word n].
Proof.
  intros pid alive absolute s f n m I P Q.
  assert (X : exists k, In (f, k) [("-n", "new"); ("--new", "new"); ("-o", "open"); ("--open", "open"); ("-d", "delete"); ("--delete", "delete"); ("-h", "home"); ("--home", "home")] /\
              parse [word f; word n; word m] = Some [(word k, Args.OStr (word n)); (word "name", Args.OStr (word m))]).
  { unfold parse, Args.parse. cbn [map flat_map]. rewrite (plain_expand n P), (plain_expand m Q).
    pose proof (plain_flag n P) as FN. pose proof (plain_plausible n P) as QN. pose proof (plain_flag m Q) as FM. pose proof (plain_plausible m Q) as QM.
    clear P Q. generalize dependent (word n). generalize dependent (word m). intros t FM QM u FN QN. cbn in I.
    repeat (destruct I as [E | I];
      [subst f;
       match goal with |- context [Args.expand_arg ArgsTable.op_ws (Args.OStr (word ?x)) ++ _] => change (Args.expand_arg ArgsTable.op_ws (Args.OStr (word x))) with [Args.OStr (word x)] end;
       cbn [app Args.extract];
       match goal with |- context [Args.extract_one ?c ?d ?s (Args.OStr (word ?x))] =>
         let y := eval vm_compute in (Args.extract_one c d s (Args.OStr (word x))) in change (Args.extract_one c d s (Args.OStr (word x))) with y end;
       cbn [Args.extract]; unfold Args.extract_one; rewrite FN, QN; cbn [Args.ps_cur Args.f_value Args.is_vnone Args.f_name Args.ps_flags Args.ps_anon Args.ps_list Args.ps_ok];
       rewrite FM, QM; eexists; split; [cbn; repeat (first [left; reflexivity | right]) | vm_compute; reflexivity] | ]).
    destruct I. }
  destruct X as (k & IK & E). unfold command. rewrite E, (parse_value f k n P IK). clear E I.
  cbn in IK. repeat (destruct IK as [E | IK]; [injection E as <- <-; reflexivity | ]). destruct IK.
Qed.

(** ws --rename, --copy, --export and --import do nothing but fail *)
Theorem c77_not_implemented_refuted : forall pid alive absolute s words m,
  parse words = Some m -> In (choose m) [WsRename; WsCopy; WsExport; WsImport] -> command pid alive absolute s words = (Refused, Going s).
Proof.
  intros pid alive absolute s words m P I. unfold command. rewrite P. cbn in I.
  destruct I as [E | [E | [E | [E | []]]]]; rewrite <- E; cbn [checks perform run]; destruct (given (attr "name" m)); now destruct s.
Qed.

(** The Python function ws (which marcel.api does not export): name=x opens the workspace called name, whatever x is; exp=x and imp=x are errors *)
Theorem c77_api_refuted : forall pid alive absolute s x, x <> "" ->
  command pid alive absolute s (api_args (mkapi false None None false None false None None None None None (Some x))) = command pid alive absolute s [word "name"] /\
  command pid alive absolute s (api_args (mkapi false None None false None false None None None (Some x) None None)) = (Refused, Going s) /\
  command pid alive absolute s (api_args (mkapi false None None false None false None None None None (Some x) None)) = (Refused, Going s).
Proof.
  intros pid alive absolute s x N. destruct x as [ | c x]; [contradiction | ]. split; [reflexivity | ].
  assert (X : forall f, In f ["--exp"; "--imp"] -> parse [word f; word (String c x)] = None).
  { intros f I. unfold parse, Args.parse. cbn [map flat_map].
    match goal with |- context [Args.expand_arg ?d (Args.OStr (word f))] => assert (E : Args.expand_arg d (Args.OStr (word f)) = [Args.OStr (word f)]) by (destruct I as [<- | [<- | []]]; reflexivity) end.
    rewrite E. cbn [app Args.extract]. match goal with |- context [Args.extract_one ?k ?d ?s (Args.OStr (word f))] => assert (Z : Args.extract_one k d s (Args.OStr (word f)) = None) by (destruct I as [<- | [<- | []]]; vm_compute; reflexivity) end.
    now rewrite Z. }
  split; unfold command, api_args; cbn [a_list a_new a_open a_close a_delete a_broken a_home a_rename a_copy a_exp a_imp a_name app map].
  - change (map list_ascii_of_string ["--exp"; String c x]) with [word "--exp"; word (String c x)]. change [list_ascii_of_string "--exp"; list_ascii_of_string (String c x)] with [word "--exp"; word (String c x)]. now rewrite X by (left; reflexivity).
  - change [list_ascii_of_string "--imp"; list_ascii_of_string (String c x)] with [word "--imp"; word (String c x)]. now rewrite X by (right; left; reflexivity).
Qed.
