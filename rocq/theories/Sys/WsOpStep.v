(** Each command of a session does what it should. *)
From Verif.Sys Require Export WsOpArgs WsOpDisk.
From Coq Require Import Sorted Permutation.
Local Open Scope string_scope.
Local Open Scope list_scope.

(** * ws --delete-broken *)
Lemma run_dels : forall l w, exists w', run (each l (fun q => Do (Del q) (Ret tt))) w = (Ok tt, w') /\
  forall q, look q w' = if in_dec path_dec q l then None else look q w.
Proof.
  induction l as [ | p l IH]; intros w; cbn [each bind run apply].
  - exists w. split; [reflexivity | ]. intros q. destruct (in_dec path_dec q []) as [[] | ]; reflexivity.
  - destruct (IH (remove p w)) as (w' & E & H). exists w'. split; [exact E | ]. intros q. rewrite H, look_remove.
    destruct (in_dec path_dec q l), (in_dec path_dec q (p :: l)) as [I | N], (path_dec p q); cbn in *; try reflexivity; try intuition congruence.
Qed.
Lemma run_rmtree : forall p w, exists w', run (rmtree p) w = (Ok tt, w') /\ forall q, look q w' = match after p q with Some _ => None | None => look q w end.
Proof.
  intros p w. unfold rmtree. cbn [run]. destruct (run_dels (filter (fun q => match after p q with Some _ => true | None => false end) (map fst w)) w) as (w' & E & H).
  exists w'. split; [exact E | ]. intros q. rewrite H. destruct (in_dec path_dec q _) as [I | N].
  - apply filter_In in I. destruct I as [_ I]. destruct (after p q); [reflexivity | discriminate].
  - destruct (after p q) eqn:A; [ | reflexivity]. destruct (look q w) eqn:L; [ | reflexivity]. destruct N. apply filter_In. rewrite A. split; [ | reflexivity].
    apply look_in. congruence.
Qed.
Lemma run_trees : forall d l w, exists w', run (each l (fun n => rmtree (d ++ [n]))) w = (Ok tt, w') /\
  forall q, look q w' = match after d q with Some (n :: _) => if in_dec name_dec n l then None else look q w | _ => look q w end.
Proof.
  intros d. induction l as [ | n l IH]; intros w; cbn [each].
  - exists w. split; [reflexivity | ]. intros q. destruct (after d q) as [[ | m r] | ]; reflexivity.
  - rewrite run_bind. destruct (run_rmtree (d ++ [n]) w) as (w1 & -> & H1). destruct (IH w1) as (w' & E & H). exists w'. split; [exact E | ].
    intros q. rewrite H. rewrite !H1. destruct (after (d ++ [n]) q) as [r | ] eqn:A.
    + apply after_some in A. subst q. rewrite <- app_assoc. rewrite after_app. cbn [app]. destruct (in_dec name_dec n (n :: l)) as [ | N]; [ | destruct N; left; reflexivity]. now destruct (in_dec name_dec n l).
    + destruct (after d q) as [[ | m r] | ] eqn:B; try reflexivity. apply after_some in B. subst q.
      destruct (in_dec name_dec m l), (in_dec name_dec m (n :: l)) as [I | N]; cbn in *; try reflexivity; try intuition.
      subst m. pose proof (after_none _ _ A r) as X. rewrite <- app_assoc in X. contradiction.
Qed.

Definition in_broken (q : path) : Prop := exists b x r, q = [root b; Nm "broken"; x] ++ r.

Lemma run_delete_broken : forall w, (forall p x, there (p ++ [x]) w -> look p w = Some D) -> (forall b, look [root b; Nm "broken"] w = Some D) ->
  exists w', run delete_broken w = (Ok tt, w') /\ (forall q, in_broken q -> look q w' = None) /\ (forall q, ~ in_broken q -> look q w' = look q w).
Proof.
  intros w T B. unfold delete_broken, delete_subdirs. rewrite run_bind. cbn [run].
  rewrite (proj2 (is_dir_true config_bws w) (B Config)). destruct (run_trees config_bws (children config_bws w) w) as (w1 & -> & H1).
  assert (B1 : look data_bws w1 = Some D) by (rewrite H1; exact (B Data)).
  rewrite (proj2 (is_dir_true _ _) B1). destruct (run_trees data_bws (children data_bws w1) w1) as (w' & E & H). exists w'. split; [exact E | ].
  assert (ALL : forall b x r, look ([root b; Nm "broken"; x] ++ r) w <> None -> In x (children [root b; Nm "broken"] w)).
  { intros b x r L. apply in_children. intros N. apply L. apply (below w ([root b; Nm "broken"] ++ [x])); assumption. }
  assert (X1 : forall q, look q w1 = match after config_bws q with Some (_ :: _) => None | _ => look q w end).
  { intros q. rewrite H1. destruct (after config_bws q) as [[ | x r] | ] eqn:A; try reflexivity. apply after_some in A. subst q.
    destruct (in_dec name_dec x (children config_bws w)) as [ | N]; [reflexivity | ].
    destruct (look (config_bws ++ x :: r) w) eqn:L; [ | reflexivity]. destruct N. apply (ALL Config x r). cbn in *. congruence. }
  assert (DD : forall x r, look (data_bws ++ x :: r) w1 = look (data_bws ++ x :: r) w) by (intros; rewrite X1; reflexivity).
  assert (X : forall q, look q w' = match after data_bws q with Some (_ :: _) => None | _ => look q w1 end).
  { intros q. rewrite H. destruct (after data_bws q) as [[ | x r] | ] eqn:A; try reflexivity. apply after_some in A. subst q.
    destruct (in_dec name_dec x (children data_bws w1)) as [ | N]; [reflexivity | ]. rewrite DD.
    destruct (look (data_bws ++ x :: r) w) eqn:L; [ | reflexivity]. destruct N. apply in_children. rewrite DD.
    apply (in_children data_bws). apply (ALL Data x r). cbn in *. congruence. }
  split.
  - intros q (b & x & r & ->). rewrite X, X1. destruct b; reflexivity.
  - intros q N. rewrite X, X1. destruct (after data_bws q) as [[ | x r] | ] eqn:A.
    + destruct (after config_bws q) as [[ | y r'] | ] eqn:A'; try reflexivity. apply after_some in A'. destruct N. exists Config, y, r'. exact A'.
    + apply after_some in A. destruct N. exists Data, x, r. exact A.
    + destruct (after config_bws q) as [[ | y r'] | ] eqn:A'; try reflexivity. apply after_some in A'. destruct N. exists Config, y, r'. exact A'.
Qed.

Section Step.
Variable pid : nat.
Variable alive : nat -> bool.
Variable absolute : string -> string.
Variable busy : string -> option nat.
Hypothesis AL : alive pid = true.

Lemma broken_all : forall d f w, ground pid d w -> stored f w ->
  exists w', run delete_broken w = (Ok tt, w') /\ ground pid d w' /\ stored f w'.
Proof.
  intros d f w G ST. pose proof (g_tidy _ _ _ G) as T. destruct (run_delete_broken w (tree w T) (g_broken _ _ _ G)) as (w' & E & N & S).
  exists w'. split; [exact E | ].
  assert (P : forall b n r, look (place b n ++ r) w' = look (place b n ++ r) w).
  { intros b n r. apply S. intros (b' & x & r' & Y). destruct b, b'; discriminate Y. }
  split.
  - constructor.
    + constructor.
      * intros p x TH. unfold there in TH.
        assert (NB : ~ in_broken (p ++ [x])) by (intros I; apply TH, N, I).
        rewrite (S _ NB) in TH. rewrite S; [apply (tree w T p x TH) | ]. intros (b & y & r & ->). apply NB. exists b, y, (r ++ [x]). reflexivity.
      * intros b x TH. assert (Q : forall b x, look [root b; Nm "workspace"; x] w' = look [root b; Nm "workspace"; x] w).
        { intros b0 x0. apply S. intros (b' & y & r & Y). destruct b0, b'; discriminate Y. }
        unfold there in TH. rewrite Q in TH. destruct (named_dirs w T b x TH) as (n & -> & PR & L). exists n. split; [reflexivity | ]. split; [exact PR | ]. unfold place in *. now rewrite Q.
      * intros n m TH. unfold there, file in *. rewrite P in *. apply (marker_files w T). exact TH.
      * intros b. rewrite S; [apply (base_dirs w T) | ]. intros (b' & y & r & Y). destruct b, b'; discriminate Y.
    + intros b. rewrite S; [apply (g_broken _ _ _ G) | ]. intros (b' & y & r & Y). destruct b, b'; discriminate Y.
    + destruct (g_startup _ _ _ G) as (t & X). exists t. now rewrite P.
    + rewrite <- (app_nil_r (place Data DEF)), P, app_nil_r. apply (g_data _ _ _ G).
    + rewrite P. apply (g_env _ _ _ G).
    + apply (g_env_file _ _ _ G).
  - intros n U. specialize (ST n U). destruct (f n) as [[[mk e] h] | ]; cbn [is_at] in *.
    + destruct ST as (st & hist & res & [C DD]). exists st, hist, res. split; intros r; rewrite P; auto.
    + intros b r. rewrite P. apply ST.
Qed.

(** * ws --list *)
Lemma list_dirs_props : forall l w r, run (list_dirs l) w = (Ok r, w) ->
  forall x p, In (x, p) r -> look (prop_file (named x)) w = Some (F p).
Proof.
  induction l as [ | a l IH]; intros w r E x p I; cbn [list_dirs run] in E; [injection E as <-; destruct I | ].
  destruct a as [s | m | q]; [ | exact (IH w r E x p I) | exact (IH w r E x p I)]. cbn [run] in E.
  destruct (is_dir (config_ws ++ [Nm s]) w && negb (String.eqb s DEF) && marker_exists (named s) w); [ | exact (IH w r E x p I)].
  rewrite run_bind in E. unfold unpickle, read_text in E. cbn [bind run] in E.
  destruct (look (prop_file (named s)) w) as [[ | t] | ] eqn:L; cbn [bind run] in E; try discriminate E.
  destruct (string_dec t ""); cbn [run] in E; [discriminate E | ]. rewrite run_bind in E.
  destruct (run (list_dirs l) w) as [[r' | e] w'] eqn:R; [ | discriminate E]. cbn [run] in E. injection E as <- ->.
  destruct I as [I | I]; [injection I as <- <-; exact L | exact (IH w r' R x p I)].
Qed.

Lemma pickled : forall h, unpickle_home (pickle_home h) = h.
Proof. intros [d | ]; reflexivity. Qed.

Lemma sorted_strict : forall l : list string, Sorted before l -> NoDup l -> Sorted (fun x y => String.ltb x y = true) l.
Proof.
  intros l S N. induction S as [ | x l S IH H]; [constructor | ]. inversion N as [ | ? ? NI N']; subst. constructor; [auto | ].
  destruct H as [ | y l H]; constructor. unfold before, String.leb in H. unfold String.ltb.
  destruct (String.compare x y) eqn:C; [ | reflexivity | discriminate H]. apply String.compare_eq_iff in C. subst y. destruct NI. left. reflexivity.
Qed.
Lemma sorted_map : forall (l : shown), Sorted (fun x y => String.ltb x y = true) (map fst l) -> in_order l.
Proof.
  intros l. unfold in_order. induction l as [ | x l IH]; cbn [map]; intros S; [constructor | ]. inversion S as [ | ? ? S' H]; subst. constructor; [auto | ].
  destruct l as [ | y l]; [constructor | ]. constructor. cbn [map] in H. now inversion H.
Qed.

Lemma list_all : forall d f w, ground pid d w -> stored f w -> (forall n mk e h, f n = Some (mk, e, h) -> exists m, mk m = true) ->
  exists l, run list_homes w = (Ok l, w) /\ in_order l /\
    forall n h, In (n, h) l <-> n = "" /\ h = None \/ usable n /\ exists mk e, f n = Some (mk, e, h).
Proof.
  intros d f w G ST MK. pose proof (g_tidy _ _ _ G) as T.
  assert (LU : forall x, listed x w -> usable x).
  { intros x [ND (m & X)]. split; [ | exact ND]. pose proof (tree w T _ _ X) as DX.
    destruct (named_dirs w T Config (Nm x)) as (n & EN & PR & _); [ | congruence]. unfold there. change [root Config; Nm "workspace"; Nm x] with (place Config x). congruence. }
  assert (LF : forall x, usable x -> listed x w <-> f x <> None).
  { intros x U. pose proof (ST x U) as A. destruct (f x) as [[[mk e] h] | ] eqn:E; cbn [is_at] in A; (split; [intros L | intros NN]).
    - congruence.
    - split; [apply U | ]. destruct (MK x mk e h E) as (m & M). destruct A as (st & hist & res & [C DD]). exists m. unfold there. rewrite C. cbn [config_files]. rewrite M. discriminate.
    - destruct L as [_ (m & L)]. unfold there in L. now rewrite (A Config) in L.
    - congruence. }
  assert (LP : forall x mk e h, usable x -> f x = Some (mk, e, h) -> look (place Data x ++ [Nm "properties.pickle"]) w = Some (F (pickle_home h))).
  { intros x mk e h U E. specialize (ST x U). rewrite E in ST. destruct ST as (st & hist & res & [C DD]). rewrite DD. reflexivity. }
  destruct (list_dirs_ok w (children config_ws w) T (children_nodup _ _) (incl_refl _)) as (r & E & N & HI).
  { intros x L. pose proof (LU x L) as U. apply (LF x U) in L. destruct (f x) as [[[mk e] h] | ] eqn:E; [ | contradiction]. exists (pickle_home h).
    split; [now destruct h | eapply LP; eauto]. }
  pose proof (list_dirs_props _ _ _ E) as PP. unfold list_homes. cbn [run]. rewrite run_bind, E. cbn [run]. eexists. split; [reflexivity | ].
  set (g := fun x : string * string => (fst x, unpickle_home (snd x))).
  assert (FG : forall l, map fst (map g l) = map fst l) by (intros l; rewrite map_map; reflexivity).
  assert (CH : forall x, listed x w -> In (Nm x) (children config_ws w)).
  { intros x L. apply in_children. destruct L as [_ (m & X)]. pose proof (tree w T _ _ X) as DX. change (config_ws ++ [Nm x]) with (place Config x). congruence. }
  pose proof (sort_perm (("", "") :: r)) as PM.
  split.
  - apply sorted_map. rewrite FG. apply sorted_strict; [apply sort_sorted | ].
    apply Permutation_NoDup with (map fst (("", "") :: r)); [apply Permutation_map, Permutation_sym, PM | ]. cbn [map fst]. constructor; [ | exact N].
    intros X. apply HI in X. destruct X as [_ X]. apply LU in X. destruct X as [[X _] _]. congruence.
  - intros n h. rewrite in_map_iff. split.
    + intros ([x p] & EQ & I). eapply Permutation_in in I; [ | exact PM]. destruct I as [I | I].
      * injection I as <- <-. cbn in EQ. injection EQ as <- <-. left. split; reflexivity.
      * right. unfold g in EQ. cbn [fst snd] in EQ. injection EQ as <- <-. assert (L : listed x w) by (apply (HI x); apply in_map_iff; exists (x, p); auto).
        pose proof (LU x L) as U. split; [exact U | ]. pose proof (proj1 (LF x U) L) as NN. destruct (f x) as [[[mk e] h'] | ] eqn:EF; [ | contradiction].
        apply PP in I. unfold prop_file in I. rewrite (data_dir_named x (proj1 U)), (LP x mk e h' U EF) in I. injection I as <-. rewrite pickled. eauto.
    + intros [[-> ->] | (U & mk & e & EF)].
      * exists ("", ""). split; [reflexivity | ]. eapply Permutation_in; [apply Permutation_sym, PM | left; reflexivity].
      * assert (L : listed n w) by (apply (LF n U); congruence). assert (X : In n (map fst r)) by (apply HI; auto).
        apply in_map_iff in X. destruct X as ([x p] & EX & I). cbn in EX. subst x. exists (n, p). split.
        -- unfold g. cbn [fst snd]. pose proof (PP _ _ I) as Q. unfold prop_file in Q. rewrite (data_dir_named n (proj1 U)), (LP n mk e h U EF) in Q. injection Q as <-. now rewrite pickled.
        -- eapply Permutation_in; [apply Permutation_sym, PM | right; exact I].
Qed.
End Step.
