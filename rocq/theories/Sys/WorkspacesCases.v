(** Listing; concrete cases; what goes wrong: C57, continued. *)
From Verif.Sys Require Export WorkspacesLife.
From Coq Require Import Permutation Sorted.
Local Open Scope string_scope.
Local Open Scope list_scope.

Lemma run_bind : forall A B (p : prog A) (f : A -> prog B) w,
  run (bind p f) w = match run p w with (Ok a, w') => run (f a) w' | (Raise e, w') => (Raise e, w') end.
Proof. intros A B p f. induction p as [a | e | x k IH | k IH]; intros w; cbn [bind run]; auto. Qed.

(** * Listing *)
Lemma insert_perm : forall x l, Permutation (insert x l) (x :: l).
Proof.
  intros x l. induction l as [ | y l IH]; cbn [insert]; [reflexivity | ]. destruct (String.leb (fst x) (fst y)); [reflexivity | ].
  rewrite IH. apply perm_swap.
Qed.
Lemma sort_perm : forall l, Permutation (fold_right insert [] l) l.
Proof. induction l as [ | x l IH]; cbn [fold_right]; [reflexivity | ]. rewrite insert_perm. now constructor. Qed.
Definition before (a b : string) : Prop := String.leb a b = true.
Lemma leb_total : forall a b, String.leb a b = false -> String.leb b a = true.
Proof. intros a b H. destruct (String.leb_total a b) as [E | E]; [congruence | exact E]. Qed.
Lemma insert_sorted : forall x l, Sorted before (map fst l) -> Sorted before (map fst (insert x l)).
Proof.
  intros x l. induction l as [ | y l IH]; intros S; cbn [insert map]; [repeat constructor | ].
  destruct (String.leb (fst x) (fst y)) eqn:E; cbn [map].
  - constructor; [exact S | constructor; exact E].
  - cbn [map] in S. inversion S as [ | ? ? S' H']; subst. constructor; [now apply IH | ]. apply leb_total in E. clear - E H'.
    destruct l as [ | z l]; cbn [insert map]; [now constructor | ]. destruct (String.leb (fst x) (fst z)); cbn [map]; constructor; [exact E | ].
    cbn [map] in H'. now inversion H'.
Qed.
Lemma sort_sorted : forall l, Sorted before (map fst (fold_right insert [] l)).
Proof. induction l as [ | x l IH]; cbn [fold_right]; [constructor | now apply insert_sorted]. Qed.

Definition listed (x : string) (w : fs) : Prop := x <> DEF /\ exists m, there (place Config x ++ [Mark m]) w.

Lemma list_dirs_ok : forall w l, tidy w -> NoDup l -> incl l (children config_ws w) ->
  (forall x, listed x w -> exists p, p <> "" /\ look (place Data x ++ [Nm "properties.pickle"]) w = Some (F p)) ->
  exists r, run (list_dirs l) w = (Ok r, w) /\ NoDup (map fst r) /\ (forall x, In x (map fst r) <-> In (Nm x) l /\ listed x w).
Proof.
  intros w l T. induction l as [ | a l IH]; intros ND IC H.
  - exists []. split; [reflexivity | ]. split; [constructor | ]. intros x. split; [intros [] | intros [[] _]].
  - inversion ND as [ | ? ? NI ND']; subst. destruct (IH ND' (fun x X => IC x (or_intror X)) H) as (r & E & N & HI).
    assert (IA : In a (children config_ws w)) by (apply IC; left; reflexivity). apply in_children in IA.
    destruct (named_dirs w T Config a IA) as (s & -> & PR & DI). cbn [list_dirs run].
    change (config_ws ++ [Nm s]) with (place Config s). unfold is_dir. rewrite DI. cbn [andb].
    destruct (negb (String.eqb s DEF) && marker_exists (named s) w) eqn:LI.
    + apply andb_true_iff in LI. destruct LI as [NE ME]. apply negb_true_iff, String.eqb_neq in NE.
      apply marker_exists_there in ME. rewrite (config_dir_named s PR) in ME. assert (LS : listed s w) by (split; assumption).
      destruct (H s LS) as (p & NP & LP). unfold prop_file. rewrite (data_dir_named s PR).
      rewrite run_bind. unfold unpickle, read_text. cbn [bind run]. rewrite LP. cbn [bind]. destruct (string_dec p ""); [contradiction | ].
      cbn [run]. rewrite run_bind, E. cbn [run]. exists ((s, p) :: r). split; [reflexivity | ]. split.
      * cbn [map fst]. constructor; [ | exact N]. intros X. apply HI in X. destruct X as [X _]. contradiction.
      * intros x. cbn [map fst In]. rewrite HI. split.
        -- intros [<- | [X Y]]; [auto | auto].
        -- intros [[X | X] Y]; [left; congruence | auto].
    + rewrite E. exists r. split; [reflexivity | ]. split; [exact N | ]. intros x. rewrite HI. split.
      * intros [X Y]. split; [right; exact X | exact Y].
      * intros [[X | X] Y]; [ | auto]. injection X as <-. destruct Y as [Y Y']. apply andb_false_iff in LI. destruct LI as [LI | LI].
        -- apply negb_false_iff, String.eqb_eq in LI. contradiction.
        -- assert (marker_exists (named s) w = true); [ | congruence]. apply marker_exists_there. now rewrite (config_dir_named s PR).
Qed.

(** The list has the default workspace, whose name is empty, and exactly the workspaces there are, once each, by name *)
Theorem c57_list : forall w, tidy w ->
  (forall x, listed x w -> exists p, p <> "" /\ look (place Data x ++ [Nm "properties.pickle"]) w = Some (F p)) ->
  exists l, run list_workspaces w = (Ok l, w) /\ NoDup l /\ Sorted before l /\ (forall x, In x l <-> x = "" \/ listed x w).
Proof.
  intros w T H. destruct (list_dirs_ok w (children config_ws w) T (children_nodup _ _) (incl_refl _) H) as (r & E & N & HI).
  exists (map fst (fold_right insert [] (("", "") :: r))). unfold list_workspaces. cbn [run]. rewrite run_bind, E. cbn [run].
  split; [reflexivity | ].
  assert (PM : Permutation (map fst (fold_right insert [] (("", "") :: r))) ("" :: map fst r)).
  { change ("" :: map fst r) with (map fst (("", "") :: r)). apply Permutation_map, sort_perm. }
  assert (CH : forall x, listed x w -> In (Nm x) (children config_ws w) /\ proper x).
  { intros x [_ (m & X)]. pose proof (tree w T _ _ X) as DX.
    assert (TX : there [root Config; Nm "workspace"; Nm x] w) by (unfold there; change [root Config; Nm "workspace"; Nm x] with (place Config x); congruence).
    split; [apply (child_place Config); exact TX | ]. destruct (named_dirs w T Config (Nm x) TX) as (n & EN & PR & _). congruence. }
  split; [ | split; [apply sort_sorted | ]].
  - apply Permutation_sym in PM. eapply Permutation_NoDup; [exact PM | ]. constructor; [ | exact N].
    intros X. apply HI in X. destruct X as [_ X]. apply CH in X. destruct X as [_ [X _]]. congruence.
  - intros x. split.
    + intros X. eapply Permutation_in in X; [ | exact PM]. destruct X as [<- | X]; [auto | ]. right. now apply HI.
    + intros X. eapply Permutation_in; [apply Permutation_sym, PM | ]. destruct X as [-> | X]; [left; reflexivity | right]. apply HI. split; [now apply CH | exact X].
Qed.

(** * Cases *)
Definition alive5 (p : nat) : bool := Nat.eqb p 5.
Definition empty : fs := map (fun p => (p, D)) [[]; [Nm "config"]; [Nm "data"]; config_ws; data_ws; config_bws; data_bws].
Definition fst_run : fs := snd (run (create_on_disk 5 default "S" "") empty).
Definition with_foo : fs := snd (run (ws_new 5 alive5 default "{v:1}" "" "props of foo" "foo") fst_run).
Definition with_bar : fs := snd (run (ws_new 5 alive5 (named "foo") "{x:1}" "props of foo" "props of bar" "bar") with_foo).

(** Two workspaces are made, and one goes back and forth *)
Example two_workspaces :
  fst (run list_workspaces with_bar) = Ok [""; "bar"; "foo"] /\
  fst (run (startup 5 alive5 "t") with_bar) = Ok [] /\
  fst (run (ws_open 5 alive5 (named "bar") "{y:2}" "props of bar" "foo") with_bar) = Ok (named "foo", "{x:1}") /\
  fst (run (ws_open 5 alive5 (named "foo") "{x:2}" "props of foo" "bar")
           (snd (run (ws_open 5 alive5 (named "bar") "{y:2}" "props of bar" "foo") with_bar))) = Ok (named "bar", "{y:2}").
Proof. repeat split; vm_compute; reflexivity. Qed.

(** The hypotheses of the theorems hold here *)
Fixpoint no_slash (s : string) : bool := match s with EmptyString => true | String c s => (if Ascii.ascii_dec c slash then false else true) && no_slash s end.
Definition properb (s : string) : bool := negb (String.eqb s "") && negb (String.eqb s ".") && no_slash s.
Lemma properb_ok : forall s, properb s = true -> proper s.
Proof.
  intros s H. unfold properb in H. rewrite !andb_true_iff, !negb_true_iff, !String.eqb_neq in H. destruct H as [[A B] C].
  split; [exact A | ]. split; [exact B | ]. intros a b E. subst s. clear A B. induction a as [ | c a IH]; cbn in C.
  - destruct (Ascii.ascii_dec slash slash); [discriminate | congruence].
  - apply andb_true_iff in C. destruct C. auto.
Qed.
Definition tidy_at (w : fs) (q : path) : bool :=
  (match q with [] => true | _ => is_dir (removelast q) w end) &&
  (match q with
   | [r; Nm y; x] => if (if name_dec r (root Config) then true else if name_dec r (root Data) then true else false) && String.eqb y "workspace"
                     then match x with Nm n => properb n && is_dir q w | _ => false end else true
   | [r; Nm y; Nm n; Mark m] => match look q w with Some (F _) => true | _ => false end
   | _ => true
   end).
Definition tidyb (w : fs) : bool := forallb (fun x => tidy_at w (fst x)) w && is_dir config_ws w && is_dir data_ws w.
Lemma look_some : forall p w e, look p w = Some e -> In (p, e) w.
Proof.
  intros p w e. induction w as [ | [q f] w IH]; cbn [look]; [discriminate | ].
  destruct (path_dec p q) as [-> | ]; [intros E; injection E as ->; left; reflexivity | right; auto].
Qed.
Lemma tidyb_ok : forall w, tidyb w = true -> tidy w.
Proof.
  intros w H. unfold tidyb in H. rewrite !andb_true_iff, forallb_forall, !is_dir_true in H. destruct H as [[H C] DD].
  assert (X : forall p, there p w -> tidy_at w p = true).
  { intros p T. unfold there in T. destruct (look p w) as [e | ] eqn:E; [ | congruence]. apply look_some in E. exact (H _ E). }
  constructor.
  - intros p x T. apply X in T. unfold tidy_at in T. apply andb_true_iff in T. destruct T as [T _]. rewrite removelast_last in T.
    destruct (p ++ [x]) eqn:E; [now destruct p | ]. now apply is_dir_true.
  - intros b x T. apply X in T. unfold tidy_at in T. apply andb_true_iff in T. destruct T as [_ T].
    replace ((if name_dec (root b) (root Config) then true else if name_dec (root b) (root Data) then true else false) && String.eqb "workspace" "workspace") with true in T by now destruct b.
    destruct x as [n | | ]; try discriminate. apply andb_true_iff in T. destruct T as [T T']. exists n. split; [reflexivity | ]. split; [now apply properb_ok | ].
    now apply is_dir_true.
  - intros n m T. apply X in T. unfold tidy_at in T. apply andb_true_iff in T. destruct T as [_ T]. cbn in T. unfold file. cbn.
    destruct (look [Nm "config"; Nm "workspace"; Nm n; Mark m] w) as [[ | t] | ]; try discriminate. eauto.
  - intros [ | ]; assumption.
Qed.
Lemma whole_check : forall alive n w, proper n -> (forallb (fun x => match x with Mark (Some q) => alive q | _ => true end) (children (place Config n) w) &&
    existsb is_mark (children (place Config n) w) && negb (flaws 5 (obj_of n) w)) = true -> whole alive n w.
Proof.
  intros alive n w PR H. rewrite !andb_true_iff, forallb_forall, existsb_exists, negb_true_iff in H. destruct H as [[A (x & I & B)] C].
  apply (flaws_whole 5 alive n w PR); [ | | exact C].
  - intros m T. apply in_children, A in T. destruct m; [exact T | exact Logic.I].
  - destruct x as [ | m | ]; try discriminate. exists m. now apply in_children.
Qed.
Lemma usable_foo : usable "foo".
Proof. split; [now apply properb_ok | discriminate]. Qed.
Example tidy_case : tidy with_bar /\ whole alive5 DEF with_bar /\ whole alive5 "foo" with_bar /\ whole alive5 "bar" with_bar.
Proof.
  split; [apply tidyb_ok; vm_compute; reflexivity | ].
  split; [apply whole_check; [apply proper_def | vm_compute; reflexivity] | ].
  split; apply whole_check; try (apply properb_ok; reflexivity); vm_compute; reflexivity.
Qed.

(** The history of foo has been lost: foo is put aside at the next start, the rest of it is kept, and bar is as it was *)
Definition lost_history : fs := remove (place Data "foo" ++ [Nm "history"]) with_bar.
Example damaged_case :
  tidy lost_history /\ whole alive5 DEF lost_history /\ (forall b, free [root b; Nm "broken"; Nm "t"] lost_history) /\
  damaged alive5 "foo" lost_history /\ whole alive5 "bar" lost_history /\
  fst (run (startup 5 alive5 "t") lost_history) = Ok ["foo"] /\
  look [Nm "data"; Nm "broken"; Nm "t"; Nm "foo"; Nm "foo"; Nm "env.pickle"] (snd (run (startup 5 alive5 "t") lost_history)) = Some (F "{x:1}").
Proof.
  split; [apply tidyb_ok; vm_compute; reflexivity | ].
  split; [apply whole_check; [apply proper_def | vm_compute; reflexivity] | ]. split; [ | split; [ | split; [ | split]]].
  - intros b r. apply (below lost_history _ (tree _ (tidyb_ok lost_history eq_refl))). destruct b; vm_compute; reflexivity.
  - split; [exists Config; unfold there; vm_compute; discriminate | ]. intros W. apply (has_history _ _ _ W). vm_compute. reflexivity.
  - apply whole_check; [apply properb_ok; reflexivity | vm_compute; reflexivity].
  - vm_compute. reflexivity.
  - vm_compute. reflexivity.
Qed.

(** The state after foo was made, and before: the hypotheses of the theorems about one workspace *)
Example contents_case : absent "foo" fst_run /\ tidy fst_run /\
  exists w, run (create 5 (named "foo") "props of foo") fst_run = (Ok tt, w) /\ contents "foo" nobody "S" empty_env "props of foo" "" no_reservoirs w.
Proof.
  assert (T : tidy fst_run) by (apply tidyb_ok; vm_compute; reflexivity).
  assert (A : absent "foo" fst_run) by (intros b; apply (below fst_run _ (tree _ T)); destruct b; vm_compute; reflexivity).
  split; [exact A | ]. split; [exact T | ].
  destruct (c57_create 5 alive5 "foo" "props of foo" "S" fst_run usable_foo T A eq_refl) as (w & E & C & _). exists w. auto.
Qed.

(** * What goes wrong *)

(** A process that is stopped while it closes a workspace can leave its file of variables empty.  The next start finds nothing
    wrong, but the workspace cannot be opened any more: EOFError, and the default workspace is opened instead. *)
Theorem c57_interrupted_close_refuted : exists w,
  In w (states (close 5 alive5 (named "bar") "{y:2}" "props of bar" true) with_bar) /\
  fst (run (startup 6 (Nat.eqb 6) "t") w) = Ok [] /\
  fst (run (open 6 (Nat.eqb 6) (named "bar")) (snd (run (startup 6 (Nat.eqb 6) "t") w))) = Raise EOFError /\
  fst (run (start 6 (Nat.eqb 6) (named "bar")) (snd (run (startup 6 (Nat.eqb 6) "t") w))) = Ok (default, empty_env).
Proof.
  exists (nth 3 (states (close 5 alive5 (named "bar") "{y:2}" "props of bar" true) with_bar) []).
  split; [apply nth_In; vm_compute; lia | ]. repeat split; vm_compute; reflexivity.
Qed.
(** or its properties, after which the workspaces cannot be listed *)
Theorem c57_interrupted_close_list_refuted : exists w,
  In w (states (close 5 alive5 (named "bar") "{y:2}" "props of bar" true) with_bar) /\
  fst (run (startup 6 (Nat.eqb 6) "t") w) = Ok [] /\
  fst (run list_workspaces (snd (run (startup 6 (Nat.eqb 6) "t") w))) = Raise EOFError.
Proof.
  exists (nth 1 (states (close 5 alive5 (named "bar") "{y:2}" "props of bar" true) with_bar) []).
  split; [apply nth_In; vm_compute; lia | ]. repeat split; vm_compute; reflexivity.
Qed.

(** If the default workspace is damaged - here by a file that does not belong there - all workspaces are put aside *)
Theorem c57_damaged_default_refuted : exists w, w = set (place Config DEF ++ [Nm "startup.py~"]) (F "") with_bar /\
  fst (run (startup 5 alive5 "t") w) = Ok [""] /\
  forall b n, In n ["foo"; "bar"] -> look (place b n) w = Some D /\ look (place b n) (snd (run (startup 5 alive5 "t") w)) = None.
Proof.
  eexists. split; [reflexivity | ]. split; [vm_compute; reflexivity | ].
  intros [ | ] n [<- | [<- | []]]; split; vm_compute; reflexivity.
Qed.

(** ws --delete __DEFAULT__ removes the files of the default workspace *)
Theorem c57_delete_default_refuted :
  fst (run (ws_delete 5 alive5 (named "bar") DEF) (snd (run (startup 5 alive5 "t") fst_run))) <> Raise KillCommand /\
  look (startup_file default) (snd (run (ws_delete 5 alive5 (named "bar") DEF) fst_run)) = None.
Proof. split; vm_compute; [discriminate | reflexivity]. Qed.

(** A workspace a/b can be made, but is put aside, with a, at the next start *)
Theorem c57_slash_in_name_refuted : exists w, fst (run (ws_new 5 alive5 (named "bar") "{}" "p" "q" "a/b") with_bar) = Ok (named "a/b", empty_env) /\
  w = snd (run (ws_new 5 alive5 (named "bar") "{}" "p" "q" "a/b") with_bar) /\
  fst (run (startup 5 alive5 "t") w) = Ok ["a"] /\
  look (startup_file (named "a/b")) (snd (run (startup 5 alive5 "t") w)) = None.
Proof. eexists. split; [vm_compute; reflexivity | ]. split; [reflexivity | ]. split; vm_compute; reflexivity. Qed.
