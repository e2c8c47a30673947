(** Creating, opening, closing and deleting one workspace. *)
From Verif.Sys Require Export WorkspacesProps.
Local Open Scope string_scope.
Local Open Scope list_scope.

(** * Nothing else is touched *)
Definition change_in (S : path -> Prop) (x : change) : Prop :=
  match x with
  | Mk p | Put p _ | Del p => S p
  | Mv p q => (forall r, S (p ++ r)) /\ (forall r, S (q ++ r))
  end.
Fixpoint touches {A} (S : path -> Prop) (p : prog A) : Prop :=
  match p with
  | Ret _ | Fail _ => True
  | Do x k => change_in S x /\ touches S k
  | Read k => forall w, touches S (k w)
  end.
Lemma touches_bind : forall A B S (p : prog A) (f : A -> prog B), touches S p -> (forall a, touches S (f a)) -> touches S (bind p f).
Proof. intros A B S p f. induction p as [a | e | c k IH | k IH]; cbn [bind touches]; intros T T'; auto. destruct T. auto. Qed.
Lemma touches_catch : forall A S (p : prog A) h, touches S p -> (forall e, touches S (h e)) -> touches S (catch p h).
Proof. intros A S p h. induction p as [a | e | c k IH | k IH]; cbn [catch touches]; intros T T'; auto. destruct T. auto. Qed.
Lemma touches_each : forall A S (l : list A) f, (forall x, touches S (f x)) -> touches S (each l f).
Proof. intros A S l f H. induction l; cbn [each]; [exact I | ]. now apply touches_bind. Qed.
Lemma change_frame : forall S x w p, change_in S x -> ~ S p -> look p (apply x w) = look p w.
Proof.
  intros S x w p H N. destruct x as [q | q t | q | q q']; cbn [apply change_in] in *.
  - rewrite look_set. destruct (path_dec q p); [subst; contradiction | reflexivity].
  - rewrite look_set. destruct (path_dec q p); [subst; contradiction | reflexivity].
  - rewrite look_remove. destruct (path_dec q p); [subst; contradiction | reflexivity].
  - destruct H as [H H']. induction w as [ | [y e] w IH]; [reflexivity | ]. cbn [move map look fst snd]. fold (move q q' w).
    destruct (after q y) as [r | ] eqn:E; cbn [look].
    + apply after_some in E. subst y. destruct (path_dec p (q' ++ r)); [subst; destruct (N (H' r)) | ].
      destruct (path_dec p (q ++ r)); [subst; destruct (N (H r)) | exact IH].
    + destruct (path_dec p y); [reflexivity | exact IH].
Qed.
Lemma touches_frame : forall A S (p : prog A) w w' x, touches S p -> In w' (states p w) -> ~ S x -> look x w' = look x w.
Proof.
  intros A S p. induction p as [a | e | c k IH | k IH]; intros w w' x T I N; cbn [states touches] in *.
  - destruct I as [<- | []]. reflexivity.
  - destruct I as [<- | []]. reflexivity.
  - destruct T as [T T']. destruct I as [<- | I]; [reflexivity | ]. rewrite (IH _ _ x T' I N). now apply change_frame with S.
  - exact (IH w w w' x (T w) I N).
Qed.

Definition of_ws (n : string) (p : path) : Prop := exists b r, p = place b n ++ r.

Ltac paths n PR := unfold startup_file, marker, prop_file, hist_file, res_dir, env_file in *;
  rewrite ?(config_dir_named n PR), ?(data_dir_named n PR) in *.
Ltac own := cbn [change_in]; try (split; intros ?); rewrite <- ?app_assoc; match goal with |- of_ws _ (place ?b _ ++ ?r) => exists b, r; reflexivity | |- of_ws _ (place ?b _) => exists b, []; symmetry; apply app_nil_r end.
Ltac frame1 :=
  match goal with
  | |- touches _ (bind _ _) => apply touches_bind; [ | intros ?]
  | |- touches _ (catch _ _) => apply touches_catch; [ | intros ?]
  | |- touches _ (each _ _) => apply touches_each; intros ?
  | |- touches _ (Read _) => intros ?; cbn beta
  | |- touches _ (Do _ _) => split; [try own | ]
  | |- touches _ (Ret _) => exact I
  | |- touches _ (Fail _) => exact I
  | |- touches _ (match ?x with _ => _ end) => destruct x
  | |- _ /\ _ => split; intros ?
  end.
Ltac frame := unfold unlink, rmdir, write_file, touch, rename, unpickle, read_text; repeat frame1; try own.

Section Frame.
Variable pid : nat.
Variable alive : nat -> bool.
Variable n : string.
Hypothesis PR : proper n.

Lemma touches_abandoned : touches (of_ws n) (delete_abandoned_markers alive (named n)).
Proof. unfold delete_abandoned_markers. paths n PR. frame. Qed.
Lemma touches_owner : touches (of_ws n) (owner alive (named n)).
Proof. unfold owner. paths n PR. repeat frame1. apply touches_abandoned. Qed.
Lemma touches_lock : touches (of_ws n) (lock pid alive (named n)).
Proof. unfold lock. cbn [named default_class]. frame; try apply touches_owner; paths n PR; own. Qed.
Lemma touches_unlock : touches (of_ws n) (unlock pid alive (named n)).
Proof. unfold unlock. frame; try apply touches_owner; paths n PR; own. Qed.
Lemma touches_create : forall props, touches (of_ws n) (create pid (named n) props).
Proof.
  intros props. unfold create, create_on_disk. change (dir_name (named n)) with n. rewrite (comps_proper n PR).
  change (env_file pid (named n)) with (data_dir (named n) ++ [Nm "env.pickle"]). cbn [named default_class make_dirs]. fold (named n).
  paths n PR. change (config_ws ++ [Nm n]) with (place Config n). change (data_ws ++ [Nm n]) with (place Data n). frame.
Qed.
Lemma touches_open : touches (of_ws n) (open pid alive (named n)).
Proof. unfold open. frame; try apply touches_lock. Qed.
Lemma touches_close : forall env props restart, touches (of_ws n) (close pid alive (named n) env props restart).
Proof. intros. unfold close. change (env_file pid (named n)) with (data_dir (named n) ++ [Nm "env.pickle"]). cbn [named default_class]. fold (named n). paths n PR. frame; try apply touches_lock; try apply touches_unlock. Qed.
Lemma touches_delete : touches (of_ws n) (delete pid alive (named n)).
Proof. unfold delete. change (env_file pid (named n)) with (data_dir (named n) ++ [Nm "env.pickle"]). paths n PR. frame; try apply touches_lock. Qed.
End Frame.

(** * The files of one workspace *)
Definition upd (c : path -> option entry) (r : path) (e : option entry) (x : path) : option entry := if path_dec r x then e else c x.

Record view (n : string) (c d : path -> option entry) (w : fs) : Prop := {
  vc : forall r, look (place Config n ++ r) w = c r;
  vd : forall r, look (place Data n ++ r) w = d r
}.
Lemma view_ext : forall n c d c' d' w, view n c d w -> (forall r, c r = c' r) -> (forall r, d r = d' r) -> view n c' d' w.
Proof. intros n c d c' d' w [V V'] E E'. split; intros r; [rewrite V | rewrite V']; auto. Qed.

Lemma dec_head : forall p q r : path, (if path_dec (p ++ q) (p ++ r) then true else false) = (if path_dec q r then true else false).
Proof.
  intros p q r. destruct (path_dec (p ++ q) (p ++ r)) as [E | N], (path_dec q r) as [E' | N']; try reflexivity.
  - apply app_inv_head in E. contradiction.
  - subst. contradiction.
Qed.
Lemma look_set_head : forall p q r e w, look (p ++ r) (set (p ++ q) e w) = if path_dec q r then Some e else look (p ++ r) w.
Proof. intros. rewrite look_set. pose proof (dec_head p q r). destruct (path_dec (p ++ q) (p ++ r)), (path_dec q r); congruence. Qed.
Lemma look_remove_head : forall p q r w, look (p ++ r) (remove (p ++ q) w) = if path_dec q r then None else look (p ++ r) w.
Proof. intros. rewrite look_remove. pose proof (dec_head p q r). destruct (path_dec (p ++ q) (p ++ r)), (path_dec q r); congruence. Qed.
Lemma other_side : forall n r r', place Config n ++ r <> place Data n ++ r'.
Proof. intros n r r' E. discriminate E. Qed.

Lemma view_set_c : forall n c d w r e, view n c d w -> view n (upd c r (Some e)) d (set (place Config n ++ r) e w).
Proof.
  intros n c d w r e [V V']. split; intros x; unfold upd.
  - rewrite look_set_head, V. reflexivity.
  - rewrite look_set. destruct (path_dec _ _) as [E | _]; [destruct (other_side _ _ _ E) | apply V'].
Qed.
Lemma view_set_d : forall n c d w r e, view n c d w -> view n c (upd d r (Some e)) (set (place Data n ++ r) e w).
Proof.
  intros n c d w r e [V V']. split; intros x; unfold upd.
  - rewrite look_set. destruct (path_dec _ _) as [E | _]; [symmetry in E; destruct (other_side _ _ _ E) | apply V].
  - rewrite look_set_head, V'. reflexivity.
Qed.
Lemma view_del_c : forall n c d w r, view n c d w -> view n (upd c r None) d (remove (place Config n ++ r) w).
Proof.
  intros n c d w r [V V']. split; intros x; unfold upd.
  - rewrite look_remove_head, V. reflexivity.
  - rewrite look_remove. destruct (path_dec _ _) as [E | _]; [destruct (other_side _ _ _ E) | apply V'].
Qed.
Lemma view_del_d : forall n c d w r, view n c d w -> view n c (upd d r None) (remove (place Data n ++ r) w).
Proof.
  intros n c d w r [V V']. split; intros x; unfold upd.
  - rewrite look_remove. destruct (path_dec _ _) as [E | _]; [symmetry in E; destruct (other_side _ _ _ E) | apply V].
  - rewrite look_remove_head, V'. reflexivity.
Qed.
Lemma view_mark : forall n c d w a b, view n c d w -> a <> b -> (forall r, c (Mark b :: r) = None) -> (forall x r, c (Mark a :: x :: r) = None) ->
  view n (upd (upd c [Mark b] (c [Mark a])) [Mark a] None) d (move (place Config n ++ [Mark a]) (place Config n ++ [Mark b]) w).
Proof.
  intros n c d w a b [V V'] N FB FA.
  assert (FR : free (place Config n ++ [Mark b]) w) by (intros r; rewrite <- app_assoc; rewrite V; apply FB).
  assert (NP : forall r, place Config n ++ [Mark b] <> (place Config n ++ [Mark a]) ++ r).
  { intros r E. rewrite <- app_assoc in E. apply app_inv_head in E. injection E as E. congruence. }
  split; intros x; rewrite look_move by assumption.
  - unfold upd. destruct (after (place Config n ++ [Mark b]) (place Config n ++ x)) as [r | ] eqn:A.
    + apply after_some in A. rewrite <- app_assoc in A. apply app_inv_head in A. subst x. rewrite <- app_assoc, V. cbn [app].
      destruct (path_dec [Mark a] (Mark b :: r)) as [E | _]; [injection E as E _; congruence | ].
      destruct (path_dec [Mark b] (Mark b :: r)) as [E | NE]; [injection E as <-; reflexivity | ].
      destruct r as [ | y r]; [now destruct NE | ]. rewrite FA, FB. reflexivity.
    + destruct (after (place Config n ++ [Mark a]) (place Config n ++ x)) as [r | ] eqn:A'.
      * apply after_some in A'. rewrite <- app_assoc in A'. apply app_inv_head in A'. subst x. cbn [app].
        destruct (path_dec [Mark a] (Mark a :: r)); [reflexivity | ].
        destruct (path_dec [Mark b] (Mark a :: r)) as [E | _]; [injection E as E _; congruence | ].
        destruct r as [ | y r]; [congruence | ]. symmetry. apply FA.
      * rewrite V. destruct (path_dec [Mark a] x) as [<- | _]; [rewrite <- (app_nil_r (place Config n ++ [Mark a])) in A' at 2; rewrite after_app in A'; discriminate | ].
        destruct (path_dec [Mark b] x) as [<- | _]; [rewrite <- (app_nil_r (place Config n ++ [Mark b])) in A at 2; rewrite after_app in A; discriminate | ]. reflexivity.
  - assert (X : forall m, after (place Config n ++ [Mark m]) (place Data n ++ x) = None).
    { intros m. destruct (after _ _) eqn:A; [ | reflexivity]. apply after_some in A. discriminate A. }
    rewrite !X. apply V'.
Qed.

(** * Steps *)
Definition some_view (n : string) (R : (path -> option entry) -> (path -> option entry) -> Prop) (w : fs) : Prop :=
  exists c d, view n c d w /\ R c d.

Ltac upds :=
  unfold upd; repeat match goal with |- context [path_dec ?a ?b] => destruct (path_dec a b) as [?E | ?N] end; subst;
  try discriminate; try congruence; try reflexivity.

Section Steps.
Variable n : string.
Variable R : (path -> option entry) -> (path -> option entry) -> Prop.
Variable E : exn -> fs -> Prop.
Notation wpn Q := (wp (some_view n R) Q E).

Lemma now_ok : forall c d w, view n c d w -> R c d -> some_view n R w.
Proof. intros c d w V H. exists c, d. auto. Qed.

Lemma upd_twice : forall (c : path -> option entry) r e e' x, upd (upd c r e) r e' x = upd c r e' x.
Proof. intros. upds. Qed.

Lemma wp_write_c : forall (Q : unit -> fs -> Prop) c d w x t, view n c d w -> R c d -> c [] = Some D ->
  R (upd c [x] (Some (F ""))) d -> R (upd c [x] (Some (F t))) d ->
  (forall w', view n (upd c [x] (Some (F t))) d w' -> Q tt w') -> wpn Q (write_file (place Config n ++ [x]) t) w.
Proof.
  intros Q c d w x t V H DI H1 H2 K. unfold write_file. split; [now apply (now_ok c d) | ]. rewrite removelast_last.
  pose proof (vc _ _ _ _ V []) as L. rewrite app_nil_r, DI in L. unfold is_dir. rewrite L. split; [now apply (now_ok c d) | ].
  pose proof (view_set_c n c d w [x] (F "") V) as V1. cbn [apply]. split; [now apply (now_ok _ d _ V1) | ].
  pose proof (view_set_c n _ d _ [x] (F t) V1) as V2.
  pose proof (view_ext _ _ _ _ _ _ V2 (upd_twice c [x] _ _) (fun r => eq_refl)) as V3. cbn [apply].
  split; [now apply (now_ok _ d _ V3) | ]. now apply K.
Qed.
Lemma wp_write_d : forall (Q : unit -> fs -> Prop) c d w x t, view n c d w -> R c d -> d [] = Some D ->
  R c (upd d [x] (Some (F ""))) -> R c (upd d [x] (Some (F t))) ->
  (forall w', view n c (upd d [x] (Some (F t))) w' -> Q tt w') -> wpn Q (write_file (place Data n ++ [x]) t) w.
Proof.
  intros Q c d w x t V H DI H1 H2 K. unfold write_file. split; [now apply (now_ok c d) | ]. rewrite removelast_last.
  pose proof (vd _ _ _ _ V []) as L. rewrite app_nil_r, DI in L. unfold is_dir. rewrite L. split; [now apply (now_ok c d) | ].
  pose proof (view_set_d n c d w [x] (F "") V) as V1. cbn [apply]. split; [now apply (now_ok c _ _ V1) | ].
  pose proof (view_set_d n c _ _ [x] (F t) V1) as V2.
  pose proof (view_ext _ _ _ _ _ _ V2 (fun r => eq_refl) (upd_twice d [x] _ _)) as V3. cbn [apply].
  split; [now apply (now_ok c _ _ V3) | ]. now apply K.
Qed.
Lemma wp_touch_c : forall (Q : unit -> fs -> Prop) c d w x, view n c d w -> R c d -> c [] = Some D -> c [x] = None -> R (upd c [x] (Some (F ""))) d ->
  (forall w', view n (upd c [x] (Some (F ""))) d w' -> Q tt w') -> wpn Q (touch (place Config n ++ [x])) w.
Proof.
  intros Q c d w x V H DI NX H1 K. unfold touch. split; [now apply (now_ok c d) | ]. rewrite removelast_last.
  pose proof (vc _ _ _ _ V []) as L. rewrite app_nil_r, DI in L. pose proof (vc _ _ _ _ V [x]) as LX. rewrite NX in LX.
  unfold is_dir, exists_. rewrite L, LX. split; [now apply (now_ok c d) | ].
  pose proof (view_set_c n c d w [x] (F "") V) as V1. cbn [apply]. split; [now apply (now_ok _ d _ V1) | ]. now apply K.
Qed.
Lemma wp_touch_d : forall (Q : unit -> fs -> Prop) c d w x, view n c d w -> R c d -> d [] = Some D -> d [x] = None -> R c (upd d [x] (Some (F ""))) ->
  (forall w', view n c (upd d [x] (Some (F ""))) w' -> Q tt w') -> wpn Q (touch (place Data n ++ [x])) w.
Proof.
  intros Q c d w x V H DI NX H1 K. unfold touch. split; [now apply (now_ok c d) | ]. rewrite removelast_last.
  pose proof (vd _ _ _ _ V []) as L. rewrite app_nil_r, DI in L. pose proof (vd _ _ _ _ V [x]) as LX. rewrite NX in LX.
  unfold is_dir, exists_. rewrite L, LX. split; [now apply (now_ok c d) | ].
  pose proof (view_set_d n c d w [x] (F "") V) as V1. cbn [apply]. split; [now apply (now_ok c _ _ V1) | ]. now apply K.
Qed.
Lemma wp_unlink_c : forall (Q : unit -> fs -> Prop) c d w r t b, view n c d w -> R c d -> c r = Some (F t) -> R (upd c r None) d ->
  (forall w', view n (upd c r None) d w' -> Q tt w') -> wpn Q (unlink (place Config n ++ r) b) w.
Proof.
  intros Q c d w r t b V H L H1 K. unfold unlink. split; [now apply (now_ok c d) | ]. rewrite (vc _ _ _ _ V), L. split; [now apply (now_ok c d) | ].
  pose proof (view_del_c n c d w r V) as V1. cbn [apply]. split; [now apply (now_ok _ d _ V1) | ]. now apply K.
Qed.
Lemma wp_unlink_d : forall (Q : unit -> fs -> Prop) c d w r t b, view n c d w -> R c d -> d r = Some (F t) -> R c (upd d r None) ->
  (forall w', view n c (upd d r None) w' -> Q tt w') -> wpn Q (unlink (place Data n ++ r) b) w.
Proof.
  intros Q c d w r t b V H L H1 K. unfold unlink. split; [now apply (now_ok c d) | ]. rewrite (vd _ _ _ _ V), L. split; [now apply (now_ok c d) | ].
  pose proof (view_del_d n c d w r V) as V1. cbn [apply]. split; [now apply (now_ok c _ _ V1) | ]. now apply K.
Qed.
Lemma wp_rmdir_c : forall (Q : unit -> fs -> Prop) c d w r, view n c d w -> R c d -> c r = Some D -> (forall x, c (r ++ [x]) = None) -> R (upd c r None) d ->
  (forall w', view n (upd c r None) d w' -> Q tt w') -> wpn Q (rmdir (place Config n ++ r)) w.
Proof.
  intros Q c d w r V H L NC H1 K. unfold rmdir. split; [now apply (now_ok c d) | ]. rewrite (vc _ _ _ _ V), L.
  rewrite children_nil by (intros x; rewrite <- app_assoc, (vc _ _ _ _ V); apply NC). split; [now apply (now_ok c d) | ].
  pose proof (view_del_c n c d w r V) as V1. cbn [apply]. split; [now apply (now_ok _ d _ V1) | ]. now apply K.
Qed.
Lemma wp_rmdir_d : forall (Q : unit -> fs -> Prop) c d w r, view n c d w -> R c d -> d r = Some D -> (forall x, d (r ++ [x]) = None) -> R c (upd d r None) ->
  (forall w', view n c (upd d r None) w' -> Q tt w') -> wpn Q (rmdir (place Data n ++ r)) w.
Proof.
  intros Q c d w r V H L NC H1 K. unfold rmdir. split; [now apply (now_ok c d) | ]. rewrite (vd _ _ _ _ V), L.
  rewrite children_nil by (intros x; rewrite <- app_assoc, (vd _ _ _ _ V); apply NC). split; [now apply (now_ok c d) | ].
  pose proof (view_del_d n c d w r V) as V1. cbn [apply]. split; [now apply (now_ok c _ _ V1) | ]. now apply K.
Qed.
Lemma wp_read_c : forall (Q : string -> fs -> Prop) c d w r t, view n c d w -> R c d -> c r = Some (F t) -> Q t w -> wpn Q (read_text (place Config n ++ r)) w.
Proof. intros Q c d w r t V H L K. unfold read_text. split; [now apply (now_ok c d) | ]. rewrite (vc _ _ _ _ V), L. split; [now apply (now_ok c d) | exact K]. Qed.
Lemma wp_unpickle_d : forall (Q : string -> fs -> Prop) c d w r t, view n c d w -> R c d -> d r = Some (F t) -> t <> "" -> Q t w -> wpn Q (unpickle (place Data n ++ r)) w.
Proof.
  intros Q c d w r t V H L NE K. unfold unpickle, read_text. cbn [bind]. split; [now apply (now_ok c d) | ]. rewrite (vd _ _ _ _ V), L. cbn [bind].
  destruct (string_dec t ""); [contradiction | ]. split; [now apply (now_ok c d) | exact K].
Qed.

(** ** Locking *)
Variable pid : nat.
Variable alive : nat -> bool.
Hypothesis PR : proper n.

Lemma wp_owner_nobody : forall (Q : option nat -> fs -> Prop) c d w, view n c d w -> R c d -> c [Mark None] <> None -> Q None w -> wpn Q (owner alive (named n)) w.
Proof.
  intros Q c d w V H L K. unfold owner. paths n PR. split; [now apply (now_ok c d) | ]. unfold exists_ at 1. rewrite (vc _ _ _ _ V).
  destruct (c [Mark None]); [ | contradiction]. split; [now apply (now_ok c d) | exact K].
Qed.
Lemma wp_owner_held : forall (Q : option nat -> fs -> Prop) c d w q, view n c d w -> R c d -> c [] <> None -> (forall m, c [Mark m] <> None <-> m = Some q) -> alive q = true ->
  Q (Some q) w -> wpn Q (owner alive (named n)) w.
Proof.
  intros Q c d w q V H DI L A K. unfold owner. paths n PR. split; [now apply (now_ok c d) | ]. unfold exists_. rewrite (vc _ _ _ _ V).
  destruct (c [Mark None]) eqn:LN; [assert (@None nat = Some q); [apply L; congruence | discriminate] | ].
  pose proof (vc _ _ _ _ V []) as L0. rewrite app_nil_r in L0. rewrite L0. destruct (c []); [ | contradiction]. cbn [negb].
  apply wp_bind. unfold delete_abandoned_markers. paths n PR. split; [now apply (now_ok c d) | ].
  assert (X : forall l, incl l (children (place Config n) w) -> forall (Q' : unit -> fs -> Prop), Q' tt w -> wp (some_view n R) Q' E
     (each l (fun x => match x with Mark (Some q) => if alive q then Ret tt else unlink (place Config n ++ [x]) false | _ => Ret tt end)) w).
  { induction l as [ | x l IH]; intros IC Q' KQ; cbn [each]; [split; [now apply (now_ok c d) | exact KQ] | ].
    assert (S : (match x with Mark (Some q) => if alive q then Ret tt else unlink (place Config n ++ [x]) false | _ => Ret tt end) = Ret tt).
    { destruct x as [ | [q' | ] | ]; try reflexivity. assert (IX : In (Mark (Some q')) (children (place Config n) w)) by (apply IC; left; reflexivity).
      apply in_children in IX. rewrite (vc _ _ _ _ V) in IX. apply L in IX. injection IX as ->. now rewrite A. }
    rewrite S. apply wp_bind. split; [now apply (now_ok c d) | ]. apply IH; [intros y Y; apply IC; right; exact Y | exact KQ]. }
  apply X; [apply incl_refl | ]. clear X. split; [now apply (now_ok c d) | ].
  rewrite (singleton _ (filter is_mark (children (place Config n) w)) (Mark (Some q))).
  - split; [now apply (now_ok c d) | exact K].
  - apply NoDup_filter, children_nodup.
  - intros x. rewrite filter_In, in_children, (vc _ _ _ _ V). split.
    + intros [I M]. destruct x as [ | m | ]; try discriminate. apply L in I. congruence.
    + intros ->. split; [now apply L | reflexivity].
Qed.

Definition has (c : path -> option entry) (marks : option nat -> bool) (s : string) : Prop := forall r, c r = config_files marks s r.

Lemma has_nobody : forall c s, has c nobody s -> c [Mark None] <> None.
Proof. intros c s H. rewrite H. discriminate. Qed.
Lemma has_held : forall c s q, has c (held q) s -> forall m, c [Mark m] <> None <-> m = Some q.
Proof.
  intros c s q H m. rewrite H. destruct m as [q' | ]; cbn [config_files held]; [ | split; [congruence | discriminate]].
  destruct (Nat.eqb_spec q q') as [<- | N]; split; congruence.
Qed.
Lemma has_dir : forall c m s, has c m s -> c [] = Some D.
Proof. intros c m s H. now rewrite H. Qed.

Lemma lock_mark : forall c d w s, view n c d w -> has c nobody s ->
  view n (config_files (held pid) s) d (move (place Config n ++ [Mark None]) (place Config n ++ [Mark (Some pid)]) w).
Proof.
  intros c d w s V H. eapply view_ext; [apply view_mark; [exact V | discriminate | | ] | | reflexivity].
  - intros r. rewrite H. destruct r as [ | [ | | ] ]; reflexivity.
  - intros x r. rewrite H. reflexivity.
  - intros r. rewrite H. upds; [cbn [config_files held]; now rewrite Nat.eqb_refl | ]. rewrite H.
    destruct r as [ | [x | [q | ] | q] [ | ]]; try reflexivity; cbn [config_files held nobody].
    + destruct (Nat.eqb_spec pid q); [congruence | reflexivity].
    + congruence.
Qed.
Lemma unlock_mark : forall c d w s, view n c d w -> has c (held pid) s ->
  view n (config_files nobody s) d (move (place Config n ++ [Mark (Some pid)]) (place Config n ++ [Mark None]) w).
Proof.
  intros c d w s V H. eapply view_ext; [apply view_mark; [exact V | discriminate | | ] | | reflexivity].
  - intros r. rewrite H. destruct r as [ | [ | | ] ]; reflexivity.
  - intros x r. rewrite H. reflexivity.
  - intros r. rewrite H. cbn [config_files held]. rewrite Nat.eqb_refl. upds. rewrite H.
    destruct r as [ | [x | [q | ] | q] [ | ]]; try reflexivity; cbn [config_files held nobody].
    + destruct (Nat.eqb_spec pid q); [congruence | reflexivity].
    + congruence.
Qed.

Lemma wp_lock : forall (Q : bool -> fs -> Prop) c d w s marks, view n c d w -> R c d -> has c marks s -> marks = nobody \/ (marks = held pid /\ alive pid = true) ->
  (marks = nobody -> R (config_files (held pid) s) d) ->
  (forall w', view n (config_files (held pid) s) d w' -> Q true w') ->
  wpn Q (lock pid alive (named n)) w.
Proof.
  intros Q c d w s marks V H HC M H1 K. unfold lock. cbn [named default_class]. fold (named n). apply wp_bind. destruct M as [-> | (-> & A)].
  - eapply wp_owner_nobody; [exact V | exact H | eapply has_nobody; exact HC | ]. apply wp_bind. unfold rename. paths n PR.
    assert (X : exists_ (place Config n ++ [Mark None]) w = true) by (unfold exists_; rewrite (vc _ _ _ _ V), HC; reflexivity).
    split; [now apply (now_ok c d) | ]. rewrite X.
    split; [now apply (now_ok c d) | ]. cbn [apply]. pose proof (lock_mark c d w s V HC) as V1. specialize (H1 eq_refl).
    split; [now apply (now_ok _ d _ V1) | ]. split; [now apply (now_ok _ d _ V1) | ].
    unfold exists_. rewrite (vc _ _ _ _ V1). cbn [config_files held]. rewrite Nat.eqb_refl. split; [now apply (now_ok _ d _ V1) | ]. now apply K.
  - eapply wp_owner_held; [exact V | exact H | rewrite (has_dir _ _ _ HC); discriminate | apply (has_held _ _ _ HC) | exact A | ].
    rewrite Nat.eqb_refl. split; [now apply (now_ok c d) | ]. apply K. eapply view_ext; [exact V | exact HC | reflexivity].
Qed.

Lemma wp_unlock : forall (Q : unit -> fs -> Prop) c d w s, view n c d w -> R c d -> has c (held pid) s -> alive pid = true -> R (config_files nobody s) d ->
  (forall w', view n (config_files nobody s) d w' -> Q tt w') ->
  wpn Q (unlock pid alive (named n)) w.
Proof.
  intros Q c d w s V H HC A H1 K. unfold unlock. apply wp_bind.
  eapply wp_owner_held; [exact V | exact H | rewrite (has_dir _ _ _ HC); discriminate | apply (has_held _ _ _ HC) | exact A | ].
  rewrite Nat.eqb_refl. unfold rename. paths n PR. split; [now apply (now_ok c d) | ]. unfold exists_. rewrite (vc _ _ _ _ V), HC.
  cbn [config_files held]. rewrite Nat.eqb_refl. split; [now apply (now_ok c d) | ]. cbn [apply].
  pose proof (unlock_mark c d w s V HC) as V1. split; [now apply (now_ok _ d _ V1) | ]. now apply K.
Qed.

Lemma exists_marks : forall c d w s marks, view n c d w -> has c marks s -> (exists m, marks m = true) -> ws_exists (named n) w = true.
Proof.
  intros c d w s marks V H (m & M). unfold ws_exists. cbn [named default_class]. fold (named n). apply marker_exists_there. exists m.
  paths n PR. unfold there. rewrite (vc _ _ _ _ V), H. cbn [config_files]. rewrite M. discriminate.
Qed.
End Steps.
