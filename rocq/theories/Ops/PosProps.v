(** C78: pos() is the position of the tuple in the input of the operator. *)
From Verif.Ops Require Export PosFacts.
Local Open Scope Z_scope.
Local Open Scope list_scope.

Theorem c78_total : forall l c f, Forall (fun r => usual_pipeline true (snd r)) l ->
  tells_total (trace (session l (new_world c f))).
Proof.
  intros l c f U. assert (G : good (new_world c f)).
  { split; [intros before i p after H; destruct before; discriminate H | reflexivity]. }
  revert G. generalize (new_world c f). induction U as [ | [xs p] l UP _ IH]; intros w G; [exact (proj1 G) | ].
  cbn. apply IH. now apply (run_good true).
Qed.

(** *** The first run of a pipeline *)
Definition not_setup (e : event) : Prop := match e with Setup _ => False | _ => True end.
Definition is_setup (e : event) : Prop := match e with Setup _ => True | _ => False end.
Definition adds (P : event -> Prop) (w w' : world) : Prop := exists t, trace w' = trace w ++ t /\ Forall P t.

Lemma adds_refl : forall P w, adds P w w.
Proof. intros. exists []. rewrite app_nil_r. auto. Qed.
Lemma adds_trans : forall P w w' w'', adds P w w' -> adds P w' w'' -> adds P w w''.
Proof. intros P w w' w'' (t & E & F) (t' & E' & F'). exists (t ++ t'). rewrite E', E, app_assoc. split; [reflexivity | now apply Forall_app]. Qed.
Lemma adds_note : forall (P : event -> Prop) e w, P e -> adds P w (note e w).
Proof. intros. exists [e]. split; [reflexivity | now constructor]. Qed.
Lemma adds_keep : forall P i s w, adds P w (keep i s w).
Proof. intros. exists []. cbn. rewrite app_nil_r. auto. Qed.
Lemma adds_enter : forall i x w, adds not_setup w (enter i x w).
Proof. intros. exists [Input i x]. split; [reflexivity | repeat constructor]. Qed.

Definition quiet (r : receiver) : Prop := forall x w, adds not_setup w (r x w).
Definition quiet_flush (f : flusher) : Prop := forall w, adds not_setup w (fst (f w)).

Lemma perform_quiet : forall i k, quiet k -> forall p w, adds not_setup w (fst (perform i p k w)).
Proof.
  intros i k K. induction p as [s | s | f IH | x p IH]; intros w; cbn.
  - apply adds_keep.
  - eapply adds_trans; [apply adds_keep | now apply adds_note].
  - eapply adds_trans; [ | apply IH]. now apply adds_note.
  - eapply adds_trans; [apply K | apply IH].
Qed.

Lemma quiet_end : quiet_flush (fun w => (w, true)).
Proof. intros w. apply adds_refl. Qed.
Lemma quiet_next : forall (r : world * bool) next w, quiet_flush next -> adds not_setup w (fst r) ->
  adds not_setup w (fst (match r with (w, true) => next w | (w, false) => (w, false) end)).
Proof. intros [w' []] next w N A; [eapply adds_trans; [exact A | apply N] | exact A]. Qed.
Lemma give_all_quiet : forall r xs w, quiet r -> adds not_setup w (give_all r xs w).
Proof. induction xs as [ | x xs IH]; intros w Q; [apply adds_refl | ]. cbn. eapply adds_trans; [apply Q | now apply IH]. Qed.

Lemma all_quiet :
  (forall o, usual false o -> forall k next, quiet k -> quiet_flush next -> quiet_flush (flush_op o k next) /\ quiet (receive_op o k)) /\
  (forall bs, usual_branches false bs -> forall k, quiet k -> quiet_flush (flush_branches bs k) /\
     forall i x w, adds not_setup w (receive_branches i bs k x w)) /\
  (forall p, usual_pipeline false p -> forall k next, quiet k -> quiet_flush next -> quiet_flush (flush_pipeline p k next) /\ quiet (receive_pipeline p k)).
Proof.
  apply op_all.
  - intros i b U k next K N. split; intros; cbn.
    + intros w. cbn. apply quiet_next; [exact N | now apply perform_quiet].
    + intros x w. cbn. eapply adds_trans; [apply adds_enter | now apply perform_quiet].
  - intros i bs IH U k next K N. assert (UB : usual_branches false bs) by (inversion U; assumption). destruct (IH UB k K) as [F R]. split.
    + intros w. cbn. apply quiet_next; [exact N | apply F].
    + intros x w. cbn. eapply adds_trans; [apply adds_enter | apply R].
  - intros i first p IH U. inversion U; discriminate.
  - intros _ k K. split; [apply quiet_end | intros; apply adds_refl].
  - intros p IH U k K. assert (UP : usual_pipeline false p) by (inversion U; assumption). destruct (IH UP k _ K quiet_end) as [F R]. split; [exact F | ].
    intros i x w. apply R.
  - intros f p IHp bs IHb U k K. assert (UP : usual_pipeline false p) by (inversion U; assumption).
    assert (UB : usual_branches false bs) by (inversion U; assumption). destruct (IHp UP k _ K quiet_end) as [F R]. destruct (IHb UB k K) as [Fb Rb]. split.
    + intros w. cbn. apply quiet_next; [exact Fb | apply F].
    + intros i x w. cbn. destruct (f (pos w) (components x)) as [v | ].
      * destruct (truthy v); (eapply adds_trans; [apply (adds_note not_setup (Called i (pos w))); exact I | ]); [apply R | apply Rb].
      * eapply adds_trans; [apply (adds_note not_setup (Called i (pos w))); exact I | apply adds_note; exact I].
  - intros _ k next K N. split; [exact N | exact K].
  - intros o IHo p IHp U k next K N. assert (UO : usual false o) by (inversion U; assumption). assert (UP : usual_pipeline false p) by (inversion U; assumption).
    destruct (IHp UP k next K N) as [F R]. cbn. exact (IHo UO (receive_pipeline p k) (flush_pipeline p k next) R F).
Qed.

Lemma setup_adds :
  (forall o w, adds is_setup w (setup_op o w)) /\ (forall bs w, adds is_setup w (setup_branches bs w)) /\
  (forall p w, adds is_setup w (setup_pipeline p w)).
Proof.
  assert (A : forall i s w, adds is_setup w (keep i s (note (Setup i) w))).
  { intros. eapply adds_trans; [apply (adds_note is_setup (Setup i)); exact I | apply adds_keep]. }
  apply op_all; cbn; intros; auto using adds_refl.
  - eapply adds_trans; [apply A | apply H].
  - eapply adds_trans; [apply H | apply H0].
  - eapply adds_trans; [apply H | apply H0].
Qed.

Lemma since_in_all : forall i t s, Forall is_setup s -> Forall not_setup t -> since_setup i (s ++ t) = in_all i (s ++ t).
Proof.
  intros i t s S T. unfold since_setup, in_all. rewrite !fold_left_app.
  assert (Z : fold_left (fun n e => match e with Setup j => if Nat.eqb j i then 0 else n | Input j _ => if Nat.eqb j i then n + 1 else n | _ => n end) s 0 =
              fold_left (fun n e => match e with Input j _ => if Nat.eqb j i then n + 1 else n | _ => n end) s 0).
  { induction S as [ | e s SE _ IH]; [reflexivity | ]. destruct e; destruct SE. cbn. destruct (Nat.eqb i0 i); exact IH. }
  rewrite Z. generalize (fold_left (fun n e => match e with Input j _ => if Nat.eqb j i then n + 1 else n | _ => n end) s 0).
  induction T as [ | e t TE _ IH]; intros n; [reflexivity | ]. cbn. destruct e; try apply IH. destruct TE.
Qed.

Lemma split_after : forall (A : Type) (s t before : list A) x after, s ++ t = before ++ x :: after -> ~ In x s ->
  exists b, before = s ++ b /\ t = b ++ x :: after.
Proof.
  induction s as [ | y s IH]; intros t before x after H N; [exists before; auto | ].
  destruct before as [ | z before]; cbn in H; injection H as -> H; [destruct N; now left | ].
  destruct (IH t before x after H) as (b & -> & E); [intros I; apply N; now right | ]. exists b. auto.
Qed.

(** Every call of a function sees the number of tuples its operator has received before *)
Theorem c78_position_partial : forall p xs c f, usual_pipeline false p -> tells_position (trace (run xs p (new_world c f))).
Proof.
  intros p xs c f U before i q after H.
  assert (UT : usual_pipeline true p).
  { revert U. clear. revert p.
    assert (L : (forall o, usual false o -> usual true o) /\ (forall bs, usual_branches false bs -> usual_branches true bs) /\
                (forall p, usual_pipeline false p -> usual_pipeline true p)).
    { apply op_all; intros; match goal with H : usual _ _ |- _ => inversion H | H : usual_branches _ _ |- _ => inversion H | H : usual_pipeline _ _ |- _ => inversion H end;
        subst; constructor; auto. }
    apply L. }
  pose proof (c78_total [(xs, p)] c f (Forall_cons _ (UT : usual_pipeline true (snd (xs, p))) (Forall_nil _)) before i q after H) as T.
  rewrite T. do 2 f_equal. symmetry.
  destruct (proj2 (proj2 setup_adds) p (new_world c f)) as (s & ES & FS).
  destruct (proj2 (proj2 all_quiet) p U output _ ltac:(intros x w; apply adds_note; exact I) quiet_end) as [F R].
  assert (A : adds not_setup (setup_pipeline p (new_world c f)) (run xs p (new_world c f))).
  { unfold run. eapply adds_trans; [apply give_all_quiet, R | apply F]. }
  destruct A as (t & ET & FT). rewrite ES in ET. cbn in ET. cbn in H. rewrite ET in H.
  destruct (split_after _ s t before _ after H) as (b & -> & Et).
  { intros IN. rewrite Forall_forall in FS. exact (FS _ IN). }
  apply since_in_all; [exact FS | ]. subst t. apply Forall_app in FT. exact (proj1 FT).
Qed.
