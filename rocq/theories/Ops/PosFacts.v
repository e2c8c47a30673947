(** Every call of a function sees the count of its own operator. *)
From Verif.Ops Require Export PosSpec.
Local Open Scope Z_scope.
Local Open Scope list_scope.

Inductive silent : prog -> Prop :=
| s_ret : forall s, silent (Ret s)
| s_raise : forall s, silent (Raise s)
| s_send : forall x p, silent p -> silent (Send x p).
Inductive early : prog -> Prop :=
| e_silent : forall p, silent p -> early p
| e_ask : forall k, (forall a, early (k a)) -> early (Ask k).

Lemma send_all_silent : forall xs s, silent (send_all xs s).
Proof. induction xs; intros; constructor; auto. Qed.
Lemma calling_early : forall f args s k, (forall v, early (k v)) -> early (calling f args s k).
Proof. intros f args s k K. apply e_ask. intros a. destruct (f a args); [apply K | apply e_silent, s_raise]. Qed.
Lemma squish_early : forall f s xs acc, early (squish_p f s acc xs).
Proof. induction xs as [ | x xs IH]; intros acc; [apply e_silent, s_send, s_ret | apply calling_early, IH]. Qed.
Lemma red_early : forall fs acc xs done k, (forall s, early (k s)) -> early (red_p fs acc xs done k).
Proof.
  induction fs as [ | f fs IH]; intros acc xs done k K; [apply K | ]. destruct acc as [ | a acc], xs as [ | x xs]; try apply K.
  cbn. apply e_ask. intros p. destruct (fst f p [a; x]); [now apply IH | apply e_silent, s_raise].
Qed.

Definition calls_early (b : behaviour) : Prop := (forall s x, early (on_input b s x)) /\ (forall s, silent (on_flush b s)).

Lemma map_early : forall f, calls_early (map_b f).
Proof. split; cbn; intros; [apply calling_early; intros; apply e_silent, s_send, s_ret | constructor]. Qed.
Lemma select_early : forall f, calls_early (select_b f).
Proof. split; cbn; intros; [apply calling_early; intros v; destruct (truthy v); apply e_silent; repeat constructor | constructor]. Qed.
Lemma squish_b_early : forall f, calls_early (squish_b f).
Proof. split; cbn; intros; [apply squish_early | constructor]. Qed.
Lemma window_early : forall f, calls_early (window_b f).
Proof.
  split; cbn; intros s; [intros x; apply calling_early; intros v; destruct (truthy v); [destruct s | ]; apply e_silent; repeat constructor | ].
  destruct s; repeat constructor.
Qed.
Lemma red_b_early : forall inc fs, calls_early (red_b inc fs).
Proof.
  split; cbn -[Nat.ltb]; intros s; [intros x | destruct inc; repeat constructor].
  destruct (length (components x) <? length fs)%nat; [apply e_silent, s_raise | ].
  apply red_early. intros; destruct inc; apply e_silent; repeat constructor.
Qed.
Lemma plain_early : forall start on at_end, calls_early (plain_b start on at_end).
Proof. split; cbn; intros; [apply e_silent | ]; apply send_all_silent. Qed.

Lemma in_all_snoc : forall i t e, in_all i (t ++ [e]) = in_all i t + match e with Input j _ => if Nat.eqb j i then 1 else 0 | _ => 0 end.
Proof. intros. unfold in_all. rewrite fold_left_app. cbn. destruct e; try lia. destruct (Nat.eqb i0 i); lia. Qed.

Lemma snoc_split : forall (A : Type) (t : list A) e before x after, t ++ [e] = before ++ x :: after ->
  (after = [] /\ before = t /\ x = e) \/ exists after', after = after' ++ [e] /\ t = before ++ x :: after'.
Proof.
  intros A t e before x after H. destruct (rev after) as [ | y r] eqn:R.
  - left. apply (f_equal (@rev A)) in R. rewrite rev_involutive in R. cbn in R. subst after.
    apply app_inj_tail in H. destruct H. now subst.
  - right. apply (f_equal (@rev A)) in R. rewrite rev_involutive in R. cbn in R. subst after.
    exists (rev r). rewrite app_comm_cons, app_assoc in H. apply app_inj_tail in H. destruct H as [-> ->]. split; reflexivity.
Qed.

Definition good (w : world) : Prop := tells_total (trace w) /\ forall i, count w i = in_all i (trace w) - 1.

Lemma good_note : forall e w, match e with Called _ _ | Input _ _ => False | _ => True end -> good w -> good (note e w).
Proof.
  intros e w N [T C]. split.
  - intros before i p after H. cbn in H. apply snoc_split in H. destruct H as [(-> & -> & <-) | (after' & -> & H)]; [destruct N | exact (T _ _ _ _ H)].
  - intros i. cbn [count trace note]. rewrite in_all_snoc, C. destruct e; try contradiction; lia.
Qed.
Lemma good_keep : forall i s w, good w -> good (keep i s w).
Proof. intros i s w G. exact G. Qed.
Lemma good_enter : forall i x w, good w -> good (enter i x w).
Proof.
  intros i x w [T C]. split.
  - intros before j p after H. cbn in H. apply snoc_split in H. destruct H as [(-> & -> & E) | (after' & -> & H)]; [discriminate E | exact (T _ _ _ _ H)].
  - intros j. cbn [count trace enter]. unfold set. rewrite in_all_snoc, (Nat.eqb_sym j i), !C. destruct (Nat.eqb_spec i j); [subst | ]; lia.
Qed.
Lemma good_called : forall i w, good w -> current w = Some i -> good (note (Called i (pos w)) w).
Proof.
  intros i w [T C] H. split.
  - intros before j p after S. cbn in S. apply snoc_split in S. destruct S as [(-> & -> & E) | (after' & -> & S)]; [ | exact (T _ _ _ _ S)].
    injection E as -> ->. unfold pos. now rewrite H, C.
  - intros j. cbn [count trace note]. rewrite in_all_snoc, C. lia.
Qed.

Definition keeps (r : receiver) : Prop := forall x w, good w -> good (r x w).
Definition keeps_flush (f : flusher) : Prop := forall w, good w -> good (fst (f w)).

Lemma perform_silent : forall i p, silent p -> forall k w, keeps k -> good w -> good (fst (perform i p k w)).
Proof.
  induction 1; intros k w K G; cbn; [now apply good_keep | apply good_note; [exact I | now apply good_keep] | ].
  apply IHsilent; auto.
Qed.
Lemma perform_early : forall i p, early p -> forall k w, keeps k -> good w -> current w = Some i -> good (fst (perform i p k w)).
Proof.
  induction 1 as [p S | p _ IH]; intros k w K G C; [now apply perform_silent | ]. cbn. apply IH; auto. now apply good_called.
Qed.

Scheme op_rect' := Induction for op Sort Prop
  with branches_rect' := Induction for branches Sort Prop
  with pipeline_rect' := Induction for pipeline Sort Prop.
Combined Scheme op_all from op_rect', branches_rect', pipeline_rect'.

Lemma setup_good :
  (forall o w, good w -> good (setup_op o w)) /\ (forall bs w, good w -> good (setup_branches bs w)) /\
  (forall p w, good w -> good (setup_pipeline p w)).
Proof.
  apply op_all; cbn; intros; auto; try (apply good_keep, good_note; [exact I | assumption]).
  apply H. apply good_keep, good_note; [exact I | assumption].
Qed.

Lemma give_all_good : forall r xs w, keeps r -> good w -> good (give_all r xs w).
Proof. induction xs; cbn; intros; auto. Qed.

Lemma usual_prim : forall a i b, usual a (Prim i b) -> calls_early b.
Proof.
  intros a i b U. inversion U; subst; auto using map_early, select_early, squish_b_early, window_early, red_b_early, plain_early.
Qed.

Lemma ended : keeps_flush (fun w => (w, true)).
Proof. intros w G. exact G. Qed.

Lemma flushing : forall (r : world * bool) next, keeps_flush next -> good (fst r) ->
  good (fst (match r with (w, true) => next w | (w, false) => (w, false) end)).
Proof. intros [w []] next K G; [now apply K | exact G]. Qed.

(** A strengthening of the induction: on operators, branches and pipelines, receiving and flushing *)
Lemma all_good : forall a,
  (forall o, usual a o -> forall k next, keeps k -> keeps_flush next -> keeps_flush (flush_op o k next) /\ keeps (receive_op o k)) /\
  (forall bs, usual_branches a bs -> forall k, keeps k -> keeps_flush (flush_branches bs k) /\
     forall i x w, good w -> current w = Some i -> good (receive_branches i bs k x w)) /\
  (forall p, usual_pipeline a p -> forall k next, keeps k -> keeps_flush next -> keeps_flush (flush_pipeline p k next) /\ keeps (receive_pipeline p k)).
Proof.
  intros a. apply op_all.
  - (* Prim *) intros i b U k next K N. destruct (usual_prim _ _ _ U) as [EI SF]. split.
    + intros w G. cbn. apply flushing; [exact N | now apply perform_silent].
    + intros x w G. cbn. apply perform_early; auto using good_enter.
  - (* Case *) intros i bs IH U k next K N. assert (UB : usual_branches a bs) by (inversion U; assumption). destruct (IH UB k K) as [F R]. split.
    + intros w G. cbn. apply flushing; [exact N | now apply F].
    + intros x w G. cbn. apply R; [now apply good_enter | reflexivity].
  - (* Args *) intros i first p IH U k next K N. assert (UP : usual_pipeline a p) by (inversion U; assumption). split.
    + intros w G. cbn. now apply N.
    + intros x w G. cbn. destruct (IH UP k _ K ended) as [F R]. apply F, give_all_good; [exact R | ]. apply setup_good. now apply good_enter.
  - (* NoDefault *) intros _ k K. split; [apply ended | intros; assumption].
  - (* Default *) intros p IH U k K. assert (UP : usual_pipeline a p) by (inversion U; assumption). destruct (IH UP k _ K ended) as [F R]. split; [exact F | ].
    intros i x w G _. cbn. now apply R.
  - (* Branch *) intros f p IHp bs IHb U k K. assert (UP : usual_pipeline a p) by (inversion U; assumption). assert (UB : usual_branches a bs) by (inversion U; assumption).
    destruct (IHp UP k _ K ended) as [F R]. destruct (IHb UB k K) as [Fb Rb]. split.
    + intros w G. cbn. apply flushing; [exact Fb | now apply F].
    + intros i x w G C. cbn. assert (G' := good_called i w G C). destruct (f (pos w) (components x)) as [v | ].
      * destruct (truthy v); [now apply R | now apply Rb].
      * apply good_note; [exact I | exact G'].
  - (* Nil *) intros _ k next K N. split; [exact N | exact K].
  - (* Cons *) intros o IHo p IHp U k next K N. assert (UO : usual a o) by (inversion U; assumption). assert (UP : usual_pipeline a p) by (inversion U; assumption).
    destruct (IHp UP k next K N) as [F R]. cbn. exact (IHo UO (receive_pipeline p k) (flush_pipeline p k next) R F).
Qed.

Lemma output_keeps : keeps output.
Proof. intros x w G. apply good_note; [exact I | exact G]. Qed.

Lemma run_good : forall a p xs w, usual_pipeline a p -> good w -> good (run xs p w).
Proof.
  intros a p xs w U G. destruct (proj2 (proj2 (all_good a)) p U output _ output_keeps ended) as [F R].
  unfold run. apply F, give_all_good; [exact R | ]. now apply setup_good.
Qed.
