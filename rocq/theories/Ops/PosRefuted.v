(** C78: when pos() is not the position. *)
From Verif.Ops Require Export PosProps.
Local Open Scope Z_scope.
Local Open Scope list_scope.

Definition only (o : op) : pipeline := Cons o Nil.

Lemma in_all_app : forall i a b, in_all i (a ++ b) = in_all i a + in_all i b.
Proof.
  intros i a b. induction b as [ | e b IH] using rev_ind; [rewrite app_nil_r; cbn; lia | ].
  rewrite app_assoc, !in_all_snoc, IH. lia.
Qed.
Lemma in_all_pos : forall i t, 0 <= in_all i t.
Proof. intros i t. induction t as [ | e t IH] using rev_ind; [cbn; lia | ]. rewrite in_all_snoc. destruct e; try lia. destruct (Nat.eqb i0 i); lia. Qed.
Lemma since_snoc : forall i t e, since_setup i (t ++ [e]) =
  match e with Setup j => if Nat.eqb j i then 0 else since_setup i t | Input j _ => if Nat.eqb j i then since_setup i t + 1 else since_setup i t | _ => since_setup i t end.
Proof. intros. unfold since_setup. rewrite fold_left_app. reflexivity. Qed.

(** A run of map, from any world *)
Lemma map_run : forall i f x xs w, exists t,
  trace (run (x :: xs) (only (Prim i (map_b f))) w) = trace w ++ [Setup i; Input i x; Called i (Some (count w i + 1))] ++ t.
Proof.
  intros i f x xs w. unfold run. cbn [setup_pipeline setup_op only give_all].
  set (w1 := keep i (init (map_b f)) (note (Setup i) w)).
  assert (Q : quiet (receive_pipeline (only (Prim i (map_b f))) output) /\ quiet_flush (flush_pipeline (only (Prim i (map_b f))) output (fun w => (w, true)))).
  { destruct (proj2 (proj2 all_quiet) (only (Prim i (map_b f))) ltac:(repeat constructor) output _ ltac:(intros y v; apply adds_note; exact I) quiet_end). auto. }
  destruct Q as [Q F]. fold (only (Prim i (map_b f))).
  assert (H : exists t, trace (receive_pipeline (only (Prim i (map_b f))) output x w1) = trace w ++ [Setup i; Input i x; Called i (Some (count w i + 1))] ++ t).
  { cbn [receive_pipeline only receive_op]. cbn [on_input map_b]. unfold calling. cbn [perform].
    assert (P : pos (enter i x w1) = Some (count w i + 1)) by (unfold pos; cbn; unfold set; now rewrite Nat.eqb_refl).
    rewrite P. destruct (f (Some (count w i + 1)) (components (wrap x))); cbn; eexists; rewrite <- !app_assoc; reflexivity. }
  destruct H as (t & H).
  destruct (give_all_quiet _ xs (receive_pipeline (only (Prim i (map_b f))) output x w1) Q) as (t' & H' & _).
  destruct (F (give_all (receive_pipeline (only (Prim i (map_b f))) output) xs (receive_pipeline (only (Prim i (map_b f))) output x w1))) as (t'' & H'' & _).
  exists (t ++ t' ++ t''). etransitivity; [exact H'' | ]. rewrite H', H, <- !app_assoc. reflexivity.
Qed.

(** If a pipeline is run again, as the Python API allows, counting goes on where it ended *)
Theorem c78_rerun_refuted : forall i f xs ys c g, xs <> [] -> ys <> [] ->
  ~ tells_position (trace (session [(xs, only (Prim i (map_b f))); (ys, only (Prim i (map_b f)))] (new_world c g))).
Proof.
  intros i f xs ys c g NX NY T. destruct xs as [ | x xs]; [contradiction | ]. destruct ys as [ | y ys]; [contradiction | ].
  cbn [session] in T.
  assert (G : good (new_world c g)) by (split; [intros b j p a H; destruct b; discriminate H | reflexivity]).
  assert (G1 : good (run (x :: xs) (only (Prim i (map_b f))) (new_world c g))) by (apply (run_good true); [repeat constructor | exact G]).
  destruct (map_run i f x xs (new_world c g)) as (t1 & E1).
  set (w1 := run (x :: xs) (only (Prim i (map_b f))) (new_world c g)) in *.
  destruct (map_run i f y ys w1) as (t2 & E2).
  specialize (T (trace w1 ++ [Setup i; Input i y]) i (Some (count w1 i + 1)) t2). rewrite E2 in T. rewrite <- app_assoc in T. specialize (T eq_refl).
  change [Setup i; Input i y] with ([Setup i] ++ [Input i y]) in T. rewrite app_assoc in T. rewrite !since_snoc, !Nat.eqb_refl in T.
  assert (T' : count w1 i + 1 = 0 + 1 - 1) by congruence. clear T. rename T' into T. destruct G1 as [_ C]. rewrite C, E1 in T. cbn [trace new_world] in T.
  change ([] ++ [Setup i; Input i x; Called i (Some (count (new_world c g) i + 1))] ++ t1) with ([Setup i; Input i x; Called i (Some (count (new_world c g) i + 1))] ++ t1) in T.
  rewrite in_all_app in T. pose proof (in_all_pos i t1). cbn in T. rewrite Nat.eqb_refl in T. lia.
Qed.

(** The pipeline of args is run again and again, too *)
Theorem c78_args_refuted : forall f x y z c g, (forall a, f a (components (wrap z)) <> None) ->
  ~ tells_position (trace (run [x; y] (only (Args 0 (fun _ => [z]) (Cons (Prim 1 (map_b f)) (only (redirect 2))))) (new_world c g))).
Proof.
  intros f x y z c g F T.
  assert (E : exists before after, trace (run [x; y] (only (Args 0 (fun _ => [z]) (Cons (Prim 1 (map_b f)) (only (redirect 2))))) (new_world c g)) =
    (((before ++ [Setup 1]) ++ [Setup 2]) ++ [Input 1 z]) ++ Called 1 (Some 1) :: after).
  { unfold run. cbn -[wrap components]. unfold pos. cbn -[wrap components].
    destruct (f (Some 0) (components (wrap z))) as [v0 | ] eqn:F0; [ | destruct (F _ F0)]. cbn -[wrap components].
    destruct (f (Some 1) (components (wrap z))) as [v1 | ] eqn:F1; [ | destruct (F _ F1)]. cbn -[wrap components].
    exists [Setup 0; Input 0 x; Setup 1; Setup 2; Input 1 z; Called 1 (Some 0); Input 2 v0; Output (wrap v0); Input 0 y]. eexists. reflexivity. }
  destruct E as (before & after & E). specialize (T _ _ _ _ E). rewrite !since_snoc in T. discriminate T.
Qed.

(** sort computes its keys when all the input has arrived; then pos() is the same for all of them: that of the operator that received
    something last *)
Definition all_see (i : nat) (n : Z) (w : world) : Prop :=
  current w = Some i /\ count w i = n /\ forall before j p after, trace w = before ++ Called j p :: after -> p = Some n.

Lemma all_see_perform : forall i n p w, all_see i n w -> all_see i n (fst (perform i p output w)).
Proof.
  intros i n. induction p as [s | s | f IH | x p IH]; intros w (C & N & H); cbn.
  - repeat split; assumption.
  - split; [exact C | ]. split; [exact N | ]. intros before j q after E. cbn in E. apply snoc_split in E.
    destruct E as [(_ & _ & E) | (after' & -> & E)]; [discriminate E | exact (H _ _ _ _ E)].
  - apply IH. split; [exact C | ]. split; [exact N | ]. intros before j q after E. cbn in E. apply snoc_split in E.
    destruct E as [(_ & _ & E) | (after' & -> & E)]; [ | exact (H _ _ _ _ E)]. injection E as _ ->. unfold pos. now rewrite C, N.
  - apply IH. split; [exact C | ]. split; [exact N | ]. intros before j q after E. cbn in E. apply snoc_split in E.
    destruct E as [(_ & _ & E) | (after' & -> & E)]; [discriminate E | exact (H _ _ _ _ E)].
Qed.

Lemma sort_filled : forall i key xs w n, count w i = n -> (xs = [] -> current w = Some i) ->
  (forall before j p after, trace w <> before ++ Called j p :: after) ->
  let w' := give_all (receive_pipeline (only (Prim i (sort_b key))) output) xs w in
  current w' = Some i /\ count w' i = n + Z.of_nat (length xs) /\ forall before j p after, trace w' <> before ++ Called j p :: after.
Proof.
  intros i key. induction xs as [ | x xs IH]; intros w n N C H; cbn [give_all length].
  - cbn. split; [now apply C | ]. split; [lia | exact H].
  - cbn zeta. set (w1 := receive_pipeline (only (Prim i (sort_b key))) output x w). destruct (IH w1 (n + 1)) as (C' & N' & H').
    + subst w1. cbn. unfold set. rewrite Nat.eqb_refl. lia.
    + intros _. reflexivity.
    + intros before j p after E. subst w1. cbn in E. apply snoc_split in E. destruct E as [(_ & _ & E) | (after' & _ & E)]; [discriminate E | exact (H _ _ _ _ E)].
    + split; [exact C' | ]. split; [lia | exact H'].
Qed.

Lemma no_call : forall i b k q a, [Setup i] <> b ++ Called k q :: a.
Proof. intros i b k q a E. destruct b as [ | e b]; [discriminate E | ]. cbn in E. injection E as _ E. destruct b; discriminate E. Qed.

Theorem c78_sort_refuted : forall key xs i c g before j p after,
  trace (run xs (only (Prim i (sort_b key))) (new_world c g)) = before ++ Called j p :: after -> p = Some (Z.of_nat (length xs) - 1).
Proof.
  intros key xs i c g before j p after. unfold run.
  cbn [flush_pipeline only flush_op]. fold (only (Prim i (sort_b key))).
  set (w0 := setup_pipeline (only (Prim i (sort_b key))) (new_world c g)).
  destruct xs as [ | x xs].
  - subst w0. cbn. unfold set. rewrite Nat.eqb_refl. cbn. intros E. destruct (no_call _ _ _ _ _ E).
  - destruct (sort_filled i key (x :: xs) w0 (-1) eq_refl) as (C & N & H); [discriminate | | ].
    { intros b k q a E. exact (no_call _ _ _ _ _ E). }
    set (w1 := give_all (receive_pipeline (only (Prim i (sort_b key))) output) (x :: xs) w0) in *.
    assert (A : all_see i (Z.of_nat (length (x :: xs)) - 1) w1).
    { split; [exact C | ]. split; [rewrite N; lia | ]. intros b k q a E. destruct (H _ _ _ _ E). }
    intros E. pose proof (all_see_perform i _ (on_flush (sort_b key) (fields w1 i)) w1 A) as (_ & _ & S).
    change (receive_pipeline Nil output) with output in E.
    destruct (perform i (on_flush (sort_b key) (fields w1 i)) output w1) as [w2 []]; cbn in E, S; exact (S _ _ _ _ E).
Qed.

(** ... which may be another operator: select, of three tuples, lets one pass *)
Theorem c78_sort_after_select_refuted : forall key x c g, 
  let first_only : pfunc := fun p _ => match p with Some 0 => Some (VBool true) | _ => Some (VBool false) end in
  ~ tells_position (trace (run [x; x; x] (Cons (Prim 0 (select_b first_only)) (only (Prim 1 (sort_b key)))) (new_world c g))).
Proof.
  intros key x c g first_only T.
  assert (E : exists after, trace (run [x; x; x] (Cons (Prim 0 (select_b first_only)) (only (Prim 1 (sort_b key)))) (new_world c g)) =
    [Setup 0; Setup 1; Input 0 x; Called 0 (Some 0); Input 1 (wrap x); Input 0 x; Called 0 (Some 1); Input 0 x; Called 0 (Some 2)] ++ Called 1 (Some 2) :: after).
  { unfold run. cbn -[wrap components]. unfold pos. cbn -[wrap components].
    destruct (key (Some 2) (components (wrap (wrap x)))); cbn -[wrap components]; eexists; reflexivity. }
  destruct E as (after & E). specialize (T _ _ _ _ E). discriminate T.
Qed.


(** Whatever happens is added to the trace *)
Definition grows (w w' : world) : Prop := exists t, trace w' = trace w ++ t.
Lemma grows_refl : forall w, grows w w.
Proof. intros w. exists []. now rewrite app_nil_r. Qed.
Lemma grows_trans : forall w w' w'', grows w w' -> grows w' w'' -> grows w w''.
Proof. intros w w' w'' (t & E) (t' & E'). exists (t ++ t'). now rewrite E', E, app_assoc. Qed.
Lemma grows_note : forall e w, grows w (note e w).
Proof. intros e w. now exists [e]. Qed.
Lemma grows_keep : forall i s w, grows w (keep i s w).
Proof. intros. exists []. cbn. now rewrite app_nil_r. Qed.
Lemma grows_enter : forall i x w, grows w (enter i x w).
Proof. intros. now exists [Input i x]. Qed.
Definition rgrows (r : receiver) : Prop := forall x w, grows w (r x w).
Definition fgrows (f : flusher) : Prop := forall w, grows w (fst (f w)).
Lemma perform_grows : forall i k, rgrows k -> forall p w, grows w (fst (perform i p k w)).
Proof.
  intros i k K. induction p as [s | s | f IH | x p IH]; intros w; cbn.
  - apply grows_keep.
  - eapply grows_trans; [apply grows_keep | apply grows_note].
  - eapply grows_trans; [apply (grows_note (Called i (pos w))) | apply IH].
  - eapply grows_trans; [apply K | apply IH].
Qed.
Lemma grows_next : forall (r : world * bool) next w, fgrows next -> grows w (fst r) ->
  grows w (fst (match r with (w, true) => next w | (w, false) => (w, false) end)).
Proof. intros [w' []] next w N A; [eapply grows_trans; [exact A | apply N] | exact A]. Qed.
Lemma give_all_grows : forall r xs w, rgrows r -> grows w (give_all r xs w).
Proof. induction xs as [ | x xs IH]; intros w Q; [apply grows_refl | ]. cbn. eapply grows_trans; [apply Q | now apply IH]. Qed.

Lemma all_grow :
  (forall o k next, rgrows k -> fgrows next -> fgrows (flush_op o k next) /\ rgrows (receive_op o k)) /\
  (forall bs k, rgrows k -> fgrows (flush_branches bs k) /\ forall i x w, grows w (receive_branches i bs k x w)) /\
  (forall p k next, rgrows k -> fgrows next -> fgrows (flush_pipeline p k next) /\ rgrows (receive_pipeline p k)).
Proof.
  apply op_all.
  - intros i b k next K N. split.
    + intros w. cbn. apply grows_next; [exact N | now apply perform_grows].
    + intros x w. cbn. eapply grows_trans; [apply (grows_enter i x) | now apply perform_grows].
  - intros i bs IH k next K N. destruct (IH k K) as [F R]. split.
    + intros w. cbn. apply grows_next; [exact N | apply F].
    + intros x w. cbn. eapply grows_trans; [apply (grows_enter i x) | apply R].
  - intros i first p IH k next K N. destruct (IH k (fun w => (w, true)) K grows_refl) as [F R]. split; [exact N | ].
    intros x w. cbn. eapply grows_trans; [ | apply F]. eapply grows_trans; [ | apply give_all_grows, R].
    eapply grows_trans; [apply (grows_enter i x) | ]. destruct (proj2 (proj2 setup_adds) p (enter i x w)) as (t & E & _). now exists t.
  - intros k K. split; [intros w; apply grows_refl | intros; apply grows_refl].
  - intros p IH k K. destruct (IH k (fun w => (w, true)) K grows_refl) as [F R]. split; [exact F | ]. intros i x w. apply R.
  - intros f p IHp bs IHb k K. destruct (IHp k (fun w => (w, true)) K grows_refl) as [F R]. destruct (IHb k K) as [Fb Rb]. split.
    + intros w. cbn. apply grows_next; [exact Fb | apply F].
    + intros i x w. cbn. eapply grows_trans; [apply (grows_note (Called i (pos w))) | ].
      destruct (f (pos w) (components x)) as [v | ]; [ | apply grows_note]. destruct (truthy v); [apply R | apply Rb].
  - intros k next K N. split; [exact N | exact K].
  - intros o IHo p IHp k next K N. destruct (IHp k next K N) as [F R]. cbn. exact (IHo (receive_pipeline p k) (flush_pipeline p k next) R F).
Qed.

(** The elements of a generator are computed when they are needed; by then another operator may have received something *)
Theorem c78_generator_refuted : forall f g1 g2 g3 x c g, (forall p, g1 p <> None) -> (forall p, g2 p <> None) ->
  ~ tells_position (trace (run [x] (Cons (Prim 0 (expand_b (fun _ => [g1; g2; g3]))) (only (Prim 1 (map_b f)))) (new_world c g))).
Proof.
  intros f g1 g2 g3 x c g G1 G2 T.
  set (w0 := setup_pipeline (Cons (Prim 0 (expand_b (fun _ => [g1; g2; g3]))) (only (Prim 1 (map_b f)))) (new_world c g)).
  assert (E : exists before after, trace (receive_pipeline (Cons (Prim 0 (expand_b (fun _ => [g1; g2; g3]))) (only (Prim 1 (map_b f)))) output x w0) =
    before ++ Called 0 (Some 1) :: after /\ since_setup 0 before = 1).
  { subst w0. cbn -[wrap components]. unfold pos. cbn -[wrap components].
    destruct (g1 (Some 0)) as [v1 | ] eqn:H1; [ | destruct (G1 _ H1)]. cbn -[wrap components]. unfold pos; cbn -[wrap components].
    destruct (f (Some 0) (components (wrap v1))) as [u1 | ]; cbn -[wrap components];
    (destruct (g2 (Some 0)) as [v2 | ] eqn:H2; [ | destruct (G2 _ H2)]); cbn -[wrap components];
    destruct (f (Some 1) (components (wrap v2))) as [u2 | ]; cbn -[wrap components];
    destruct (g3 (Some 1)) as [v3 | ]; cbn -[wrap components].
    all: try (destruct (f (Some 2) (components (wrap v3))) as [u3 | ]; cbn -[wrap components]).
    all: match goal with |- exists b a, ?t = _ /\ _ =>
           let rec go l b := match l with Called 0 (Some 1) :: _ => exists b | ?e :: ?l => go l (b ++ [e]) end in go t (@nil event) end.
    all: cbn [app]; eexists; split; reflexivity. }
  destruct E as (before & after & E & S).
  assert (G : exists t, trace (run [x] (Cons (Prim 0 (expand_b (fun _ => [g1; g2; g3]))) (only (Prim 1 (map_b f)))) (new_world c g)) = (before ++ Called 0 (Some 1) :: after) ++ t).
  { unfold run. cbn [give_all]. fold w0. rewrite <- E.
    destruct (proj2 (proj2 all_grow) (Cons (Prim 0 (expand_b (fun _ => [g1; g2; g3]))) (only (Prim 1 (map_b f)))) output (fun w => (w, true))
      ltac:(intros y v; apply (grows_note (Output y))) grows_refl) as [F _]. apply F. }
  destruct G as (t & G). rewrite <- app_assoc in G. specialize (T _ _ _ _ G). rewrite S in T. discriminate T.
Qed.

(** In the first operator of a pipeline pos() is whatever it was before the command; it raises if nothing has been received yet *)
Theorem c78_first_refuted : forall i f p w, exists before after,
  trace (run_first i (map_b f) p w) = trace w ++ before ++ Called i (pos w) :: after /\ Forall is_setup before.
Proof.
  intros i f p w. unfold run_first.
  assert (PS : (forall o w, pos (setup_op o w) = pos w) /\ (forall bs w, pos (setup_branches bs w) = pos w) /\ (forall p w, pos (setup_pipeline p w) = pos w)).
  { apply op_all; cbn; intros; auto; try reflexivity; now rewrite ?H0, ?H. }
  destruct (proj2 (proj2 setup_adds) p (keep i (init (map_b f)) (note (Setup i) w))) as (s & ES & FS).
  set (w1 := setup_pipeline p (keep i (init (map_b f)) (note (Setup i) w))) in *.
  assert (P : pos w1 = pos w) by (subst w1; rewrite (proj2 (proj2 PS)); reflexivity).
  cbn [on_input map_b]. unfold calling. cbn [perform]. rewrite P.
  assert (TR : trace (note (Called i (pos w)) w1) = trace w ++ (Setup i :: s) ++ [Called i (pos w)]).
  { cbn. rewrite ES. cbn. now rewrite <- !app_assoc. }
  assert (GROW : forall w', (exists t, trace w' = trace (note (Called i (pos w)) w1) ++ t) ->
    exists before after, trace w' = trace w ++ before ++ Called i (pos w) :: after /\ Forall is_setup before).
  { intros w' (t & E). exists (Setup i :: s), t. split; [ | now constructor]. rewrite E, TR, <- !app_assoc. reflexivity. }
  apply GROW. clear GROW TR.
  set (w2 := note (Called i (pos w)) w1). set (k := receive_pipeline p output). set (fl := flush_pipeline p output (fun w => (w, true))).
  destruct (proj2 (proj2 all_grow) p output (fun w => (w, true)) ltac:(intros y v; apply (grows_note (Output y))) grows_refl) as [F R]. fold k in R. fold fl in F.
  change (grows w2 (match perform i match f (pos w) (components (VList [])) with Some v => Send v (Ret (fields w1 i)) | None => Raise (fields w1 i) end k w2 with
    | (w, true) => fst (flush_op (Prim i (map_b f)) k fl w) | (w, false) => w end)).
  destruct (f (pos w) (components (VList []))) as [v | ]; cbn.
  - eapply grows_trans; [apply R | ]. eapply grows_trans; [ | apply F]. eapply grows_trans; apply grows_keep.
  - eapply grows_trans; [apply grows_keep | apply (grows_note (Failed i))].
Qed.
