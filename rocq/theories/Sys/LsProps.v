(* C38: what ls lists. *)
From Coq Require Import List Bool Arith Lia.
From Verif.Sys Require Import Ls LsSpec.
Import ListNotations.

Ltac inv H := inversion H; subst; clear H.

(* ---- helpers ---- *)

Lemma path_eqb_eq : forall p q, path_eqb p q = true <-> p = q.
Proof. intros. unfold path_eqb. destruct (list_eq_dec Nat.eq_dec p q); split; intros; auto; discriminate. Qed.
Lemma inb_path_In : forall p l, inb_path p l = true <-> In p l.
Proof.
  intros. unfold inb_path. rewrite existsb_exists. split.
  - intros (x & A & B). apply path_eqb_eq in B. congruence.
  - intros. exists p. split; auto. now apply path_eqb_eq.
Qed.
Lemma inb_In : forall p l, inb p l = true <-> In p l.
Proof.
  intros. unfold inb. rewrite existsb_exists. split.
  - intros (x & A & B). apply Nat.eqb_eq in B. subst. exact A.
  - intros. exists p. split; auto. now apply Nat.eqb_eq.
Qed.

Lemma walk_app : forall s p i q, walk s i (p ++ q) = match walk s i p with Some j => walk s j q | None => None end.
Proof.
  induction p as [|n p IH]; intros i q; simpl; [reflexivity|].
  destruct (follow s i) as [d|]; [|reflexivity]. destruct (find_entry n (entries s d)); auto.
Qed.
Lemma lookup_app : forall s p q, lookup s (p ++ q) = match lookup s p with Some j => walk s j q | None => None end.
Proof. intros. apply walk_app. Qed.
Lemma find_entry_In : forall es n i, NoDup (map fst es) -> In (n, i) es -> find_entry n es = Some i.
Proof.
  induction es as [|[m j] es IH]; simpl; intros n i N H; [tauto|]. inv N.
  destruct H as [H|H]; [inv H; now rewrite Nat.eqb_refl|].
  destruct (Nat.eqb_spec m n) as [->|]; auto. exfalso. apply H2. apply (in_map fst) in H. exact H.
Qed.
Lemma find_entry_Some : forall es n i, find_entry n es = Some i -> In (n, i) es.
Proof.
  induction es as [|[m j] es IH]; simpl; intros n i H; [discriminate|].
  destruct (Nat.eqb_spec m n) as [->|]; [inv H; auto|right; auto].
Qed.
Lemma paths_app : forall a b, paths (a ++ b) = paths a ++ paths b.
Proof. intros. unfold paths. apply flat_map_app. Qed.
Lemma listed_paths : forall os p, listed os p <-> In p (paths os).
Proof.
  unfold listed, paths. intros. rewrite in_flat_map. split.
  - intros H. exists (Listed p). simpl. auto.
  - intros ([q|q] & A & B); simpl in B; [destruct B as [B|[]]; subst; exact A|destruct B].
Qed.
Lemma follow_dir : forall s i d, follow s i = Some d -> exists r es, node_of s d = Dir r es.
Proof.
  intros s i d H. unfold follow in H. destruct (node_of s i) as [|r es|[j|]|] eqn:E; try discriminate.
  - inv H. eauto.
  - destruct (node_of s j) eqn:F; inv H. eauto.
Qed.
Lemma lookup_child : forall s p i d n, lookup s p = Some i -> follow s i = Some d ->
  lookup s (p ++ [n]) = find_entry n (entries s d).
Proof. intros. rewrite lookup_app, H. simpl. rewrite H0. destruct (find_entry n (entries s d)); reflexivity. Qed.

(* ---- the traversal, as a relation ---- *)

Section Rel.
Variables (fl : flags) (s : fs).

Inductive V : state -> path -> nat -> state -> Prop :=
| V_none : forall st p l, lookup s p = None -> V st p l (mkstate (emitted st) (visited st) (outs st ++ [Denied p]))
| V_leaf : forall st p l i, lookup s p = Some i ->
    (follow s i = None \/ (exists d, follow s i = Some d /\ descends fl l && negb (already s i d st) = false)) ->
    V st p l (send_path fl s p i st)
| V_denied : forall st p l i d, lookup s p = Some i -> follow s i = Some d -> descends fl l = true ->
    already s i d st = false -> readable s d = false ->
    V st p l (let st1 := send_path fl s p i st in mkstate (emitted st1) (d :: visited st1) (outs st1 ++ [Denied p]))
| V_dir : forall st p l i d st', lookup s p = Some i -> follow s i = Some d -> descends fl l = true ->
    already s i d st = false -> readable s d = true ->
    E (let st1 := send_path fl s p i st in mkstate (emitted st1) (d :: visited st1) (outs st1)) p (S l) (entries s d) st' ->
    V st p l st'
with E : state -> path -> nat -> list (name * ident) -> state -> Prop :=
| E_nil : forall st p l, E st p l [] st
| E_cons : forall st p l n i es st1 st2, V st (p ++ [n]) l st1 -> E st1 p l es st2 -> E st p l ((n, i) :: es) st2.

Scheme V_ind2 := Induction for V Sort Prop
with E_ind2 := Induction for E Sort Prop.
Combined Scheme VE_ind from V_ind2, E_ind2.

Lemma visited_send : forall p i st, visited (send_path fl s p i st) = visited st.
Proof. intros. unfold send_path. destruct (selected fl s i && negb (inb_path p (emitted st))); reflexivity. Qed.
Lemma already_send : forall p i d st, already s i d (send_path fl s p i st) = already s i d st.
Proof. intros. unfold already. now rewrite visited_send. Qed.

Lemma visit_V : forall fuel st p l st', visit fl s fuel st p l = Some st' -> V st p l st'.
Proof.
  induction fuel as [|fuel IH]; intros st p l st' H; [discriminate|]. cbn [visit] in H.
  destruct (lookup s p) as [i|] eqn:L; [|inv H; constructor; auto].
  destruct (follow s i) as [d|] eqn:F; [|inv H; apply V_leaf; auto].
  rewrite already_send in H.
  destruct (descends fl l && negb (already s i d st)) eqn:B; [|inv H; apply V_leaf; eauto].
  apply andb_true_iff in B. destruct B as [B1 B2]. apply negb_true_iff in B2.
  destruct (readable s d) eqn:R; [|inv H; eapply V_denied; eauto].
  eapply V_dir; eauto.
  revert H. cbv zeta. generalize (mkstate (emitted (send_path fl s p i st)) (d :: visited (send_path fl s p i st)) (outs (send_path fl s p i st))).
  generalize (entries s d). clear -IH. induction l0 as [|[n c] es IHes]; intros st0 H.
  - inv H. constructor.
  - destruct (visit fl s fuel st0 (p ++ [n]) (S l)) as [st1|] eqn:Q; [|discriminate].
    econstructor; [apply IH; exact Q|]. apply IHes. exact H.
Qed.

(* ---- invariants ---- *)

Definition grows (a b : state) : Prop :=
  incl (emitted a) (emitted b) /\ incl (visited a) (visited b).
Lemma grows_refl : forall a, grows a a. Proof. split; apply incl_refl. Qed.
Lemma grows_trans : forall a b c, grows a b -> grows b c -> grows a c.
Proof. intros a b c [A B] [C D]. split; eapply incl_tran; eauto. Qed.
Lemma grows_send : forall p i st, grows st (send_path fl s p i st).
Proof.
  intros. unfold send_path. destruct (selected fl s i && negb (inb_path p (emitted st))); [|apply grows_refl].
  split; simpl; [apply incl_tl|]; apply incl_refl.
Qed.
Lemma grows_mark : forall st d os, grows st (mkstate (emitted st) (d :: visited st) os).
Proof. intros. split; simpl; [|apply incl_tl]; apply incl_refl. Qed.

Lemma VE_grows : (forall st p l st', V st p l st' -> grows st st') /\ (forall st p l es st', E st p l es st' -> grows st st').
Proof.
  apply VE_ind; intros; try (apply grows_refl).
  - split; simpl; apply incl_refl.
  - apply grows_send.
  - eapply grows_trans; [apply grows_send|]. apply grows_mark.
  - eapply grows_trans; [apply grows_send|]. eapply grows_trans; [|exact H]. apply grows_mark.
  - eapply grows_trans; eauto.
Qed.

(* each path is listed once *)
Definition once (st : state) : Prop := NoDup (paths (outs st)) /\ (forall p, In p (emitted st) <-> In p (paths (outs st))).

Lemma once_send : forall p i st, once st -> once (send_path fl s p i st).
Proof.
  intros p i st [A B]. unfold send_path.
  destruct (selected fl s i); simpl; [|split; auto].
  destruct (inb_path p (emitted st)) eqn:I; simpl; [split; auto|].
  assert (N : ~ In p (paths (outs st))).
  { rewrite <- B. intros H. apply inb_path_In in H. congruence. }
  split; simpl; rewrite paths_app; simpl.
  - apply NoDup_Add with (a := p) (l := paths (outs st)).
    + rewrite <- (app_nil_r (paths (outs st))) at 1. apply Add_app.
    + auto.
  - intros q. rewrite in_app_iff. simpl. rewrite B. tauto.
Qed.
Lemma once_denied : forall st v p, once st -> once (mkstate (emitted st) v (outs st ++ [Denied p])).
Proof. intros st v p [A B]. split; simpl; rewrite paths_app; simpl; rewrite app_nil_r; auto. Qed.
Lemma once_mark : forall st v, once st -> once (mkstate (emitted st) v (outs st)).
Proof. intros st v [A B]. split; simpl; auto. Qed.

Lemma VE_once : (forall st p l st', V st p l st' -> once st -> once st') /\ (forall st p l es st', E st p l es st' -> once st -> once st').
Proof.
  apply VE_ind; intros; auto.
  - apply once_denied; auto.
  - apply once_send; auto.
  - simpl. apply once_denied. apply once_send. auto.
  - apply H. apply once_mark. apply once_send. auto.
Qed.

(* only what is asked for is listed *)
Definition reaches (l k : nat) : Prop :=
  match dep fl with D0 => k = 0 | D1 => k = 0 \/ (l = 0 /\ k = 1) | DR => True end.
Definition asked (p : path) (l : nat) (q : path) : Prop :=
  exists names i, q = p ++ names /\ reaches l (length names) /\ lookup s q = Some i /\ selected fl s i = true.

Lemma reaches_0 : forall l, reaches l 0.
Proof. intros. unfold reaches. destruct (dep fl); auto. Qed.
Lemma reaches_down : forall l k, descends fl l = true -> reaches (S l) k -> reaches l (S k).
Proof.
  unfold reaches, descends. intros l k D R. destruct (dep fl); auto; try discriminate.
  apply Nat.eqb_eq in D. destruct R as [->|[R _]]; [auto|discriminate].
Qed.

Lemma emitted_send : forall p i st q, In q (emitted (send_path fl s p i st)) -> In q (emitted st) \/ (q = p /\ selected fl s i = true).
Proof.
  intros p i st q. unfold send_path. destruct (selected fl s i) eqn:S; simpl; auto.
  destruct (negb (inb_path p (emitted st))); simpl; auto. intros [H|H]; auto.
Qed.

Lemma VE_only :
  (forall st p l st', V st p l st' -> forall q, In q (emitted st') -> In q (emitted st) \/ asked p l q) /\
  (forall st p l es st', E st p l es st' -> forall q, In q (emitted st') -> In q (emitted st) \/ exists n, asked (p ++ [n]) l q).
Proof.
  assert (S : forall p l i st q, lookup s p = Some i -> In q (emitted (send_path fl s p i st)) -> In q (emitted st) \/ asked p l q).
  { intros p l i st q L H. apply emitted_send in H. destruct H as [H|[-> H]]; auto. right.
    exists [], i. rewrite app_nil_r. repeat split; auto. apply reaches_0. }
  apply VE_ind; intros; simpl in *; auto; try (eapply S; eauto; fail).
  - destruct (H _ H0) as [H1|(n & names & j & -> & R & L & Q)]; [eapply S; eauto|].
    right. exists (n :: names), j. rewrite <- app_assoc. simpl. rewrite <- app_assoc in L. simpl in L. repeat split; auto.
    apply reaches_down; auto.
  - destruct (H0 _ H1) as [H2|H2]; [|auto]. destruct (H _ H2) as [H3|H3]; eauto.
Qed.

(* what is asked for is listed *)
Definition seen (st : state) (p : path) : Prop := forall i, lookup s p = Some i -> selected fl s i = true -> In p (emitted st).

Lemma seen_grows : forall a b p, grows a b -> seen a p -> seen b p.
Proof. intros a b p [G _] S i L Q. apply G. eapply S; eauto. Qed.
Lemma seen_send : forall p i st, lookup s p = Some i -> seen (send_path fl s p i st) p.
Proof.
  intros p i st L j L' Q. assert (j = i) as -> by congruence. unfold send_path. rewrite Q. simpl.
  destruct (inb_path p (emitted st)) eqn:I; simpl; auto. now apply inb_path_In.
Qed.
Lemma V_seen : forall st p l st', V st p l st' -> seen st' p.
Proof.
  intros st p l st' H. inv H.
  - intros i L. congruence.
  - apply seen_send. auto.
  - eapply seen_grows; [|apply seen_send; eauto]. split; simpl; [|apply incl_tl]; apply incl_refl.
  - eapply seen_grows; [|apply seen_send; eauto]. eapply grows_trans; [|eapply (proj2 VE_grows); eauto]. apply grows_mark.
Qed.
Lemma E_seen : forall es st p l st' n c, E st p l es st' -> In (n, c) es -> seen st' (p ++ [n]).
Proof.
  induction es as [|[m j] es IH]; intros st p l st' n c H I; [inversion I|]. inv H. destruct I as [I|I].
  - inv I. eapply seen_grows; [eapply (proj2 VE_grows); eauto|]. eapply V_seen; eauto.
  - eapply IH; eauto.
Qed.

(* below real directories *)
Definition sees_real (p : path) (st' : state) : Prop :=
  forall i names j, lookup s p = Some i -> real_walk s i names j -> seen st' (p ++ names).

Lemma VE_real : dep fl = DR -> (forall d, NoDup (map fst (entries s d))) ->
  (forall st p l st', V st p l st' -> sees_real p st') /\
  (forall st p l es st', E st p l es st' -> forall n c, In (n, c) es -> sees_real (p ++ [n]) st').
Proof.
  intros DRec ND. apply VE_ind; intros.
  - intros i names j L. congruence.
  - intros i' names j L W. assert (i' = i) as -> by congruence. inv W.
    + rewrite app_nil_r. apply seen_send. auto.
    + exfalso. unfold follow in o. destruct o as [o|(d & o & B)]; rewrite H in o; [discriminate|].
      inv o. unfold descends, already, is_link in B. rewrite DRec, H in B. simpl in B. discriminate.
  - intros i' names j L W. assert (i' = i) as -> by congruence. inv W.
    + rewrite app_nil_r. eapply seen_grows; [|apply seen_send; eauto]. split; simpl; [|apply incl_tl]; apply incl_refl.
    + exfalso. unfold follow in e0. rewrite H in e0. inv e0. unfold readable in e3. rewrite H in e3. discriminate.
  - intros i' names j L W. assert (i' = i) as -> by congruence. inv W.
    + rewrite app_nil_r. eapply seen_grows; [|apply seen_send; eauto]. eapply grows_trans; [|eapply (proj2 VE_grows); eauto]. apply grows_mark.
    + unfold follow in e0. rewrite H0 in e0. inv e0.
      assert (I : In (n, i0) (entries s d)) by (unfold entries; rewrite H0; apply find_entry_Some; auto).
      assert (Q : lookup s (p ++ [n]) = Some i0).
      { rewrite lookup_app, e. simpl. unfold follow. rewrite H0. unfold entries. rewrite H0, H2. reflexivity. }
      specialize (H _ _ I i0 names0 j Q H3). rewrite <- app_assoc in H. exact H.
  - inversion H.
  - destruct H1 as [H1|H1]; [inv H1|eauto].
    intros i' names j L W. eapply seen_grows; [eapply (proj2 VE_grows); eauto|]. eapply H; eauto.
Qed.

(* every visited directory has been listed under some path *)
Definition expanded (st : state) (d : ident) : Prop :=
  exists q i, lookup s q = Some i /\ follow s i = Some d /\
    forall n c, In (n, c) (entries s d) -> seen st (q ++ [n]) /\ (forall d', follow s c = Some d' -> In d' (visited st)).
Lemma expanded_grows : forall a b d, grows a b -> expanded a d -> expanded b d.
Proof.
  intros a b d G (q & i & L & F & H). exists q, i. repeat split; auto.
  - eapply seen_grows; eauto. eapply H; eauto.
  - intros. apply (proj2 G). eapply H; eauto.
Qed.

Definition marks (p : path) (st' : state) : Prop :=
  forall i d, lookup s p = Some i -> follow s i = Some d -> In d (visited st').
Lemma V_marks : dep fl = DR -> forall st p l st', V st p l st' -> marks p st'.
Proof.
  intros DRec st p l st' H i0 d0 L F. inv H; try congruence.
  - assert (i0 = i) as -> by congruence. destruct H1 as [H1|(d & H1 & B)]; [congruence|].
    assert (d0 = d) as -> by congruence. unfold descends in B. rewrite DRec in B. simpl in B.
    apply negb_false_iff in B. unfold already in B. apply andb_true_iff in B. destruct B as [_ B].
    rewrite visited_send. now apply inb_In.
  - assert (i0 = i) as -> by congruence. assert (d0 = d) as -> by congruence. simpl. auto.
  - assert (i0 = i) as -> by congruence. assert (d0 = d) as -> by congruence.
    apply (proj2 (proj2 VE_grows _ _ _ _ _ H5)). simpl. auto.
Qed.
Lemma E_marks : dep fl = DR -> forall es st p l st' n c, E st p l es st' -> In (n, c) es -> marks (p ++ [n]) st'.
Proof.
  intros DRec. induction es as [|[m j] es IH]; intros st p l st' n c H I; [inversion I|]. inv H. destruct I as [I|I].
  - inv I. intros i d L F. apply (proj2 (proj2 VE_grows _ _ _ _ _ H8)). eapply V_marks; eauto.
  - eapply IH; eauto.
Qed.

Lemma VE_expanded : dep fl = DR -> (forall d, NoDup (map fst (entries s d))) -> (forall d r es, node_of s d = Dir r es -> r = true) ->
  (forall st p l st', V st p l st' -> forall d, In d (visited st') -> In d (visited st) \/ expanded st' d) /\
  (forall st p l es st', E st p l es st' -> forall d, In d (visited st') -> In d (visited st) \/ expanded st' d).
Proof.
  intros DRec ND RD. apply VE_ind; intros; auto.
  - rewrite visited_send in H. auto.
  - exfalso. destruct (follow_dir _ _ _ e0) as (r & es & N). unfold readable in e3. rewrite N in e3. rewrite (RD _ _ _ N) in e3. discriminate.
  - destruct (H _ H0) as [H1|H1]; [|auto]. simpl in H1. rewrite visited_send in H1. destruct H1 as [<-|H1]; auto.
    right. exists p, i. split; [auto|]. split; [auto|]. intros n c I. split.
    + eapply E_seen; eauto.
    + intros d' F. eapply (E_marks DRec); [eauto|eauto| |eauto].
      rewrite (lookup_child _ _ _ _ n e e0). apply find_entry_In; auto.
  - destruct (H0 _ H1) as [H2|H2]; [|auto]. destruct (H _ H2) as [H3|H3]; auto.
    right. eapply expanded_grows; [eapply (proj2 VE_grows); eauto|auto].
Qed.

(* ---- several roots ---- *)
Inductive VA : state -> list path -> state -> Prop :=
| VA_nil : forall st, VA st [] st
| VA_cons : forall st r rs st1 st2, V st r 0 st1 -> VA st1 rs st2 -> VA st (r :: rs) st2.
Lemma visit_all_VA : forall fuel rs st st', visit_all fl s fuel st rs = Some st' -> VA st rs st'.
Proof.
  induction rs as [|r rs IH]; simpl; intros st st' H; [inv H; constructor|].
  destruct (visit fl s fuel st r 0) eqn:Q; [|discriminate]. econstructor; [eapply visit_V; eauto|auto].
Qed.
Lemma VA_grows : forall st rs st', VA st rs st' -> grows st st'.
Proof. induction 1; [apply grows_refl|]. eapply grows_trans; [eapply (proj1 VE_grows); eauto|auto]. Qed.
Lemma VA_once : forall st rs st', VA st rs st' -> once st -> once st'.
Proof. induction 1; intros; auto. apply IHVA. eapply (proj1 VE_once); eauto. Qed.
Lemma VA_only : forall st rs st', VA st rs st' -> forall q, In q (emitted st') -> In q (emitted st) \/ exists r, In r rs /\ asked r 0 q.
Proof.
  induction 1; intros q H1; auto. destruct (IHVA _ H1) as [H2|(r' & A & B)]; [|right; exists r'; simpl; auto].
  destruct (proj1 VE_only _ _ _ _ H _ H2) as [H3|H3]; auto. right. exists r. simpl. auto.
Qed.
Lemma VA_seen : forall st rs st', VA st rs st' -> forall r, In r rs -> seen st' r.
Proof.
  induction 1; intros q I; [inversion I|]. destruct I as [<-|I]; auto.
  eapply seen_grows; [eapply VA_grows; eauto|]. eapply V_seen; eauto.
Qed.
Lemma VA_real : dep fl = DR -> (forall d, NoDup (map fst (entries s d))) ->
  forall st rs st', VA st rs st' -> forall r, In r rs -> sees_real r st'.
Proof.
  intros D N. induction 1; intros q I; [inversion I|]. destruct I as [<-|I]; auto.
  intros i names j L W. eapply seen_grows; [eapply VA_grows; eauto|]. eapply (proj1 (VE_real D N)); eauto.
Qed.
Lemma VA_marks : dep fl = DR -> forall st rs st', VA st rs st' -> forall r, In r rs -> marks r st'.
Proof.
  intros D. induction 1; intros q I; [inversion I|]. destruct I as [<-|I]; auto.
  intros i d L F. apply (proj2 (VA_grows _ _ _ H0)). eapply V_marks; eauto.
Qed.
Lemma VA_expanded : dep fl = DR -> (forall d, NoDup (map fst (entries s d))) -> (forall d r es, node_of s d = Dir r es -> r = true) ->
  forall st rs st', VA st rs st' -> forall d, In d (visited st') -> In d (visited st) \/ expanded st' d.
Proof.
  intros D N R. induction 1; intros d I; auto. destruct (IHVA _ I) as [H1|H1]; auto.
  destruct (proj1 (VE_expanded D N R) _ _ _ _ H _ H1) as [H2|H2]; auto.
  right. eapply expanded_grows; [eapply VA_grows; eauto|auto].
Qed.
End Rel.

Lemma ls_VA : forall fl s fuel roots os, ls fl s fuel roots = Some os ->
  exists st, VA fl s (mkstate [] [] []) roots st /\ os = outs st /\ once st.
Proof.
  intros fl s fuel roots os H. unfold ls in H.
  destruct (visit_all fl s fuel (mkstate [] [] []) roots) as [st|] eqn:Q; inv H.
  apply visit_all_VA in Q. exists st. split; [auto|]. split; [auto|]. eapply VA_once; eauto.
  split; simpl; [constructor|tauto].
Qed.

(* ------------------------------------------------------------------ *)

(* No path is listed twice *)
Theorem c38_once : forall fl s fuel roots os, ls fl s fuel roots = Some os -> NoDup (paths os).
Proof. intros. apply ls_VA in H. destruct H as (st & _ & -> & O & _). exact O. Qed.

(* Only existing files below the roots, within the depth and of the kinds asked for, are listed *)
Theorem c38_only : forall fl s fuel roots os q, ls fl s fuel roots = Some os -> listed os q ->
  exists r k, In r roots /\ below s r k q /\
    (dep fl = D0 -> k = 0) /\ (dep fl = D1 -> k <= 1) /\
    (exists i, lookup s q = Some i /\
       match node_of s i with File => f_file fl = true | Dir _ _ => f_dir fl = true | Link _ => f_link fl = true | Special => False end).
Proof.
  intros fl s fuel roots os q H L. apply ls_VA in H. destruct H as (st & A & -> & _ & O).
  apply listed_paths in L. apply O in L. destruct (VA_only _ _ _ _ _ A _ L) as [[]|(r & I & names & i & -> & R & Lk & S)].
  exists r, (length names). split; [auto|]. split; [exists names; repeat split; auto; congruence|].
  unfold reaches in R. split; [intros D; rewrite D in R; auto|]. split; [intros D; rewrite D in R; destruct R as [->|[_ ->]]; auto|].
  exists i. split; auto. unfold selected in S. destruct (node_of s i); auto. discriminate.
Qed.

(* ls -r: everything below the roots, through directories, is listed (if it is of the kinds
   asked for, and readable) *)
Theorem c38_recursive : forall fl s n rank fuel roots os r i names j,
  well_formed s n rank -> dep fl = DR -> ls fl s fuel roots = Some os ->
  In r roots -> lookup s r = Some i -> real_walk s i names j -> selected fl s j = true ->
  listed os (r ++ names).
Proof.
  intros fl s n rank fuel roots os r i names j WF D H I L W S. apply ls_VA in H. destruct H as (st & A & -> & _ & O).
  apply listed_paths. apply O. eapply (VA_real fl s D (wf_names _ _ _ WF)); eauto.
  rewrite lookup_app, L. clear -W. induction W; [reflexivity|]. cbn [walk]. unfold follow. rewrite H. unfold entries. rewrite H. rewrite H1. auto.
Qed.

(* Symbolic links are followed: whatever can be reached from a root is listed, under some path *)
Theorem c38_linked : forall fl s n rank fuel roots os r names j,
  well_formed s n rank -> (forall d rd es, node_of s d = Dir rd es -> rd = true) ->
  dep fl = DR -> ls fl s fuel roots = Some os ->
  In r roots -> lookup s (r ++ names) = Some j -> selected fl s j = true ->
  exists q, listed os q /\ lookup s q = Some j.
Proof.
  intros fl s n rank fuel roots os r names j WF RD D H I L S. apply ls_VA in H. destruct H as (st & A & -> & _ & O).
  rewrite lookup_app in L. destruct (lookup s r) as [i|] eqn:Lr; [|discriminate].
  assert (EXP : forall d, In d (visited st) -> expanded fl s st d).
  { intros d Hd. destruct (VA_expanded fl s D (wf_names _ _ _ WF) RD _ _ _ A d Hd) as [[]|X]; auto. }
  assert (G : forall names i p, lookup s p = Some i -> seen fl s st p -> (forall d, follow s i = Some d -> In d (visited st)) ->
            walk s i names = Some j -> exists q, lookup s q = Some j /\ seen fl s st q).
  { clear -EXP WF. induction names as [|m names IH]; intros i p Lp Sp M W.
    - inv W. eauto.
    - simpl in W. destruct (follow s i) as [d|] eqn:F; [|discriminate]. destruct (find_entry m (entries s d)) as [c|] eqn:Q; [|discriminate].
      destruct (EXP d (M d eq_refl)) as (q & iq & Lq & Fq & X).
      destruct (X m c (find_entry_Some _ _ _ Q)) as (X1 & X2).
      apply (IH c (q ++ [m])); auto. rewrite (lookup_child _ _ _ _ m Lq Fq). auto. }
  destruct (G names i r Lr (VA_seen _ _ _ _ _ A r I) (fun d F => VA_marks fl s D _ _ _ A r I i d Lr F) L) as (q & Lq & Sq).
  exists q. split; auto. apply listed_paths. apply O. eapply Sq; eauto.
Qed.

(* The roots themselves are always listed *)
Theorem c38_roots : forall fl s fuel roots os r i, ls fl s fuel roots = Some os ->
  In r roots -> lookup s r = Some i -> selected fl s i = true -> listed os r.
Proof.
  intros fl s fuel roots os r i H I L S. apply ls_VA in H. destruct H as (st & A & -> & _ & O).
  apply listed_paths. apply O. eapply VA_seen; eauto.
Qed.

(* ls -1: the entries of the roots that are directories *)
Theorem c38_level_1 : forall fl s fuel roots os r d es m c, ls fl s fuel roots = Some os -> dep fl <> D0 ->
  In r roots -> lookup s r = Some d -> node_of s d = Dir true es -> find_entry m es = Some c -> selected fl s c = true ->
  listed os (r ++ [m]).
Proof.
  intros fl s fuel roots os r d es m c H D I L N F S. apply ls_VA in H. destruct H as (st & A & -> & _ & O).
  apply listed_paths. apply O. clear O. induction A; [inversion I|]. destruct I as [<-|I]; [|auto].
  apply (proj1 (VA_grows _ _ _ _ _ A)).
  assert (Fd : follow s d = Some d) by (unfold follow; now rewrite N).
  assert (Nl : is_link s d = false) by (unfold is_link; now rewrite N).
  assert (De : descends fl 0 = true) by (unfold descends; destruct (dep fl); auto; congruence).
  inv H; try congruence.
  - exfalso. assert (i = d) as -> by congruence. destruct H1 as [H1|(d' & H1 & B)]; [congruence|].
    unfold already in B. rewrite Nl, De in B. discriminate.
  - exfalso. assert (i = d) as -> by congruence. assert (d0 = d) as -> by congruence. unfold readable in H4. rewrite N in H4. discriminate.
  - assert (i = d) as -> by congruence. assert (d0 = d) as -> by congruence.
    assert (En : In (m, c) (entries s d)) by (unfold entries; rewrite N; apply find_entry_Some; auto).
    eapply (E_seen fl s _ _ _ _ _ _ _ H5 En); [|exact S].
    rewrite (lookup_child _ _ _ _ m H0 Fd). unfold entries. rewrite N. exact F.
Qed.

(* ---- termination ---- *)

Section Term.
Variables (fl : flags) (s : fs) (n : nat) (rank : ident -> nat).
Hypothesis WF : well_formed s n rank.

Fixpoint maxrank (k : nat) : nat := match k with 0 => 0 | S k => max (rank k) (maxrank k) end.
Lemma maxrank_ok : forall k d, d < k -> rank d <= maxrank k.
Proof. induction k; intros; [lia|]. simpl. destruct (Nat.eq_dec d k) as [->|]; [lia|]. specialize (IHk d ltac:(lia)). lia. Qed.
Definition R := maxrank n.

Fixpoint unv (k : nat) (v : list ident) : nat := match k with 0 => 0 | S k => (if inb k v then 0 else 1) + unv k v end.
Lemma unv_incl : forall k v w, incl v w -> unv k w <= unv k v.
Proof.
  induction k; intros v w I; simpl; [lia|]. specialize (IHk v w I).
  destruct (inb k v) eqn:A; [|destruct (inb k w); lia].
  apply inb_In in A. apply I in A. apply inb_In in A. rewrite A. lia.
Qed.
Lemma unv_mark : forall k v d, d < k -> inb d v = false -> unv k (d :: v) < unv k v.
Proof.
  induction k; intros v d L N; [lia|]. simpl. destruct (Nat.eq_dec d k) as [->|Ne].
  - rewrite Nat.eqb_refl. simpl. rewrite N. pose proof (unv_incl k v (k :: v) (incl_tl _ (incl_refl v))). lia.
  - specialize (IHk v d ltac:(lia) N). destruct (Nat.eqb_spec k d); [congruence|]. simpl. destruct (inb k v); lia.
Qed.

Definition cost (v : list ident) (i : ident) : nat :=
  unv n v * (R + 2) + match node_of s i with Dir _ _ => rank i + 1 | _ => 0 end.

Lemma cost_grow : forall v w i, incl v w -> cost w i <= cost v i.
Proof. intros. unfold cost. pose proof (unv_incl n v w H). nia. Qed.

Lemma child_cost : forall st i d m c, follow s i = Some d -> already s i d st = false -> In (m, c) (entries s d) ->
  cost (d :: visited st) c < cost (visited st) i.
Proof.
  intros st i d m c F A I. destruct (follow_dir _ _ _ F) as (r & es & Nd).
  pose proof (wf_finite _ _ _ WF _ _ _ Nd) as Ld.
  unfold follow in F. unfold cost. destruct (node_of s i) as [|r' es'|[j|]|] eqn:Ni; try discriminate.
  - inv F. pose proof (unv_incl n (visited st) (d :: visited st) (incl_tl _ (incl_refl _))).
    destruct (node_of s c) as [|rc ec| |] eqn:Nc; try nia.
    pose proof (wf_tree _ _ _ WF _ _ _ _ _ I Nc). nia.
  - destruct (node_of s j) eqn:Nj; inv F. unfold already, is_link in A. rewrite Ni in A. simpl in A.
    pose proof (unv_mark n (visited st) d Ld A) as U.
    assert (U' : S (unv n (d :: visited st)) * (R + 2) <= unv n (visited st) * (R + 2)) by (apply Nat.mul_le_mono_r; exact U).
    cbn [Nat.mul] in U'.
    destruct (node_of s c) as [|rc ec| |] eqn:Nc; try lia.
    pose proof (wf_finite _ _ _ WF _ _ _ Nc) as Lc. pose proof (maxrank_ok n c Lc). fold R in *. lia.
Qed.

Lemma visit_total : forall fuel st p l i, lookup s p = Some i -> cost (visited st) i < fuel ->
  exists st', visit fl s fuel st p l = Some st'.
Proof.
  induction fuel as [|fuel IH]; intros st p l i L C; [lia|]. cbn [visit]. rewrite L.
  destruct (follow s i) as [d|] eqn:F; [|eauto]. rewrite already_send.
  destruct (descends fl l && negb (already s i d st)) eqn:B; [|eauto].
  destruct (readable s d); [|eauto]. apply andb_true_iff in B. destruct B as [_ B]. apply negb_true_iff in B.
  cbv zeta.
  assert (CC : forall m c, In (m, c) (entries s d) -> cost (d :: visited st) c < fuel).
  { intros m c I. pose proof (child_cost st i d m c F B I). lia. }
  assert (CL : forall m c, In (m, c) (entries s d) -> lookup s (p ++ [m]) = Some c).
  { intros m c I. rewrite (lookup_child _ _ _ _ m L F). apply find_entry_In; auto. apply (wf_names _ _ _ WF). }
  assert (VI : incl (d :: visited st) (visited (mkstate (emitted (send_path fl s p i st)) (d :: visited (send_path fl s p i st)) (outs (send_path fl s p i st))))).
  { simpl. rewrite visited_send. apply incl_refl. }
  revert VI. generalize (mkstate (emitted (send_path fl s p i st)) (d :: visited (send_path fl s p i st)) (outs (send_path fl s p i st))).
  assert (SUB : incl (entries s d) (entries s d)) by apply incl_refl. revert SUB. generalize (entries s d) at 1 3.
  induction l0 as [|[m c] es IHes]; intros SUB st0 VI; [eauto|].
  assert (I : In (m, c) (entries s d)) by (apply SUB; simpl; auto).
  destruct (IH st0 (p ++ [m]) (S l) c (CL _ _ I)) as (st1 & Q).
  { pose proof (cost_grow _ _ c VI). pose proof (CC _ _ I). lia. }
  rewrite Q. apply IHes.
  - intros x Hx. apply SUB. simpl. auto.
  - eapply incl_tran; [exact VI|]. apply visit_V in Q. apply (proj1 (VE_grows fl s)) in Q. apply Q.
Qed.

Lemma visit_none : forall fuel st p l, lookup s p = None -> fuel > 0 -> exists st', visit fl s fuel st p l = Some st'.
Proof. intros [|fuel] st p l L G; [lia|]. cbn [visit]. rewrite L. eauto. Qed.
End Term.

(* ls terminates, whatever the links, with or without cycles: the depth of the recursion
   is bounded *)
Theorem c38_terminates : forall fl s n rank roots, well_formed s n rank ->
  exists bound, forall fuel, bound <= fuel -> exists os, ls fl s fuel roots = Some os.
Proof.
  intros fl s n rank roots WF. exists (unv n [] * (R n rank + 2) + R n rank + 3). intros fuel B.
  assert (G : forall roots st, exists st', visit_all fl s fuel st roots = Some st').
  { induction roots0 as [|r rs IH]; intros st; simpl; [eauto|].
    assert (Q : exists st', visit fl s fuel st r 0 = Some st').
    { destruct (lookup s r) as [i|] eqn:L; [|apply visit_none; auto; lia].
      eapply visit_total; eauto. unfold cost.
      assert (unv n (visited st) <= unv n []) by (apply unv_incl; intros x []).
      destruct (node_of s i) as [|rd es| |] eqn:N; try nia.
      pose proof (wf_finite _ _ _ WF _ _ _ N) as Ld. pose proof (maxrank_ok rank n i Ld). fold (R n rank) in *. nia. }
    destruct Q as (st' & ->). apply IH. }
  destruct (G roots (mkstate [] [] [])) as (st & Q). exists (outs st). unfold ls. rewrite Q. reflexivity.
Qed.

(* ------------------------------------------------------------------ *)
(* Examples *)

(* / (0) contains a (1); a contains f, a link up to /, a link self to a, and b (2), which
   contains a device and a link back to a. *)
Definition fs1 : fs := mkfs (fun i =>
  match i with
  | 0 => Dir true [(10, 1)]
  | 1 => Dir true [(20, 3); (21, 4); (22, 5); (23, 2)]
  | 2 => Dir true [(30, 6); (31, 5)]
  | 3 => File
  | 4 => Link (Some 0)
  | 5 => Link (Some 1)
  | 6 => Special
  | _ => File
  end) 0.
Definition rank1 (i : ident) : nat := match i with 0 => 3 | 1 => 2 | 2 => 1 | _ => 0 end.
Example fs1_wf : well_formed fs1 3 rank1.
Proof.
  constructor.
  - intros [|[|[|[|[|[|[|d]]]]]]]; simpl; repeat constructor; simpl; intuition discriminate.
  - intros [|[|[|[|[|[|[|d]]]]]]] r es H; try discriminate; lia.
  - intros [|[|[|[|[|[|[|d]]]]]]] m i r es I H; simpl in I; intuition; try (inv H0; discriminate);
      repeat match goal with Q : (_, _) = (_, _) |- _ => inv Q end; simpl in *; try discriminate; lia.
Qed.
Definition all := default_flags (Some DR) false false false.

(* ls -r /a: everything in a is listed, including, through the link up, a again: f is listed twice,
   under the paths /a/f and /a/up/a/f.  The device is not listed. *)
Example fs1_ls : ls all fs1 100 [[10]] = Some
  (map Listed [[10]; [10; 20]; [10; 21]; [10; 21; 10]; [10; 21; 10; 20]; [10; 21; 10; 21]; [10; 21; 10; 22];
               [10; 21; 10; 23]; [10; 21; 10; 23; 31]; [10; 22]; [10; 23]; [10; 23; 31]]).
Proof. reflexivity. Qed.

(* Without the flags -f, -d and -s, nothing is filtered out but special files; without -0, -1 and -r, the
   entries of the given directories are listed. *)
Theorem c38_defaults : forall s roots fuel os r d es m c,
  ls (default_flags None false false false) s fuel roots = Some os ->
  In r roots -> lookup s r = Some d ->
  (node_of s d <> Special -> listed os r) /\
  (node_of s d = Dir true es -> find_entry m es = Some c -> node_of s c <> Special -> listed os (r ++ [m])).
Proof.
  intros s roots fuel os r d es m c H R L.
  assert (S : forall x, node_of s x <> Special -> selected (default_flags None false false false) s x = true).
  { intros x N. unfold selected. cbn. destruct (node_of s x); congruence. }
  split; intros.
  - eapply c38_roots; eauto.
  - eapply c38_level_1; eauto. discriminate.
Qed.
(* A flag restricts the listing to the kinds of files that are asked for. *)
Theorem c38_flags : forall s depth f di l fuel roots os p i,
  f || di || l = true -> ls (default_flags depth f di l) s fuel roots = Some os -> listed os p -> lookup s p = Some i ->
  match node_of s i with File => f = true | Dir _ _ => di = true | Link _ => l = true | Special => False end.
Proof.
  intros s depth f di l fuel roots os p i Fl H Li L. destruct (c38_only _ _ _ _ _ _ H Li) as (_ & _ & _ & _ & _ & _ & j & Lj & S).
  assert (j = i) as -> by congruence. unfold default_flags in S. rewrite Fl in S. exact S.
Qed.
Example fs1_defaults : ls (default_flags None false false false) fs1 100 [[10]] = 
  Some (map Listed [[10]; [10; 20]; [10; 21]; [10; 22]; [10; 23]]) /\
  ls (default_flags (Some DR) false false true) fs1 100 [[10]] = Some (map Listed [[10; 21]; [10; 21; 10; 21]; [10; 21; 10; 22];
    [10; 21; 10; 23; 31]; [10; 22]; [10; 23; 31]]).
Proof. split; vm_compute; reflexivity. Qed.

(* A file may be listed under two paths, even if no root contains another *)
Theorem c38_twice_refuted : exists s n rank roots os p q i,
  well_formed s n rank /\ ls all s 100 roots = Some os /\ length roots = 1 /\
  listed os p /\ listed os q /\ p <> q /\ lookup s p = Some i /\ lookup s q = Some i /\ node_of s i = File.
Proof.
  exists fs1, 3, rank1, [[10]]. eexists. exists [10; 20], [10; 21; 10; 20], 3.
  split; [apply fs1_wf|]. split; [reflexivity|]. split; [reflexivity|].
  split; [unfold listed; simpl; auto 20|]. split; [unfold listed; simpl; auto 20|].
  split; [discriminate|]. repeat split.
Qed.

(* Devices, sockets and named pipes are never listed *)
Theorem c38_special_refuted : forall fl s fuel roots os p i, ls fl s fuel roots = Some os ->
  lookup s p = Some i -> node_of s i = Special -> ~ listed os p.
Proof.
  intros fl s fuel roots os p i H L N Li. destruct (c38_only _ _ _ _ _ _ H Li) as (_ & _ & _ & _ & _ & _ & j & Lj & S).
  assert (j = i) as -> by congruence. rewrite N in S. exact S.
Qed.
