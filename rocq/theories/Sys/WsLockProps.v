(** C34: at most one process owns a workspace. *)
From Verif.Sys Require Import WsLock.

(** ** Specification *)
(** The process has been granted the workspace and has not released it. *)
Definition holds (s : sys) (p : nat) : Prop :=
  match procs s p with
  | Alive (Holding | ORelease | OExists true | OList true | ODel true _ | OUnlink true _ _ | OOwner true) => True
  | _ => False
  end.
(** A workspace with its one marker, free or left by a dead process; no other process running yet. *)
Definition initial (s : sys) : Prop :=
  (markers s = [Unowned] \/ exists q, markers s = [Owned q] /\ procs s q = Dead) /\
  forall p, procs s p = NotStarted \/ procs s p = Dead.

(** No process is started by another one that also uses the workspace. *)
Definition unrelated (ppid : nat -> nat) (s : sys) (l : list event) : Prop :=
  forall p, procs s (ppid p) = NotStarted /\ ~ In (EStart (ppid p)) l.
(** When a starting process has seen that there is no marker, it creates one before anything else happens. *)
Definition undisturbed (ppid : nat -> nat) (s : sys) (l : list event) : Prop :=
  forall a e b p, l = a ++ e :: b -> procs (run ppid s a) p = Alive VTouch -> e = EAct p.

(** ** Proof *)
Lemma marker_eqb_eq : forall a b, marker_eqb a b = true <-> a = b.
Proof.
  intros [|p] [|q]; cbn; try (split; congruence). rewrite Nat.eqb_eq. split; congruence.
Qed.
Lemma has_in : forall m l, has m l = true <-> In m l.
Proof.
  intros m l. unfold has. rewrite existsb_exists. split.
  - intros (x & I & E). apply marker_eqb_eq in E. now subst.
  - intros I. exists m. split; auto. now apply marker_eqb_eq.
Qed.

(** What is known about a process, given the markers and the other processes. *)
Definition pok (ms : list marker) (pr : nat -> status) (p : nat) : Prop :=
  let started r := Forall (fun q => pr q <> NotStarted) r in
  match pr p with
  | Alive c =>
    match c with
    | Holding | ORelease | OExists true | OList true | OOwner true => In (Owned p) ms
    | ODel true r => In (Owned p) ms /\ started r
    | OUnlink true q r => In (Owned p) ms /\ pr q = Dead /\ started r
    | ODel false r | VDel r => started r
    | OUnlink false q r | VUnlink q r => pr q = Dead /\ started r
    | OTake q => pr q = Dead
    | OTest q => pr q <> NotStarted /\ (q = p -> In (Owned p) ms)
    | VTouch => ms = []
    | _ => True
    end
  | _ => True
  end.

(** Every directory has at most one marker, the holder's. *)
Record inv (ppid : nat -> nat) (s : sys) : Prop := Inv {
  one : length (markers s) <= 1;
  started : forall p, In (Owned p) (markers s) -> procs s p <> NotStarted;
  poks : forall p, pok (markers s) (procs s) p;
  parents : forall p, procs s (ppid p) = NotStarted
}.

Lemma inv_holds : forall ppid s p, inv ppid s -> holds s p -> In (Owned p) (markers s).
Proof.
  intros ppid s p I H. pose proof (poks _ _ I p) as K. unfold pok, holds in *. destruct (procs s p) as [|c|]; try easy.
  destruct c as [| | | | | |[|]| |[|]|[|]|[|]|[|]| | | |]; try easy; tauto.
Qed.

Lemma pok_mono : forall ms ms' pr pr' x,
  pok ms pr x -> pr' x = pr x ->
  (forall q, pr q = Dead -> pr' q = Dead) -> (forall q, pr q <> NotStarted -> pr' q <> NotStarted) ->
  (forall c, pr x = Alive c -> In (Owned x) ms -> In (Owned x) ms') -> (pr x = Alive VTouch -> ms' = []) -> pok ms' pr' x.
Proof.
  intros ms ms' pr pr' x K E D N M T. unfold pok in *. rewrite E. destruct (pr x) as [|c|]; auto.
  assert (F : forall r, Forall (fun q => pr q <> NotStarted) r -> Forall (fun q => pr' q <> NotStarted) r).
  { intros r. apply Forall_impl. auto. }
  specialize (M c eq_refl).
  destruct c as [| | | | | |[|]| |[|]|[|]|[|]|[|]| | | |]; intuition auto.
  match goal with X : pr' _ = NotStarted |- _ => revert X end. now apply N.
Qed.

Lemma owners_in : forall q l, In q (owners l) <-> In (Owned q) l.
Proof.
  intros q l. unfold owners. rewrite in_flat_map. split.
  - intros ([|p] & I & J); [destruct J|]. destruct J as [->|[]]. exact I.
  - intros I. exists (Owned q). split; auto. now left.
Qed.

Lemma set_same : forall s p st, procs (set s p st) p = st.
Proof. intros. cbn. now rewrite Nat.eqb_refl. Qed.
Lemma set_other : forall s p st x, x <> p -> procs (set s p st) x = procs s x.
Proof. intros s p st x N. cbn. apply Nat.eqb_neq in N. now rewrite N. Qed.

(** A process changes its own status and possibly the markers. *)
Lemma inv_set : forall ppid s p st ms c,
  inv ppid s -> procs s p = c -> (c = NotStarted -> (forall x, ppid x <> p)) -> c <> Dead -> st <> NotStarted ->
  (forall x, x <> p -> procs s x <> Alive VTouch \/ ms = []) ->
  length ms <= 1 ->
  (forall x d, x <> p -> procs s x = Alive d -> In (Owned x) (markers s) -> In (Owned x) ms) ->
  (forall x, In (Owned x) ms -> x = p \/ In (Owned x) (markers s)) ->
  (pok ms (procs (set s p st)) p) ->
  inv ppid (set (Sys ms (procs s)) p st).
Proof.
  intros ppid s p st ms c I E C1 C2 N T L M B K.
  assert (D : forall q, procs s q = Dead -> procs (set s p st) q = Dead).
  { intros q H. destruct (Nat.eq_dec q p) as [->|X]; [congruence|]. now rewrite set_other. }
  assert (NS : forall q, procs s q <> NotStarted -> procs (set s p st) q <> NotStarted).
  { intros q H. destruct (Nat.eq_dec q p) as [->|X]; [now rewrite set_same|]. now rewrite set_other. }
  constructor; cbn [markers set].
  - exact L.
  - intros x H. change (procs (set s p st) x <> NotStarted). apply B in H as [->|H].
    + now rewrite set_same.
    + apply NS. now apply (started _ _ I).
  - intros x. change (pok ms (procs (set s p st)) x). destruct (Nat.eq_dec x p) as [->|X]; auto.
    apply (pok_mono (markers s) ms (procs s)); auto.
    + apply (poks _ _ I).
    + now apply set_other.
    + intros d Q. now apply M with d.
    + intros Q. destruct (T x X) as [T'|T']; [congruence|auto].
  - intros x. change (procs (set s p st) (ppid x) = NotStarted). pose proof (parents _ _ I x) as P.
    destruct (Nat.eq_dec (ppid x) p) as [H|H]; [|now rewrite set_other].
    exfalso. apply (C1 (eq_trans (eq_sym E) (eq_ind _ (fun y => procs s y = NotStarted) P _ H)) x H).
Qed.

(** The same, markers unchanged. *)
Lemma inv_set0 : forall ppid s p st c,
  inv ppid s -> procs s p = c -> (c = NotStarted -> (forall x, ppid x <> p)) -> c <> Dead -> st <> NotStarted ->
  (forall x, x <> p -> procs s x <> Alive VTouch) ->
  (pok (markers s) (procs (set s p st)) p) ->
  inv ppid (set s p st).
Proof.
  intros ppid s p st c I E C1 C2 N T K. destruct s as [ms pr]. apply (inv_set ppid (Sys ms pr) p st ms c); auto.
  apply (one _ _ I).
Qed.

Lemma remove_in : forall m x l, In x (remove m l) <-> In x l /\ x <> m.
Proof.
  intros m x l. unfold remove. rewrite filter_In, negb_true_iff. split; intros (A & B); split; auto.
  - intros ->. rewrite (proj2 (marker_eqb_eq m m) eq_refl) in B. discriminate.
  - destruct (marker_eqb m x) eqn:E; auto. apply marker_eqb_eq in E. congruence.
Qed.
Lemma remove_len : forall m l, length (remove m l) <= length l.
Proof. intros m l. unfold remove. induction l as [|x l IH]; cbn; auto. destruct (negb _); cbn; lia. Qed.

Lemma rename_one : forall a b l l', length l <= 1 -> rename a b l = Some l' -> l = [a] /\ l' = [b].
Proof.
  intros a b l l' L R. unfold rename in R. destruct (has a l) eqn:H; [|discriminate]. injection R as <-. apply has_in in H.
  destruct l as [|x [|y l]]; [destruct H| |cbn in L; lia]. destruct H as [->|[]]. split; auto. cbn.
  rewrite (proj2 (marker_eqb_eq a a) eq_refl). reflexivity.
Qed.

Lemma inv_act : forall ppid s p, inv ppid s -> (forall x, procs s x = Alive VTouch -> x = p) -> inv ppid (act ppid p s).
Proof.
  intros ppid s p I T.
  assert (T' : forall x, x <> p -> procs s x <> Alive VTouch) by (intros x N H; apply N, T, H).
  pose proof (poks _ _ I p) as K. pose proof (one _ _ I) as L. pose proof (started _ _ I) as ST.
  unfold act. destruct (procs s p) as [|c|] eqn:P; auto.
  assert (Set0 : forall c', pok (markers s) (procs (set s p (Alive c'))) p -> inv ppid (set s p (Alive c'))).
  { intros c' H. apply (inv_set0 ppid s p (Alive c') (Alive c)); auto; discriminate. }
  assert (SetD : inv ppid (set s p Dead)).
  { apply (inv_set0 ppid s p Dead (Alive c)); auto; try discriminate. unfold pok. now rewrite set_same. }
  assert (NS : forall st q, st <> NotStarted -> procs s q <> NotStarted -> procs (set s p st) q <> NotStarted).
  { intros st q X H. destruct (Nat.eq_dec q p) as [->|Y]; [now rewrite set_same|]. now rewrite set_other. }
  assert (NSF : forall st r, st <> NotStarted -> Forall (fun q => procs s q <> NotStarted) r -> Forall (fun q => procs (set s p st) q <> NotStarted) r).
  { intros st r X. apply Forall_impl. auto. }
  assert (DD : forall st q, procs s q = Dead -> procs (set s p st) q = Dead).
  { intros st q H. destruct (Nat.eq_dec q p) as [->|Y]; [congruence|]. now rewrite set_other. }
  assert (OW : Forall (fun q => procs s q <> NotStarted) (owners (markers s))).
  { apply Forall_forall. intros q H. apply owners_in in H. auto. }
  assert (EX : forall q, exists_process s q = false -> procs s q <> NotStarted -> procs s q = Dead).
  { intros q H N. unfold exists_process in H. destruct (procs s q); congruence. }
  assert (UNL : forall q c', procs s q = Dead -> (In (Owned p) (markers s) -> In (Owned p) (remove (Owned q) (markers s)) ->
            pok (markers s) (procs (set s p (Alive c'))) p -> pok (remove (Owned q) (markers s)) (procs (set s p (Alive c'))) p) ->
            pok (markers s) (procs (set s p (Alive c'))) p -> True) by auto.
  clear UNL.
  assert (REM : forall q x d, procs s q = Dead -> procs s x = Alive d -> In (Owned x) (markers s) -> In (Owned x) (remove (Owned q) (markers s))).
  { intros q x d Q X H. apply remove_in. split; auto. intros E. injection E as ->. congruence. }
  assert (SetR : forall q c', procs s q = Dead -> pok (remove (Owned q) (markers s)) (procs (set s p (Alive c'))) p ->
            inv ppid (set (Sys (remove (Owned q) (markers s)) (procs s)) p (Alive c'))).
  { intros q c' Q H. apply (inv_set ppid s p (Alive c') _ (Alive c)); auto; try discriminate.
    - pose proof (remove_len (Owned q) (markers s)). lia.
    - intros x d N X Y. eauto.
    - intros x Y. apply remove_in in Y as (Y & _). auto. }
  assert (SetN : forall a b c', rename a b (markers s) = Some [b] -> markers s = [a] ->
            (forall x d, x <> p -> procs s x = Alive d -> a <> Owned x) -> (forall x, b = Owned x -> x = p) ->
            pok [b] (procs (set s p (Alive c'))) p -> inv ppid (set (Sys [b] (procs s)) p (Alive c'))).
  { intros a b c' R M A B H. apply (inv_set ppid s p (Alive c') [b] (Alive c)); auto; try discriminate.
    - intros x d N X Y. rewrite M in Y. destruct Y as [Y|[]]. exfalso. eapply A; eauto.
    - intros x [Y|[]]. left. auto. }
  unfold pok in K. rewrite P in K.
  destruct c as [|[|q r]|q r| | | |u| |u|u [|q r]|u q r|u|q|q| |].
  - (* VList *) apply Set0. unfold pok. rewrite set_same. apply NSF; [discriminate|exact OW].
  - apply Set0. unfold pok. now rewrite set_same.
  - inversion_clear K as [|? ? K1 K2]. apply Set0. unfold pok. rewrite set_same. destruct (exists_process s q) eqn:E.
    + apply NSF; [discriminate|exact K2].
    + split; [apply DD; auto|apply NSF; [discriminate|exact K2]].
  - destruct K as (K1 & K2). destruct (has _ _); [|exact SetD]. apply SetR; auto. unfold pok. rewrite set_same.
    apply NSF; [discriminate|exact K2].
  - apply Set0. unfold pok. rewrite set_same. destruct (markers s); auto.
  - (* VTouch *)
    rewrite K. cbn [touch has existsb]. apply (inv_set ppid s p (Alive Ready) [Unowned] (Alive VTouch)); auto; try discriminate.
    + intros x d N X Y. rewrite K in Y. destruct Y.
    + intros x [Y|[]]. discriminate.
    + unfold pok. now rewrite set_same.
  - exact I.
  - (* OExists *)
    destruct u.
    + destruct (has Unowned (markers s)) eqn:H.
      * apply Set0. unfold pok. now rewrite set_same.
      * apply Set0. unfold pok. rewrite set_same. exact K.
    + apply Set0. unfold pok. rewrite set_same. destruct (has _ _); auto.
  - (* ORename *)
    destruct (rename Unowned (Owned p) (markers s)) as [ms'|] eqn:R.
    + pose proof (rename_one _ _ _ _ L R) as (M & ->). apply (SetN Unowned); auto; try discriminate; try congruence.
      unfold pok. rewrite set_same. now left.
    + apply Set0. unfold pok. now rewrite set_same.
  - (* OList *)
    apply Set0. unfold pok. rewrite set_same. destruct u; [split; auto|]; (apply NSF; [discriminate|exact OW]).
  - apply Set0. unfold pok. rewrite set_same. destruct u; tauto.
  - assert (K' : Forall (fun q => procs s q <> NotStarted) (q :: r)) by (destruct u; tauto).
    inversion_clear K' as [|? ? K1 K2]. apply Set0. unfold pok. rewrite set_same. destruct (exists_process s q) eqn:E.
    + destruct u; [split; [tauto|]|]; (apply NSF; [discriminate|exact K2]).
    + destruct u; [split; [tauto|]|]; (split; [apply DD; auto|apply NSF; [discriminate|exact K2]]).
  - assert (K' : procs s q = Dead /\ Forall (fun q => procs s q <> NotStarted) r) by (destruct u; tauto).
    destruct K' as (K1 & K2). destruct (has _ _).
    + apply SetR; auto. unfold pok. rewrite set_same. destruct u; [split|]; try (apply NSF; [discriminate|exact K2]).
      eapply REM; eauto. tauto.
    + apply Set0. unfold pok. rewrite set_same. destruct u; cbn; tauto.
  - (* OOwner *)
    destruct (markers s) as [|[|q] [|m2 r]] eqn:M.
    + apply Set0. unfold pok. rewrite set_same. destruct u; cbn; tauto.
    + apply Set0. unfold pok. rewrite set_same. destruct u; cbn; tauto.
    + cbn in L. lia.
    + destruct u.
      * destruct (Nat.eqb q p); apply Set0; unfold pok; rewrite set_same; exact K.
      * apply Set0. unfold pok. rewrite set_same. split.
        -- apply NS; [discriminate|]. apply ST. now left.
        -- intros ->. now left.
    + cbn in L. lia.
  - (* OTest *)
    destruct K as (K1 & K2). destruct (Nat.eqb q p) eqn:E1.
    + apply Nat.eqb_eq in E1. apply Set0. unfold pok. rewrite set_same. auto.
    + destruct (Nat.eqb q (ppid p)) eqn:E2.
      * exfalso. apply Nat.eqb_eq in E2. subst q. apply K1. apply (parents _ _ I).
      * apply Set0. unfold pok. rewrite set_same. destruct (exists_process s q) eqn:E; auto.
  - (* OTake *)
    destruct (rename (Owned q) (Owned p) (markers s)) as [ms'|] eqn:R.
    + pose proof (rename_one _ _ _ _ L R) as (M & ->). apply (SetN (Owned q)); auto.
      * intros x d N X E. injection E as ->. congruence.
      * intros x E. now injection E as ->.
      * unfold pok. rewrite set_same. now left.
    + apply Set0. unfold pok. now rewrite set_same.
  - exact I.
  - (* ORelease *)
    destruct (rename (Owned p) Unowned (markers s)) as [ms'|] eqn:R.
    + pose proof (rename_one _ _ _ _ L R) as (M & ->). apply (SetN (Owned p)); auto; try discriminate.
      * intros x d N X E. injection E as ->. congruence.
      * unfold pok. now rewrite set_same.
    + apply Set0. unfold pok. rewrite set_same. exact K.
Qed.

Lemma inv_happen : forall ppid s e, inv ppid s -> (forall x, procs s x = Alive VTouch -> e = EAct x) ->
  (forall x, e <> EStart (ppid x)) -> inv ppid (happen ppid s e).
Proof.
  intros ppid s e I T NS. destruct e as [p|p|p|p|p]; cbn [happen].
  - destruct (procs s p) as [|c|] eqn:P; auto.
    apply (inv_set0 ppid s p (Alive VList) NotStarted); auto; try discriminate.
    + intros _ x E. apply (NS x). now rewrite E.
    + intros x N X. apply T in X. discriminate.
    + unfold pok. now rewrite set_same.
  - destruct (procs s p) as [|c|] eqn:P; auto. destruct c; auto. destruct (markers s) eqn:M; auto.
    apply (inv_set0 ppid s p _ (Alive Ready)); auto; try discriminate.
    + intros x N X. apply T in X. discriminate.
    + unfold pok. now rewrite set_same.
  - destruct (procs s p) as [|c|] eqn:P; auto. destruct c; auto.
    apply (inv_set0 ppid s p _ (Alive Holding)); auto; try discriminate.
    + intros x N X. apply T in X. discriminate.
    + unfold pok. rewrite set_same. apply (inv_holds ppid s p I). unfold holds. now rewrite P.
  - apply inv_act; auto. intros x X. apply T in X. congruence.
  - destruct (procs s p) as [|c|] eqn:P; auto.
    apply (inv_set0 ppid s p Dead (Alive c)); auto; try discriminate.
    + intros x N X. apply T in X. discriminate.
    + unfold pok. now rewrite set_same.
Qed.

Lemma inv_initial : forall ppid s l, initial s -> unrelated ppid s l -> inv ppid s.
Proof.
  intros ppid s l (M & A) U. constructor.
  - destruct M as [->|(q & -> & _)]; auto.
  - intros p H. destruct M as [M|(q & M & D)]; rewrite M in H; destruct H as [H|[]]; [discriminate|]. injection H as ->. congruence.
  - intros p. unfold pok. destruct (A p) as [-> | ->]; auto.
  - intros p. apply U.
Qed.

(** For any number of processes, any interleaving and any deaths. *)
Theorem c34_exclusive_partial : forall ppid s l,
  initial s -> unrelated ppid s l -> undisturbed ppid s l ->
  forall p q, holds (run ppid s l) p -> holds (run ppid s l) q -> p = q.
Proof.
  intros ppid s l IN U D. assert (I : inv ppid (run ppid s l)).
  { pose proof (inv_initial ppid s l IN U) as I. assert (V : forall x, ~ In (EStart (ppid x)) l) by (intros x; apply U).
    clear IN U. revert s I D. induction l as [|e l IH]; intros s I D; auto. cbn. apply IH.
    - intros x H. apply (V x). now right.
    - apply inv_happen; auto.
      + intros x X. apply (D [] e l x eq_refl X).
      + intros x E. apply (V x). now left.
    - intros a e' b x E X. apply (D (e :: a) e' b x); [now rewrite E|exact X]. }
  intros p q P Q. apply (inv_holds _ _ _ I) in P, Q. pose proof (one _ _ I) as L.
  destruct (markers (run ppid s l)) as [|m [|m' r]]; [destruct P| |cbn in L; lia].
  destruct P as [P|[]], Q as [Q|[]]. congruence.
Qed.

(** Undisturbed, a free workspace is obtained, and given back. *)
Definition view (s : sys) (p : nat) : list marker * status := (markers s, procs s p).
Ltac one_step := 
  let s := fresh in let H := fresh in intros ? s p H; injection H; intros X Y; unfold view, happen, act, rename, has, remove; rewrite X, ?Y; cbn;
  do 4 (rewrite ?Nat.eqb_refl; cbn); try reflexivity; try congruence.
Lemma v1 : forall ppid s p, view s p = ([Unowned], Alive Ready) -> view (happen ppid s (EOpen p)) p = ([Unowned], Alive (OExists false)).
Proof. one_step. Qed.
Lemma v2 : forall ppid s p, view s p = ([Unowned], Alive (OExists false)) -> view (happen ppid s (EAct p)) p = ([Unowned], Alive ORename).
Proof. one_step. Qed.
Lemma v3 : forall ppid s p, view s p = ([Unowned], Alive ORename) -> view (happen ppid s (EAct p)) p = ([Owned p], Alive Holding).
Proof. one_step. Qed.
Lemma v4 : forall ppid s p, view s p = ([Owned p], Alive Holding) -> view (happen ppid s (EClose p)) p = ([Owned p], Alive (OExists true)).
Proof. one_step. Qed.
Lemma v5 : forall ppid s p, view s p = ([Owned p], Alive (OExists true)) -> view (happen ppid s (EAct p)) p = ([Owned p], Alive (OList true)).
Proof. one_step. Qed.
Lemma v6 : forall ppid s p, view s p = ([Owned p], Alive (OList true)) -> view (happen ppid s (EAct p)) p = ([Owned p], Alive (ODel true [p])).
Proof. one_step. Qed.
Lemma v7 : forall ppid s p, view s p = ([Owned p], Alive (ODel true [p])) -> view (happen ppid s (EAct p)) p = ([Owned p], Alive (ODel true [])).
Proof. one_step. unfold exists_process. rewrite X, Y. reflexivity. Qed.
Lemma v8 : forall ppid s p, view s p = ([Owned p], Alive (ODel true [])) -> view (happen ppid s (EAct p)) p = ([Owned p], Alive (OOwner true)).
Proof. one_step. Qed.
Lemma v9 : forall ppid s p, view s p = ([Owned p], Alive (OOwner true)) -> view (happen ppid s (EAct p)) p = ([Owned p], Alive ORelease).
Proof. one_step. Qed.
Lemma v10 : forall ppid s p, view s p = ([Owned p], Alive ORelease) -> view (happen ppid s (EAct p)) p = ([Unowned], Alive Ready).
Proof. one_step. Qed.

Lemma run_cons : forall ppid s e l, run ppid s (e :: l) = run ppid (happen ppid s e) l.
Proof. reflexivity. Qed.
Lemma run_nil : forall ppid s, run ppid s [] = s.
Proof. reflexivity. Qed.
Theorem c34_lock_unlock : forall ppid s p, markers s = [Unowned] -> procs s p = Alive Ready ->
  let s1 := run ppid s [EOpen p; EAct p; EAct p] in
  let s2 := run ppid s1 (EClose p :: repeat (EAct p) 6) in
  holds s1 p /\ markers s1 = [Owned p] /\
  procs s2 p = Alive Ready /\ markers s2 = [Unowned].
Proof.
  intros ppid s p M P. cbn zeta. assert (V : view s p = ([Unowned], Alive Ready)) by (unfold view; congruence).
  assert (V1 : view (run ppid s [EOpen p; EAct p; EAct p]) p = ([Owned p], Alive Holding)).
  { rewrite !run_cons, run_nil. apply v3, v2, v1, V. }
  revert V1. generalize (run ppid s [EOpen p; EAct p; EAct p]). intros s1 V1.
  assert (V2 : view (run ppid s1 (EClose p :: repeat (EAct p) 6)) p = ([Unowned], Alive Ready)).
  { rewrite run_cons. cbn [repeat]. rewrite !run_cons, run_nil. apply v10, v9, v8, v7, v6, v5, v4, V1. }
  revert V2. generalize (run ppid s1 (EClose p :: repeat (EAct p) 6)). intros s2 V2.
  unfold view in V1, V2.
  assert (A := f_equal fst V1). assert (B := f_equal snd V1). assert (C := f_equal fst V2). assert (D := f_equal snd V2).
  cbn [fst snd] in A, B, C, D. repeat split; auto. unfold holds. now rewrite B.
Qed.

(** ** What does not hold *)
(** Two processes start when the owner has died: both see no marker; one creates it and takes the workspace,
    then the other one creates a second marker, and takes it as well. *)
Definition abandoned : sys := Sys [Owned 0] (fun p => match p with 0 => Dead | _ => NotStarted end).
Definition race : list event :=
  [EStart 1; EStart 2; EAct 1; EAct 1; EAct 1; EAct 1; EAct 1; (* 1 is about to create the marker *)
   EAct 2; EAct 2; EAct 2; EAct 2; EOpen 2; EAct 2; EAct 2;     (* 2 has the workspace *)
   EAct 1; EOpen 1; EAct 1; EAct 1].
Theorem c34_startup_race_refuted : exists s l ppid, initial s /\ unrelated ppid s l /\
  holds (run ppid s l) 1 /\ holds (run ppid s l) 2.
Proof.
  exists abandoned, race, (fun _ => 99). split; [|split].
  - split; [right; now exists 0|]. intros [|p]; auto.
  - intros p. split; [reflexivity|]. cbn. intuition discriminate.
  - vm_compute. auto.
Qed.
(** A process started by the owner gets the workspace too. *)
Theorem c34_child_refuted : exists s l ppid, initial s /\ undisturbed ppid s l /\
  holds (run ppid s l) 1 /\ holds (run ppid s l) 2.
Proof.
  exists (Sys [Unowned] (fun _ => NotStarted)),
    [EStart 1; EAct 1; EAct 1; EAct 1; EOpen 1; EAct 1; EAct 1;
     EStart 2; EAct 2; EAct 2; EAct 2; EAct 2; EOpen 2; EAct 2; EAct 2; EAct 2; EAct 2; EAct 2; EAct 2], (fun p => pred p).
  split; [split; [now left|]; intros; now left|]. split; [|vm_compute; auto].
  intros a e b p E X. exfalso.
  assert (G : forall n q, n < 20 -> procs (run pred (Sys [Unowned] (fun _ => NotStarted)) (firstn n
    [EStart 1; EAct 1; EAct 1; EAct 1; EOpen 1; EAct 1; EAct 1;
     EStart 2; EAct 2; EAct 2; EAct 2; EAct 2; EOpen 2; EAct 2; EAct 2; EAct 2; EAct 2; EAct 2; EAct 2])) q <> Alive VTouch).
  { intros n q Hn. do 20 (destruct n as [|n]; [destruct q as [|[|[|q]]]; vm_compute; discriminate|]). lia. }
  apply (G (length a) p).
  - apply (f_equal (@length event)) in E. rewrite app_length in E. cbn in E. lia.
  - rewrite E, firstn_app, Nat.sub_diag, firstn_all. cbn [firstn]. rewrite app_nil_r. exact X.
Qed.
(** A workspace abandoned by a dead process cannot be opened by a running one: the attempt deletes the marker and fails, and
    from then on the workspace does not seem to exist. *)
Theorem c34_abandoned_refuted :
  let s := run (fun _ => 99) (Sys [Unowned] (fun _ => NotStarted))
    ([EStart 1; EAct 1; EAct 1; EAct 1; EStart 2; EAct 2; EAct 2; EAct 2; EOpen 2; EAct 2; EAct 2; EDie 2]) in
  procs s 1 = Alive Ready /\ markers s = [Owned 2] /\ procs s 2 = Dead /\
  let s' := run (fun _ => 99) s (EOpen 1 :: repeat (EAct 1) 6) in
  procs s' 1 = Alive Ready /\ markers s' = [] /\ forall ppid, happen ppid s' (EOpen 1) = s'.
Proof. vm_compute. repeat split; auto. Qed.

(** ** Cases *)
(** Two processes compete for the marker; the owner dies and a third process takes over. *)
Definition contest : list event :=
  [EStart 1; EStart 2; EAct 1; EAct 2; EAct 1; EAct 2; EAct 1; EAct 2; EOpen 1; EOpen 2; EAct 1; EAct 2; EAct 2; EAct 1; EDie 2;
   EStart 3; EAct 3; EAct 3; EAct 3; EAct 3; EAct 3; EAct 3; EOpen 3; EAct 3; EAct 3].
Example c34_case :
  let s := Sys [Unowned] (fun _ => NotStarted) in
  initial s /\ unrelated (fun _ => 99) s contest /\ undisturbed (fun _ => 99) s contest /\
  holds (run (fun _ => 99) s (firstn 14 contest)) 2 /\ holds (run (fun _ => 99) s contest) 3.
Proof.
  split; [split; [now left|]; intros; now left|]. split; [intros p; split; [reflexivity|]; cbn; intuition discriminate|].
  split; [|split; vm_compute; auto].
  intros a e b p E X.
  assert (G : forall n q, n < 25 -> procs (run (fun _ => 99) (Sys [Unowned] (fun _ => NotStarted)) (firstn n contest)) q = Alive VTouch ->
             nth_error contest n = Some (EAct q)).
  { intros n q Hn. do 25 (destruct n as [|n]; [destruct q as [|[|[|[|q]]]]; vm_compute; try discriminate; reflexivity|]). lia. }
  assert (L : length a < 25).
  { apply (f_equal (@length event)) in E. rewrite app_length in E. cbn in E. lia. }
  specialize (G (length a) p L). rewrite E in G at 1. rewrite firstn_app, Nat.sub_diag, firstn_all in G. cbn [firstn] in G.
  rewrite app_nil_r in G. specialize (G X). rewrite E, nth_error_app2, Nat.sub_diag in G by lia. cbn in G. congruence.
Qed.

Print Assumptions c34_exclusive_partial.
Print Assumptions c34_lock_unlock.
Print Assumptions c34_startup_race_refuted.
Print Assumptions c34_child_refuted.
Print Assumptions c34_abandoned_refuted.
