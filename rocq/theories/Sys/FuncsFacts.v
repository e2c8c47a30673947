(** Proofs for C60: what holds of a command at each stage. *)
From Coq Require Import List Bool Arith Lia.
From Verif.Sys Require Import Funcs FuncsSpec.
Import ListNotations.

Lemma op_ind2 : forall P : op -> Prop,
  (forall k args subs, (forall st sub o, In (st, sub) subs -> In o sub -> P o) -> P (Op k args subs)) -> forall o, P o.
Proof.
  intros P H. fix IH 1. intros [k args subs]. apply H. induction subs as [|[st sub] subs IHs]; [intros ? ? ? []|].
  assert (S : forall o, In o sub -> P o).
  { clear IHs. induction sub as [|o' sub IHo]; [intros ? []|]. intros o [<-|I]; [apply IH|now apply IHo]. }
  intros st' sub' o [E|I] Io; [|now apply (IHs st' sub')].
  inversion E; subst. now apply S.
Qed.

(** [result]. *)
Lemma bind_none : forall A B (r : result A) (f : A -> result B), snd (bind r f) = None ->
  snd r = None \/ exists a, snd r = Some a /\ snd (f a) = None.
Proof. intros A B [us [a|]] f E; cbn in *; auto. right. exists a. split; auto. now destruct (f a). Qed.
Lemma bind_some : forall A B (r : result A) (f : A -> result B) b, snd (bind r f) = Some b ->
  exists a, snd r = Some a /\ snd (f a) = Some b.
Proof. intros A B [us [a|]] f b E; cbn in *; [|easy]. exists a. split; auto. now destruct (f a). Qed.
Lemma bind_in : forall A B (r : result A) (f : A -> result B) u, In u (fst (bind r f)) <->
  In u (fst r) \/ exists a, snd r = Some a /\ In u (fst (f a)).
Proof.
  intros A B [us [a|]] f u; cbn.
  - destruct (f a) as [vs b] eqn:E. cbn. rewrite in_app_iff. split; intros [H|H]; auto.
    + right. exists a. now rewrite E.
    + destruct H as (a' & X & H). inversion X; subst a'. rewrite E in H. auto.
  - split; auto. intros [H|(a & X & _)]; [auto|easy].
Qed.
Lemma each_some : forall A B (f : A -> result B) l l', snd (each f l) = Some l' ->
  Forall2 (fun a b => snd (f a) = Some b) l l'.
Proof.
  induction l as [|a l IH]; intros l' E; cbn in E; [inversion E; constructor|].
  apply bind_some in E. destruct E as (b & Eb & E). apply bind_some in E. destruct E as (bs & Es & E). inversion E; subst.
  constructor; auto.
Qed.
Lemma each_none : forall A B (f : A -> result B) l, snd (each f l) = None ->
  exists a, In a l /\ snd (f a) = None /\ forall u, In u (fst (f a)) -> In u (fst (each f l)).
Proof.
  intros A B f. induction l as [|a l IH]; intros E; cbn in E; [easy|]. apply bind_none in E. destruct E as [E|(b & Eb & E)].
  - exists a. split; [now left|]. split; auto. intros u I. cbn. apply bind_in. now left.
  - apply bind_none in E. destruct E as [E|(bs & _ & E)]; [|easy]. destruct (IH E) as (a' & I & N & U).
    exists a'. split; [now right|]. split; auto. intros u Iu. cbn. apply bind_in. right. exists b. split; auto. apply bind_in.
    left. auto.
Qed.
Lemma each_in : forall A B (f : A -> result B) l u, In u (fst (each f l)) -> exists a, In a l /\ In u (fst (f a)).
Proof.
  induction l as [|a l IH]; intros u I; cbn in I; [easy|]. apply bind_in in I. destruct I as [I|(b & _ & I)].
  - exists a. split; auto. now left.
  - apply bind_in in I. destruct I as [I|(bs & _ & I)]; [|easy]. destruct (IH u I) as (a' & X & Y). exists a'. split; auto. now right.
Qed.
Lemma each_in_some : forall A B (f : A -> result B) l l' a u, snd (each f l) = Some l' -> In a l -> In u (fst (f a)) ->
  In u (fst (each f l)).
Proof.
  induction l as [|a l IH]; intros l' a' u E I Iu; [easy|]. cbn in *. apply bind_some in E. destruct E as (b & Eb & E).
  apply bind_in. destruct I as [->|I]; [now left|]. right. exists b. split; auto. apply bind_in. left.
  apply bind_some in E. destruct E as (bs & Es & _). eapply IH; eauto.
Qed.
Lemma Forall2_in_r : forall A B (P : A -> B -> Prop) l l' b, Forall2 P l l' -> In b l' -> exists a, In a l /\ P a b.
Proof. intros A B P l l' b F. induction F; intros I; [easy|]. destruct I as [<-|I]; [eauto using in_eq|]. destruct (IHF I) as (a & ? & ?). eauto using in_cons. Qed.
Lemma Forall2_in_l : forall A B (P : A -> B -> Prop) l l' a, Forall2 P l l' -> In a l -> exists b, In b l' /\ P a b.
Proof. intros A B P l l' b F. induction F; intros I; [easy|]. destruct I as [<-|I]; [eauto using in_eq|]. destruct (IHF I) as (a & ? & ?). eauto using in_cons. Qed.
Lemma Forall2_nth : forall A B (P : A -> B -> Prop) l l' n, Forall2 P l l' ->
  (forall b, nth_error l' n = Some b -> exists a, nth_error l n = Some a /\ P a b).
Proof. intros A B P l l' n F. revert n. induction F; intros [|n] b E; cbn in *; try easy; [inversion E; subst; eauto|auto]. Qed.
Lemma Forall2_nth_l : forall A B (P : A -> B -> Prop) l l' n, Forall2 P l l' ->
  (forall a, nth_error l n = Some a -> exists b, nth_error l' n = Some b /\ P a b).
Proof. intros A B P l l' n F. revert n. induction F; intros [|n] b E; cbn in *; try easy; [inversion E; subst; eauto|auto]. Qed.

Lemma Forall2_len : forall A B (P : A -> B -> Prop) l l', Forall2 P l l' -> length l = length l'.
Proof. intros A B P l l' F. induction F; cbn; auto. Qed.

(** ** Structure: what the steps do not change. *)
Definition same_arg (a b : field * arg) : Prop :=
  fst a = fst b /\ match snd a, snd b with Fun i _, Fun j _ => i = j | Const, Const => True | _, _ => False end.
Inductive same : op -> op -> Prop :=
| same_op : forall k args args' subs subs', Forall2 same_arg args args' ->
    Forall2 (fun p q => Forall2 same (snd p) (snd q)) subs subs' -> same (Op k args subs) (Op k args' subs').
Lemma same_arg_refl : forall l, Forall2 same_arg l l.
Proof. induction l as [|[f [|i r]] l IH]; constructor; auto; now split. Qed.
Lemma same_refl : forall o, same o o.
Proof.
  induction o as [k args subs IH] using op_ind2. constructor; [apply same_arg_refl|].
  induction subs as [|[st sub] subs IHs]; constructor.
  - cbn. assert (H : forall o, In o sub -> same o o) by (intros o I; apply (IH st sub o); [now left|auto]). clear - H.
    induction sub; constructor; [apply H; now left|apply IHsub; intros; apply H; now right].
  - apply IHs. intros st' sub' o I. apply IH with st'. now right.
Qed.
Lemma sames_refl : forall l, Forall2 same l l.
Proof. induction l; constructor; auto using same_refl. Qed.
Lemma same_written : forall ops' path k f i, written ops' path k f i -> forall ops, Forall2 same ops ops' -> written ops path k f i.
Proof.
  intros ops' path k f i W. induction W as [ops' k args subs f i r I Ia|ops' k args subs n st sub path k' f i I N W IH]; intros ops F.
  - destruct (Forall2_in_r _ _ _ _ _ _ F I) as (o & Io & S). inversion S; subst.
    match goal with H : Forall2 same_arg _ _ |- _ => destruct (Forall2_in_r _ _ _ _ _ _ H Ia) as ([f0 a0] & I0 & (E & M)) end.
    cbn in *. subst. destruct a0; [easy|subst]. econstructor; eauto.
  - destruct (Forall2_in_r _ _ _ _ _ _ F I) as (o & Io & S). inversion S as [? ? ? ? ? Ha Hs]; subst.
    destruct (Forall2_nth _ _ _ _ _ n Hs _ N) as ([st0 sub0] & N0 & F0). cbn in F0.
    replace (is_default k args n) with (is_default k args0 n).
    + econstructor; eauto.
    + unfold is_default. now rewrite (Forall2_len _ _ _ _ _ Ha).
Qed.
Lemma same_sym : forall o o', same o o' -> same o' o.
Proof.
  induction o as [k args subs IH] using op_ind2. intros o' S. inversion S as [? ? args' ? subs' Fa Fs]; subst. constructor.
  - clear - Fa. induction Fa; constructor; auto. destruct H as (E & M). split; auto. destruct (snd x), (snd y); auto.
  - clear - IH Fs. induction Fs as [|[st sub] [st' sub'] subs subs' F Fs' IHs]; constructor.
    + cbn in *. assert (H : forall o, In o sub -> forall o', same o o' -> same o' o) by (intros o I; apply (IH st sub o); [now left|auto]).
      clear - H F. induction F; constructor; [apply H; [now left|auto]|]. apply IHF. intros. apply H; auto. now right.
    + apply IHs. intros st0 sub0 o I. apply (IH st0 sub0 o). now right.
Qed.
Lemma sames_sym : forall l l', Forall2 same l l' -> Forall2 same l' l.
Proof. intros l l' F. induction F; constructor; auto using same_sym. Qed.
Lemma same_trans : forall o o' o'', same o o' -> same o' o'' -> same o o''.
Proof.
  induction o as [k args subs IH] using op_ind2. intros o' o'' S S'. inversion S as [? ? args' ? subs' Fa Fs]; subst.
  inversion S' as [? ? args'' ? subs'' Fa' Fs']; subst. constructor.
  - clear - Fa Fa'. revert args'' Fa'. induction Fa as [|x y l l' H F IH]; intros m F'; inversion F' as [|? z ? m' H' F'']; subst; constructor; auto.
    destruct H as (E & M), H' as (E' & M'). split; [congruence|]. destruct (snd x), (snd y), (snd z); try easy; congruence.
  - clear - IH Fs Fs'. revert subs'' Fs'. induction Fs as [|[st sub] [st' sub'] subs subs' F Fs IHs]; intros m F'; inversion F' as [|? [st'' sub''] ? m' H' F'']; subst; constructor.
    + cbn in *. assert (H : forall o, In o sub -> forall o' o'', same o o' -> same o' o'' -> same o o'') by (intros o I; apply (IH st sub o); [now left|auto]).
      clear - H F H'. revert sub'' H'. induction F as [|x y l l' E F IHF]; intros m F'; inversion F'; subst; constructor.
      * eapply H; [now left|eauto|auto].
      * apply IHF; auto. intros. eapply H; [now right|eauto|auto].
    + apply IHs; auto. intros st0 sub0 o I. apply (IH st0 sub0 o). now right.
Qed.
Lemma sames_trans : forall l l' l'', Forall2 same l l' -> Forall2 same l' l'' -> Forall2 same l l''.
Proof. intros l l' l'' F. revert l''. induction F; intros m F'; inversion F'; subst; constructor; eauto using same_trans. Qed.
Lemma same_depth : forall o o', same o o' -> depth o = depth o'.
Proof.
  induction o as [k args subs IH] using op_ind2. intros o' S. inversion S as [? ? args' ? subs' Fa Fs]; subst. cbn [depth]. f_equal. f_equal.
  clear - IH Fs. induction Fs as [|[st sub] [st' sub'] subs subs' F Fs IHs]; [reflexivity|]. cbn [map]. f_equal.
  - f_equal. cbn in *. assert (H : forall o, In o sub -> forall o', same o o' -> depth o = depth o') by (intros o I; apply (IH st sub o); [now left|auto]).
    clear - H F. induction F; [reflexivity|]. cbn. f_equal; [apply H; auto; now left|]. apply IHF. intros. apply H; auto. now right.
  - apply IHs. intros st0 sub0 o I. apply (IH st0 sub0 o). now right.
Qed.
Lemma sames_depths : forall l l', Forall2 same l l' -> depths l = depths l'.
Proof. unfold depths. intros l l' F. f_equal. induction F; [reflexivity|]. cbn. f_equal; auto using same_depth. Qed.
Lemma same_caseless : forall o o', same o o' -> caseless o -> caseless o'.
Proof.
  induction o as [k args subs IH] using op_ind2. intros o' S C. inversion S as [? ? args' ? subs' Fa Fs]; subst. inversion C as [? ? ? N H]; subst.
  constructor; auto. intros st' sub' o' I Io. destruct (Forall2_in_r _ _ _ _ _ _ Fs I) as ([st sub] & I' & F). cbn in F.
  destruct (Forall2_in_r _ _ _ _ _ _ F Io) as (o & I2 & So). eapply IH; eauto.
Qed.
Lemma same_remotes : forall o o', same o o' -> remotes_caseless o -> remotes_caseless o'.
Proof.
  induction o as [k args subs IH] using op_ind2. intros o' S C. inversion S as [? ? args' ? subs' Fa Fs]; subst. inversion C as [? ? ? H N]; subst.
  constructor.
  - intros st' sub' o' I Io. destruct (Forall2_in_r _ _ _ _ _ _ Fs I) as ([st sub] & I' & F). cbn in F.
    destruct (Forall2_in_r _ _ _ _ _ _ F Io) as (o & I2 & So). eapply IH; eauto.
  - intros -> st' sub' o' I Io. destruct (Forall2_in_r _ _ _ _ _ _ Fs I) as ([st sub] & I' & F). cbn in F.
    destruct (Forall2_in_r _ _ _ _ _ _ F Io) as (o & I2 & So). eapply same_caseless; eauto.
Qed.

Lemma pickle_same : forall o, same o (pickle_op o).
Proof.
  induction o as [k args subs IH] using op_ind2.
  assert (A : Forall2 same_arg args (map (fun fa => (fst fa, pickle_arg (snd fa))) args)).
  { clear. induction args as [|[f [|i r]] args IH]; constructor; auto; now split. }
  assert (B : Forall2 (fun p q : pipe => Forall2 same (snd p) (snd q)) subs (map (fun p => (fst p, map pickle_op (snd p))) subs)).
  { clear - IH. induction subs as [|[st sub] subs IHs]; constructor.
    - cbn. assert (H : forall o, In o sub -> same o (pickle_op o)) by (intros o I; apply (IH st sub o); [now left|auto]). clear - H.
      induction sub; constructor; [apply H; now left|apply IHsub; intros; apply H; now right].
    - apply IHs. intros st' sub' o I. apply (IH st' sub' o). now right. }
  assert (C : Forall2 (fun p q : pipe => Forall2 same (snd p) (snd q)) subs subs).
  { clear. induction subs; constructor; auto using sames_refl. }
  destruct k; cbn [pickle_op]; now constructor.
Qed.
Lemma pickles_same : forall l, Forall2 same l (pickle l).
Proof. induction l; constructor; auto using pickle_same. Qed.

Lemma setup_arg_same : forall k a b, snd (setup_arg k a) = Some b -> same_arg a b.
Proof.
  intros k [f a] b E. unfold setup_arg in E. destruct (setup_evaluates k f).
  - destruct a as [|i []]; cbn in E; inversion E; subst; now split.
  - unfold make_if in E. destruct (setup_makes k f), a as [|i r]; cbn in E; inversion E; subst; now split.
Qed.
Lemma setup_same : forall o o', snd (setup_op o) = Some o' -> same o o'.
Proof.
  induction o as [k args subs IH] using op_ind2. intros o' E. cbn [setup_op] in E. apply bind_some in E. destruct E as (args' & Ea & E).
  apply bind_some in E. destruct E as (subs' & Es & E). inversion E; subst. constructor.
  - apply each_some in Ea. clear - Ea. induction Ea; constructor; auto. now apply setup_arg_same with k.
  - destruct (sets_up k).
    + apply each_some in Es. clear - IH Es. induction Es as [|[st sub] p subs subs' F Fs IHs]; constructor.
      * cbn. destruct st.
        { inversion F; subst. apply sames_refl. }
        { apply bind_some in F. destruct F as (ops' & F & E). inversion E; subst. cbn. apply each_some in F.
          assert (H : forall o, In o sub -> forall o', snd (setup_op o) = Some o' -> same o o') by (intros o I; apply (IH false sub o); [now left|auto]).
          clear - H F. induction F; constructor; [apply H; auto; now left|apply IHF; intros; apply H; auto; now right]. }
      * apply IHs. intros st0 sub0 o I. apply (IH st0 sub0 o). now right.
    + inversion Es; subst. clear. induction subs'; constructor; auto using sames_refl.
Qed.
Lemma setups_same : forall l l', snd (setup l) = Some l' -> Forall2 same l l'.
Proof. intros l l' E. apply each_some in E. induction E; constructor; auto using setup_same. Qed.
Lemma setup_pipe_same : forall p q, snd (setup_pipe p) = Some q -> Forall2 same (snd p) (snd q).
Proof.
  intros [[] ops] q E; cbn in E; [inversion E; subst; apply sames_refl|]. apply bind_some in E. destruct E as (ops' & E & X).
  inversion X; subst. cbn. now apply setups_same.
Qed.

(** If setup is not completed, some function has failed. *)
Lemma setup_none : forall o, snd (setup_op o) = None -> exists u, In u (fst (setup_op o)) /\ works u = false.
Proof.
  induction o as [k args subs IH] using op_ind2. intros E. cbn [setup_op] in *. apply bind_none in E. destruct E as [E|(args' & Ea & E)].
  - apply each_none in E. destruct E as ([f a] & I & N & U).
    assert (X : exists u, In u (fst (setup_arg k (f, a))) /\ works u = false).
    { unfold setup_arg in *. destruct (setup_evaluates k f); [|easy]. destruct a as [|i []]; cbn in *; try easy. eexists. split; [now left|reflexivity]. }
    destruct X as (u & Iu & W). exists u. split; auto. apply bind_in. left. auto.
  - apply bind_none in E. destruct E as [E|(subs' & Es & E)]; [|easy].
    assert (X : exists u, In u (fst (if sets_up k
          then each (fun p => match p with (true, ops) => ret (true, ops) | (false, ops) => bind (each setup_op ops) (fun ops' => ret (true, ops')) end) subs
          else ret subs)) /\ works u = false).
    { destruct (sets_up k); [|easy]. apply each_none in E. destruct E as ([st sub] & I & N & U).
      assert (Y : exists u, In u (fst (bind (each setup_op sub) (fun ops' => ret (true, ops')))) /\ works u = false).
      { destruct st; [easy|]. apply bind_none in N. destruct N as [N|(x & _ & N)]; [|easy].
        apply each_none in N. destruct N as (o & Io & No & Uo).
        destruct (IH false sub o I Io No) as (u & Iu & W). exists u. split; auto. apply bind_in. left. auto. }
      destruct st; [easy|]. destruct Y as (u & Iu & W). exists u. split; auto. }
    destruct X as (u & Iu & W). exists u. split; auto. apply bind_in. right. exists args'. split; auto. apply bind_in. left. auto.
Qed.
Lemma setups_none : forall l, snd (setup l) = None -> exists u, In u (fst (setup l)) /\ works u = false.
Proof.
  intros l E. apply each_none in E. destruct E as (o & I & N & U).
  destruct (setup_none o N) as (u & Iu & W). exists u. split; auto. 
Qed.
Lemma setup_pipe_none : forall p, snd (setup_pipe p) = None -> exists u, In u (fst (setup_pipe p)) /\ works u = false.
Proof.
  intros [[] ops] E; [easy|]. cbn [setup_pipe] in *. apply bind_none in E. destruct E as [E|(x & _ & E)]; [|easy].
  destruct (setups_none ops E) as (u & I & W). exists u. split; auto. apply bind_in. now left.
Qed.
