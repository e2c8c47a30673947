(** A pipeline that has been set up computes what its operators say. *)
From Verif.Ops Require Export ApiFunSpec.
Local Open Scope list_scope.

Lemma set_same : forall A (f : nat -> A) i x, set f i x i = x.
Proof. intros. unfold set. now rewrite Nat.eqb_refl. Qed.
Lemma set_other : forall A (f : nat -> A) i j x, j <> i -> set f i x j = f j.
Proof. intros. unfold set. destruct (Nat.eqb_spec j i); congruence. Qed.

Lemma f2_length : forall A B (R : A -> B -> Prop) l l', Forall2 R l l' -> length l = length l'.
Proof. induction 1; cbn; congruence. Qed.

(** ** The operators, with what they have received, as functions *)
Fixpoint flows (bs : list behaviour) (hs : list (list val)) (xs : list val) : list (list val) * list val :=
  match bs, hs with
  | b :: bs, h :: hs => let (hs, o) := flows bs hs (answers b h xs) in ((h ++ xs) :: hs, o)
  | _, _ => ([], xs)
  end.
Fixpoint finish (bs : list behaviour) (hs : list (list val)) : list val :=
  match bs, hs with
  | b :: bs, h :: hs => let (hs, o) := flows bs hs (on_flush b h) in o ++ finish bs hs
  | _, _ => []
  end.

Lemma answers_app : forall b xs ys h, answers b h (xs ++ ys) = answers b h xs ++ answers b (h ++ xs) ys.
Proof.
  intros b xs ys. induction xs as [ | x xs IH]; intros h; cbn; [now rewrite app_nil_r | ]. rewrite IH, <- !app_assoc. cbn. reflexivity.
Qed.
Lemma flows_app : forall bs hs xs ys, length hs = length bs -> flows bs hs (xs ++ ys) =
  let (h1, o1) := flows bs hs xs in let (h2, o2) := flows bs h1 ys in (h2, o1 ++ o2).
Proof.
  induction bs as [ | b bs IH]; intros [ | h hs] xs ys L; try discriminate; [reflexivity | ]. cbn. rewrite answers_app, IH by (cbn in L; lia).
  destruct (flows bs hs (answers b h xs)) as [h1 o1]. cbn. destruct (flows bs h1 (answers b (h ++ xs) ys)) as [h2 o2]. now rewrite app_assoc.
Qed.
Lemma flows_length : forall bs hs xs, length hs = length bs -> length (fst (flows bs hs xs)) = length bs.
Proof.
  induction bs as [ | b bs IH]; intros [ | h hs] xs L; try discriminate; [reflexivity | ]. cbn. specialize (IH hs (answers b h xs)).
  destruct (flows bs hs (answers b h xs)); cbn in *. rewrite IH; lia.
Qed.
Lemma flows_nil : forall bs hs, length hs = length bs -> flows bs hs [] = (hs, []).
Proof. induction bs as [ | b bs IH]; intros [ | h hs] L; try discriminate; [reflexivity | ]. cbn in *. rewrite IH by lia. now rewrite app_nil_r. Qed.
Lemma flows_finish : forall bs xs, (let (hs, o) := flows bs (map (fun _ => []) bs) xs in o ++ finish bs hs) = fold_left (fun xs b => stage b xs) bs xs.
Proof.
  induction bs as [ | b bs IH]; intros xs; cbn; [apply app_nil_r | ]. rewrite <- IH. unfold stage. rewrite flows_app by (now rewrite map_length).
  destruct (flows bs (map (fun _ => []) bs) (answers b [] xs)) as [h1 o1] eqn:E. cbn. destruct (flows bs h1 (on_flush b xs)) as [h2 o2]. now rewrite app_assoc.
Qed.

(** ** Operators in memory that are linked: the plain ones, then the redirections *)
Definition same (m m' : mem) : Prop := next m' = next m /\ kinds m' = kinds m /\ receiver m' = receiver m /\ cells m' = cells m.
Lemma same_refl : forall m, same m m. Proof. now repeat split. Qed.
Lemma same_trans : forall a b c, same a b -> same b c -> same a c.
Proof. intros a b c (A & B & C & D) (A' & B' & C' & D'). repeat split; congruence. Qed.

Fixpoint linked (m : mem) (l : list nat) : Prop :=
  match l with
  | [] => True
  | i :: l => receiver m i = hd_error l /\ linked m l
  end.
Lemma linked_same : forall l m m', same m m' -> linked m l -> linked m' l.
Proof. induction l as [ | i l IH]; intros m m' S H; [exact I | ]. destruct H. destruct S as (A & B & C & D). cbn. split; [congruence | ]. eapply IH; eauto. now repeat split. Qed.
Definition plains (m : mem) (ids : list nat) (bs : list behaviour) : Prop := Forall2 (fun i b => kinds m i = Plain b) ids bs.
Definition redirects (m : mem) (l : list nat) : Prop := Forall (fun i => kinds m i = Redirect) l.
Definition holds (m : mem) (ids : list nat) (hs : list (list val)) : Prop := map (hist m) ids = hs.
(** Only what the operators [ids] have received has changed *)
Definition within (m m' : mem) (ids : list nat) : Prop := forall i, ~ In i ids -> hist m' i = hist m i.

Lemma plains_same : forall m m' ids bs, same m m' -> plains m ids bs -> plains m' ids bs.
Proof. intros m m' ids bs (_ & K & _) H. unfold plains in *. now rewrite K. Qed.
Lemma redirects_same : forall m m' l, same m m' -> redirects m l -> redirects m' l.
Proof. intros m m' l (_ & K & _) H. unfold redirects in *. now rewrite K. Qed.
Lemma holds_within : forall m m' ids js hs, within m m' js -> (forall i, In i ids -> ~ In i js) -> holds m ids hs -> holds m' ids hs.
Proof. intros m m' ids js hs W D H. unfold holds in *. rewrite <- H. apply map_ext_in. intros i I. apply W, D, I. Qed.

Lemma receives_chain : forall bs n m ids r rs hs xs, length bs < n -> NoDup ids -> plains m ids bs -> redirects m (r :: rs) -> linked m (ids ++ r :: rs) ->
  holds m ids hs -> exists m', send_all (receives n) (hd_error (ids ++ [r])) xs m = Some m' /\ same m m' /\ within m m' ids /\
    holds m' ids (fst (flows bs hs xs)) /\ out m' = out m ++ snd (flows bs hs xs).
Proof.
  induction bs as [ | b bs IH]; intros n m ids r rs hs xs N ND P R L H.
  - inversion P; subst. cbn. clear - N R. revert m R. induction xs as [ | x xs IHx]; intros m R; cbn.
    + exists m. rewrite app_nil_r. repeat split.
    + destruct n as [ | n]; [cbn in N; lia | ]. cbn. inversion R as [ | ? ? E R']; subst. rewrite E. destruct (IHx (emit m x)) as (m' & A & B & C & D & O); [exact R | ].
      exists m'. split; [exact A | ]. split; [exact B | ]. split; [exact C | ]. split; [reflexivity | ]. rewrite O. cbn. now rewrite <- app_assoc.
  - inversion P as [ | i ? ids' ? K P']; subst. cbn [app hd_error]. unfold holds in H. cbn in H.
    assert (HL : length (map (hist m) ids') = length bs) by (rewrite map_length; now apply f2_length in P').
    subst hs. revert m P K P' R L HL. induction xs as [ | x xs IHx]; intros m P K P' R L HL.
    + exists m. cbn. rewrite flows_nil by exact HL. cbn. split; [reflexivity | ]. split; [apply same_refl | ]. split; [now intros ? ? | ]. unfold holds. cbn. now rewrite !app_nil_r.
    + cbn [send_all]. destruct n as [ | n]; [cbn in N; lia | ]. change (receives (S n) m i x) with
        (match kinds m i with Redirect => Some (emit m x) | Plain b => send_all (receives n) (receiver m i) (on_receive b (hist m i) x) (set_hist m i (hist m i ++ [x])) end).
      rewrite K. set (m1 := set_hist m i (hist m i ++ [x])). assert (S1 : same m m1) by now repeat split.
      cbn in L. destruct L as [L1 L2]. inversion ND as [ | ? ? NI ND']; subst.
      assert (H1 : map (hist m1) ids' = map (hist m) ids') by (apply map_ext_in; intros j J; cbn; apply set_other; intros ->; contradiction).
      destruct (IH n m1 ids' r rs (map (hist m) ids') (on_receive b (hist m i) x)) as (m2 & A & B & C & D & O); auto; [cbn in N; lia | exact (linked_same _ _ _ S1 L2) | ].
      assert (RC : receiver m i = hd_error (ids' ++ [r])) by (rewrite L1; now destruct ids'). rewrite RC, A.
      assert (S2 : same m m2) by exact (same_trans _ _ _ S1 B).
      assert (HI : hist m2 i = hist m i ++ [x]) by (rewrite C by exact NI; cbn; apply set_same).
      assert (HL2 : length (map (hist m2) ids') = length bs) by (unfold holds in D; rewrite D; now apply flows_length).
      destruct (IHx m2) as (m3 & A3 & B3 & C3 & D3 & O3); try (eapply plains_same; eassumption); try (eapply redirects_same; eassumption); auto.
      { destruct S2 as (_ & KK & _). now rewrite KK. }
      { cbn. split; [destruct S2 as (_ & _ & RR & _); now rewrite RR | exact (linked_same _ _ _ S2 L2)]. }
      exists m3. split; [exact A3 | ]. split; [exact (same_trans _ _ _ S2 B3) | ]. split.
      { intros j J. rewrite C3 by exact J. cbn in J. rewrite C by tauto. cbn. apply set_other. intuition. }
      unfold holds in *. cbn in D3, O3 |- *. rewrite D3, O3, O, HI, D. cbn. rewrite flows_app by exact HL.
      destruct (flows bs (map (hist m) ids') (on_receive b (hist m i) x)) as [h1 o1]. cbn. destruct (flows bs h1 (answers b (hist m i ++ [x]) xs)) as [h2 o2].
      cbn. rewrite <- !app_assoc. auto.
Qed.

Lemma flush_redirects : forall l n m i, length l < n -> redirects m (i :: l) -> linked m (i :: l) -> flush n m i = Some m.
Proof.
  induction l as [ | j l IH]; intros n m i N R L; (destruct n as [ | n]; [cbn in N; lia | ]); cbn; inversion R as [ | ? ? E R']; subst; rewrite E; destruct L as [L1 L2]; rewrite L1; cbn; [reflexivity | ].
  apply IH; auto. cbn in N; lia.
Qed.

Lemma flush_chain : forall bs n m ids r rs hs i, length bs + length rs < n -> NoDup ids -> plains m ids bs -> redirects m (r :: rs) -> linked m (ids ++ r :: rs) ->
  holds m ids hs -> hd_error (ids ++ [r]) = Some i -> exists m', flush n m i = Some m' /\ same m m' /\ out m' = out m ++ finish bs hs.
Proof.
  induction bs as [ | b bs IH]; intros n m ids r rs hs i N ND P R L H HD.
  - inversion P; subst. cbn in HD. injection HD as <-. exists m. cbn in L. rewrite (flush_redirects rs) by (auto; cbn in N; lia). split; [reflexivity | ]. split; [apply same_refl | ]. cbn. now rewrite app_nil_r.
  - inversion P as [ | j ? ids' ? K P']; subst. cbn in HD. injection HD as ->. destruct n as [ | n]; [cbn in N; lia | ].
    change (flush (S n) m i) with (match (match kinds m i with Redirect => Some m | Plain b => send_all (receives n) (receiver m i) (on_flush b (hist m i)) m end) with
      | None => None | Some m => match receiver m i with None => Some m | Some j => flush n m j end end). rewrite K.
    cbn in L. destruct L as [L1 L2]. inversion ND as [ | ? ? NI ND']; subst. assert (RC : receiver m i = hd_error (ids' ++ [r])) by (rewrite L1; now destruct ids').
    destruct (receives_chain bs n m ids' r rs (map (hist m) ids') (on_flush b (hist m i))) as (m2 & A & B & C & D & O); auto; [cbn in N; lia | reflexivity | ].
    rewrite RC, A. assert (RC2 : receiver m2 i = hd_error (ids' ++ [r])) by (destruct B as (_ & _ & RR & _); now rewrite RR). rewrite RC2.
    destruct (hd_error (ids' ++ [r])) as [k | ] eqn:HK; [ | now destruct ids'].
    destruct (IH n m2 ids' r rs (fst (flows bs (map (hist m) ids') (on_flush b (hist m i)))) k) as (m3 & A3 & B3 & O3); auto; try (eapply plains_same; eassumption); try (eapply redirects_same; eassumption); try (eapply linked_same; eassumption).
    { cbn in N. lia. }
    exists m3. split; [exact A3 | ]. split; [exact (same_trans _ _ _ B B3) | ]. rewrite O3, O. unfold holds in H. subst hs. cbn.
    destruct (flows bs (map (hist m) ids') (on_flush b (hist m i))) as [h1 o1]. cbn. now rewrite app_assoc.
Qed.
