(** C81: case with pipelines of the Python API; what is false of the code. *)
From Verif.Ops Require Export ApiFunProps.
Local Open Scope list_scope.

(** ** Branches of one operator *)
Definition single (bs : list branch) : Prop := forall q b l, In (q, (b, l)) bs -> l = [].
Fixpoint tags (base : nat) (bs : list branch) : list ((val -> bool) * nat) :=
  match bs with [] => [] | b :: bs => (fst b, base) :: tags (S (S base)) bs end.
(** The branch [k] is the operator [base + 2 k], which sends to the redirection [base + 2 k + 1] *)
Definition laid (m : mem) (base : nat) (bs : list branch) : Prop :=
  forall k q b l, nth_error bs k = Some (q, (b, l)) ->
    kinds m (base + 2 * k) = Plain b /\ receiver m (base + 2 * k) = Some (S (base + 2 * k)) /\ kinds m (S (base + 2 * k)) = Redirect /\ receiver m (S (base + 2 * k)) = None.
Definition received (m : mem) (base : nat) (bs : list branch) (xs : list val) : Prop := forall k, k < length bs -> hist m (base + 2 * k) = went bs xs k.

Lemma case_make_single : forall bs m, single bs -> exists m', case_make bs m = (tags (next m) bs, m') /\ laid m' (next m) bs /\
  (forall k, k < length bs -> hist m' (next m + 2 * k) = []) /\ out m' = out m /\
  (forall i, i < next m -> kinds m' i = kinds m i /\ receiver m' i = receiver m i /\ hist m' i = hist m i).
Proof.
  induction bs as [ | [q [b l]] bs IH]; intros m SG.
  - exists m. split; [reflexivity | ]. split; [intros [ | k] ? ? ? E; discriminate | ]. split; [cbn; intros; lia | ]. auto.
  - assert (l = []) as -> by (apply (SG q b); now left). cbn [case_make new_ops new_op fst snd tags hd last]. cbn [new_op next kinds receiver hist cells out set_receiver fst snd].
    match goal with |- context [case_make bs ?x] => set (m1 := x) end.
    destruct (IH m1) as (m' & A & B & C & D & E); [intros ? ? ? I; eapply SG; right; exact I | ]. cbn [next m1 set_receiver] in *. rewrite A. exists m'. split; [reflexivity | ].
    assert (N0 : kinds m' (next m) = Plain b /\ receiver m' (next m) = Some (S (next m)) /\ hist m' (next m) = []).
    { destruct (E (next m)) as (X & Y & Z); [lia | ]. rewrite X, Y, Z. cbn. repeat (rewrite set_same || rewrite set_other by lia). auto. }
    assert (N1 : kinds m' (S (next m)) = Redirect /\ receiver m' (S (next m)) = None).
    { destruct (E (S (next m))) as (X & Y & Z); [lia | ]. rewrite X, Y. cbn. repeat (rewrite set_same || rewrite set_other by lia). auto. }
    split; [ | split; [ | split]].
    + intros [ | k] q' b' l' N.
      * cbn in N. injection N as <- <- <-. rewrite Nat.mul_0_r, Nat.add_0_r. tauto.
      * cbn in N. destruct (B k q' b' l' N) as (U & V & W & Z). replace (next m + 2 * S k) with (S (S (next m)) + 2 * k) by lia. auto.
    + intros [ | k] L; [rewrite Nat.mul_0_r, Nat.add_0_r; tauto | ]. replace (next m + 2 * S k) with (S (S (next m)) + 2 * k) by lia. apply C. cbn in L. lia.
    + exact D.
    + intros i L. destruct (E i) as (X & Y & Z); [lia | ]. rewrite X, Y, Z. cbn. repeat (rewrite set_other by lia). auto.
Qed.

Lemma case_receive_route : forall limit bs base m x, case_receive limit (tags base bs) m x = match route bs x with Some k => receives limit m (base + 2 * k) x | None => Some m end.
Proof.
  intros limit bs. induction bs as [ | [q bl] bs IH]; intros base m x; [reflexivity | ]. cbn [tags case_receive route fst]. destruct (q x); [now rewrite Nat.mul_0_r, Nat.add_0_r | ].
  rewrite IH. destruct (route bs x) as [k | ]; cbn [option_map]; [ | reflexivity]. f_equal. lia.
Qed.
Lemma route_bound : forall bs x k, route bs x = Some k -> k < length bs.
Proof.
  induction bs as [ | [q bl] bs IH]; intros x k E; cbn in *; [discriminate | ]. destruct (q x); [injection E as <-; lia | ]. destruct (route bs x) as [j | ] eqn:F; [ | discriminate].
  cbn in E. injection E as <-. specialize (IH x j F). lia.
Qed.
Lemma went_snoc : forall bs xs x k, went bs (xs ++ [x]) k = went bs xs k ++ (match route bs x with Some j => if Nat.eqb j k then [x] else [] | None => [] end).
Proof. intros. unfold went. rewrite filter_app. cbn. destruct (route bs x); [destruct (Nat.eqb n k) | ]; reflexivity. Qed.

Lemma one_receives : forall limit m i b xs x, 2 <= limit -> kinds m i = Plain b -> receiver m i = Some (S i) -> kinds m (S i) = Redirect -> receiver m (S i) = None -> hist m i = xs ->
  exists m', receives limit m i x = Some m' /\ same m m' /\ hist m' i = xs ++ [x] /\ (forall j, j <> i -> hist m' j = hist m j) /\ out m' = out m ++ on_receive b xs x.
Proof.
  intros limit m i b xs x L K R K' R' H.
  destruct (receives_chain [b] limit m [i] (S i) [] [xs] [x]) as (m' & A & B & C & D & O); try (repeat constructor; auto).
  - unfold holds. cbn. now rewrite H.
  - cbn in A. exists m'. destruct (receives limit m i x) as [m1 | ]; [ | discriminate]. injection A as ->. split; [reflexivity | ]. split; [exact B | ]. cbn in D, O. injection D as D. rewrite app_nil_r in O.
    split; [exact D | ]. split; [ | exact O]. intros j J. apply C. cbn. intuition.
Qed.

Lemma laid_same : forall m m' base bs, same m m' -> laid m base bs -> laid m' base bs.
Proof. intros m m' base bs (_ & K & R & _) L k q b l E. rewrite K, R. exact (L k q b l E). Qed.

Lemma case_receives_single : forall limit bs base xs before m, 2 <= limit -> laid m base bs -> received m base bs before ->
  exists m', case_receives limit (tags base bs) m xs = Some m' /\ laid m' base bs /\ received m' base bs (before ++ xs) /\ out m' = out m ++ case_answers bs before xs.
Proof.
  intros limit bs base. induction xs as [ | x xs IH]; intros before m L LD RC; cbn [case_receives case_answers].
  - exists m. rewrite !app_nil_r. auto.
  - rewrite case_receive_route.
    assert (Q : exists m1, match route bs x with Some k => receives limit m (base + 2 * k) x | None => Some m end = Some m1 /\ laid m1 base bs /\ received m1 base bs (before ++ [x]) /\
      out m1 = out m ++ match route bs x with Some k => match first_op bs k with Some b => on_receive b (went bs before k) x | None => [] end | None => [] end).
    { destruct (route bs x) as [k | ] eqn:E.
      - assert (KB := route_bound _ _ _ E). destruct (nth_error bs k) as [[q [b l]] | ] eqn:N; [ | apply nth_error_None in N; lia].
        destruct (LD k q b l N) as (U & V & W & Z). destruct (one_receives limit m (base + 2 * k) b (went bs before k) x) as (m1 & A & B & C & D & O); auto.
        exists m1. split; [exact A | ]. split; [exact (laid_same _ _ _ _ B LD) | ]. split; [ | unfold first_op; rewrite N; exact O].
        intros j J. rewrite went_snoc, E. destruct (Nat.eqb_spec k j) as [-> | NE]; [exact C | ]. rewrite D by lia. rewrite app_nil_r. now apply RC.
      - exists m. rewrite app_nil_r. split; [reflexivity | ]. split; [exact LD | ]. split; [ | reflexivity]. intros j J. rewrite went_snoc, E, app_nil_r. now apply RC. }
    destruct Q as (m1 & -> & L1 & R1 & O1). destruct (IH (before ++ [x]) m1 L L1 R1) as (m' & A & B & C & O). exists m'. split; [exact A | ]. split; [exact B | ].
    split; [now rewrite <- app_assoc in C | ]. now rewrite O, O1, <- app_assoc.
Qed.

Lemma case_flush_single : forall limit bs rest base xs j m, 2 <= limit -> (forall k, nth_error rest k = nth_error bs (j + k)) -> j + length rest = length bs -> laid m base bs -> received m base bs xs ->
  exists m', case_flush limit (tags (base + 2 * j) rest) m = Some m' /\
    out m' = out m ++ flat_map (fun k => match first_op bs k with Some b => on_flush b (went bs xs k) | None => [] end) (seq j (length rest)).
Proof.
  intros limit bs. induction rest as [ | r rest IH]; intros base xs j m L EQ LN LD RC; cbn [tags case_flush length seq flat_map].
  - exists m. now rewrite app_nil_r.
  - pose proof (EQ 0) as E0. rewrite Nat.add_0_r in E0. cbn in E0. destruct r as [q [b l]]. symmetry in E0. destruct (LD j q b l E0) as (U & V & W & Z).
    assert (HJ : hist m (base + 2 * j) = went bs xs j) by (apply RC; cbn in LN; lia).
    assert (Q : exists m1, flush limit m (base + 2 * j) = Some m1 /\ same m m1 /\ hist m1 = hist m /\ out m1 = out m ++ on_flush b (went bs xs j)).
    { destruct limit as [ | [ | n]]; try lia. cbn [flush]. rewrite U. rewrite V, HJ.
      assert (S1 : forall ys m0, kinds m0 = kinds m -> exists m1, send_all (receives (S n)) (Some (S (base + 2 * j))) ys m0 = Some m1 /\ same m0 m1 /\ hist m1 = hist m0 /\ out m1 = out m0 ++ ys).
      { induction ys as [ | y ys IHy]; intros m0 K0; [exists m0; rewrite app_nil_r; repeat split | ]. cbn [send_all receives]. rewrite K0, W.
        destruct (IHy (emit m0 y)) as (m1 & A & B & C & D); [exact K0 | ]. exists m1. split; [exact A | ]. split; [exact B | ]. split; [exact C | ]. rewrite D. cbn. now rewrite <- app_assoc. }
      destruct (S1 (on_flush b (went bs xs j)) m eq_refl) as (m1 & A & B & C & D). rewrite A. pose proof B as (_ & K1 & R1 & _). rewrite R1, V. exists m1.
      rewrite K1, W, R1, Z. auto. }
    destruct Q as (m1 & -> & S1 & H1 & O1). destruct (IH base xs (S j) m1) as (m' & A & O); auto.
    + intros k. specialize (EQ (S k)). cbn in EQ. rewrite EQ. f_equal. lia.
    + cbn in LN. lia.
    + exact (laid_same _ _ _ _ S1 LD).
    + intros k K. rewrite H1. now apply RC.
    + replace (S (S (base + 2 * j))) with (base + 2 * S j) by lia. exists m'. split; [exact A | ]. assert (F0 : first_op bs j = Some b) by (unfold first_op; now rewrite E0). rewrite F0, O, O1. now rewrite app_assoc.
Qed.

(** gather(xs | case(...)), with branches of one operator: what each branch says about the tuples that go to it, in the order in which they
    come, then what the branches say at the end *)
Theorem c81_case_partial : forall limit bs xs, 2 <= limit -> single bs -> case_run limit bs xs = Some (case_answers bs [] xs ++ case_end bs xs).
Proof.
  intros limit bs xs L SG. unfold case_run. destruct (case_make_single bs no_mem SG) as (m & -> & LD & H & O & _).
  destruct (case_receives_single limit bs 0 xs [] m L LD) as (m1 & A1 & L1 & R1 & O1).
  { intros k K. exact (H k K). }
  cbn [next no_mem]. rewrite A1. destruct (case_flush_single limit bs bs 0 xs 0 m1 L) as (m2 & A2 & O2); auto. cbn [Nat.mul Nat.add] in A2. rewrite A2, O2, O1, O. reflexivity.
Qed.

(** ** A branch of two operators or more delivers nothing *)
Definition long (bs : list branch) : Prop := forall q b l, In (q, (b, l)) bs -> l <> [].
Lemma case_make_long : forall bs m, long bs -> exists qs m', case_make bs m = (qs, m') /\ out m' = out m /\
  (forall q i, In (q, i) qs -> exists b, kinds m' i = Plain b /\ receiver m' i = None) /\
  (forall i, i < next m -> kinds m' i = kinds m i /\ receiver m' i = receiver m i).
Proof.
  induction bs as [ | [q [b l]] bs IH]; intros m LG.
  - exists [], m. cbn. repeat split; auto. intros ? ? [].
  - assert (NE : l <> []) by (apply (LG q b); now left). cbn [case_make]. destruct (new_ops m (b :: l)) as [ids m1] eqn:E. destruct (new_ops_spec _ _ _ _ E) as (A1 & A2 & A3 & A4 & A5 & A6 & A7).
    cbn [new_op]. set (m3 := set_receiver _ _ _). destruct (IH m3) as (qs & m' & B1 & B2 & B3 & B4); [intros ? ? ? I; eapply LG; right; exact I | ]. rewrite B1.
    do 2 eexists. split; [reflexivity | ]. split; [rewrite B2; exact A7 | ].
    assert (LAST : next m < last ids 0 < next m1).
    { rewrite A1, A2. destruct (@exists_last _ l NE) as (u & v & ->). cbn [length]. rewrite app_length. cbn [length]. rewrite Nat.add_1_r. rewrite seq_S, last_last. lia. }
    cbn [next m3 set_receiver] in B4. split.
    + intros q' i [I | I]; [ | now apply (B3 q')]. injection I as <- <-. exists b. assert (hd 0 ids = next m) as -> by (rewrite A1; reflexivity).
      destruct (B4 (next m)) as [X Y]; [lia | ]. rewrite X, Y. cbn. repeat (rewrite set_other by lia). split; [ | apply A5; rewrite A1; now left]. rewrite A1 in A3. cbn in A3. inversion A3; auto.
    + intros i I. destruct (B4 i) as [X Y]; [lia | ]. rewrite X, Y. cbn. repeat (rewrite set_other by lia). destruct (A4 i I) as (U & V & _). auto.
Qed.
Theorem c81_case_refuted : forall limit bs xs, 1 <= limit -> long bs -> case_run limit bs xs = Some [].
Proof.
  intros limit bs xs L LG. unfold case_run. destruct (case_make_long bs no_mem LG) as (qs & m & -> & O & P & _).
  assert (R : forall xs m, (forall q i, In (q, i) qs -> exists b, kinds m i = Plain b /\ receiver m i = None) -> exists m', case_receives limit qs m xs = Some m' /\ same m m' /\ out m' = out m).
  { clear - L. destruct limit as [ | n]; [lia | ]. induction xs as [ | x xs IH]; intros m P; cbn [case_receives]; [exists m; repeat split | ].
    assert (Q : exists m', case_receive (S n) qs m x = Some m' /\ same m m' /\ out m' = out m).
    { clear IH. induction qs as [ | [q i] qs IHq]; cbn [case_receive]; [exists m; repeat split | ]. destruct (q x); [ | apply IHq; intros; eapply P; right; eauto].
      destruct (P q i (or_introl eq_refl)) as (b & K & V). cbn [receives]. rewrite K, V. exists (set_hist m i (hist m i ++ [x])). split; [ | repeat split]. now destruct (on_receive b (hist m i) x). }
    destruct Q as (m' & -> & S & O). destruct (IH m') as (m'' & A & B & C); [intros q i I; destruct S as (_ & K & V & _); rewrite K, V; eauto | ]. exists m''. split; [exact A | ]. split; [exact (same_trans _ _ _ S B) | congruence]. }
  destruct (R xs m P) as (m1 & -> & S & O1).
  assert (F : forall qs', (forall q i, In (q, i) qs' -> In (q, i) qs) -> case_flush limit qs' m1 = Some m1).
  { clear R. destruct limit as [ | n]; [lia | ]. induction qs' as [ | [q i] qs' IH]; intros SUB; [reflexivity | ]. cbn [case_flush flush]. destruct (P q i) as (b & K & V); [apply SUB; now left | ].
    destruct S as (_ & K1 & V1 & _). rewrite K1, K, V1, V. assert (Z : send_all (receives n) None (on_flush b (hist m1 i)) m1 = Some m1) by now destruct (on_flush b (hist m1 i)). rewrite Z.
    rewrite V1, V. apply IH. intros; apply SUB; now right. }
  rewrite F by auto. now rewrite O1, O.
Qed.
