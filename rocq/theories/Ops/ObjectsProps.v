(** C82: unique, difference and join of files, processes and other objects. *)
From Verif.Ops Require Export ObjectsFacts.
Local Open Scope list_scope.

Fixpoint key_dec (a b : key) {struct a} : {a = b} + {a <> b}.
Proof.
  assert (L : forall xs ys : list key, {xs = ys} + {xs <> ys}) by (apply list_eq_dec; exact key_dec).
  destruct a, b; try (right; discriminate); try (left; reflexivity).
  - destruct (Z.eq_dec z z0); [left | right]; congruence.
  - destruct (string_dec s s0); [left | right]; congruence.
  - destruct (L ks ks0); [left | right]; congruence.
  - destruct (L ks ks0); [left | right]; congruence.
  - destruct (list_eq_dec string_dec cs cs0); [ | right; congruence]. destruct r, r0; try (right; congruence); left; congruence.
  - destruct (list_eq_dec string_dec cs cs0); [ | right; congruence]. destruct r, r0; try (right; congruence); left; congruence.
  - destruct (Nat.eq_dec pid pid0); [left | right]; congruence.
  - destruct (Nat.eq_dec id id0); [left | right]; congruence.
  - destruct (Nat.eq_dec id id0); [left | right]; congruence.
Defined.

(** ** Comparisons *)
Theorem c82_equal : forall a b, comparable a b -> (eq a b = Ok true /\ key_of a = key_of b) \/ (eq a b = Ok false /\ key_of a <> key_of b).
Proof. intros a b C. destruct (eq_decides a b C) as ([] & -> & D); [left | right]; (split; [reflexivity | ]); [now apply D | intros E; now apply D in E]. Qed.
Theorem c82_hash : forall H a b, can_be_key a -> key_of a = key_of b -> exists h, hash H a = Ok h /\ hash H b = Ok h.
Proof. intros H a b K E. destruct (hash_ok H a K) as [h A]. exists h. split; [exact A | ]. now rewrite <- (hash_eq H a b E). Qed.

(** ** Dicts, by keys *)
Section Dict.
  Variables (H : hashes) (U : obj -> Prop) (V : Type).
  Hypothesis UC : forall a b, U a -> U b -> comparable a b.
  Fixpoint lookup (k : key) (d : list (Z * obj * V)) : option V :=
    match d with [] => None | (_, y, v) :: d => if key_dec (key_of y) k then Some v else lookup k d end.
  Definition entry_ok (e : Z * obj * V) : Prop := hash H (snd (fst e)) = Ok (fst (fst e)) /\ U (snd (fst e)).
  Definition dict_keys (d : list (Z * obj * V)) : list key := map (fun e => key_of (snd (fst e))) d.
  Definition dict_ok (d : list (Z * obj * V)) : Prop := Forall entry_ok d /\ NoDup (dict_keys d).

  Lemma find_lookup : forall h x d, hash H x = Ok h -> U x -> Forall entry_ok d -> find h x d = Ok (lookup (key_of x) d).
  Proof.
    intros h x d HX UX. induction 1 as [ | [[h' y] v] d [HY UY] _ IH]; [reflexivity | ]. cbn in HY, UY |- *.
    destruct (key_dec (key_of y) (key_of x)) as [E | E].
    - pose proof (hash_eq H y x E) as Q. rewrite HY, HX in Q. injection Q as ->. rewrite Z.eqb_refl.
      destruct (eq_decides y x (UC y x UY UX)) as (b & -> & D). apply D in E as ->. reflexivity.
    - destruct (Z.eqb_spec h' h) as [_ | _]; [ | exact IH]. destruct (eq_decides y x (UC y x UY UX)) as ([] & -> & D); [exfalso; apply E; now apply D | exact IH].
  Qed.
  Lemma lookup_none : forall k d, ~ In k (dict_keys d) -> lookup k d = None.
  Proof. induction d as [ | [[h y] v] d IH]; intros N; [reflexivity | ]. cbn in *. destruct (key_dec (key_of y) k); [exfalso; now apply N; left | ]. apply IH. tauto. Qed.
  Lemma update_ok : forall h x v d, hash H x = Ok h -> U x -> dict_ok d ->
    exists d', update h x v d = Ok d' /\ dict_ok d' /\ (forall k, lookup k d' = if key_dec (key_of x) k then v else lookup k d) /\
      (forall k, In k (dict_keys d') -> k = key_of x \/ In k (dict_keys d)).
  Proof.
    intros h x v d HX UX [F N]. revert N. induction F as [ | [[h' y] w] d [HY UY] F IH]; intros N.
    - destruct v as [v | ]; eexists; (split; [reflexivity | ]).
      + split; [split; [constructor; [now split | constructor] | repeat constructor; intros []] | ]. split; [reflexivity | ]. intros k [<- | []]. now left.
      + split; [split; constructor | ]. split; [ | intros k []]. intros k. cbn. now destruct (key_dec (key_of x) k).
    - cbn in HY, UY. inversion N as [ | ? ? N1 N2]; subst. cbn in N1. destruct (IH N2) as (d' & E & (F' & N') & L & K). clear IH. cbn [update].
      destruct (key_dec (key_of y) (key_of x)) as [EK | EK].
      + pose proof (hash_eq H y x EK) as Q. rewrite HY, HX in Q. injection Q as ->. rewrite Z.eqb_refl.
        destruct (eq_decides y x (UC y x UY UX)) as (b & -> & D). assert (b = true) as -> by now apply D. cbn [bind].
        destruct v as [v | ]; eexists; (split; [reflexivity | ]).
        * split; [split; [constructor; [now split | exact F] | exact N] | ]. split; [ | intros k I; now right]. intros k. cbn. rewrite EK. now destruct (key_dec (key_of x) k).
        * split; [split; [exact F | exact N2] | ]. split; [ | intros k I; now right; right]. intros k. cbn. rewrite EK. destruct (key_dec (key_of x) k) as [<- | ]; [ | reflexivity]. apply lookup_none. now rewrite <- EK.
      + assert (Q : (if (h' =? h)%Z then bind (eq y x) (fun same => if same : bool then Ok (match v with Some v => (h', y, v) :: d | None => d end) else bind (update h x v d) (fun d => Ok ((h', y, w) :: d)))
            else bind (update h x v d) (fun d => Ok ((h', y, w) :: d))) = Ok ((h', y, w) :: d')).
        { rewrite E. destruct (Z.eqb h' h); [ | reflexivity]. destruct (eq_decides y x (UC y x UY UX)) as ([] & -> & D); [exfalso; apply EK; now apply D | reflexivity]. }
        rewrite Q. eexists. split; [reflexivity | ]. split; [split | split].
        * constructor; [now split | exact F'].
        * cbn. constructor; [ | exact N']. intros I. apply K in I as [I | I]; [now apply EK | now apply N1].
        * intros k. cbn. destruct (key_dec (key_of y) k) as [E1 | E1].
          -- destruct (key_dec (key_of x) k) as [E2 | E2]; [exfalso; apply EK; congruence | reflexivity].
          -- apply L.
        * intros k [I | I]; [right; now left | ]. apply K in I as [I | I]; [now left | right; now right].
  Qed.
End Dict.

Lemma keys_tuple : forall x y, key_of (Tuple x) = key_of (Tuple y) <-> keys x = keys y.
Proof. intros x y. cbn. unfold keys. split; [intros E; now injection E | congruence]. Qed.

(** ** unique *)
Theorem c82_unique : forall H xs, stream comparable xs -> usable xs -> exists ys, unique H [] xs = (ys, None) /\ firsts [] xs ys.
Proof.
  intros H xs C K. set (U := fun a => exists x, a = Tuple x /\ In x xs).
  assert (UC : forall a b, U a -> U b -> comparable a b) by (intros a b (x & -> & IX) (y & -> & IY); now apply C).
  enough (Q : forall ys before seen, (forall x, In x ys -> In x xs) -> dict_ok H U unit seen -> (forall k, In k (map keys before) <-> lookup unit (KTuple k) seen <> None) ->
    exists zs, unique H seen ys = (zs, None) /\ firsts before ys zs).
  { apply Q; [auto | split; constructor | ]. intros k. cbn. tauto. }
  induction ys as [ | x ys IH]; intros before seen SS D B; [eexists; split; [reflexivity | constructor] | ].
  assert (IX : In x xs) by (apply SS; now left). assert (UX : U (Tuple x)) by (exists x; auto).
  destruct (hash_ok H _ (K x IX)) as [h HX]. cbn [unique]. rewrite HX. cbn [bind]. rewrite (find_lookup H U unit UC h (Tuple x) seen HX UX (proj1 D)). cbn [bind].
  change (key_of (Tuple x)) with (KTuple (keys x)). destruct (lookup unit (KTuple (keys x)) seen) as [ u | ] eqn:E.
  - destruct (IH (before ++ [x]) seen) as (zs & -> & F); [intros; apply SS; now right | exact D | | ].
    { intros k. rewrite map_app, in_app_iff, B. cbn. split; [intros [I | [<- | []]]; [exact I | now rewrite E] | tauto]. }
    exists zs. split; [reflexivity | ]. apply f_old; [apply B; now rewrite E | exact F].
  - destruct (update_ok H U unit UC h (Tuple x) (Some tt) seen HX UX D) as (d & -> & D' & L & _). cbn [bind].
    destruct (IH (before ++ [x]) d) as (zs & EZ & F); [intros; apply SS; now right | exact D' | | ].
    { intros k. rewrite map_app, in_app_iff, B, L. cbn [key_of map In]. change (map key_of x) with (keys x).
      destruct (key_dec (KTuple (keys x)) (KTuple k)) as [EK | EK]; [injection EK as ->; split; [discriminate | auto] | ].
      split; [intros [I | [I | []]]; [exact I | congruence] | auto]. }
    rewrite EZ. exists (x :: zs). split; [reflexivity | ]. apply f_new; [rewrite B; now rewrite E | exact F].
Qed.
Theorem c82_consecutive : forall xs, stream comparable xs -> exists ys, unique_consecutive None xs = (ys, None) /\ changes None xs ys.
Proof.
  intros xs C. enough (Q : forall ys p q, (forall x, In x ys -> In x xs) -> (match p, q with None, None => True | Some y, Some z => In y xs /\ keys y = keys z | _, _ => False end) ->
    exists zs, unique_consecutive p ys = (zs, None) /\ changes q ys zs).
  { apply Q; auto. }
  induction ys as [ | x ys IH]; intros p q SS M; [eexists; split; [reflexivity | constructor] | ]. cbn [unique_consecutive].
  assert (IX : In x xs) by (apply SS; now left). assert (S' : forall y, In y ys -> In y xs) by (intros; apply SS; now right).
  assert (NEW : (forall z, q = Some z -> keys z <> keys x) -> exists zs, sends [x] (unique_consecutive (Some x) ys) = (zs, None) /\ changes q (x :: ys) zs).
  { intros N. destruct (IH (Some x) (Some x) S' (conj IX eq_refl)) as (zs & -> & CH). exists (x :: zs). split; [reflexivity | ]. now apply ch_new. }
  destruct p as [y | ], q as [z | ]; try contradiction.
  - destruct M as [IY EY]. destruct (c82_equal (Tuple y) (Tuple x)) as [[-> E] | [-> E]]; [now apply C | | ].
    + apply keys_tuple in E. destruct (IH (Some y) (Some x) S' (conj IY E)) as (zs & -> & CH). exists zs. split; [reflexivity | ]. apply ch_old; [congruence | exact CH].
    + apply NEW. intros z' [= <-] E2. apply E, keys_tuple. congruence.
  - apply NEW. discriminate.
Qed.

(** ** difference *)
Lemma occurs_ex : forall (k : list key) l, exists n, occurs k n l.
Proof.
  induction l as [ | a l [n IH]]; [exists 0; constructor | ]. destruct (list_eq_dec key_dec k a) as [-> | N]; eexists; [apply oc_here | apply oc_not]; eauto.
Qed.
Lemma occurs_fun : forall (k : list key) l n m, occurs k n l -> occurs k m l -> n = m.
Proof. intros k l n m A. revert m. induction A; intros m B; inversion B; subst; auto; try congruence. Qed.
Lemma occurs_snoc : forall (k a : list key) l n, occurs k n l -> occurs k (if list_eq_dec key_dec k a then S n else n) (l ++ [a]).
Proof.
  intros k a l n A. induction A; cbn.
  - destruct (list_eq_dec key_dec k a) as [-> | N]; constructor; auto; constructor.
  - destruct (list_eq_dec key_dec k a); constructor; auto.
  - constructor; auto.
Qed.
Theorem c82_difference : forall H right left, stream comparable (right ++ left) -> usable (right ++ left) ->
  exists ys, difference H right left = (ys, None) /\ remaining right [] left ys.
Proof.
  intros H right left C K. set (U := fun a => exists x, a = Tuple x /\ In x (right ++ left)).
  assert (UC : forall a b, U a -> U b -> comparable a b) by (intros a b (x & -> & IX) (y & -> & IY); now apply C).
  assert (LOAD : forall ys before d, (forall x, In x ys -> In x (right ++ left)) -> dict_ok H U nat d ->
    (forall k n, occurs k n (map keys before) -> lookup nat (KTuple k) d = if n =? 0 then None else Some n) ->
    exists d', count_all H d ys = Ok d' /\ dict_ok H U nat d' /\ forall k n, occurs k n (map keys (before ++ ys)) -> lookup nat (KTuple k) d' = if n =? 0 then None else Some n).
  { induction ys as [ | x ys IH]; intros before d SS D B; [exists d; rewrite app_nil_r; auto | ].
    assert (IX : In x (right ++ left)) by (apply SS; now left). assert (UX : U (Tuple x)) by (exists x; auto).
    destruct (hash_ok H _ (K x IX)) as [h HX]. cbn [count_all]. rewrite HX. cbn [bind]. rewrite (find_lookup H U nat UC h (Tuple x) d HX UX (proj1 D)). cbn [bind].
    change (key_of (Tuple x)) with (KTuple (keys x)). destruct (occurs_ex (keys x) (map keys before)) as [n ON]. rewrite (B _ _ ON).
    match goal with |- context [update h (Tuple x) ?v d] => destruct (update_ok H U nat UC h (Tuple x) v d HX UX D) as (d' & -> & D' & L & _) end. cbn [bind].
    replace (before ++ x :: ys) with ((before ++ [x]) ++ ys) by now rewrite <- app_assoc. apply IH; [intros; apply SS; now right | exact D' | ].
    intros k m OM. rewrite map_app in OM. rewrite L. change (key_of (Tuple x)) with (KTuple (keys x)). destruct (occurs_ex k (map keys before)) as [p OP].
    pose proof (occurs_snoc k (keys x) _ _ OP) as OS. rewrite (occurs_fun _ _ _ _ OM OS).
    destruct (list_eq_dec key_dec k (keys x)) as [-> | NE].
    - destruct (key_dec (KTuple (keys x)) (KTuple (keys x))) as [_ | NN]; [ | contradiction]. rewrite (occurs_fun _ _ _ _ ON OP). cbn [Nat.eqb]. destruct (Nat.eqb_spec p 0) as [-> | ]; [reflexivity | ]. f_equal. lia.
    - destruct (key_dec (KTuple (keys x)) (KTuple k)) as [EK | _]; [injection EK as EK; exfalso; now apply NE | ]. now apply B. }
  assert (DIFF : forall ys before d, (forall x, In x ys -> In x (right ++ left)) -> dict_ok H U nat d ->
    (forall k n m, occurs k n (map keys before) -> occurs k m (map keys right) -> lookup nat (KTuple k) d = if m - n =? 0 then None else Some (m - n)) ->
    exists zs, differences H d ys = (zs, None) /\ remaining right before ys zs).
  { induction ys as [ | x ys IH]; intros before d SS D B; [eexists; split; [reflexivity | constructor] | ].
    assert (IX : In x (right ++ left)) by (apply SS; now left). assert (UX : U (Tuple x)) by (exists x; auto).
    destruct (hash_ok H _ (K x IX)) as [h HX]. cbn [differences]. rewrite HX. cbn [bind]. rewrite (find_lookup H U nat UC h (Tuple x) d HX UX (proj1 D)). cbn [bind].
    change (key_of (Tuple x)) with (KTuple (keys x)). destruct (occurs_ex (keys x) (map keys before)) as [n ON]. destruct (occurs_ex (keys x) (map keys right)) as [m OM]. rewrite (B _ _ _ ON OM).
    destruct (Nat.eqb_spec (m - n) 0) as [Z | Z].
    - cbn [bind]. destruct (IH (before ++ [x]) d) as (zs & -> & R); [intros; apply SS; now right | exact D | | ].
      { intros k p q OP OQ. rewrite map_app in OP. destruct (occurs_ex k (map keys before)) as [p' OP']. rewrite (occurs_fun _ _ _ _ OP (occurs_snoc k (keys x) _ _ OP')).
        rewrite (B k p' q OP' OQ). destruct (list_eq_dec key_dec k (keys x)) as [-> | ]; [ | reflexivity].
        rewrite (occurs_fun _ _ _ _ OP' ON), (occurs_fun _ _ _ _ OQ OM). replace (m - S n) with 0 by lia. now rewrite Z. }
      exists (x :: zs). split; [reflexivity | ]. apply (r_in right before x ys zs n m); auto. lia.
    - match goal with |- context [update h (Tuple x) ?v d] => destruct (update_ok H U nat UC h (Tuple x) v d HX UX D) as (d' & -> & D' & L & _) end. cbn [bind].
      destruct (IH (before ++ [x]) d') as (zs & -> & R); [intros; apply SS; now right | exact D' | | ].
      { intros k p q OP OQ. rewrite map_app in OP. destruct (occurs_ex k (map keys before)) as [p' OP']. rewrite (occurs_fun _ _ _ _ OP (occurs_snoc k (keys x) _ _ OP')).
        rewrite L. change (key_of (Tuple x)) with (KTuple (keys x)). destruct (list_eq_dec key_dec k (keys x)) as [-> | NE].
        - destruct (key_dec (KTuple (keys x)) (KTuple (keys x))) as [_ | NN]; [ | contradiction]. rewrite (occurs_fun _ _ _ _ OP' ON), (occurs_fun _ _ _ _ OQ OM).
          destruct (Nat.eqb_spec (m - n) 1) as [E1 | E1]; destruct (Nat.eqb_spec (m - S n) 0) as [E2 | E2]; try lia; [reflexivity | ]. f_equal. lia.
        - destruct (key_dec (KTuple (keys x)) (KTuple k)) as [EK | _]; [injection EK as EK; exfalso; now apply NE | ]. now apply B. }
      exists zs. split; [reflexivity | ]. apply (r_out right before x ys zs n m); auto. lia. }
  unfold difference. destruct left as [ | x left]; [eexists; split; [reflexivity | constructor] | ].
  destruct (LOAD right [] []) as (d & -> & D & B); [intros; apply in_or_app; now left | split; constructor | intros k n O; inversion O; reflexivity | ].
  apply (DIFF (x :: left) [] d); [intros; apply in_or_app; now right | exact D | ]. intros k n m ON OM. inversion ON. rewrite Nat.sub_0_r. exact (B k m OM).
Qed.

(** ** join *)
Lemma matches_ex : forall k ys, (forall y, In y ys -> y <> []) -> exists zs, matches k ys zs.
Proof.
  induction ys as [ | y ys IH]; intros N; [exists []; constructor | ]. destruct IH as [zs M]; [intros; apply N; now right | ].
  destruct y as [ | a y]; [exfalso; now apply (N []); [left | ] | ]. destruct (key_dec (key_of a) k); eexists; [apply m_yes | apply m_no]; eauto.
Qed.
Lemma matches_fun : forall k ys zs ws, matches k ys zs -> matches k ys ws -> zs = ws.
Proof. intros k ys zs ws A. revert ws. induction A; intros ws B; inversion B; subst; auto; try congruence. f_equal. auto. Qed.
Lemma matches_snoc : forall k a y ys zs, matches k ys zs -> matches k (ys ++ [a :: y]) (zs ++ (if key_dec (key_of a) k then [y] else [])).
Proof.
  intros k a y ys zs A. induction A; cbn.
  - destruct (key_dec (key_of a) k); repeat constructor; auto.
  - now constructor.
  - now constructor.
Qed.
Theorem c82_join : forall H keep right left, (forall x, In x (right ++ left) -> x <> []) ->
  (forall a x b y, In (a :: x) (right ++ left) -> In (b :: y) (right ++ left) -> comparable a b) -> (forall a x, In (a :: x) (right ++ left) -> can_be_key a) ->
  exists ys, join H keep right left = (ys, None) /\ joined keep right left ys.
Proof.
  intros H keep right left NE C K. set (U := fun a => exists x, In (a :: x) (right ++ left)).
  assert (UC : forall a b, U a -> U b -> comparable a b) by (intros a b (x & IX) (y & IY); eapply C; eauto).
  assert (LOAD : forall ys before d, (forall x, In x ys -> In x (right ++ left)) -> (forall y, In y before -> y <> []) -> dict_ok H U (list (list obj)) d ->
    (forall k zs, matches k before zs -> match lookup (list (list obj)) k d with None => zs = [] | Some m => m <> [] /\ map (@tl obj) m = zs end) ->
    exists d', load_inner H d ys = Ok d' /\ dict_ok H U (list (list obj)) d' /\
      forall k zs, matches k (before ++ ys) zs -> match lookup (list (list obj)) k d' with None => zs = [] | Some m => m <> [] /\ map (@tl obj) m = zs end).
  { induction ys as [ | x ys IH]; intros before d SS NB D B; [exists d; rewrite app_nil_r; auto | ].
    assert (IX : In x (right ++ left)) by (apply SS; now left). destruct x as [ | a x]; [exfalso; now apply (NE [] IX) | ]. assert (UX : U a) by (exists x; auto).
    destruct (hash_ok H _ (K a x IX)) as [h HX]. cbn [load_inner hd]. rewrite HX. cbn [bind]. rewrite (find_lookup H U (list (list obj)) UC h a d HX UX (proj1 D)). cbn [bind].
    match goal with |- context [update h a ?v d] => destruct (update_ok H U (list (list obj)) UC h a v d HX UX D) as (d' & -> & D' & L & _) end. cbn [bind].
    replace (before ++ (a :: x) :: ys) with ((before ++ [a :: x]) ++ ys) by now rewrite <- app_assoc.
    apply IH; [intros; apply SS; now right | intros y I; apply in_app_or in I as [I | [<- | []]]; [now apply NB | discriminate] | exact D' | ].
    intros k zs M. destruct (matches_ex k before NB) as [ws W]. rewrite (matches_fun _ _ _ _ M (matches_snoc k a x before ws W)). rewrite L. specialize (B k ws W).
    destruct (key_dec (key_of a) k) as [<- | _]; [ | now rewrite app_nil_r].
    destruct (lookup (list (list obj)) (key_of a) d) as [m | ]; [destruct B as [B1 <-] | subst ws].
    - split; [now destruct m | ]. now rewrite map_app.
    - now split. }
  assert (JOIN : forall ys d, (forall x, In x ys -> In x (right ++ left)) -> dict_ok H U (list (list obj)) d ->
    (forall k zs, matches k right zs -> match lookup (list (list obj)) k d with None => zs = [] | Some m => m <> [] /\ map (@tl obj) m = zs end) ->
    exists zs, joins H keep d ys = (zs, None) /\ joined keep right ys zs).
  { induction ys as [ | x ys IH]; intros d SS D B; [eexists; split; [reflexivity | constructor] | ].
    assert (IX : In x (right ++ left)) by (apply SS; now left). destruct x as [ | a x]; [exfalso; now apply (NE [] IX) | ]. assert (UX : U a) by (exists x; auto).
    destruct (hash_ok H _ (K a x IX)) as [h HX]. cbn [joins hd]. rewrite HX. cbn [bind]. rewrite (find_lookup H U (list (list obj)) UC h a d HX UX (proj1 D)).
    destruct (IH d) as (zs & EZ & J); [intros; apply SS; now right | exact D | exact B | ]. rewrite EZ.
    destruct (matches_ex (key_of a) right) as [ws W]; [intros; apply NE; apply in_or_app; now left | ]. specialize (B _ _ W).
    destruct (lookup (list (list obj)) (key_of a) d) as [m | ].
    - destruct B as [B1 <-]. eexists. split; [reflexivity | ]. cbn [fst sends]. rewrite <- (map_map (@tl obj) (fun m => (a :: x) ++ m)). apply j_some; [exact W | now destruct m | exact J].
    - subst ws. eexists. split; [reflexivity | ]. cbn [fst sends]. pose proof (j_none keep right a x ys zs W J) as Q. now destruct keep. }
  unfold join. destruct left as [ | x left]; [eexists; split; [reflexivity | constructor] | ].
  destruct (LOAD right [] []) as (d & -> & D & B); [intros; apply in_or_app; now left | intros y [] | split; constructor | intros k zs M; inversion M; reflexivity | ].
  apply (JOIN (x :: left) d); [intros; apply in_or_app; now right | exact D | exact B].
Qed.
