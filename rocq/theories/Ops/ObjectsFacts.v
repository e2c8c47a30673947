(** Facts about the comparison of objects. *)
From Verif.Ops Require Export ObjectsSpec.
Local Open Scope list_scope.

Section ObjInd.
  Variable P : obj -> Prop.
  Hypothesis HT : forall xs, Forall P xs -> P (Tuple xs).
  Hypothesis HL : forall xs, Forall P xs -> P (List xs).
  Hypothesis HO : forall a, (forall xs, a <> Tuple xs) -> (forall xs, a <> List xs) -> P a.
  Fixpoint obj_ind' (a : obj) : P a :=
    let fix all (xs : list obj) : Forall P xs := match xs with [] => Forall_nil _ | x :: xs => Forall_cons x (obj_ind' x) (all xs) end in
    match a with
    | Tuple xs => HT xs (all xs)
    | List xs => HL xs (all xs)
    | None_ => HO (None_) ltac:(discriminate) ltac:(discriminate)
    | Bool b => HO (Bool b) ltac:(discriminate) ltac:(discriminate)
    | Int z => HO (Int z) ltac:(discriminate) ltac:(discriminate)
    | Str s => HO (Str s) ltac:(discriminate) ltac:(discriminate)
    | Path s => HO (Path s) ltac:(discriminate) ltac:(discriminate)
    | File s => HO (File s) ltac:(discriminate) ltac:(discriminate)
    | Process p i => HO (Process p i) ltac:(discriminate) ltac:(discriminate)
    | History i c => HO (History i c) ltac:(discriminate) ltac:(discriminate)
    | Err i => HO (Err i) ltac:(discriminate) ltac:(discriminate)
    end.
End ObjInd.

Lemma list_eqb_str : forall xs ys, list_eqb String.eqb xs ys = true <-> xs = ys.
Proof.
  induction xs as [ | x xs IH]; destruct ys as [ | y ys]; cbn; split; intros E; try discriminate; try reflexivity.
  - apply andb_true_iff in E as [A B]. apply String.eqb_eq in A. apply IH in B. congruence.
  - injection E as -> ->. now rewrite String.eqb_refl, (proj2 (IH ys)).
Qed.

(** ** Paths *)
Lemma split_slash : forall s, split (String slash s) = EmptyString :: split s.
Proof. reflexivity. Qed.
Lemma components_strip : forall s, filter kept (split (lstrip s)) = components s.
Proof.
  unfold components. induction s as [ | c s IH]; [reflexivity | ]. cbn [lstrip]. destruct (Ascii.eqb_spec c slash) as [-> | N]; [ | reflexivity].
  rewrite IH. rewrite split_slash. cbn. reflexivity.
Qed.
Lemma lstrip_length : forall s, String.length (lstrip s) <= String.length s.
Proof. induction s as [ | c s IH]; cbn; [lia | ]. destruct (Ascii.eqb c slash); cbn; lia. Qed.
Lemma starts_not : forall c s, c <> slash -> starts (String c s) = Relative.
Proof.
  intros c s N. cbn. destruct c as [[] [] [] [] [] [] [] []]; try reflexivity. exfalso. apply N. reflexivity.
Qed.
Lemma starts_two : forall d s, d <> slash -> starts (String slash (String d s)) = Root.
Proof. intros d s N. cbn. destruct d as [[] [] [] [] [] [] [] []]; try reflexivity. exfalso. apply N. reflexivity. Qed.
Lemma starts_three : forall d s, d <> slash -> starts (String slash (String slash (String d s))) = Double_root.
Proof. intros d s N. cbn. destruct d as [[] [] [] [] [] [] [] []]; try reflexivity. exfalso. apply N. reflexivity. Qed.
Lemma cparts_spec : forall s, cparts s = path_parts (starts s) (components s).
Proof.
  intros s. unfold cparts. rewrite components_strip.
  assert (Q : (if String.length s - String.length (lstrip s) =? 0 then [] else if String.length s - String.length (lstrip s) =? 2 then ["//"%string] else ["/"%string]) = path_parts (starts s) []).
  { destruct s as [ | c s]; [reflexivity | ]. destruct (Ascii.eqb_spec c slash) as [-> | N].
    2:{ rewrite starts_not by exact N. cbn [lstrip]. destruct (Ascii.eqb_spec c slash); [contradiction | ]. now rewrite Nat.sub_diag. }
    destruct s as [ | d s]; [reflexivity | ]. destruct (Ascii.eqb_spec d slash) as [-> | N].
    2:{ rewrite starts_two by exact N. change (lstrip (String slash (String d s))) with (lstrip (String d s)). cbn [lstrip]. destruct (Ascii.eqb_spec d slash); [contradiction | ].
        change (String.length (String slash (String d s))) with (S (String.length (String d s))). replace (S (String.length (String d s)) - String.length (String d s)) with 1 by lia. reflexivity. }
    destruct s as [ | d s]; [reflexivity | ]. destruct (Ascii.eqb_spec d slash) as [-> | N].
    2:{ rewrite starts_three by exact N. change (lstrip (String slash (String slash (String d s)))) with (lstrip (String d s)). cbn [lstrip]. destruct (Ascii.eqb_spec d slash); [contradiction | ].
        change (String.length (String slash (String slash (String d s)))) with (S (S (String.length (String d s)))). replace (S (S (String.length (String d s))) - String.length (String d s)) with 2 by lia. reflexivity. }
    change (lstrip (String slash (String slash (String slash s)))) with (lstrip s). cbn [String.length]. pose proof (lstrip_length s) as L.
    destruct (S (S (S (String.length s))) - String.length (lstrip s)) as [ | [ | [ | k]]] eqn:E; try lia. reflexivity. }
  rewrite Q. now destruct (starts s).
Qed.
Lemma in_split_no_slash : forall s w, In w (split s) -> forall u v, w <> String.append u (String slash v).
Proof.
  induction s as [ | c s IH]; cbn; intros w I u v E.
  - destruct I as [<- | []]. destruct u; discriminate.
  - destruct (Ascii.eqb_spec c slash) as [-> | N].
    + destruct I as [<- | I]; [destruct u; discriminate | ]. exact (IH _ I u v E).
    + destruct (split s) as [ | x xs] eqn:X.
      * destruct I as [<- | []]. destruct u as [ | d u]; cbn in E; [injection E as -> _; now apply N | ]. destruct u; discriminate.
      * destruct I as [<- | I].
        -- destruct u as [ | d u]; cbn in E; [injection E as -> _; now apply N | ]. injection E as _ E. apply (IH x (or_introl eq_refl) u v E).
        -- exact (IH w (or_intror I) u v E).
Qed.
Lemma component_not_root : forall s, ~ In "/"%string (components s) /\ ~ In "//"%string (components s).
Proof.
  intros s. unfold components. split; intros I; apply filter_In in I as [I _].
  - apply (in_split_no_slash s _ I ""%string ""%string). reflexivity.
  - apply (in_split_no_slash s _ I ""%string "/"%string). reflexivity.
Qed.
Lemma path_parts_inj : forall s t, path_parts (starts s) (components s) = path_parts (starts t) (components t) -> starts s = starts t /\ components s = components t.
Proof.
  intros s t E. destruct (component_not_root s) as [A B], (component_not_root t) as [C D].
  destruct (starts s), (starts t); cbn [path_parts] in E; try discriminate;
    try (injection E as E; now split); try (now split).
  - exfalso. apply A. rewrite E. now left.
  - exfalso. apply B. rewrite E. now left.
  - exfalso. apply C. rewrite <- E. now left.
  - exfalso. apply D. rewrite <- E. now left.
Qed.
Lemma path_eq_spec : forall s t, path_eq s t = true <-> starts s = starts t /\ components s = components t.
Proof.
  intros s t. unfold path_eq. rewrite list_eqb_str, !cparts_spec. split; [apply path_parts_inj | ]. now intros [-> ->].
Qed.

(** ** == *)
Lemma eq_tuple : forall xs ys, eq (Tuple xs) (Tuple ys) = eqs xs ys.
Proof. reflexivity. Qed.
Lemma eq_list : forall xs ys, eq (List xs) (List ys) = if List.length xs =? List.length ys then eqs xs ys else Ok false.
Proof. reflexivity. Qed.
(** The answer is known, and says whether the keys are the same *)
Definition decides (r : res bool) (P : Prop) : Prop := exists b, r = Ok b /\ (b = true <-> P).
Lemma decides_iff : forall r P Q, (P <-> Q) -> decides r P -> decides r Q.
Proof. intros r P Q E (b & -> & D). exists b. split; [reflexivity | tauto]. Qed.
Lemma eqs_decides : forall xs, Forall (fun x => forall y, comparable x y -> decides (eq x y) (key_of x = key_of y)) xs ->
  forall ys, (forall n x y, nth_error xs n = Some x -> nth_error ys n = Some y -> comparable x y) -> decides (eqs xs ys) (map key_of xs = map key_of ys).
Proof.
  induction 1 as [ | x xs HX _ IH]; intros [ | y ys] C; cbn; try (eexists; split; [reflexivity | split; [discriminate | discriminate]]).
  - exists true. now split.
  - destruct (HX y (C 0 x y eq_refl eq_refl)) as (b & -> & D). destruct b.
    + destruct (IH ys) as (b & -> & D2). { intros n a c A B. exact (C (S n) a c A B). }
      exists b. split; [reflexivity | ]. rewrite D2. split; [intros ->; f_equal; now apply D | intros E; now injection E].
    + exists false. split; [reflexivity | ]. split; [discriminate | ]. intros E. injection E as E _. now apply D in E.
Qed.
Lemma eq_decides : forall a b, comparable a b -> decides (eq a b) (key_of a = key_of b).
Proof.
  induction a as [xs IH | xs IH | a NT NL] using obj_ind'; intros b C.
  - inversion C as [ | | | ? ys CC E1 E2 | | ? ? S1 S2 T L E1 E2]; subst.
    + rewrite eq_tuple. apply (decides_iff _ (map key_of xs = map key_of ys)); [ | now apply eqs_decides]. cbn. split; [congruence | intros E; now injection E].
    + destruct b; try discriminate S2; try (exfalso; eapply T; reflexivity); exists false; (split; [reflexivity | ]); cbn; (split; [discriminate | discriminate]).
  - inversion C as [ | | | | ? ys CC E1 E2 | ? ? S1 S2 T L E1 E2]; subst.
    + rewrite eq_list. destruct (Nat.eqb_spec (List.length xs) (List.length ys)) as [E | E].
      * apply (decides_iff _ (map key_of xs = map key_of ys)); [ | now apply eqs_decides]. cbn. split; [congruence | intros F; now injection F].
      * exists false. split; [reflexivity | ]. split; [discriminate | ]. cbn. intros F. injection F as F. apply (f_equal (@List.length key)) in F. rewrite !map_length in F. contradiction.
    + destruct b; try discriminate S2; try (exfalso; eapply L; reflexivity); exists false; (split; [reflexivity | ]); cbn; (split; [discriminate | discriminate]).
  - inversion C as [s t E1 E2 | p i q j E1 E2 | i c j d E1 E2 | xs ys CC E1 E2 | xs ys CC E1 E2 | x y S1 S2 T L E1 E2]; subst.
    + eexists; split; [reflexivity | ]. rewrite path_eq_spec. cbn. split; [intros [-> ->]; reflexivity | intros E; now injection E].
    + eexists; split; [reflexivity | ]. rewrite Nat.eqb_eq. cbn. split; [now intros -> | intros E; now injection E].
    + eexists; split; [reflexivity | ]. rewrite Nat.eqb_eq. cbn. split; [now intros -> | intros E; now injection E].
    + exfalso. eapply NT. reflexivity.
    + exfalso. eapply NL. reflexivity.
    + destruct a; try discriminate S1; try (exfalso; eapply NT; reflexivity); try (exfalso; eapply NL; reflexivity);
        destruct b; try discriminate S2; cbn; eexists; (split; [reflexivity | ]);
        rewrite ?Z.eqb_eq, ?Nat.eqb_eq, ?String.eqb_eq, ?path_eq_spec;
        try (split; [discriminate | discriminate]); try (split; [reflexivity | reflexivity]);
        try (split; [now intros -> | intros E; now injection E]);
        try (split; [intros [-> ->]; reflexivity | intros E; now injection E]).
Qed.

(** ** hash *)
Lemma hash_tuple : forall H xs, hash H (Tuple xs) = bind (hash_all H xs) (fun hs => Ok (h_tuple H hs)).
Proof.
  intros H xs. cbn [hash]. f_equal. induction xs as [ | x xs IH]; [reflexivity | ]. cbn. destruct (hash H x); cbn; [ | reflexivity]. now rewrite IH.
Qed.
Lemma hash_ok : forall H a, can_be_key a -> exists h, hash H a = Ok h.
Proof.
  induction a as [xs IH | xs IH | a NT NL] using obj_ind'; intros K.
  - rewrite hash_tuple. assert (Q : exists hs, hash_all H xs = Ok hs).
    { inversion K as [? KX E | ? A B C E]; subst; [ | exfalso; now apply (A xs)]. clear K. induction IH as [ | x xs HX _ IHx]; [eexists; reflexivity | ].
      destruct (HX (KX x (or_introl eq_refl))) as [h EH]. destruct (IHx (fun y I => KX y (or_intror I))) as [hs EHS]. exists (h :: hs). cbn. now rewrite EH; cbn; rewrite EHS. }
    destruct Q as [hs ->]. eexists. reflexivity.
  - inversion K as [ | ? A B C E]; subst. exfalso. now apply (B xs).
  - inversion K as [? ? E | ? A B C E]; subst; [exfalso; eapply NT; reflexivity | ].
    destruct a; try (eexists; reflexivity); [exfalso; eapply NT; reflexivity | exfalso; eapply NL; reflexivity | exfalso; eapply C; reflexivity].
Qed.
(** Equal objects that can be compared have the same hash *)
Lemma hash_eq : forall H a b, key_of a = key_of b -> hash H a = hash H b.
Proof.
  induction a as [xs IH | xs IH | a NT NL] using obj_ind'; intros b E.
  - destruct b; try discriminate E. rewrite !hash_tuple. f_equal. cbn in E. injection E as E. revert xs0 E. induction IH as [ | x xs HX _ IHx]; intros [ | y ys] E; try discriminate E; [reflexivity | ].
    cbn in E |- *. injection E as E1 E2. rewrite (HX y E1). destruct (hash H y); cbn; [ | reflexivity]. now rewrite (IHx ys E2).
  - destruct b; try discriminate E. reflexivity.
  - destruct a; try (exfalso; eapply NT; reflexivity); try (exfalso; eapply NL; reflexivity);
      destruct b; try discriminate E; cbn in E; try (injection E as E); cbn; subst; try reflexivity; try congruence.
    + rewrite !cparts_spec. congruence.
    + rewrite !cparts_spec. congruence.
Qed.
