From Verif.Py Require Export Val.
Set Implicit Arguments.

Lemma list_eqb_spec_Forall (A : Type) (eqb : A -> A -> bool) (xs : list A) :
  Forall (fun x => forall y, eqb x y = true <-> x = y) xs ->
  forall ys, list_eqb eqb xs ys = true <-> xs = ys.
Proof.
  induction 1 as [|x xs Hx _ IH]; intros [|y ys]; simpl; try (split; congruence).
  rewrite andb_true_iff, Hx, IH. split; [intros [-> ->]; reflexivity | intros E; inversion E; auto].
Qed.

Lemma val_eqb_eq : forall a b, val_eqb a b = true <-> a = b.
Proof.
  induction a as [|b|z|s|xs IH|xs IH|xs IH|kvs IH|i kvs IH|i xs IH|i] using val_ind';
    intros [| | | | | | | | | | ]; simpl; try (split; congruence).
  - rewrite Bool.eqb_true_iff; split; congruence.
  - rewrite Z.eqb_eq; split; congruence.
  - rewrite String.eqb_eq; split; congruence.
  - rewrite (list_eqb_spec_Forall _ IH); split; congruence.
  - rewrite (list_eqb_spec_Forall _ IH); split; congruence.
  - rewrite (list_eqb_spec_Forall _ IH); split; congruence.
  - rewrite list_eqb_spec_Forall; [split; congruence|].
    eapply Forall_impl; [|exact IH]. intros [k v] [Hk Hv] [k' v']; simpl in *.
    rewrite andb_true_iff, Hk, Hv. split; [intros [-> ->]; auto | intros E; inversion E; auto].
  - rewrite andb_true_iff, Nat.eqb_eq, list_eqb_spec_Forall;
      [split; [intros [-> ->]; auto | intros E; inversion E; auto]|].
    eapply Forall_impl; [|exact IH]. intros [k v] Hv [k' v']; simpl in *.
    rewrite andb_true_iff, String.eqb_eq, Hv.
    split; [intros [-> ->]; auto | intros E; inversion E; auto].
  - rewrite andb_true_iff, Nat.eqb_eq, (list_eqb_spec_Forall _ IH).
    split; [intros [-> ->]; auto | intros E; inversion E; auto].
  - rewrite Nat.eqb_eq; split; congruence.
Qed.

Lemma py_eq_canon a b : py_eq a b = true <-> canon a = canon b.
Proof. unfold py_eq; apply val_eqb_eq. Qed.

Lemma py_eq_refl a : py_eq a a = true.
Proof. now apply py_eq_canon. Qed.

Lemma py_eq_sym a b : py_eq a b = py_eq b a.
Proof.
  destruct (py_eq a b) eqn:E1, (py_eq b a) eqn:E2; auto.
  - apply py_eq_canon in E1. symmetry in E1. apply py_eq_canon in E1. congruence.
  - apply py_eq_canon in E2. symmetry in E2. apply py_eq_canon in E2. congruence.
Qed.

Lemma py_eq_trans a b c : py_eq a b = true -> py_eq b c = true -> py_eq a c = true.
Proof. rewrite !py_eq_canon; congruence. Qed.

Lemma py_eq_cong_l a a' b : py_eq a a' = true -> py_eq a b = py_eq a' b.
Proof. intros H; apply py_eq_canon in H. unfold py_eq. now rewrite H. Qed.

Lemma py_eq_cong_r a b b' : py_eq b b' = true -> py_eq a b = py_eq a b'.
Proof. intros H; apply py_eq_canon in H. unfold py_eq. now rewrite H. Qed.

Lemma py_eq_tuple xs ys : py_eq (VTuple xs) (VTuple ys) = list_eqb py_eq xs ys.
Proof.
  unfold py_eq at 1; simpl. revert ys; induction xs as [|x xs IH]; intros [|y ys]; simpl; auto.
  now rewrite IH.
Qed.

(** Hashability respects ==. *)
Lemma hashable_canon a : hashable (canon a) = hashable a.
Proof.
  induction a as [|b|z|s|xs IH|xs IH|xs IH|kvs IH|i kvs IH|i xs IH|i] using val_ind'; simpl; auto.
  induction IH as [|x xs Hx _ IHl]; simpl; auto. now rewrite Hx, IHl.
Qed.

Lemma wrap_wrap x : wrap (wrap x) = wrap x.
Proof. now destruct x. Qed.

Lemma hashable_components x : hashable x = true -> forallb hashable (components (wrap x)) = true.
Proof. destruct x; simpl; auto; try congruence. Qed.
