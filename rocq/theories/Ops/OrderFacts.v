(** reverse, unique, sort *)
From Coq Require Import Permutation Sorted.
From Verif.Ops Require Export TailFacts.
Set Implicit Arguments.
Local Open Scope list_scope.

(** ** reverse *)

Lemma reverse_feed es c : open_stream es ->
  feed reverse_op (Some c) es = (Some (c ++ rows es), map Err (errs es), Ok).
Proof.
  revert c; induction es as [|e es IH]; intros c He.
  - simpl. now rewrite app_nil_r.
  - apply open_cons in He; destruct He as [He Hes].
    destruct e as [x|e|e|]; try discriminate; cbn [feed]; unfold deliver;
      cbn [as_input step reverse_op mk_op caught]; cbn [St reverse_op mk_op] in IH; rewrite IH by auto;
      cbn [rows errs]; rewrite <- ?app_assoc; reflexivity.
Qed.

Lemma reverse_exec es : open_stream es ->
  exec reverse_op (es, Ok) = (map Err (errs es) ++ map Data (rev (rows es)) ++ [Flush], Ok).
Proof.
  intros He. rewrite exec_through. unfold through. cbn [setup reverse_op mk_op fresh keep_state].
  rewrite feed_app. pose proof (reverse_feed [] He) as E. cbn [St reverse_op mk_op app] in *. rewrite E.
  cbn [feed]. unfold deliver. cbn [as_input step reverse_op mk_op caught]. now rewrite app_nil_r.
Qed.

(** ** unique *)


Lemma filter_filter (A : Type) (p q : A -> bool) l : filter p (filter q l) = filter (fun x => p x && q x) l.
Proof.
  induction l as [|x l IH]; simpl; auto.
  destruct (q x) eqn:Eq; simpl; [destruct (p x); simpl; congruence|].
  rewrite IH, andb_false_r. reflexivity.
Qed.

Lemma py_mem_nub x l : py_mem x (nub l) = py_mem x l.
Proof.
  unfold py_mem. induction l as [|y l IH]; simpl; auto.
  destruct (py_eq x y) eqn:Exy; simpl; auto. rewrite <- IH. clear IH.
  induction (nub l) as [|z m IHm]; simpl; auto.
  destruct (py_eq y z) eqn:Eyz; simpl.
  - destruct (py_eq x z) eqn:Exz; simpl; auto.
    rewrite py_eq_sym in Eyz. rewrite (py_eq_trans _ _ _ Exz Eyz) in Exy. discriminate.
  - now rewrite IHm.
Qed.

Lemma unique_feed es seen : open_stream es -> forallb hashable (rows es) = true ->
  exists seen' out, feed unique_op seen es = (seen', out, Ok) /\
    errs out = errs es /\ sublist out (map as_input es) /\
    rows out = filter (fun y => negb (py_mem y seen)) (nub (rows es)).
Proof.
  revert seen; induction es as [|e es IH]; intros seen He Hh.
  - exists seen, []. simpl. repeat split; sub.
  - apply open_cons in He; destruct He as [He Hes].
    destruct e as [x|e|e|]; try discriminate; cbn [feed]; unfold deliver;
      cbn [as_input step unique_op mk_op]; cbn [rows] in Hh.
    + simpl in Hh; apply andb_true_iff in Hh; destruct Hh as [Hx Hh]. rewrite Hx.
      cbn [rows errs nub filter map as_input].
      assert (forall l, filter (fun y => negb (py_mem y (wrap x :: seen))) l =
                        filter (fun y => negb (py_mem y seen)) (filter (fun y => negb (py_eq (wrap x) y)) l)) as Hf.
      { intros l. rewrite filter_filter. apply filter_ext; intros y. simpl.
        rewrite negb_orb, andb_comm, (py_eq_sym y). reflexivity. }
      destruct (py_mem (wrap x) seen) eqn:Em; cbn [negb].
      * destruct (IH seen Hes Hh) as (seen' & out & E & H1 & H2 & H3).
        exists seen', out. cbn [caught]. cbn [St unique_op mk_op] in E. rewrite E.
        repeat split; auto; try sub. rewrite H3, <- Hf. apply filter_ext. intros y.
        f_equal. unfold py_mem. simpl. destruct (py_eq y (wrap x)) eqn:Ey; auto. simpl.
        unfold py_mem in Em. rewrite <- Em. clear - Ey.
        induction seen as [|z seen IHs]; simpl; auto.
        rewrite (py_eq_cong_l _ _ z Ey). now rewrite IHs.
      * destruct (IH (wrap x :: seen) Hes Hh) as (seen' & out & E & H1 & H2 & H3).
        exists seen', (Data (wrap x) :: out). cbn [caught]. cbn [St unique_op mk_op] in E. rewrite E.
        cbn [rows errs app]. repeat split; auto; try sub.
        rewrite wrap_wrap, H3. f_equal. apply Hf.
    + destruct (IH seen Hes Hh) as (seen' & out & E & H1 & H2 & H3).
      exists seen', (Err e :: out). cbn [caught]. cbn [St unique_op mk_op] in E. rewrite E.
      cbn [rows errs app map as_input]. repeat split; auto; try sub; congruence.
    + destruct (IH seen Hes Hh) as (seen' & out & E & H1 & H2 & H3).
      exists seen', (Err e :: out). cbn [caught]. cbn [St unique_op mk_op] in E. rewrite E.
      cbn [rows errs app map as_input]. repeat split; auto; try sub; congruence.
Qed.

Lemma filter_true (A : Type) (p : A -> bool) l : (forall x, p x = true) -> filter p l = l.
Proof. intros H; induction l as [|x l IH]; simpl; auto. now rewrite H, IH. Qed.

Lemma unique_exec es : open_stream es -> forallb hashable (rows es) = true ->
  exists out, exec unique_op (es, Ok) = (out ++ [Flush], Ok) /\
    errs out = errs es /\ sublist out (map as_input es) /\ rows out = nub (rows es).
Proof.
  intros He Hh. destruct (unique_feed [] He Hh) as (seen' & out & E & H1 & H2 & H3).
  exists out. rewrite exec_through. unfold through. cbn [setup unique_op mk_op fresh].
  rewrite feed_app. cbn [St unique_op mk_op] in *. rewrite E. repeat split; auto.
  rewrite H3. apply filter_true. reflexivity.
Qed.

Lemma unique_unhashable es : open_stream es -> forallb hashable (rows es) = false ->
  snd (exec unique_op (es, Ok)) = Kill.
Proof.
  intros He. rewrite exec_through. unfold through. cbn [setup unique_op mk_op fresh].
  rewrite feed_app.
  assert (forall seen, forallb hashable (rows es) = false -> res_outcome (feed unique_op seen es) = Kill) as H.
  { induction es as [|e es IH]; intros seen Hh; [discriminate|].
    apply open_cons in He; destruct He as [He Hes].
    destruct e as [x|e|e|]; try discriminate; cbn [feed]; unfold deliver;
      cbn [as_input step unique_op mk_op]; cbn [rows] in Hh.
    - cbn [forallb] in Hh. destruct (hashable (wrap x)); [|reflexivity].
      destruct (py_mem (wrap x) seen); cbn [caught].
      + specialize (IH Hes seen Hh). cbn [St unique_op mk_op] in *.
        dfeed. exact IH.
      + specialize (IH Hes (wrap x :: seen) Hh). cbn [St unique_op mk_op] in *.
        dfeed. exact IH.
    - specialize (IH Hes seen Hh). cbn [caught]. cbn [St unique_op mk_op] in *.
        dfeed. exact IH.
    - specialize (IH Hes seen Hh). cbn [caught]. cbn [St unique_op mk_op] in *.
        dfeed. exact IH. }
  intros Hh. specialize (H [] Hh). cbn [St unique_op mk_op] in *.
  dfeed. unfold res_outcome in H; simpl in *. now subst.
Qed.

(** The first tuple of each run of equal adjacent tuples: those that differ from their predecessor. *)
Fixpoint run_heads_after (prev : val) (l : list val) : list val :=
  match l with
  | [] => []
  | x :: l' => if py_eq prev x then run_heads_after x l' else x :: run_heads_after x l'
  end.
Definition run_heads (l : list val) : list val :=
  match l with
  | [] => []
  | x :: l' => x :: run_heads_after x l'
  end.

Lemma run_heads_cong l : forall a b, py_eq a b = true -> run_heads_after a l = run_heads_after b l.
Proof.
  destruct l as [|x l]; intros a b H; simpl; auto. now rewrite (py_eq_cong_l _ _ x H).
Qed.

Lemma unique_consecutive_feed es cur : open_stream es ->
  exists cur' out, feed unique_consecutive_op cur es = (cur', out, Ok) /\
    errs out = errs es /\ sublist out (map as_input es) /\
    rows out = run_heads_after cur (rows es).
Proof.
  revert cur; induction es as [|e es IH]; intros cur He.
  - exists cur, []. simpl. repeat split; sub.
  - apply open_cons in He; destruct He as [He Hes].
    destruct e as [x|e|e|]; try discriminate; cbn [feed]; unfold deliver;
      cbn [as_input step unique_consecutive_op mk_op].
    + cbn [rows run_heads_after errs map as_input]. destruct (py_eq cur (wrap x)) eqn:E.
      * destruct (IH cur Hes) as (cur' & out & Ef & H1 & H2 & H3).
        exists cur', out. cbn [caught]. cbn [St unique_consecutive_op mk_op] in Ef. rewrite Ef.
        repeat split; auto; try sub. rewrite H3. now apply run_heads_cong.
      * destruct (IH (wrap x) Hes) as (cur' & out & Ef & H1 & H2 & H3).
        exists cur', (Data (wrap x) :: out). cbn [caught]. cbn [St unique_consecutive_op mk_op] in Ef.
        rewrite Ef. cbn [rows errs app]. rewrite wrap_wrap, H3. repeat split; auto; try sub.
    + destruct (IH cur Hes) as (cur' & out & Ef & H1 & H2 & H3).
      exists cur', (Err e :: out). cbn [caught]. cbn [St unique_consecutive_op mk_op] in Ef.
      rewrite Ef. cbn [rows errs app map as_input]. repeat split; auto; try sub; congruence.
    + destruct (IH cur Hes) as (cur' & out & Ef & H1 & H2 & H3).
      exists cur', (Err e :: out). cbn [caught]. cbn [St unique_consecutive_op mk_op] in Ef.
      rewrite Ef. cbn [rows errs app map as_input]. repeat split; auto; try sub; congruence.
Qed.

Lemma rows_first_not_none es : run_heads_after VNone (rows es) = run_heads (rows es).
Proof.
  induction es as [|[x|e|e|] es IH]; simpl; auto.
  assert (py_eq VNone (wrap x) = false) as -> by (destruct x; reflexivity). reflexivity.
Qed.

Lemma unique_consecutive_exec es : open_stream es ->
  exists out, exec unique_consecutive_op (es, Ok) = (out ++ [Flush], Ok) /\
    errs out = errs es /\ sublist out (map as_input es) /\ rows out = run_heads (rows es).
Proof.
  intros He. destruct (unique_consecutive_feed VNone He) as (cur' & out & E & H1 & H2 & H3).
  exists out. rewrite exec_through. unfold through. cbn [setup unique_consecutive_op mk_op fresh].
  rewrite feed_app. cbn [St unique_consecutive_op mk_op] in *. rewrite E. repeat split; auto.
  now rewrite H3, rows_first_not_none.
Qed.

(** ** sort *)



(** The comparison that decides Python's sort, on a set of keys where it is defined: total,
    irreflexive, transitive, with incomparability an equivalence. *)
Record comparable (K : val -> Prop) : Prop := {
  cmp_total : forall a b, K a -> K b -> exists r, py_lt a b = Some r;
  cmp_tri : forall a b, K a -> K b -> py_eq a b = false -> py_lt a b = Some true \/ py_lt b a = Some true;
  cmp_eq : forall a b, K a -> K b -> py_eq a b = true -> py_lt a b = Some false;
  cmp_asym : forall a b, K a -> K b -> py_lt a b = Some true -> py_lt b a = Some false;
  cmp_trans : forall a b c, K a -> K b -> K c ->
    py_lt a b = Some true -> py_lt b c = Some true -> py_lt a c = Some true }.

Lemma str_ltb_irrefl s : str_ltb s s = false.
Proof. induction s as [|c s IH]; simpl; auto. now rewrite Nat.ltb_irrefl. Qed.

Lemma str_ltb_asym a b : str_ltb a b = true -> str_ltb b a = false.
Proof.
  revert b; induction a as [|x a IH]; intros [|y b]; simpl; auto; try discriminate.
  destruct (Nat.ltb_spec (nat_of_ascii x) (nat_of_ascii y)), (Nat.ltb_spec (nat_of_ascii y) (nat_of_ascii x));
    try lia; auto; discriminate.
Qed.

Lemma str_ltb_trans a b c : str_ltb a b = true -> str_ltb b c = true -> str_ltb a c = true.
Proof.
  revert b c; induction a as [|x a IH]; intros [|y b] [|z c]; simpl; auto; try discriminate.
  destruct (Nat.ltb_spec (nat_of_ascii x) (nat_of_ascii y)),
    (Nat.ltb_spec (nat_of_ascii y) (nat_of_ascii x)),
    (Nat.ltb_spec (nat_of_ascii y) (nat_of_ascii z)),
    (Nat.ltb_spec (nat_of_ascii z) (nat_of_ascii y)),
    (Nat.ltb_spec (nat_of_ascii x) (nat_of_ascii z)),
    (Nat.ltb_spec (nat_of_ascii z) (nat_of_ascii x)); try lia; auto; try discriminate.
  apply IH.
Qed.

Lemma str_ltb_tri a b : str_ltb a b = false -> str_ltb b a = false -> a = b.
Proof.
  revert b; induction a as [|x a IH]; intros [|y b]; simpl; auto; try discriminate.
  destruct (Nat.ltb_spec (nat_of_ascii x) (nat_of_ascii y)), (Nat.ltb_spec (nat_of_ascii y) (nat_of_ascii x));
    try discriminate; try lia.
  intros H1 H2. f_equal; [|auto].
  rewrite <- (ascii_nat_embedding x), <- (ascii_nat_embedding y). f_equal. lia.
Qed.

Lemma comparable_int : comparable (fun v => has_kty KInt v).
Proof.
  assert (forall v, has_kty KInt v -> exists z, canon v = VInt z) as Hc.
  { intros []; simpl; try tauto; eauto. }
  assert (forall a b x y, canon a = VInt x -> canon b = VInt y -> py_lt a b = Some (Z.ltb x y)) as Hlt.
  { intros a b x y Ha Hb. destruct a, b; simpl in *; try discriminate; congruence. }
  assert (forall a b x y, canon a = VInt x -> canon b = VInt y -> py_eq a b = Z.eqb x y) as Heq.
  { intros a b x y Ha Hb. unfold py_eq. now rewrite Ha, Hb. }
  split.
  - intros a b Ha Hb. destruct (Hc a Ha) as [x Ex], (Hc b Hb) as [y Ey]. rewrite (Hlt a b x y); eauto.
  - intros a b Ha Hb. destruct (Hc a Ha) as [x Ex], (Hc b Hb) as [y Ey].
    rewrite (Hlt a b x y), (Hlt b a y x), (Heq a b x y); auto. intros H; apply Z.eqb_neq in H.
    destruct (Z.ltb_spec x y), (Z.ltb_spec y x); auto; lia.
  - intros a b Ha Hb. destruct (Hc a Ha) as [x Ex], (Hc b Hb) as [y Ey].
    rewrite (Hlt a b x y), (Heq a b x y); auto. intros H; apply Z.eqb_eq in H. subst. now rewrite Z.ltb_irrefl.
  - intros a b Ha Hb. destruct (Hc a Ha) as [x Ex], (Hc b Hb) as [y Ey].
    rewrite (Hlt a b x y), (Hlt b a y x); auto. intros [= H'].
    f_equal. apply Z.ltb_ge. apply Z.ltb_lt in H'. lia.
  - intros a b c Ha Hb Hc'. destruct (Hc a Ha) as [x Ex], (Hc b Hb) as [y Ey], (Hc c Hc') as [z Ez].
    rewrite (Hlt a b x y), (Hlt b c y z), (Hlt a c x z); auto. intros [= H1'] [= H2']. f_equal. apply Z.ltb_lt in H1', H2'. apply Z.ltb_lt; lia.
Qed.

Lemma comparable_str : comparable (fun v => has_kty KStr v).
Proof.
  assert (forall v, has_kty KStr v -> exists s, v = VStr s) as Hc by (intros []; simpl; try tauto; eauto).
  split.
  - intros a b Ha Hb. destruct (Hc a Ha) as [x ->], (Hc b Hb) as [y ->]. simpl; eauto.
  - intros a b Ha Hb. destruct (Hc a Ha) as [x ->], (Hc b Hb) as [y ->]. simpl.
    intros H. destruct (str_ltb x y) eqn:E1; auto. destruct (str_ltb y x) eqn:E2; auto.
    rewrite (str_ltb_tri _ _ E1 E2) in H. rewrite py_eq_refl in H; discriminate.
  - intros a b Ha Hb. destruct (Hc a Ha) as [x ->], (Hc b Hb) as [y ->]. simpl. intros H.
    apply py_eq_canon in H. simpl in H. inversion H. now rewrite str_ltb_irrefl.
  - intros a b Ha Hb. destruct (Hc a Ha) as [x ->], (Hc b Hb) as [y ->]. simpl.
    intros [= H']. now rewrite (str_ltb_asym _ _ H').
  - intros a b c Ha Hb Hc'. destruct (Hc a Ha) as [x ->], (Hc b Hb) as [y ->], (Hc c Hc') as [z ->]. simpl.
    intros [= H1'] [= H2']. now rewrite (str_ltb_trans _ _ _ H1' H2').
Qed.

(** Lexicographic comparison of component lists. *)
Fixpoint lex_lt (xs ys : list val) : option bool :=
  match xs, ys with
  | [], [] => Some false
  | [], _ :: _ => Some true
  | _ :: _, [] => Some false
  | x :: xs', y :: ys' => if py_eq x y then lex_lt xs' ys' else py_lt x y
  end.

Lemma py_lt_tuple xs ys : py_lt (VTuple xs) (VTuple ys) = lex_lt xs ys.
Proof. revert ys; induction xs as [|x xs IH]; intros [|y ys]; simpl; auto. Qed.

Lemma py_lt_list xs ys : py_lt (VList xs) (VList ys) = lex_lt xs ys.
Proof. revert ys; induction xs as [|x xs IH]; intros [|y ys]; simpl; auto. Qed.

Lemma py_eq_list xs ys : py_eq (VList xs) (VList ys) = list_eqb py_eq xs ys.
Proof.
  unfold py_eq at 1; simpl. revert ys; induction xs as [|x xs IH]; intros [|y ys]; simpl; auto.
  now rewrite IH.
Qed.

(** py_lt respects == on a comparable set. *)
Lemma cmp_cong_l K : comparable K -> forall a a' b, K a -> K a' -> K b -> py_eq a a' = true ->
  py_lt a b = py_lt a' b.
Proof.
  intros HK a a' b Ha Ha' Hb E.
  destruct (py_eq a b) eqn:Eab.
  - rewrite (cmp_eq HK a b) by auto. symmetry. apply (cmp_eq HK); auto.
    now rewrite <- (py_eq_cong_l _ _ b E).
  - assert (py_eq a' b = false) as Ea'b by (now rewrite <- (py_eq_cong_l _ _ b E)).
    destruct (cmp_total HK a b Ha Hb) as [r1 E1], (cmp_total HK a' b Ha' Hb) as [r2 E2].
    rewrite E1, E2. f_equal. destruct r1, r2; auto.
    + destruct (cmp_tri HK a' b Ha' Hb Ea'b) as [H|H]; [congruence|].
      pose proof (cmp_trans HK a b a' Ha Hb Ha' E1 H) as H2.
      rewrite (cmp_eq HK a a') in H2 by auto. discriminate.
    + destruct (cmp_tri HK a b Ha Hb Eab) as [H|H]; [congruence|].
      pose proof (cmp_trans HK a' b a Ha' Hb Ha E2 H) as H2.
      rewrite py_eq_sym in E. rewrite (cmp_eq HK a' a) in H2 by auto. discriminate.
Qed.

Lemma cmp_cong_r K : comparable K -> forall a b b', K a -> K b -> K b' -> py_eq b b' = true ->
  py_lt a b = py_lt a b'.
Proof.
  intros HK a b b' Ha Hb Hb' E.
  destruct (py_eq a b) eqn:Eab.
  - rewrite (cmp_eq HK a b) by auto. symmetry. apply (cmp_eq HK); auto.
    now rewrite <- (py_eq_cong_r a _ _ E).
  - assert (py_eq a b' = false) as Ea'b by (now rewrite <- (py_eq_cong_r a _ _ E)).
    destruct (cmp_total HK a b Ha Hb) as [r1 E1], (cmp_total HK a b' Ha Hb') as [r2 E2].
    rewrite E1, E2. f_equal. destruct r1, r2; auto.
    + destruct (cmp_tri HK a b' Ha Hb' Ea'b) as [H|H]; [congruence|].
      pose proof (cmp_trans HK b' a b Hb' Ha Hb H E1) as H2.
      rewrite py_eq_sym in E. rewrite (cmp_eq HK b' b) in H2 by auto. discriminate.
    + destruct (cmp_tri HK a b Ha Hb Eab) as [H|H]; [congruence|].
      pose proof (cmp_trans HK b a b' Hb Ha Hb' H E2) as H2.
      rewrite (cmp_eq HK b b') in H2 by auto. discriminate.
Qed.

(** A list of component sets for lexicographic keys. *)
Inductive lexed : (list val -> Prop) -> Prop :=
| lexed_nil : lexed (fun l => l = [])
| lexed_cons : forall K L, comparable K -> lexed L ->
    lexed (fun l => match l with x :: l' => K x /\ L l' | [] => False end)
| lexed_star : forall K, comparable K -> lexed (Forall K).

Record lex_ok (L : list val -> Prop) : Prop := {
  lx_total : forall a b, L a -> L b -> exists r, lex_lt a b = Some r;
  lx_tri : forall a b, L a -> L b -> list_eqb py_eq a b = false ->
             lex_lt a b = Some true \/ lex_lt b a = Some true;
  lx_eq : forall a b, L a -> L b -> list_eqb py_eq a b = true -> lex_lt a b = Some false;
  lx_asym : forall a b, L a -> L b -> lex_lt a b = Some true -> lex_lt b a = Some false;
  lx_trans : forall a b c, L a -> L b -> L c ->
    lex_lt a b = Some true -> lex_lt b c = Some true -> lex_lt a c = Some true }.

Lemma lex_ok_star K : comparable K -> lex_ok (Forall K).
Proof.
  intros HK. split.
  - induction a as [|x a IH]; intros [|y b] Ha Hb; simpl; eauto.
    inversion Ha; inversion Hb; subst. destruct (py_eq x y); auto. now apply (cmp_total HK).
  - induction a as [|x a IH]; intros [|y b] Ha Hb; simpl; eauto; try discriminate.
    inversion Ha; inversion Hb; subst. rewrite (py_eq_sym y x). destruct (py_eq x y) eqn:E; simpl; auto.
    intros _. now apply (cmp_tri HK).
  - induction a as [|x a IH]; intros [|y b] Ha Hb; simpl; eauto; try discriminate.
    inversion Ha; inversion Hb; subst. destruct (py_eq x y) eqn:E; simpl; auto. discriminate.
  - induction a as [|x a IH]; intros [|y b] Ha Hb; simpl; eauto; try discriminate.
    inversion Ha; inversion Hb; subst. rewrite (py_eq_sym y x). destruct (py_eq x y) eqn:E; simpl; auto.
    now apply (cmp_asym HK).
  - induction a as [|x a IH]; intros [|y b] [|z c] Ha Hb Hc; simpl; auto; try (intros; discriminate).
    inversion Ha as [|? ? Kx Ka]; inversion Hb as [|? ? Ky Kb]; inversion Hc as [|? ? Kz Kc]; subst.
    destruct (py_eq x y) eqn:Exy.
    + rewrite (py_eq_cong_l _ _ z Exy). destruct (py_eq y z) eqn:Eyz.
      * intros G1 G2; exact (IH b c Ka Kb Kc G1 G2).
      * intros _ H. rewrite (cmp_cong_l HK x y z) by auto. exact H.
    + destruct (py_eq y z) eqn:Eyz.
      * rewrite <- (py_eq_cong_r x _ _ Eyz), Exy. intros H _. now rewrite <- (cmp_cong_r HK x y z) by auto.
      * intros H1 H2. destruct (py_eq x z) eqn:Exz.
        -- pose proof (cmp_trans HK x y z Kx Ky Kz H1 H2) as H3.
           rewrite (cmp_eq HK x z) in H3 by auto. discriminate.
        -- exact (cmp_trans HK x y z Kx Ky Kz H1 H2).
Qed.

Lemma lex_ok_nil : lex_ok (fun l => l = []).
Proof. split; intros; subst; simpl in *; eauto; discriminate. Qed.

Lemma lex_ok_cons K L : comparable K -> lex_ok L ->
  lex_ok (fun l => match l with x :: l' => K x /\ L l' | [] => False end).
Proof.
  intros HK HL. split.
  - intros [|x a] [|y b]; try tauto. intros [Kx La] [Ky Lb]. simpl.
    destruct (py_eq x y); [now apply (lx_total HL) | now apply (cmp_total HK)].
  - intros [|x a] [|y b]; try tauto. intros [Kx La] [Ky Lb]. simpl. rewrite (py_eq_sym y x).
    destruct (py_eq x y) eqn:E; simpl; [now apply (lx_tri HL) | intros _; now apply (cmp_tri HK)].
  - intros [|x a] [|y b]; try tauto. intros [Kx La] [Ky Lb]. simpl.
    destruct (py_eq x y) eqn:E; simpl; [now apply (lx_eq HL) | discriminate].
  - intros [|x a] [|y b]; try tauto. intros [Kx La] [Ky Lb]. simpl. rewrite (py_eq_sym y x).
    destruct (py_eq x y) eqn:E; simpl; [now apply (lx_asym HL) | now apply (cmp_asym HK)].
  - intros [|x a] [|y b] [|z c]; try tauto. intros [Kx La] [Ky Lb] [Kz Lc]. simpl.
    destruct (py_eq x y) eqn:Exy.
    + rewrite (py_eq_cong_l _ _ z Exy). destruct (py_eq y z) eqn:Eyz.
      * now apply (lx_trans HL).
      * intros _ H. now rewrite (cmp_cong_l HK x y z) by auto.
    + destruct (py_eq y z) eqn:Eyz.
      * rewrite <- (py_eq_cong_r x _ _ Eyz), Exy. intros H _. now rewrite <- (cmp_cong_r HK x y z) by auto.
      * intros H1 H2. destruct (py_eq x z) eqn:Exz.
        -- pose proof (cmp_trans HK x y z Kx Ky Kz H1 H2) as H3.
           rewrite (cmp_eq HK x z) in H3 by auto. discriminate.
        -- exact (cmp_trans HK x y z Kx Ky Kz H1 H2).
Qed.

Lemma comparable_ext (K K' : val -> Prop) : (forall v, K' v -> K v) -> comparable K -> comparable K'.
Proof.
  intros H HK. split.
  - intros a b Ha Hb. apply (cmp_total HK); auto.
  - intros a b Ha Hb. apply (cmp_tri HK); auto.
  - intros a b Ha Hb. apply (cmp_eq HK); auto.
  - intros a b Ha Hb. apply (cmp_asym HK); auto.
  - intros a b c Ha Hb Hc. apply (cmp_trans HK); auto.
Qed.

Lemma comparable_tuple L : lex_ok L ->
  comparable (fun v => match v with VTuple vs => L vs | _ => False end).
Proof.
  intros HL. split.
  - intros [] []; try tauto. rewrite py_lt_tuple. apply (lx_total HL).
  - intros [] []; try tauto. rewrite !py_lt_tuple, py_eq_tuple. apply (lx_tri HL).
  - intros [] []; try tauto. rewrite !py_lt_tuple, py_eq_tuple. apply (lx_eq HL).
  - intros [] []; try tauto. rewrite !py_lt_tuple. apply (lx_asym HL).
  - intros [] [] []; try tauto. rewrite !py_lt_tuple. apply (lx_trans HL).
Qed.

Lemma comparable_list L : lex_ok L ->
  comparable (fun v => match v with VList vs => L vs | _ => False end).
Proof.
  intros HL. split.
  - intros [] []; try tauto. rewrite py_lt_list. apply (lx_total HL).
  - intros [] []; try tauto. rewrite !py_lt_list, py_eq_list. apply (lx_tri HL).
  - intros [] []; try tauto. rewrite !py_lt_list, py_eq_list. apply (lx_eq HL).
  - intros [] []; try tauto. rewrite !py_lt_list. apply (lx_asym HL).
  - intros [] [] []; try tauto. rewrite !py_lt_list. apply (lx_trans HL).
Qed.

Section KtyInd.
  Variable P : kty -> Prop.
  Hypothesis H1 : P KInt.
  Hypothesis H2 : P KStr.
  Hypothesis H3 : forall ts, Forall P ts -> P (KTuple ts).
  Hypothesis H4 : forall t, P t -> P (KList t).
  Fixpoint kty_ind' (t : kty) : P t :=
    match t with
    | KInt => H1
    | KStr => H2
    | KTuple ts => H3 ((fix all (ts : list kty) : Forall P ts :=
        match ts with [] => Forall_nil _ | t :: ts' => Forall_cons t (kty_ind' t) (all ts') end) ts)
    | KList t => H4 (kty_ind' t)
    end.
End KtyInd.

Lemma comparable_kty t : comparable (has_kty t).
Proof.
  induction t as [| |ts IH|t IH] using kty_ind'.
  - apply comparable_int.
  - apply comparable_str.
  - set (L := fix go (ts : list kty) (vs : list val) : Prop :=
       match ts, vs with
       | [], [] => True
       | t :: ts', v :: vs' => has_kty t v /\ go ts' vs'
       | _, _ => False
       end).
    assert (lex_ok (L ts)) as HL.
    { induction IH as [|t ts Ht _ IHts].
      - destruct lex_ok_nil as [a b c d e]. simpl.
        assert (forall l, L [] l -> l = []) as Hn by (intros [|]; simpl; tauto).
        split; [intros x y Hx Hy; apply a|intros x y Hx Hy; apply b|intros x y Hx Hy; apply c
               |intros x y Hx Hy; apply d|intros x y z Hx Hy Hz; apply e]; auto.
      - assert (forall l, L (t :: ts) l -> match l with x :: l' => has_kty t x /\ L ts l' | [] => False end) as Hn
          by (intros [|]; simpl; tauto).
        destruct (lex_ok_cons Ht IHts) as [a b c d e].
        split; [intros x y Hx Hy; apply a|intros x y Hx Hy; apply b|intros x y Hx Hy; apply c
               |intros x y Hx Hy; apply d|intros x y z Hx Hy Hz; apply e]; auto. }
    eapply comparable_ext; [|exact (comparable_tuple HL)].
    intros []; simpl; tauto.
  - eapply comparable_ext; [|exact (comparable_list (lex_ok_star IH))].
    intros []; simpl; tauto.
Qed.
