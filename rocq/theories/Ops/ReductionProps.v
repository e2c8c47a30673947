(** C75: the reduction symbols compute what they are said to compute. *)
From Coq Require Import List ZArith String Bool Arith Lia.
From Verif.Py Require Import Val.
From Verif.Exec Require Import Machine.
From Verif.Ops Require Import Basic Group Spec ExecProps Rerun OpsProps1 Reduction ReductionSpec.
Import ListNotations.
Local Open Scope string_scope.
Local Open Scope list_scope.

Lemma start f x xs : fold_opt (as_func (unless_none f)) VNone (x :: xs) = fold_opt (as_func (unless_none f)) x xs.
Proof. reflexivity. Qed.

Lemma fold_app f xs ys a : fold_opt f a (xs ++ ys) = match fold_opt f a xs with Some b => fold_opt f b ys | None => None end.
Proof. revert a; induction xs as [|x xs IH]; intros a; cbn [app fold_opt]; auto. destruct (f [a; x]); auto. Qed.

(** Folds of total functions on one kind of values. *)
Lemma fold_kind {A} (mk : A -> val) (g : A -> A -> A) f :
  (forall a b, f [mk a; mk b] = Some (mk (g a b))) ->
  forall xs a, fold_opt f (mk a) (map mk xs) = Some (mk (fold_left g xs a)).
Proof. intros H; induction xs as [|x xs IH]; intros a; cbn [map fold_opt fold_left]; auto. rewrite H. apply IH. Qed.

Lemma fold_sum g e xs a : (forall x y z : Z, g x (g y z) = g (g x y) z) -> (forall x, g x e = x) ->
  fold_left g xs a = g a (fold_right g e xs).
Proof.
  intros H E; revert a; induction xs as [|x xs IH]; intros a; cbn [fold_left fold_right]; [now rewrite E|].
  rewrite IH, <- H. reflexivity.
Qed.

Lemma fold_strings ss a : fold_left (fun s t => (s ++ t)%string) ss a = String.concat "" (a :: ss).
Proof.
  revert a; induction ss as [|s ss IH]; intros a; [reflexivity|]. cbn [fold_left]. rewrite IH.
  assert (S1 : forall x y z : string, ((x ++ y) ++ z = x ++ (y ++ z))%string)
    by (induction x as [|c x IHx]; intros y z; cbn [append]; [reflexivity|now rewrite IHx]).
  assert (C : forall x l, String.concat "" (x :: l) = (x ++ String.concat "" l)%string).
  { intros x [|y l]; cbn [String.concat]; [|reflexivity].
    clear; induction x as [|c x IHx]; cbn [append]; [reflexivity|now rewrite <- IHx]. }
  rewrite !C, S1. reflexivity.
Qed.

Lemma fold_lists (xss : list (list val)) a : fold_left (@app val) xss a = concat (a :: xss).
Proof.
  revert a; induction xss as [|x xss IH]; intros a; cbn [fold_left concat]; [now rewrite app_nil_r|].
  rewrite IH. cbn [concat]. now rewrite app_assoc.
Qed.

Lemma land_bits zs a n : Z.testbit (fold_left Z.land zs a) n = forallb (fun y => Z.testbit y n) (a :: zs).
Proof.
  revert a; induction zs as [|z zs IH]; intros a; cbn [fold_left forallb]; [now rewrite andb_true_r|].
  rewrite IH. cbn [forallb]. rewrite Z.land_spec. now rewrite <- andb_assoc.
Qed.
Lemma lor_bits zs a n : Z.testbit (fold_left Z.lor zs a) n = existsb (fun y => Z.testbit y n) (a :: zs).
Proof.
  revert a; induction zs as [|z zs IH]; intros a; cbn [fold_left existsb]; [now rewrite orb_false_r|].
  rewrite IH. cbn [existsb]. rewrite Z.lor_spec. now rewrite <- orb_assoc.
Qed.

Definition parity {A} (p : A -> bool) (l : list A) : bool := Nat.odd (length (filter p l)).
Lemma parity_cons {A} (p : A -> bool) x l : parity p (x :: l) = xorb (p x) (parity p l).
Proof.
  unfold parity; cbn [filter]. destruct (p x); cbn [length]; [|now destruct (Nat.odd _)].
  rewrite Nat.odd_succ, <- Nat.negb_odd. now destruct (Nat.odd _).
Qed.
Lemma lxor_bits zs a n : Z.testbit (fold_left Z.lxor zs a) n = parity (fun y => Z.testbit y n) (a :: zs).
Proof.
  revert a; induction zs as [|z zs IH]; intros a; cbn [fold_left].
  - rewrite parity_cons. cbn. now rewrite xorb_false_r.
  - rewrite IH, !parity_cons, Z.lxor_spec. now rewrite xorb_assoc.
Qed.

Lemma bools_and bs a : fold_left andb bs a = forallb (fun b => b) (a :: bs).
Proof. revert a; induction bs as [|b bs IH]; intros a; cbn [fold_left forallb]; [now rewrite andb_true_r|]. rewrite IH. cbn [forallb]. now rewrite andb_assoc. Qed.
Lemma bools_or bs a : fold_left orb bs a = existsb (fun b => b) (a :: bs).
Proof. revert a; induction bs as [|b bs IH]; intros a; cbn [fold_left existsb]; [now rewrite orb_false_r|]. rewrite IH. cbn [existsb]. now rewrite orb_assoc. Qed.
Lemma bools_xor bs a : fold_left xorb bs a = parity (fun b => b) (a :: bs).
Proof.
  revert a; induction bs as [|b bs IH]; intros a; cbn [fold_left]; [rewrite parity_cons; cbn; now rewrite xorb_false_r|].
  rewrite IH, !parity_cons. now rewrite xorb_assoc.
Qed.

Lemma to_bits z z' : (forall n, (0 <= n)%Z -> Z.testbit z n = Z.testbit z' n) -> z = z'.
Proof. intros H. apply Z.bits_inj'. exact H. Qed.

(** *** and, or *)
Lemma and_true xs a : truthy a = true -> Forall (fun x => truthy x = true) xs ->
  exists b, fold_opt (as_func r_and) a xs = Some b /\ truthy b = true.
Proof.
  intros H HF; revert a H; induction HF as [|x xs Hx HF IH]; intros a H; [exists a; auto|].
  cbn [fold_opt as_func]. unfold r_and, unless_none.
  destruct a; try discriminate; rewrite H; apply IH; auto.
Qed.
Lemma and_false xs a : truthy a = false -> a <> VNone -> fold_opt (as_func r_and) a xs = Some a.
Proof.
  intros H N; induction xs as [|x xs IH]; [reflexivity|]. cbn [fold_opt as_func]. unfold r_and at 1, unless_none.
  destruct a; try congruence; rewrite H; exact IH.
Qed.
Lemma and_next a x : truthy a = true -> r_and a x = Some x.
Proof. intros H; unfold r_and, unless_none. destruct a; try discriminate; now rewrite H. Qed.

Lemma or_false xs a : truthy a = false -> Forall (fun x => truthy x = false) xs ->
  exists b, fold_opt (as_func r_or) a xs = Some b /\ truthy b = false.
Proof.
  intros H HF; revert a H; induction HF as [|x xs Hx HF IH]; intros a H; [exists a; auto|].
  cbn [fold_opt as_func]. unfold r_or, unless_none.
  destruct a; try rewrite H; apply IH; auto.
Qed.
Lemma or_true xs a : truthy a = true -> fold_opt (as_func r_or) a xs = Some a.
Proof.
  intros H; induction xs as [|x xs IH]; [reflexivity|]. cbn [fold_opt as_func]. unfold r_or at 1, unless_none.
  destruct a; try discriminate; rewrite H; exact IH.
Qed.
Lemma or_next a x : truthy a = false -> r_or a x = Some x.
Proof. intros H; unfold r_or, unless_none. destruct a; try reflexivity; now rewrite H. Qed.

(** *** max, min *)
Definition comparable (x y : val) : Prop := exists c, py_lt x y = Some c.
Lemma pairwise_comparable l : pairwise l -> forall x y, In x l -> In y l -> comparable x y /\ x <> VNone.
Proof.
  intros [zs|ss] x y Hx Hy; apply in_map_iff in Hx; apply in_map_iff in Hy;
    destruct Hx as (? & <- & _), Hy as (? & <- & _); split; try discriminate; unfold comparable; cbn; eauto.
Qed.

Lemma extreme_in (f : val -> val -> option val) (g : val -> val -> val) :
  forall l xs a, (forall x y, In x l -> In y l -> f x y = Some x \/ f x y = Some y) ->
  (forall x, In x l -> x <> VNone) -> In a l -> incl xs l ->
  exists b, fold_opt (as_func (unless_none f)) a xs = Some b /\ In b (a :: xs).
Proof.
  intros l; induction xs as [|x xs IH]; intros a H N Ha Hi; [exists a; cbn; auto|].
  cbn [fold_opt as_func]. unfold unless_none at 1.
  assert (Hx : In x l) by (apply Hi; left; auto).
  assert (E : match a with VNone => Some x | _ => f a x end = f a x) by (generalize (N a Ha); destruct a; congruence).
  rewrite E. assert (incl xs l) by (intros y Hy; apply Hi; right; auto).
  destruct (H a x Ha Hx) as [->| ->]; [destruct (IH a) as (b & F & I)|destruct (IH x) as (b & F & I)]; auto;
    exists b; split; auto; cbn in *; tauto.
Qed.

Lemma extreme (f : val -> val -> option val) before v after :
  (forall x y, In x (before ++ v :: after) -> In y (before ++ v :: after) -> f x y = Some x \/ f x y = Some y) ->
  (forall x, In x (before ++ v :: after) -> x <> VNone) ->
  Forall (fun x => f x v = Some v) before -> Forall (fun x => f v x = Some v) after ->
  fold_opt (as_func (unless_none f)) VNone (before ++ v :: after) = Some v.
Proof.
  intros H N HB HA.
  assert (Nv : v <> VNone) by (apply N, in_or_app; right; left; auto).
  assert (T : fold_opt (as_func (unless_none f)) v after = Some v).
  { clear - HA Nv. induction HA as [|x xs Hx HA IH]; [reflexivity|]. cbn [fold_opt as_func]. unfold unless_none at 1.
    destruct v; try congruence; rewrite Hx; exact IH. }
  destruct before as [|a before]; [exact T|].
  cbn [app]. rewrite start, fold_app.
  destruct (@extreme_in f (fun x _ => x) _ before a H N) as (b & -> & I); [left; auto|intros y Hy; apply in_or_app; left; right; auto|].
  cbn [fold_opt as_func]. unfold unless_none at 1. rewrite Forall_forall in HB.
  assert (Hb : b <> VNone) by (apply N; apply in_or_app; left; auto).
  pose proof (HB b I) as E. destruct b; try congruence; rewrite E; exact T.
Qed.

(** *** count, concat *)
Lemma count_from xs n : fold_opt (as_func r_count) (VInt n) xs = Some (VInt (n + Z.of_nat (length xs))).
Proof.
  revert n; induction xs as [|x xs IH]; intros n; [cbn; now rewrite Z.add_0_r|].
  cbn [fold_opt as_func r_count py_add on_ints as_int]. rewrite IH. f_equal; f_equal. cbn [length]. lia.
Qed.
Lemma concat_from xs l : fold_opt (as_func r_concat) (VList l) xs = Some (VList (l ++ xs)).
Proof.
  revert l; induction xs as [|x xs IH]; intros l; [now rewrite app_nil_r|].
  cbn [fold_opt as_func r_concat]. rewrite IH, <- app_assoc. reflexivity.
Qed.

(** Where red starts: 0 for count without grouping, else None. *)
Definition startable (s : string) (a : val) (xs : list val) : Prop :=
  a = VNone /\ xs <> [] \/ s = "count" /\ a = VInt 0.

Lemma reduction s xs v a : reduces s xs v -> startable s a xs -> (s = "and" -> ~ In VNone (removelast xs)) ->
  exists f, symbol_function s = Some f /\ fold_opt (as_func f) a xs = Some v.
Proof.
  intros R ST AND. cut (a = VNone /\ xs <> [] \/ s = "count" /\ a = VInt 0); [clear ST; intros ST|exact ST].
  assert (C : s <> "count" -> a = VNone) by (destruct ST as [[]|[]]; congruence).
  destruct R; try (assert (a = VNone) by (apply C; discriminate); subst a; clear C ST);
    try (destruct zs as [|z0 zs]; [congruence|]); try (destruct ss as [|s0 ss]; [congruence|]);
    try (destruct xss as [|x0 xss]; [congruence|]); try (destruct bs as [|b0 bs]; [congruence|]);
    cbn [symbol_function]; eexists; (split; [reflexivity|]); cbn [map];
    try match goal with |- fold_opt ?f VNone (VInt ?x :: ?xs) = ?r => change (fold_opt f (VInt x) xs = r)
                   | |- fold_opt ?f VNone (VStr ?x :: ?xs) = ?r => change (fold_opt f (VStr x) xs = r)
                   | |- fold_opt ?f VNone (VList ?x :: ?xs) = ?r => change (fold_opt f (VList x) xs = r)
                   | |- fold_opt ?f VNone (VTuple ?x :: ?xs) = ?r => change (fold_opt f (VTuple x) xs = r)
                   | |- fold_opt ?f VNone (VBool ?x :: ?xs) = ?r => change (fold_opt f (VBool x) xs = r) end.
  - rewrite (fold_kind VInt Z.add) by reflexivity. do 2 f_equal. rewrite (fold_sum _ 0%Z); [reflexivity|exact Z.add_assoc|exact Z.add_0_r].
  - rewrite (fold_kind VStr (fun s t => (s ++ t)%string)) by reflexivity. now rewrite fold_strings.
  - rewrite (fold_kind VList (@app val)) by reflexivity. now rewrite fold_lists.
  - rewrite (fold_kind VTuple (@app val)) by reflexivity. now rewrite fold_lists.
  - rewrite (fold_kind VInt Z.mul) by reflexivity. do 2 f_equal. rewrite (fold_sum _ 1%Z); [reflexivity|exact Z.mul_assoc|exact Z.mul_1_r].
  - rewrite (fold_kind VInt Z.land) by reflexivity. do 2 f_equal. apply to_bits. intros n Hn. now rewrite land_bits, H0.
  - rewrite (fold_kind VInt Z.lor) by reflexivity. do 2 f_equal. apply to_bits. intros n Hn. now rewrite lor_bits, H0.
  - rewrite (fold_kind VInt Z.lxor) by reflexivity. do 2 f_equal. apply to_bits. intros n Hn. now rewrite lxor_bits, H0.
  - rewrite (fold_kind VBool andb) by reflexivity. now rewrite bools_and.
  - rewrite (fold_kind VBool orb) by reflexivity. now rewrite bools_or.
  - rewrite (fold_kind VBool xorb) by reflexivity. now rewrite bools_xor.
  - assert (T : fold_opt (as_func r_and) v after = Some v).
    { destruct H0 as [Hv| ->]; [|reflexivity]. destruct after as [|y after]; [reflexivity|].
      apply and_false; auto. intros ->. 
      apply (AND eq_refl).
      rewrite removelast_app by discriminate. apply in_or_app; right. left. reflexivity. }
    destruct H as [|b before Hb HB]; [exact T|]. cbn [app].
    change (fold_opt (as_func r_and) b (before ++ v :: after) = Some v). rewrite fold_app.
    destruct (and_true _ _ Hb HB) as (c & -> & Hc). cbn [fold_opt as_func]. rewrite and_next by auto. exact T.
  - assert (T : fold_opt (as_func r_or) v after = Some v).
    { destruct H0 as [Hv| ->]; [|reflexivity]. now apply or_true. }
    destruct H as [|b before Hb HB]; [exact T|]. cbn [app].
    change (fold_opt (as_func r_or) b (before ++ v :: after) = Some v). rewrite fold_app.
    destruct (or_false _ _ Hb HB) as (c & -> & Hc). cbn [fold_opt as_func]. rewrite or_next by auto. exact T.
  - pose proof (pairwise_comparable _ H1) as PC. apply extreme.
    + intros x y Hx Hy. destruct (proj1 (PC x y Hx Hy)) as ([|] & E); unfold py_max; rewrite E; auto.
    + intros x Hx. exact (proj2 (PC x x Hx Hx)).
    + eapply Forall_impl; [|exact H]. intros x E. unfold py_max. now rewrite E.
    + eapply Forall_impl; [|exact H0]. intros x E. unfold py_max. now rewrite E.
  - pose proof (pairwise_comparable _ H1) as PC. apply extreme.
    + intros x y Hx Hy. destruct (proj1 (PC y x Hy Hx)) as ([|] & E); unfold py_min; rewrite E; auto.
    + intros x Hx. exact (proj2 (PC x x Hx Hx)).
    + eapply Forall_impl; [|exact H]. intros x E. unfold py_min. now rewrite E.
    + eapply Forall_impl; [|exact H0]. intros x E. unfold py_min. now rewrite E.
  - destruct ST as [[-> N]|[_ ->]].
    + destruct xs as [|x xs]; [congruence|]. cbn [fold_opt as_func r_count]. rewrite count_from. cbn [length]. do 2 f_equal. lia.
    + rewrite count_from. reflexivity.
  - destruct xs as [|x xs]; [congruence|]. cbn [fold_opt as_func r_concat]. now rewrite concat_from.
Qed.

(** ** red *)

Lemma symbols_nth ss rs : symbols ss = Some rs -> length rs = length ss /\
  forall i s, nth_error ss i = Some s -> exists f, symbol_function s = Some f /\
    nth_error rs i = Some (MkRed (as_func f) (String.eqb s ".") (String.eqb s "count")).
Proof.
  revert rs; induction ss as [|s ss IH]; intros rs E; cbn [symbols] in E.
  - injection E as <-. split; [reflexivity|]. intros [|] ? H; discriminate.
  - unfold symbol in E. destruct (symbol_function s) as [f|] eqn:F; [|discriminate].
    destruct (symbols ss) as [rs'|]; [|discriminate]. injection E as <-.
    destruct (IH _ eq_refl) as (L & H). split; [cbn; congruence|].
    intros [|i] t Ht; cbn in *; [injection Ht as <-; eauto|eauto].
Qed.

Lemma symbols_exist ss : (forall i s, nth_error ss i = Some s -> exists f, symbol_function s = Some f) -> exists rs, symbols ss = Some rs.
Proof.
  induction ss as [|s ss IH]; intros H; [eexists; reflexivity|].
  destruct (H 0 s eq_refl) as (f & F). destruct IH as (rs & E); [intros i t; exact (H (S i) t)|].
  cbn [symbols]. unfold symbol. rewrite F, E. eauto.
Qed.

Lemma no_group ss rs : symbols ss = Some rs -> ~ In "." ss -> existsb r_group rs = false.
Proof.
  revert rs; induction ss as [|s ss IH]; intros rs E N; cbn [symbols] in E; [injection E as <-; reflexivity|].
  unfold symbol in E. destruct (symbol_function s) as [f|] eqn:F; [|discriminate].
  destruct (symbols ss) as [rs'|]; [|discriminate]. injection E as <-. cbn [existsb r_group].
  rewrite (IH rs' eq_refl) by (intros I; apply N; right; auto). rewrite orb_false_r.
  apply String.eqb_neq. intros ->. apply N. left; auto.
Qed.

Lemma some_group ss rs : symbols ss = Some rs -> In "." ss -> existsb r_group rs = true.
Proof.
  revert rs; induction ss as [|s ss IH]; intros rs E N; [destruct N|]. cbn [symbols] in E.
  unfold symbol in E. destruct (symbol_function s) as [f|] eqn:F; [|discriminate].
  destruct (symbols ss) as [rs'|]; [|discriminate]. injection E as <-. cbn [existsb r_group].
  destruct N as [D|N]; [subst s; reflexivity|]. rewrite (IH rs' eq_refl N). apply orb_true_r.
Qed.

Lemma nth_map_reds (rs : list reducer) i r : nth_error rs i = Some r ->
  nth i (map (fun r => if r_is_count r then VInt 0 else VNone) rs) VNone = if r_is_count r then VInt 0 else VNone.
Proof.
  revert i; induction rs as [|r' rs IH]; intros [|i] H; try discriminate; cbn in *; [injection H as <-; reflexivity|auto].
Qed.

(** Without grouping: the rows that are long enough, reduced column by column, in one row. *)
Theorem c75_red_partial : forall ss es vs, open_stream es -> ~ In "." ss -> length vs = length ss ->
  let xs := filter (fun x => Nat.leb (length ss) (length (components x))) (rows es) in
  (forall i s, nth_error ss i = Some s -> reduces s (column i xs) (nth i vs VNone)) ->
  (forall i s, nth_error ss i = Some s -> s = "and" -> ~ In VNone (removelast (column i xs))) ->
  exists m out, red_symbols false ss = Some m /\
    exec m (es, Ok) = (out ++ [Data (VTuple vs); Flush], Ok) /\ rows out = [].
Proof.
  intros ss es vs He N L xs R AND.
  assert (ST : forall i s, nth_error ss i = Some s -> startable s (if String.eqb s "count" then VInt 0 else VNone) (column i xs)).
  { intros i s Hs. destruct (String.eqb_spec s "count") as [->|C]; [right; auto|left; split; auto].
    pose proof (R i s Hs) as Ri. destruct Ri; try congruence; try (intros E; apply map_eq_nil in E; congruence);
      try (intros E; apply app_eq_nil in E; destruct E; discriminate); try (destruct zs; cbn; congruence);
      try (destruct ss0; cbn; congruence); try (destruct xss; cbn; congruence); try (destruct bs; cbn; congruence). }
  destruct (symbols_exist ss) as (rs & E).
  { intros i s Hs. destruct (reduction _ _ _ _ (R i s Hs) (ST i s Hs) (AND i s Hs)) as (f & F & _). eauto. }
  destruct (symbols_nth _ _ E) as (LR & NR).
  destruct (@c10_red rs es vs He (no_group _ _ E N)) as (out & X & O).
  - rewrite LR. fold xs. split; [now rewrite map_length, LR|].
    intros i f Hf. destruct (nth_error ss i) as [s|] eqn:Hs.
    + destruct (NR i s Hs) as (g & G & Hr).
      rewrite (map_nth_error r_fun i rs Hr) in Hf. injection Hf as <-. cbn [r_fun].
      rewrite (nth_map_reds _ _ _ Hr). cbn [r_is_count].
      destruct (reduction _ _ _ _ (R i s Hs) (ST i s Hs) (AND i s Hs)) as (g' & G' & H).
      rewrite G in G'. injection G' as <-. exact H.
    + exfalso. apply nth_error_None in Hs. assert (nth_error (map r_fun rs) i <> None) by congruence.
      apply nth_error_Some in H. rewrite map_length in H. lia.
  - exists (red_op false rs), out. unfold red_symbols. rewrite E. auto.
Qed.

(** ** With grouping *)

Lemma key_is ss rs x : symbols ss = Some rs -> group_key rs x = key ss x.
Proof.
  unfold group_key, key. intros E. f_equal. generalize (components x). clear x.
  revert rs E; induction ss as [|s ss IH]; intros rs E ys; cbn [symbols] in E; [injection E as <-; reflexivity|].
  unfold symbol in E. destruct (symbol_function s) as [f|] eqn:F; [|discriminate].
  destruct (symbols ss) as [rs'|]; [|discriminate]. injection E as <-.
  destruct ys as [|y ys]; [reflexivity|]. cbn [combine filter fst r_group].
  pose proof (IH rs' eq_refl ys) as H. destruct (String.eqb s "."); cbn [map]; [f_equal|]; exact H.
Qed.

Lemma fold_last a xs : fold_opt (fun args => nth_error args 1) a xs = Some (last xs a).
Proof. revert a; induction xs as [|x xs IH]; intros a; cbn [fold_opt nth_error last]; [reflexivity|]. rewrite IH. destruct xs; [reflexivity|]. f_equal. clear. revert v; induction xs as [|y xs IH]; intros v; [reflexivity|]. cbn [last]. exact (IH y). Qed.

Lemma nth_repeat_none n i : nth i (repeat VNone n) VNone = VNone.
Proof. revert i; induction n; intros [|i]; cbn; auto. Qed.

Lemma reduces_some s xs v : reduces s xs v -> s <> "count" -> xs <> [].
Proof.
  intros R C. destruct R; try congruence; try (intros E; apply map_eq_nil in E; congruence);
    try (intros E; apply app_eq_nil in E; destruct E; discriminate).
Qed.

Lemma group_folds ss rs xs vs : symbols ss = Some rs -> xs <> [] -> group_row ss xs vs ->
  (forall i s, nth_error ss i = Some s -> s = "and" -> ~ In VNone (removelast (column i xs))) ->
  folds (map eff rs) (repeat VNone (length rs)) vs xs.
Proof.
  intros E NE (L & G) AND. destruct (symbols_nth _ _ E) as (LR & NR). split; [now rewrite map_length, LR|].
  intros i f Hf. rewrite nth_repeat_none. destruct (nth_error ss i) as [s|] eqn:Hs.
  - destruct (NR i s Hs) as (g & Hg & Hr). rewrite (map_nth_error eff i rs Hr) in Hf. injection Hf as <-.
    pose proof (G i s Hs) as GI. unfold eff. cbn [r_group r_fun]. destruct (String.eqb s ".").
    + rewrite GI. apply fold_last.
    + assert (ST : startable s VNone (column i xs))
        by (left; split; auto; unfold column; intros M; apply map_eq_nil in M; auto).
      destruct (reduction _ _ _ _ GI ST (AND i s Hs)) as (g' & Hg' & H).
      rewrite Hg in Hg'. injection Hg' as <-. exact H.
  - exfalso. apply nth_error_None in Hs. assert (nth_error (map eff rs) i <> None) by congruence.
    apply nth_error_Some in H. rewrite map_length in H. lia.
Qed.

Lemma folds_unique fs init vs vs' xs : folds fs init vs xs -> folds fs init vs' xs -> vs = vs'.
Proof.
  intros (L & F) (L' & F'). apply (nth_ext _ _ VNone VNone); [congruence|]. intros i Hi.
  destruct (nth_error fs i) as [f|] eqn:E.
  - pose proof (F i f E) as A. rewrite (F' i f E) in A. now injection A.
  - apply nth_error_None in E. lia.
Qed.

Lemma keep_by_in p b l x : In x (keep_by p b l) -> In x l.
Proof. revert b; induction l as [|y l IH]; intros b H; cbn in *; auto. destruct (p b y); cbn in *; [destruct H; auto|]; right; eauto. Qed.

Lemma Forall2_in_l {A B} (P Q : A -> B -> Prop) l l' : Forall2 P l l' -> (forall a b, In a l -> P a b -> Q a b) -> Forall2 Q l l'.
Proof. induction 1 as [|a b l l' H F IH]; intros HQ; constructor; [apply HQ; cbn; auto|]. apply IH. intros; apply HQ; cbn; auto. Qed.

Theorem c75_groups_partial : forall ss es, open_stream es -> In "." ss ->
  (forall s, In s ss -> exists f, symbol_function s = Some f) ->
  Forall (fun x => length ss <= length (components x) /\ hashable (key ss x) = true) (rows es) ->
  (forall x, In x (rows es) -> exists vs, group_row ss (same_group ss (key ss x) (rows es)) vs) ->
  (forall x i, In x (rows es) -> nth_error ss i = Some "and" ->
     ~ In VNone (removelast (column i (same_group ss (key ss x) (rows es))))) ->
  exists m vss, red_symbols false ss = Some m /\
    exec m (es, Ok) = (map Err (errs es) ++ map (fun vs => Data (VTuple vs)) vss ++ [Flush], Ok) /\
    Forall2 (fun k vs => group_row ss (same_group ss k (rows es)) vs)
            (keep_by first_occurrence [] (map (key ss) (rows es))) vss.
Proof.
  intros ss es He D S HL HG AND.
  destruct (symbols_exist ss) as (rs & E). { intros i s Hs. apply S. eapply nth_error_In; eauto. }
  destruct (symbols_nth _ _ E) as (LR & NR).
  assert (K : forall x, group_key rs x = key ss x) by (intros; apply key_is; auto).
  assert (SG : forall k, filter (in_group rs k) (rows es) = same_group ss k (rows es)).
  { intros k. unfold same_group, in_group. apply filter_ext. intros y. now rewrite K. }
  assert (NE : forall x, In x (rows es) -> same_group ss (key ss x) (rows es) <> []).
  { intros x Hx N. assert (In x (same_group ss (key ss x) (rows es))) as I.
    { unfold same_group. apply filter_In. split; auto. apply py_eq_refl. } rewrite N in I. destruct I. }
  destruct (@c11_red_groups rs es He (some_group _ _ E D)) as (vss & X & F).
  - eapply Forall_impl; [|exact HL]. intros x (A & B). rewrite LR, K. auto.
  - intros x Hx. destruct (HG x Hx) as (vs & G). exists vs. rewrite K, SG. eapply group_folds; eauto.
    intros i s Hs ->. eauto.
  - exists (red_op false rs), vss. split; [unfold red_symbols; now rewrite E|]. split; [exact X|].
    rewrite (map_ext _ _ K) in F. eapply Forall2_in_l; [exact F|]. intros k vs Hk Fo. cbn beta in Fo. rewrite SG in Fo.
    apply keep_by_in in Hk. apply in_map_iff in Hk. destruct Hk as (x & <- & Hx).
    destruct (HG x Hx) as (vs' & G). assert (vs = vs') as ->; [|exact G].
    eapply folds_unique; [exact Fo|]. eapply group_folds; eauto. intros i s Hs ->. eauto.
Qed.

(** ** squish *)
Lemma squish_fold_is f a xs v : fold_opt f a xs = Some v -> squish_fold f a xs = inl v.
Proof. revert a; induction xs as [|x xs IH]; intros a H; cbn in *; [congruence|]. destruct (f [a; x]); [auto|discriminate]. Qed.

(** Each row is reduced to one value. *)
Theorem c75_squish_partial : forall s rows_vs,
  Forall (fun p => reduces (match s with Some s => s | None => "+" end) (components (fst p)) (snd p) /\
                   components (fst p) <> [] /\ (s = Some "and" -> ~ In VNone (removelast (components (fst p))))) rows_vs ->
  (exists f, symbol_function (match s with Some s => s | None => "+" end) = Some f) ->
  exists m, squish_symbol s = Some m /\
    exec m (map Data (map fst rows_vs), Ok) = (map Data (map snd rows_vs) ++ [Flush], Ok).
Proof.
  intros s l H (f & F). unfold squish_symbol, symbol. rewrite F. eexists. split; [reflexivity|]. cbn [r_fun].
  assert (O : open_stream (map Data (map fst l))) by (unfold open_stream; clear; induction l; cbn; auto).
  rewrite (squish_exec _ O). f_equal. f_equal.
  induction H as [|[x v] l (R & N & AND) H IH]; [reflexivity|]. cbn [map flat_map fst snd] in *.
  cbn [fst snd] in R, N, AND.
  assert (C : components (wrap x) = components x) by (destruct x; reflexivity). rewrite C.
  destruct (reduction _ _ _ VNone R (or_introl (conj eq_refl N))) as (g & G & E).
  { intros Hs. apply AND. destruct s as [s|]; [congruence|discriminate]. }
  rewrite F in G. injection G as <-. rewrite (squish_fold_is _ _ _ _ E). cbn [app]. f_equal. apply IH.
  unfold open_stream in *. exact O.
Qed.

(** ** Where the symbols do not do what they say *)

(** Nothing to reduce: one row of Nones (and a 0 for count), not an empty list for concat, nor an empty output. *)
Theorem c75_nothing : forall ss rs, symbols ss = Some rs -> ~ In "." ss ->
  exec (red_op false rs) ([], Ok) =
  ([Data (VTuple (map (fun s => if String.eqb s "count" then VInt 0 else VNone) ss)); Flush], Ok).
Proof.
  intros ss rs E N. unfold red_op. rewrite (no_group _ _ E N). cbn.
  assert (map red_init rs = map (fun s => if String.eqb s "count" then VInt 0 else VNone) ss) as ->; [|reflexivity].
  revert rs E; clear; induction ss as [|s ss IH]; intros rs E; cbn [symbols] in E; [injection E as <-; reflexivity|].
  unfold symbol in E. destruct (symbol_function s) as [f|] eqn:F; [|discriminate].
  destruct (symbols ss) as [rs'|]; [|discriminate]. injection E as <-. cbn [map red_init r_is_count]. now rewrite IH.
Qed.

Lemma red_one f es v : open_stream es -> Forall (fun x => components x <> []) (rows es) ->
  fold_opt f VNone (column 0 (rows es)) = Some v ->
  exists out, exec (red_op false [MkRed f false false]) (es, Ok) = (out ++ [Data (VTuple [v]); Flush], Ok) /\ rows out = [].
Proof.
  intros He HF H. apply (@c10_red [MkRed f false false] es [v] He eq_refl).
  assert (E : filter (fun x => Nat.leb 1 (length (components x))) (rows es) = rows es).
  { clear - HF. induction HF as [|x xs Hx HF IH]; [reflexivity|]. cbn [filter].
    destruct (components x) as [|c cs]; [congruence|].
    change (Nat.leb 1 (length (c :: cs))) with true. cbv iota. now rewrite IH. }
  cbn [length]. rewrite E. split; [reflexivity|]. intros [|[|i]] g Hg; cbn in Hg; try discriminate.
  injection Hg as <-. exact H.
Qed.

Lemma rows_data xs : Forall (fun x => match x with VTuple _ => True | _ => False end) xs -> rows (map Data xs) = xs.
Proof. induction 1 as [|x xs Hx H IH]; [reflexivity|]. destruct x; try destruct Hx. cbn in *. now rewrite IH. Qed.
Lemma open_data xs : open_stream (map Data xs).
Proof. unfold open_stream. induction xs; cbn; auto. Qed.

Definition singles (xs : list val) : list event := map Data (map (fun x => VTuple [x]) xs).
Lemma rows_singles xs : rows (singles xs) = map (fun x => VTuple [x]) xs.
Proof. apply rows_data. induction xs; cbn; auto. Qed.
Lemma column_singles xs : column 0 (rows (singles xs)) = xs.
Proof. rewrite rows_singles. unfold column. rewrite map_map. cbn. apply map_id. Qed.

(** red and: a None makes it forget what came before.  True and None and True is None in Python, here it is True. *)
Theorem c75_and_none_refuted : forall before after v, Forall (fun x => truthy x = true) before -> reduces "and" after v ->
  (forall x, In x after -> x <> VNone) -> 
  exists m out, red_symbols false ["and"] = Some m /\
    exec m (singles (before ++ VNone :: after), Ok) = (out ++ [Data (VTuple [v]); Flush], Ok) /\ rows out = [] /\
    reduces "and" (before ++ VNone :: after) VNone.
Proof.
  intros before after v HB R NN. eexists. 
  assert (T : fold_opt (as_func r_and) VNone after = Some v).
  { destruct (reduction "and" after v VNone R) as (f & F & E).
    - left. split; auto. apply (reduces_some _ _ _ R). discriminate.
    - intros _ I. apply (NN VNone); auto. clear - I. induction after as [|x xs IH]; [destruct I|].
      cbn [removelast] in I. destruct xs; [destruct I|]. destruct I as [->|I]; [left; auto|right; auto].
    - injection F as <-. exact E. }
  assert (H : fold_opt (as_func r_and) VNone (before ++ VNone :: after) = Some v).
  { rewrite fold_app. destruct HB as [|b before Hb HB]; [exact T|].
    change (fold_opt (as_func r_and) VNone (b :: before)) with (fold_opt (as_func r_and) b before).
    destruct (and_true before b Hb HB) as (c & -> & Hc). cbn [fold_opt as_func]. rewrite and_next by auto. exact T. }
  destruct (@red_one (as_func r_and) (singles (before ++ VNone :: after)) v) as (out & X & O).
  - apply open_data.
  - rewrite rows_singles. generalize (before ++ VNone :: after). induction l; cbn; constructor; auto; discriminate.
  - rewrite column_singles. exact H.
  - exists out. split; [reflexivity|]. split; [exact X|]. split; [exact O|]. constructor; auto.
Qed.

(** None at the beginning is skipped, by every symbol but count and concat: None + 1 is 1, not an Error. *)
Theorem c75_leading_none_refuted : forall s r xs v, symbol s = Some r -> s <> "count" -> s <> "concat" -> s <> "." ->
  fold_opt (r_fun r) VNone xs = Some v ->
  exists out, exec (red_op false [r]) (singles (VNone :: xs), Ok) = (out ++ [Data (VTuple [v]); Flush], Ok) /\ rows out = [].
Proof.
  intros s r xs v E C1 C2 C3 H. unfold symbol in E. destruct (symbol_function s) as [f|] eqn:F; [|discriminate].
  injection E as <-. cbn [r_fun] in H.
  apply String.eqb_neq in C1 as B1. apply String.eqb_neq in C3 as B3. rewrite B1, B3.
  apply red_one.
  - apply open_data.
  - rewrite rows_singles. generalize (VNone :: xs). induction l; cbn; constructor; auto; discriminate.
  - rewrite column_singles. cbn [fold_opt as_func].
    assert (f VNone VNone = Some VNone) as ->; [|exact H]. clear H.
    unfold symbol_function in F.
    repeat match type of F with
    | match ?x with _ => _ end = _ => destruct x; try discriminate F
    | Some _ = Some _ => injection F as <-
    end; try reflexivity; congruence.
Qed.

(** red --incremental concat: every row holds the same list, which goes on growing. *)
Lemma rows_ext (f g : list val -> list val) (p q : nat -> list val) : (forall n, f (p n) = g (q n)) ->
  forall xs ns, map (fun r => VTuple [fst r; VList (f (snd r))]) (combine xs (map p ns)) =
                map (fun r => VTuple [fst r; VList (g (snd r))]) (combine xs (map q ns)).
Proof. intros H; induction xs as [|x xs IH]; intros [|n ns]; cbn [map combine]; auto. f_equal; [|apply IH]. cbn [fst snd]. now rewrite H. Qed.

Lemma run_acc : forall xs h l acc, nth_error h l = Some acc ->
  let '(out, h') := concat_run (MkConcat h (Some l)) xs in
  nth l h' [] = acc ++ xs /\
  map (fun '(x, k, _) => (x, k)) out = map (fun x => (x, l)) xs /\
  map (fun '(x, k, g) => row_in g x k) out = map (fun p => VTuple [fst p; VList (acc ++ snd p)])
    (combine xs (map (fun n => firstn (S n) xs) (seq 0 (length xs)))).
Proof.
  induction xs as [|x xs IH]; intros h l acc H; cbn [concat_run].
  - cbn. rewrite app_nil_r. split; auto. now apply nth_error_nth.
  - unfold concat_receive; cbn [accumulator heap].
    assert (N : nth_error (append_at l x h) l = Some (acc ++ [x])).
    { clear - H. revert h H; induction l as [|l IH]; intros [|y h] H; cbn in *; try discriminate; [injection H as ->; reflexivity|auto]. }
    specialize (IH _ _ _ N). destruct (concat_run _ xs) as (out & h'). destruct IH as (A & B & C).
    cbn [map heap]. rewrite A, B, C. split; [now rewrite <- app_assoc|]. split; [reflexivity|].
    cbn [length seq map combine]. f_equal.
    + unfold row_in. do 3 f_equal. rewrite (nth_error_nth _ _ _ N). cbn [firstn]. reflexivity.
    + rewrite <- seq_shift, map_map. apply rows_ext. intros n. cbn [firstn]. now rewrite <- app_assoc.
Qed.

Theorem c75_concat_incremental_refuted : forall xs,
  seen_at_once xs = map (fun p => VTuple [fst p; VList (snd p)]) (combine xs (map (fun n => firstn (S n) xs) (seq 0 (length xs)))) /\
  seen_at_the_end xs = map (fun x => VTuple [x; VList xs]) xs.
Proof.
  intros [|x xs]; [split; reflexivity|].
  unfold seen_at_once, seen_at_the_end, concat_incremental. cbn [concat_run].
  unfold concat_receive; cbn [accumulator heap length app].
  pose proof (run_acc xs [[x]] 0 [x] eq_refl) as H.
  destruct (concat_run (MkConcat [[x]] (Some 0)) xs) as (out & h). destruct H as (A & B & C).
  cbn [fst snd map]. rewrite C. split.
  - cbn [length seq map combine]. f_equal. rewrite <- seq_shift, map_map.
    apply (rows_ext (fun l => [x] ++ l) (fun l => l)). intros n. reflexivity.
  - assert (M : map (fun '(x0, l, _) => row_in h x0 l) out = map (fun '(x0, l) => row_in h x0 l) (map (fun '(x0, k, _) => (x0, k)) out))
      by (rewrite map_map; apply map_ext; intros [[? ?] ?]; reflexivity).
    rewrite M, B, map_map. unfold row_in. rewrite A. cbn [app]. reflexivity.
Qed.

(** Not the same thing as soon as there are two values. *)
Corollary c75_concat_incremental_differs : forall x y xs, seen_at_once (x :: y :: xs) <> seen_at_the_end (x :: y :: xs).
Proof.
  intros x y xs H. destruct (c75_concat_incremental_refuted (x :: y :: xs)) as (A & B). rewrite A, B in H.
  cbn in H. injection H as H. discriminate H.
Qed.

(** ** Example: gen 5 1 | map (x: (x % 2, x, x)) | red . + max, in effect; and red + count concat. *)
Definition sample : list val := map (fun z => VTuple [VInt (z mod 2); VInt z; VInt z]) [1; 2; 3; 4; 5]%Z.

Example c75_example :
  (exists m, red_symbols false ["."; "+"; "max"] = Some m /\
     exec m (map Data sample, Ok) = ([Data (VTuple [VInt 1; VInt 9; VInt 5]); Data (VTuple [VInt 0; VInt 6; VInt 4]); Flush], Ok)) /\
  (exists m, red_symbols false ["count"; "concat"; "^"] = Some m /\
     exec m (map Data sample, Ok) = ([Data (VTuple [VInt 5; VList (map VInt [1; 2; 3; 4; 5]%Z); VInt 1]); Flush], Ok)) /\
  group_row ["."; "+"; "max"] (same_group ["."; "+"; "max"] (VTuple [VInt 1]) sample) [VInt 1; VInt 9; VInt 5] /\
  reduces "^" (map VInt [1; 2; 3; 4; 5]%Z) (VInt 1).
Proof.
  split; [eexists; split; reflexivity|]. split; [eexists; split; reflexivity|]. split.
  - split; [reflexivity|]. intros [|[|[|[|i]]]] s Hs; try discriminate Hs; injection Hs as <-; cbn.
    + reflexivity.
    + apply (sum_of_numbers [1; 3; 5]%Z). discriminate.
    + apply (maximum [VInt 1; VInt 3] (VInt 5) []); repeat constructor. apply (numbers [1; 3; 5]%Z).
  - apply (odd_bits [1; 2; 3; 4; 5]%Z); [discriminate|]. intros n Hn.
    change 1%Z with (Z.lxor 1 (Z.lxor 2 (Z.lxor 3 (Z.lxor 4 5)))) at 1. rewrite !Z.lxor_spec.
    cbn [filter]. destruct (Z.testbit 1 n), (Z.testbit 2 n), (Z.testbit 3 n), (Z.testbit 4 n), (Z.testbit 5 n); reflexivity.
Qed.

Print Assumptions c75_red_partial.
Print Assumptions c75_groups_partial.
Print Assumptions c75_squish_partial.
Print Assumptions c75_nothing.
Print Assumptions c75_and_none_refuted.
Print Assumptions c75_leading_none_refuted.
Print Assumptions c75_concat_incremental_refuted.
Print Assumptions c75_concat_incremental_differs.
