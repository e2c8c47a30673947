(** Creating the operators of a parsed command (C74). *)
From Verif.Syntax Require Export CommandLineFacts1.
From Verif.Syntax Require Import LexerFacts2.
Local Open Scope char_scope.
Local Open Scope list_scope.

(** ** Numbers *)
Lemma digit_char : forall d, (d < 10)%nat -> digit_of (ascii_of_nat (48 + d)) = Some (Z.of_nat d) /\ isspace (ascii_of_nat (48 + d)) = false /\
  (ascii_of_nat (48 + d) =? "-") = false /\ (ascii_of_nat (48 + d) =? "+") = false /\ is_digit (ascii_of_nat (48 + d)) = true /\
  (ascii_of_nat (48 + d) =? "_") = false.
Proof. intros d H. do 10 (destruct d as [|d]; [repeat split|]). lia. Qed.

Lemma more_digits_app : forall t acc n d, (d < 10)%nat -> more_digits acc t = Some n ->
  more_digits acc (t ++ [ascii_of_nat (48 + d)]) = Some (10 * n + Z.of_nat d)%Z.
Proof.
  induction t as [t IH] using (well_founded_induction (Wf_nat.well_founded_ltof _ (@length ascii))).
  intros acc n d H E. destruct (digit_char d H) as (D & _ & _ & _ & _ & _). destruct t as [|c t].
  - cbn in E. injection E as <-. cbn [app more_digits]. now rewrite D.
  - cbn [app more_digits] in *. destruct (digit_of c).
    + apply IH; auto. unfold Wf_nat.ltof. cbn. lia.
    + destruct (c =? "_"); [|discriminate]. destruct t as [|e t]; [discriminate|]. cbn [app]. destruct (digit_of e); [|discriminate].
      apply IH; auto. unfold Wf_nat.ltof. cbn. lia.
Qed.

Lemma numeral_unsigned : forall t n, numeral t n -> unsigned t = Some n.
Proof.
  intros t n H. induction H as [d H|t n d H N IH].
  - destruct (digit_char d H) as (D & _). unfold unsigned. rewrite D. reflexivity.
  - destruct t as [|c t]; [discriminate|]. cbn [app unsigned] in *. destruct (digit_of c); [|discriminate]. now apply more_digits_app.
Qed.

Lemma numeral_ends : forall t n, numeral t n -> exists d r d' r', (d < 10)%nat /\ t = ascii_of_nat (48 + d) :: r /\ (d' < 10)%nat /\ t = r' ++ [ascii_of_nat (48 + d')].
Proof.
  intros t n H. destruct H as [d H|t n d H N].
  - exists d, [], d, []. auto.
  - assert (E : exists d0 r, (d0 < 10)%nat /\ t = ascii_of_nat (48 + d0) :: r).
    { clear H. induction N as [d0 H|t n d0 H N (d1 & r & B & ->)]; [exists d0, []; auto|]. exists d1, (r ++ [ascii_of_nat (48 + d0)]). auto. }
    destruct E as (d0 & r & B & ->). exists d0, (r ++ [ascii_of_nat (48 + d)]), d, (ascii_of_nat (48 + d0) :: r). auto.
Qed.
Lemma strip_edges : forall c r r' c', c :: r = r' ++ [c'] -> isspace c = false -> isspace c' = false -> strip (c :: r) = c :: r.
Proof.
  intros c r r' c' E S S'. unfold strip. cbn [drop_ws]. rewrite S, E, rev_app_distr. cbn [rev app drop_ws]. rewrite S'.
  cbn [rev]. now rewrite rev_involutive.
Qed.
Lemma int_of_numeral : forall t n, numeral t n -> int_of_text t = Some n /\ int_of_text ("-" :: t) = Some (- n)%Z.
Proof.
  intros t n H. pose proof (numeral_unsigned t n H) as U. destruct (numeral_ends t n H) as (d & r & d' & r' & B & E & B' & E').
  destruct (digit_char d B) as (_ & S & M & P & _). destruct (digit_char d' B') as (_ & S' & _). subst t. split; unfold int_of_text.
  - rewrite (strip_edges _ _ _ _ E'); auto. now rewrite M, P.
  - rewrite (strip_edges "-" (ascii_of_nat (48 + d) :: r) ("-" :: r') (ascii_of_nat (48 + d'))); auto; [|now rewrite E'].
    change ("-" =? "-") with true. cbv iota. now rewrite U.
Qed.

(** ** Flags *)
Definition plain_obj (o : obj) : Prop := match o with OStr (c :: _ :: _) => (c =? "-") = false | _ => True end.
Lemma expand_plain : forall d o, plain_obj o -> expand_arg d o = [o].
Proof. intros d [| |[|a [|b [|c r]]]| | | |]; cbn; auto. now intros ->. Qed.
Lemma plausible_plain : forall o, plain_obj o -> plausible o = false.
Proof. intros [| |[|a [|b r]]| | | |]; cbn; auto. Qed.
Lemma teqb_eq : forall a b, teqb a b = true -> a = b.
Proof. intros a b. unfold teqb. now destruct (list_eq_dec Ascii.ascii_dec a b). Qed.
Lemma find_plain : forall d o, forallb good_flag (d_flags d) = true -> plain_obj o -> find_flag d o = None.
Proof.
  intros d o G P. destruct o as [| |x| | | |]; auto. cbn [find_flag].
  destruct (find (is_symbol x) (d_flags d)) as [f|] eqn:E; auto. exfalso. apply find_some in E as [I S].
  rewrite forallb_forall in G. apply G in I. unfold good_flag in I. apply andb_true_iff in I as [I _].
  apply andb_true_iff in I as [I L]. apply andb_true_iff in I as [_ SH]. unfold is_symbol, symbols in S.
  apply existsb_exists in S as (y & IN & Q). apply teqb_eq in Q. subst y. apply in_app_iff in IN as [IN|IN].
  - destruct (f_short f) as [s|]; [|easy]. destruct IN as [->|[]]. destruct x as [|a [|b [|? ?]]]; try discriminate. cbn in P, SH. now rewrite P in SH.
  - destruct (f_long f) as [s|]; [|easy]. destruct IN as [->|[]]. destruct x as [|a [|b [|c r]]]; try discriminate. cbn in P, L. now rewrite P in L.
Qed.
(** A negative number is not a flag of an operator whose flags are not digits. *)
Definition negative_obj (o : obj) : Prop := exists c r, o = OStr ("-" :: c :: r) /\ is_digit c = true.
Definition no_digits (d : decl) : bool :=
  forallb (fun f => forallb (fun s => match s with _ :: c :: _ => negb (is_digit c) | _ => true end) (symbols f)) (d_flags d).
Lemma find_negative : forall d o, no_digits d = true -> negative_obj o -> find_flag d o = None.
Proof.
  intros d o N (c & r & -> & D). cbn [find_flag]. destruct (find _ (d_flags d)) as [f|] eqn:E; auto. exfalso. apply find_some in E as [I S].
  unfold no_digits in N. rewrite forallb_forall in N. apply N in I. apply existsb_exists in S as (y & IN & Q). apply teqb_eq in Q. subst y.
  rewrite forallb_forall in I. apply I in IN. now rewrite D in IN.
Qed.
Lemma expand_negative : forall d o, no_digits d = true -> negative_obj o -> expand_arg d o = [o].
Proof.
  intros d o N (c & r & -> & D). cbn [expand_arg]. destruct r as [|e r]; auto. destruct ("-" =? "-")%char; [|reflexivity]. cbn [andb].
  destruct (c =? "-"); [reflexivity|]. cbn [negb map forallb]. rewrite (find_negative d (OStr ["-"; c])); auto. exists c, []. auto.
Qed.

Section Created.
Variable compile : text -> option func.
Variable named : text -> option func.
Variable is_var : text -> bool.

Notation argument_value := (argument_value compile named is_var).
Notation create_op := (create_op compile named is_var).
Notation create_all := (create_all compile named is_var).
Notation create := (create compile named is_var).
Notation run_ops := (run_ops compile named is_var).
Notation int_attr := (int_attr compile).
Notation fun_attr := (fun_attr compile named).
Notation to_function := (to_function named).
Notation operator := (operator compile named).

Fixpoint values (l : list arg) : option (list (obj + source)) :=
  match l with
  | [] => Some []
  | a :: l => match argument_value a, values l with Some v, Some vs => Some (v :: vs) | _, _ => None end
  end.
Lemma create_op_eq : forall o args, create_op (Call o args) =
  match name_text o, values args with Some n, Some vs => create n vs | _, _ => None end.
Proof. reflexivity. Qed.
Lemma argument_pipe : forall ops s, argument_value (APipe [] ops s) = option_map inr (run_ops ops).
Proof. reflexivity. Qed.

Definition int_val (o v : obj) (n : Z) : Prop := str_to_int o = Some v /\ int_attr (Some v) = inl (Some n) /\ is_true v = false /\ v <> ONone.
Definition fun_val (o v : obj) (f : func) : Prop := to_function o = Some v /\ fun_attr (Some v) = Some f /\ ((exists s, v = OFun s) \/ exists w, v = OStr w).

Lemma value_word : forall w a, stands (Word w) a -> argument_value a = Some (inl (OStr w)) /\ Forall ordinary w.
Proof. intros w a H. inversion H; subst. auto. Qed.
Lemma value_expr : forall s f a, compile s = Some f -> stands (Expr s) a -> argument_value a = Some (inl (OFun s)).
Proof. intros s f a C H. inversion H; subst. cbn [CommandLine.argument_value tkind]. now rewrite C. Qed.
Lemma value_nest : forall l src a, (forall cs, Forall2 stands_op l cs -> run_ops cs = Some src) -> stands (Nest l) a ->
  argument_value a = Some (inr src).
Proof. intros l src a R H. inversion H; subst. rewrite argument_pipe, R by auto. reflexivity. Qed.

Lemma value_unsigned : forall i n a, is_unsigned compile i n -> stands i a ->
  exists o v, argument_value a = Some (inl o) /\ int_val o v n /\ plain_obj o.
Proof.
  intros i n a H S. destruct H as [t n N|s f n C E].
  - apply value_word in S as [V O]. exists (OStr t), (OInt n). split; auto. destruct (int_of_numeral t n N) as [I _].
    repeat split; try discriminate; [cbn; now rewrite I|]. destruct (numeral_ends t n N) as (d & r & _ & _ & B & -> & _).
    destruct (digit_char d B) as (_ & _ & M & _). cbn. now destruct r.
  - exists (OFun s), (OFun s). rewrite (value_expr s f) by auto. repeat split; try discriminate. cbn. now rewrite C, E.
Qed.
Lemma value_int : forall i n a, is_int compile i n -> stands i a ->
  exists o v, argument_value a = Some (inl o) /\ int_val o v n /\ (plain_obj o \/ negative_obj o).
Proof.
  intros i n a H S. destruct H as [i n U|t n N].
  - destruct (value_unsigned i n a U S) as (o & v & V & I & P). exists o, v. auto.
  - apply value_word in S as [V O]. exists (OStr ("-" :: t)), (OInt (- n)). split; auto. destruct (int_of_numeral t n N) as [_ I].
    repeat split; try discriminate; [unfold str_to_int; now rewrite I|]. right. destruct (numeral_ends t n N) as (d & r & _ & _ & B & -> & _).
    destruct (digit_char d B) as (_ & _ & _ & _ & D & _). eexists; eexists; split; [reflexivity|exact D].
Qed.
Lemma unescape_ordinary : forall w, Forall ordinary w -> unescape w = Ok w.
Proof. intros w F. apply unescape_plain. intro I. rewrite Forall_forall in F. apply F in I. now destruct I as (_ & _ & _ & ? & _). Qed.
Lemma value_fn : forall i f a, is_fn compile named i f -> stands i a ->
  exists o v, argument_value a = Some (inl o) /\ fun_val o v f /\ (no_flag i -> plain_obj o).
Proof.
  intros i f a H S. destruct H as [s f C|w f N].
  - exists (OFun s), (OFun s). rewrite (value_expr s f) by auto. repeat split; eauto.
  - apply value_word in S as [V O]. exists (OStr w), (OStr w). split; auto. split; [|cbn; destruct w as [|c [|? ?]]; auto; apply Ascii.eqb_neq].
    split; [|eauto]. cbn. now rewrite unescape_ordinary, N.
Qed.
End Created.
