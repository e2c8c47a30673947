(* C90: the job that is meant. *)
From Coq Require Import Ascii String List Bool Arith ZArith Lia.
From Verif.Py Require Dec.
From Verif.Sys Require Import Csv CsvProps History HistorySpec HistoryProps JobPick.
From Verif.Syntax Require Args ArgsTable.
Import ListNotations.
Open Scope list_scope.

(* ---- specification ---- *)
(* The jobs that have not finished, in the same order *)
Definition runs (j : job) : Prop := process j <> None /\ alive j = true.
Inductive still : list job -> list job -> Prop :=
| still_none : still [] []
| still_runs : forall j l l', runs j -> still l l' -> still (j :: l) (j :: l')
| still_done : forall j l l', ~ runs j -> still l l' -> still (j :: l) l'.
(* The operators *)
Definition bg_or_fg (d : Args.decl) : Prop := d = ArgsTable.op_bg \/ d = ArgsTable.op_fg.
(* What jobs says about a job *)
Definition shows (k : nat) (j : job) (line : text) : Prop :=
  exists t p u, numeral t (Z.of_nat k) /\ process j = Some p /\ numeral u p /\
    line = t ++ txt "(" ++ [symbol j] ++ txt "): " ++ u ++ txt "  " ++ source j.

(* ---- proofs ---- *)
Lemma still_ok : forall l l', still l l' -> remove_completed l = l'.
Proof.
  induction 1 as [|j l l' (P & A) H IH|j l l' N H IH]; auto; unfold remove_completed in *; cbn [filter]; unfold present at 1.
  - destruct (process j); [|congruence]. now rewrite A, IH.
  - destruct (process j) eqn:P; [|exact IH]. destruct (alive j) eqn:A; [|exact IH]. destruct N. split; congruence.
Qed.
Lemma still_in : forall l l' j, still l l' -> In j l' -> runs j /\ In j l.
Proof. intros l l' j H. induction H; simpl; intros I; [contradiction| |firstorder]. destruct I as [<-|I]; [auto|]. destruct (IHstill I). auto. Qed.

Lemma value_app : forall l d, Dec.value (l ++ [d]) = (Dec.value l * 10 + d)%Z.
Proof.
  induction l as [|x l IH]; intros d; cbn [app Dec.value].
  - simpl. lia.
  - rewrite IH, app_length. cbn [length]. rewrite Nat2Z.inj_add, Z.pow_add_r by lia. change (10 ^ Z.of_nat 1)%Z with 10%Z. lia.
Qed.
Lemma digit_ok : forall d, Dec.is_digit d -> isdigit (Dec.digit d) = true /\ digit_value (Dec.digit d) = d.
Proof.
  intros d (A & B). replace d with (Z.of_nat (Z.to_nat d)) by lia. assert (L : Z.to_nat d < 10) by lia. revert L. generalize (Z.to_nat d). clear.
  intros n L. do 10 (destruct n as [|n]; [split; reflexivity|]). lia.
Qed.
Lemma numeral_digits : forall l, Forall Dec.is_digit l -> l <> [] -> numeral (txt (Dec.str_of_digits l)) (Dec.value l).
Proof.
  induction l as [|d l IH] using rev_ind; intros F N; [congruence|]. apply Forall_app in F as (F & D). inversion D as [|? ? D' _]; subst.
  destruct (digit_ok d D') as (I & V).
  assert (E : forall a, txt (Dec.str_of_digits (a ++ [d])) = txt (Dec.str_of_digits a) ++ [Dec.digit d]).
  { unfold txt, Dec.str_of_digits. induction a as [|x a IHa]; [reflexivity|]. simpl. now rewrite IHa. }
  rewrite E, value_app. destruct l as [|x l].
  - cbn. replace d with (digit_value (Dec.digit d)) at 2 by exact V. now apply numeral_1.
  - rewrite <- V at 2. apply numeral_more; auto. apply IH; auto. discriminate.
Qed.
Lemma numeral_dec : forall n, (0 <= n)%Z -> numeral (txt (Dec.dec n)) n.
Proof.
  intros n N. unfold Dec.dec. rewrite (proj2 (Z.ltb_ge n 0) N). destruct (Dec.digits_spec N) as (F & V & NE & _).
  rewrite <- V at 2. now apply numeral_digits.
Qed.

Lemma numeral_pos : forall t n, numeral t n -> (0 <= n)%Z.
Proof. intros t n H. induction H; unfold digit_value in *; unfold isdigit in *; apply between_ok in H; lia. Qed.

Lemma parse_number : forall d t n, bg_or_fg d -> numeral t n -> Args.parse conv_job d [Args.OStr t] = Some [(txt "job_id", Args.OInt n)].
Proof.
  intros d t n D N. destruct (numeral_facts _ _ N) as (F & Nt & _). destruct t as [|c t]; [congruence|].
  assert (NC : c <> "-"%char) by (intros ->; inversion F; discriminate).
  assert (E1 : Args.expand_arg d (Args.OStr (c :: t)) = [Args.OStr (c :: t)]).
  { unfold Args.expand_arg. destruct t as [|x [|y t]]; auto. now rewrite (proj2 (Ascii.eqb_neq c "-"%char) NC). }
  assert (E2 : Args.find_flag d (Args.OStr (c :: t)) = None).
  { assert (X : forall s, hd_error s = Some "-"%char -> Args.teqb (c :: t) s = false).
    { intros s Hs. unfold Args.teqb. destruct (list_eq_dec _ _ _) as [Q|]; auto. rewrite <- Q in Hs. cbn in Hs. congruence. }
    destruct D as [-> | ->]; cbn [Args.find_flag ArgsTable.op_bg ArgsTable.op_fg Args.d_flags find];
      unfold Args.is_symbol, Args.symbols; cbn [Args.f_short Args.f_long app existsb];
      rewrite !X by reflexivity; reflexivity. }
  assert (E3 : Args.plausible (Args.OStr (c :: t)) = false).
  { unfold Args.plausible. destruct t; auto. now apply Ascii.eqb_neq. }
  unfold Args.parse. cbn [flat_map]. rewrite E1. cbn [app Args.extract]. unfold Args.extract_one. rewrite E2, E3.
  destruct D as [-> | ->]; cbn [andb Args.d_anons ArgsTable.op_bg ArgsTable.op_fg length Args.ps_anon Nat.leb nth_error Args.a_name Args.ps_cur conv_job];
    rewrite (parse_numeral _ _ N); reflexivity.
Qed.

Lemma number_ok : forall l i, (forall j p, In j l -> process j = Some p -> (0 <= p)%Z) -> Forall runs l ->
  length (number i l) = length l /\
  forall k j, nth_error l k = Some j -> exists line, nth_error (number i l) k = Some line /\ shows (i + k) j line.
Proof.
  induction l as [|j l IH]; intros i P R; [split; auto; intros [] ?; discriminate|].
  inversion R as [|? ? (Rj & _) R']; subst. destruct (IH (S i)) as (L & G); auto.
  { intros j' p I. apply P. now right. }
  split; [cbn [number length]; now rewrite L|]. intros [|k] j' E; cbn [number nth_error] in *.
  - injection E as ->. exists (describe i j'). split; auto. rewrite Nat.add_0_r. destruct (process j') as [p|] eqn:Pj; [|congruence].
    exists (txt (Dec.dec (Z.of_nat i))), p, (txt (Dec.dec p)). split; [apply numeral_dec; lia|]. split; auto.
    split; [apply numeral_dec, (P j'); auto; now left|]. unfold describe. now rewrite Pj.
  - destruct (G k j' E) as (line & A & B). exists line. split; auto. now replace (i + S k) with (S i + k) by lia.
Qed.

(* jobs shows the jobs that have not finished, in order, each with its number, its state, its process and its command *)
Theorem c90_jobs : forall l l', still l l' -> (forall j p, In j l' -> process j = Some p -> (0 <= p)%Z) ->
  exists lines, jobs_run l = (l', lines) /\ length lines = length l' /\
    forall k j, nth_error l' k = Some j -> exists line, nth_error lines k = Some line /\ shows k j line.
Proof.
  intros l l' H P. unfold jobs_run. rewrite (still_ok _ _ H). exists (number 0 l'). split; auto.
  assert (R : Forall runs l') by (apply Forall_forall; intros j I; now apply (still_in _ _ _ H)).
  exact (number_ok l' 0 P R).
Qed.

(* bg N and fg N act on job N, as jobs numbers them, and on no other number *)
Theorem c90_number : forall d l l' t n, bg_or_fg d -> still l l' -> numeral t n ->
  pick d [Args.OStr t] l = (l', match nth_error l' (Z.to_nat n) with Some j => Acts j | None => Told end).
Proof.
  intros d l l' t n D H N. unfold pick. rewrite (parse_number d t n D N). cbv beta iota. rewrite (still_ok _ _ H).
  change (match Args.dget (txt "job_id") [(txt "job_id", Args.OInt n)] with Some v => Some v | None => Args.dget (txt "jid") [(txt "job_id", Args.OInt n)] end)
    with (Some (Args.OInt n)). cbv iota zeta. pose proof (numeral_pos _ _ N) as NN.
  destruct (Z.leb_spec (Z.of_nat (length l')) n) as [L|L].
  - rewrite (proj2 (nth_error_None l' (Z.to_nat n))) by lia. reflexivity.
  - unfold index. rewrite (proj2 (Z.ltb_ge n 0) NN). cbv zeta. rewrite (proj2 (Z.ltb_ge n 0) NN).
    destruct (nth_error l' (Z.to_nat n)) eqn:E; auto. apply nth_error_None in E. lia.
Qed.

(* So the job with the number that jobs has just shown is the one that was shown, if none finishes in between *)
Theorem c90_shown : forall d l l' k j t, bg_or_fg d -> still l l' -> nth_error l' k = Some j -> numeral t (Z.of_nat k) ->
  pick d [Args.OStr t] (fst (jobs_run l)) = (l', Acts j).
Proof.
  intros d l l' k j t D H E N. unfold jobs_run. rewrite (still_ok _ _ H). cbn [fst].
  assert (S : still l' l').
  { assert (R : Forall runs l') by (apply Forall_forall; intros x I; now apply (still_in _ _ _ H)). clear - R. induction R; constructor; auto. }
  rewrite (c90_number d l' l' t _ D S N), Nat2Z.id, E. reflexivity.
Qed.

(* The flags -j and -p cannot be used: the number that they replace is required, and then not allowed. *)
Theorem c90_flags_refuted : forall d f t n l, bg_or_fg d -> In f ["-j"; "--job"; "-p"; "--process"]%string -> numeral t n ->
  pick d [Args.OStr (txt f); Args.OStr t] l = (l, Told) /\
  forall u m, numeral u m -> pick d [Args.OStr (txt f); Args.OStr t; Args.OStr u] l = (l, Told).
Proof.
  intros d f t n l D I N.
  assert (FL : forall t n, numeral t n -> Args.expand_arg d (Args.OStr t) = [Args.OStr t] /\ Args.find_flag d (Args.OStr t) = None /\ Args.plausible (Args.OStr t) = false).
  { clear - D. intros t n N. destruct (numeral_facts _ _ N) as (F & Nt & _). destruct t as [|c t]; [congruence|].
    assert (NC : c <> "-"%char) by (intros ->; inversion F; discriminate). repeat split.
    - unfold Args.expand_arg. destruct t as [|x [|y t]]; auto. now rewrite (proj2 (Ascii.eqb_neq c "-"%char) NC).
    - assert (X : forall s, hd_error s = Some "-"%char -> Args.teqb (c :: t) s = false).
      { intros s Hs. unfold Args.teqb. destruct (list_eq_dec _ _ _) as [Q|]; auto. rewrite <- Q in Hs. cbn in Hs. congruence. }
      destruct D as [-> | ->]; cbn [Args.find_flag ArgsTable.op_bg ArgsTable.op_fg Args.d_flags find];
        unfold Args.is_symbol, Args.symbols; cbn [Args.f_short Args.f_long app existsb]; rewrite !X by reflexivity; reflexivity.
    - unfold Args.plausible. destruct t; auto. now apply Ascii.eqb_neq. }
  destruct (FL t n N) as (E1 & E2 & E3).
  assert (E0 : Args.expand_arg d (Args.OStr (txt f)) = [Args.OStr (txt f)]).
  { destruct D as [-> | ->]; repeat (destruct I as [<-|I]; [reflexivity|]); contradiction. }
  assert (FF : exists g, Args.find_flag d (Args.OStr (txt f)) = Some g /\ Args.f_value g = Args.VOne /\ Args.f_default g = Args.OTrue /\
    (Args.f_name g = txt "jid" \/ Args.f_name g = txt "pid")).
  { destruct D as [-> | ->]; repeat (destruct I as [<-|I]; [eexists; split; [reflexivity|]; repeat split; auto|]); contradiction. }
  destruct FF as (g & Fg & Vg & Dg & Ng).
  assert (OK : negb (length (Args.d_flags d) =? 0) = true) by (destruct D as [-> | ->]; reflexivity).
  split; [|intros u m M; destruct (FL u m M) as (U1 & U2 & U3)]; unfold pick, Args.parse; cbn [flat_map]; rewrite OK, E0, E1; try rewrite U1;
    cbn [app Args.extract]; unfold Args.extract_one;
    rewrite Fg; cbn [Args.ps_ok Args.ps_flags Args.ps_anon Args.ps_list Args.ps_cur Args.dget Args.dset]; rewrite E2, E3; cbn [andb];
    rewrite Vg; cbn [Args.is_vnone conv_job]; rewrite (parse_numeral _ _ N); cbn [option_map];
    cbn [Args.ps_ok Args.ps_flags Args.ps_anon Args.ps_list Args.ps_cur].
  - assert (T : Args.teqb (Args.f_name g) (Args.f_name g) = true) by (unfold Args.teqb; destruct (list_eq_dec _ _ _); congruence).
    cbn [Args.dset Args.dget]. rewrite T. destruct Ng as [-> | ->], D as [-> | ->]; reflexivity.
  - rewrite U2, U3. cbn [andb].
    assert (T : Args.teqb (Args.f_name g) (Args.f_name g) = true) by (unfold Args.teqb; destruct (list_eq_dec _ _ _); congruence).
    cbn [Args.dset Args.dget]. rewrite T.
    destruct Ng as [-> | ->], D as [-> | ->];
      cbn [Args.d_anons ArgsTable.op_bg ArgsTable.op_fg length Nat.leb nth_error Args.a_name conv_job]; rewrite (parse_numeral _ _ M); reflexivity.
Qed.

(* A number written as an expression, as other operators allow: an exception of Python, which ends marcel *)
Theorem c90_expression_refuted : forall d s l, bg_or_fg d -> snd (pick d [Args.OFun s] l) = Fails.
Proof. intros d s l [-> | ->]; reflexivity. Qed.

(* Numbers move when a job finishes: then the number that was shown means another job *)
Theorem c90_number_moves : exists a b c b', runs a /\ runs c /\ runs b /\ ~ runs b' /\ process b' = process b /\
  snd (pick ArgsTable.op_bg [Args.OStr (txt "1")] (fst (jobs_run [a; b; c]))) = Acts b /\
  snd (pick ArgsTable.op_bg [Args.OStr (txt "1")] [a; b'; c]) = Acts c.
Proof.
  exists (mkjob (Some 100%Z) true "-" (txt "a")), (mkjob (Some 101%Z) true "-" (txt "b")), (mkjob (Some 102%Z) true "-" (txt "c")), (mkjob (Some 101%Z) false "-" (txt "b")).
  unfold runs. cbn [process alive]. repeat split; try discriminate; try reflexivity. intros (_ & X). discriminate X.
Qed.

(* ---- examples ---- *)
Definition three : list job := [mkjob (Some 100%Z) true "+" (txt "sleep 9"); mkjob None false "f" (txt "ls"); mkjob (Some 102%Z) true "-" (txt "gen 5")].
Example three_still : still three [nth 0 three (mkjob None false "f" []); nth 2 three (mkjob None false "f" [])] /\
  snd (jobs_run three) = [txt "0(+): 100  sleep 9"; txt "1(-): 102  gen 5"] /\
  snd (pick ArgsTable.op_fg [Args.OStr (txt "1")] three) = Acts (nth 2 three (mkjob None false "f" [])) /\
  snd (pick ArgsTable.op_fg [Args.OStr (txt "2")] three) = Told /\ numeral (txt "1") 1.
Proof.
  split; [|repeat split; exact (numeral_1 "1"%char eq_refl)].
  apply still_runs; [split; [discriminate|reflexivity]|]. apply still_done; [intros (X & _); now apply X|].
  apply still_runs; [split; [discriminate|reflexivity]|]. apply still_none.
Qed.

Print Assumptions c90_jobs.
Print Assumptions c90_number.
Print Assumptions c90_shown.
Print Assumptions c90_flags_refuted.
Print Assumptions c90_expression_refuted.
Print Assumptions c90_number_moves.
