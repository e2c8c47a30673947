(** C79: where parse_args does not do what it should, and cases that meet the hypotheses of the theorems. *)
From Verif.Sys Require Export CliArgsProps.
Local Open Scope string_scope.
Local Open Scope list_scope.

Lemma scan_written_app : forall to_int kw l us rest, stand kw l -> well_formed kw -> Forall (proper to_int kw) us ->
  scan to_int l (flat_map written us ++ rest) = bind (scan to_int l rest) (fun r => Ok (map (token to_int l) us ++ r)).
Proof.
  intros to_int kw l us rest S W P.
  assert (DA : forall v d f, In (v, d) kw -> In f (names d) -> isflag f = true).
  { intros v d f I J. apply isflag_dashed. destruct (wf_decls _ W v d I) as [-> | Q]; [destruct J | exact (names_dashed _ _ Q J)]. }
  induction P as [ | u us PU _ IH]; [cbn; destruct (scan to_int l rest); reflexivity | ]. cbn [flat_map map].
  destruct PU as [v f1 f2 x f I J | v f1 f2 x r f y I J Y | v f1 f2 x r f y z I J Y Z | w N]; cbn [written app scan token].
  - rewrite (DA _ _ _ I J), (arg_of_in _ _ S (wf_flags _ W) _ _ _ I J). cbn [kind_of option_map fst]. rewrite IH. now destruct (scan to_int l rest).
  - rewrite (DA _ _ _ I J), (arg_of_in _ _ S (wf_flags _ W) _ _ _ I J). cbn [kind_of option_map fst]. rewrite (isflag_not _ Y), IH. now destruct (scan to_int l rest).
  - rewrite (DA _ _ _ I J), (arg_of_in _ _ S (wf_flags _ W) _ _ _ I J). cbn [kind_of option_map fst]. rewrite (isflag_not _ Y), Z, IH. now destruct (scan to_int l rest).
  - rewrite (isflag_not _ N), IH. now destruct (scan to_int l rest).
Qed.

Lemma int_flag_scan : forall to_int fixed kw prog file us v f1 f2 x r f rest e, well_formed kw -> ~ dashed prog -> ~ dashed file -> Forall (proper to_int kw) us ->
  In (v, DInt f1 f2 x r) kw -> In f (names (DInt f1 f2 x r)) ->
  parse_args to_int fixed kw (prog :: file :: flat_map written us ++ f :: rest) e =
  match rest with
  | [] => (e, Shell)
  | y :: _ => if isflag y then (e, Shell) else match to_int y with None => (e, Ordinary) | Some _ => parse_args to_int fixed kw (prog :: file :: flat_map written us ++ f :: rest) e end
  end.
Proof.
  intros to_int fixed kw prog file us v f1 f2 x r f rest e W NP NF P I J.
  assert (P' : Forall (proper to_int kw) (Word prog :: Word file :: us)) by (repeat constructor; auto).
  destruct (make_all_ok kw (wf_decls _ W)) as (l & M). pose proof (make_all_inv _ _ M) as S.
  assert (DF : isflag f = true).
  { apply isflag_dashed. destruct (wf_decls _ W _ _ I) as [Q | Q]; [discriminate Q | exact (names_dashed _ _ Q J)]. }
  assert (E : scan to_int l (prog :: file :: flat_map written us ++ f :: rest) =
    bind (scan to_int l (f :: rest)) (fun r => Ok (map (token to_int l) (Word prog :: Word file :: us) ++ r))).
  { rewrite <- (scan_written_app to_int kw l _ (f :: rest) S W P'). reflexivity. }
  assert (SH : scan to_int l (prog :: file :: flat_map written us ++ f :: rest) = Shell -> parse_args to_int fixed kw (prog :: file :: flat_map written us ++ f :: rest) e = (e, Shell)).
  { intros Q. unfold parse_args. rewrite M. cbn [bind]. rewrite (filter_usage kw l S); [ | intros u d K; now apply (wf_names _ W u d)].
    rewrite (command_line_ok _ _ S W). cbn [bind]. unfold parse. rewrite Q. reflexivity. }
  assert (OR : scan to_int l (prog :: file :: flat_map written us ++ f :: rest) = Ordinary -> parse_args to_int fixed kw (prog :: file :: flat_map written us ++ f :: rest) e = (e, Ordinary)).
  { intros Q. unfold parse_args. rewrite M. cbn [bind]. rewrite (filter_usage kw l S); [ | intros u d K; now apply (wf_names _ W u d)].
    rewrite (command_line_ok _ _ S W). cbn [bind]. unfold parse. rewrite Q. reflexivity. }
  cbn [scan] in E. rewrite DF, (arg_of_in _ _ S (wf_flags _ W) _ _ _ I J) in E. cbn [kind_of] in E.
  destruct rest as [ | y rest]; [now apply SH | ]. destruct (isflag y); [now apply SH | ]. destruct (to_int y); [reflexivity | now apply OR].
Qed.

(** A value that is not a number does not end the script, like other mistakes: it goes on, without its variables *)
Theorem c79_number_refuted : forall to_int fixed kw prog file us v f1 f2 x r f y rest cs e, well_formed kw -> ~ dashed prog -> ~ dashed file ->
  Forall (proper to_int kw) us -> In (v, DInt f1 f2 x r) kw -> In f (names (DInt f1 f2 x r)) -> ~ dashed y -> to_int y = None ->
  let argv := prog :: file :: flat_map written us ++ f :: y :: rest in
  script to_int fixed argv (ParseArgs kw :: cs) e = script to_int fixed argv cs e.
Proof.
  intros to_int fixed kw prog file us v f1 f2 x r f y rest cs e W NP NF P I J Y T argv. cbn [script]. unfold argv.
  rewrite (int_flag_scan to_int fixed kw prog file us v f1 f2 x r f (y :: rest) e W NP NF P I J), (isflag_not _ Y), T. reflexivity.
Qed.

(** A negative number is not accepted *)
Theorem c79_negative_refuted : forall to_int fixed kw prog file us v f1 f2 x r f y rest cs e, well_formed kw -> ~ dashed prog -> ~ dashed file ->
  Forall (proper to_int kw) us -> In (v, DInt f1 f2 x r) kw -> In f (names (DInt f1 f2 x r)) ->
  script to_int fixed (prog :: file :: flat_map written us ++ f :: String "-" y :: rest) (ParseArgs kw :: cs) e = (e, false).
Proof.
  intros to_int fixed kw prog file us v f1 f2 x r f y rest cs e W NP NF P I J. cbn [script].
  rewrite (int_flag_scan to_int fixed kw prog file us v f1 f2 x r f (String "-" y :: rest) e W NP NF P I J). reflexivity.
Qed.

(** If marcel reads its commands from standard input (marcel x y <<EOF), the first word is lost *)
Theorem c79_heredoc_refuted : forall to_int prog v w ws e, ~ dashed prog -> ~ dashed w -> Forall (fun w => ~ dashed w) ws -> v <> "usage" -> v <> "ARGV" ->
  fst (parse_args to_int (fun _ => false) [(v, DAnon)] (prog :: w :: ws) e) v = Some (VList (map VStr ws)).
Proof.
  intros to_int prog v w ws e NP NW NS NU NA.
  assert (W : well_formed [(v, DAnon)]).
  { constructor; cbn; [repeat constructor; intros [] | | | intros x y [Q | []] [R | []]; congruence | constructor].
    - intros u d [Q | []]. injection Q as <- <-. auto.
    - intros u d [Q | []]. injection Q as <- <-. auto. }
  assert (E : flat_map written (map Word ws) = ws) by (clear; induction ws; cbn; congruence).
  assert (EW : words (map Word ws) = ws) by (clear; unfold words; induction ws; cbn; congruence).
  pose proof (c79_values to_int (fun _ => false) [(v, DAnon)] prog w (map Word ws) e W) as H. cbv zeta in H. rewrite E in H.
  destruct (parse_args to_int (fun _ => false) [(v, DAnon)] (prog :: w :: ws) e) as [e' o].
  destruct H as (_ & H & _); auto.
  - split; auto.
  - apply Forall_map. revert NS. apply Forall_impl. intros u U. now apply p_word.
  - intros u d [Q | []]. injection Q as <- <-. discriminate.
  - cbn [fst]. rewrite (H v DAnon (or_introl eq_refl)). cbn [meaning]. now rewrite EW.
Qed.

(** A variable that cannot be assigned: the variables before it are set, the ones after it are not, and the script goes on *)
Theorem c79_fixed_refuted : forall to_int fixed a b f x prog file cs e, a <> b -> a <> "usage" -> b <> "usage" -> fixed a = false -> fixed b = true ->
  short_flag f -> ~ dashed prog -> ~ dashed file ->
  script to_int fixed [prog; file] (ParseArgs [(a, DAnon); (b, DFlag f None x false)] :: cs) e =
  script to_int fixed [prog; file] cs (assign a (VList []) e).
Proof.
  intros to_int fixed a b f x prog file cs e AB AU BU FA FB S NP NF. cbn [script]. unfold parse_args. cbn [make_all make new_flag].
  destruct (short_is _ S) as (-> & _). cbn [bind]. cbn [filter fst].
  destruct (String.eqb_spec a "usage"); [contradiction | ]. destruct (String.eqb_spec b "usage"); [contradiction | ]. cbn [negb].
  cbn [command_line check_args bind register_all register mem existsb]. unfold parse. cbn [scan]. rewrite !isflag_not by assumption. cbn [bind].
  cbn [defaults put]. destruct (String.eqb_spec a b); [contradiction | ]. cbn. rewrite String.eqb_refl. cbn. rewrite FA, FB. reflexivity.
Qed.

(** A variable cannot be called usage: its flag is not known *)
Theorem c79_usage_refuted : forall to_int fixed f g x y prog file cs e, short_flag f -> ~ dashed prog -> ~ dashed file -> dashed g ->
  script to_int fixed [prog; file; g; y] (ParseArgs [("usage", DFlag f None x false)] :: cs) e = (e, false).
Proof.
  intros to_int fixed f g x y prog file cs e S NP NF DG. cbn [script]. unfold parse_args. cbn [make_all make new_flag].
  destruct (short_is _ S) as (-> & _). cbn [bind filter fst]. rewrite String.eqb_refl. cbn [negb].
  cbn [command_line check_args bind register_all]. unfold parse. cbn [scan]. rewrite !isflag_not by assumption. apply isflag_dashed in DG. rewrite DG. reflexivity.
Qed.

(** ** Cases.  notes/blog/scripting.txt: parse_args(dir=flag('-d', '--dir', default='.'), n=int_flag('-n', required=True), v=..., rest=anon()) *)
Definition recent : list (string * decl) :=
  [("dir", DFlag "-d" (Some "--dir") (VStr ".") false); ("n", DInt "-n" None (VInt 0) true); ("v", DBool "--verbose" (Some "-v") (VBool false)); ("rest", DAnon)].
Definition digits (s : string) : option Z := if String.eqb s "10" then Some 10%Z else if String.eqb s "3" then Some 3%Z else None.
Definition given : list use := [Word "a"; Given "-n" "3"; Switch "-v"; Given "--dir" "/tmp"; Word "b"; Given "-n" "10"].

Lemma recent_well_formed : well_formed recent.
Proof.
  constructor; cbn.
  - repeat constructor; cbn; intuition discriminate.
  - intros v d H. intuition; match goal with E : _ = (v, d) |- _ => injection E as <- <-; discriminate end.
  - intros v d H. assert (SH : forall c r, c <> "-"%char -> short_flag (String "-" (String c r))) by (intros c r N; now exists c, r).
    assert (LO : forall c r, long_flag (String "-" (String "-" (String c r)))) by (intros c r; now exists c, r).
    destruct H as [E | [E | [E | [E | []]]]]; injection E as <- <-; [right; left | right; left | right; right | now left]; auto; split || idtac;
      try (apply SH; discriminate); apply LO.
  - intros v w H K. intuition congruence.
  - repeat constructor; cbn; intuition discriminate.
Qed.
Example c79_case :
  well_formed recent /\ Forall (proper digits recent) given /\ (forall v d, In (v, d) recent -> meaning digits d given <> None) /\
  let (e, o) := parse_args digits (fun _ => false) recent ["marcel"; "recent.m"; "a"; "-n"; "3"; "-v"; "--dir"; "/tmp"; "b"; "-n"; "10"] (fun _ => None) in
  o = Ok tt /\ map e ["dir"; "n"; "v"; "rest"] = [Some (VStr "/tmp"); Some (VInt 10); Some (VBool true); Some (VList [VStr "a"; VStr "b"])].
Proof.
  assert (ND : forall c r, c <> "-"%char -> ~ dashed (String c r)) by (intros c r N (q & E); injection E as -> _; now apply N).
  split; [exact recent_well_formed | ]. split; [ | split].
  - unfold given, recent. repeat constructor; try (apply ND; discriminate).
    + eapply p_number; [right; left; reflexivity | now left | apply ND; discriminate | reflexivity].
    + eapply p_switch; [right; right; left; reflexivity | right; now left].
    + eapply p_given; [left; reflexivity | right; now left | apply ND; discriminate].
    + eapply p_number; [right; left; reflexivity | now left | apply ND; discriminate | reflexivity].
  - intros v d [E | [E | [E | [E | []]]]]; injection E as <- <-; discriminate.
  - vm_compute. split; reflexivity.
Qed.
(** -n is required *)
Example c79_missing_case :
  In ("n", DInt "-n" None (VInt 0) true) recent /\ meaning digits (DInt "-n" None (VInt 0) true) [Word "a"] = None /\
  parse_args digits (fun _ => false) recent ["marcel"; "recent.m"; "a"] (fun _ => None) = (fun _ => None, Shell).
Proof. split; [right; now left | ]. split; reflexivity. Qed.
(** No int flags, and a flag that is not known *)
Example c79_refused_case : forall us, Forall (proper digits [("rest", DAnon)]) us -> ["marcel"; "s"; "-x"] <> flat_map written us.
Proof.
  intros us P E. assert (H : forall u, In u us -> exists w, u = Word w /\ ~ dashed w).
  { intros u I. rewrite Forall_forall in P. destruct (P u I) as [v f1 f2 x f [Q | []] | v f1 f2 x r f y [Q | []] | v f1 f2 x r f y z [Q | []] | w N]; try discriminate Q. eauto. }
  assert (X : In "-x" (flat_map written us)) by (rewrite <- E; cbn; auto). apply in_flat_map in X. destruct X as (u & I & X). destruct (H u I) as (w & -> & N).
  destruct X as [-> | []]. apply N. now exists "x".
Qed.

Print Assumptions c79_values.
Print Assumptions c79_missing.
Print Assumptions c79_accepted.
Print Assumptions c79_all_or_nothing.
Print Assumptions c79_refused_partial.
Print Assumptions c79_number_refuted.
Print Assumptions c79_negative_refuted.
Print Assumptions c79_heredoc_refuted.
Print Assumptions c79_fixed_refuted.
Print Assumptions c79_usage_refuted.
