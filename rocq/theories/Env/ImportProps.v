(** C70: proofs. *)
From Verif.Env Require Import ImportSpec.
Local Open Scope string_scope.
Local Open Scope list_scope.

Section Proofs.
Variable V : Type.
Variable find : dotted -> option (module V).
Variable identifier : string -> bool.
Variable immutable : string -> bool.
Notation run := (run find identifier immutable).

Lemma get_entry md s : get s (contents md) = entry (V := V) md s.
Proof. unfold entry. induction (contents md) as [|[y v] d IH]; cbn; [reflexivity|]. now destruct (String.eqb s y). Qed.
Lemma bound_one x v (n : vars V) y : assign x v n y = bound [(x, v)] n y.
Proof. reflexivity. Qed.

Lemma import_all_ok d (n : vars V) : (forall x v, In (x, v) d -> private x = false -> immutable x = false) ->
  exists n', import_all V immutable d n = (n', Done) /\ forall y, n' y = bound (filter (fun e => negb (private (fst e))) d) n y.
Proof.
  revert n. induction d as [|[x v] d IH]; intros n I; cbn [import_all filter fst]; [eauto|]. destruct (private x) eqn:P; cbn [negb].
  - apply IH. intros y w J. apply (I y w). now right.
  - unfold setvar_import. rewrite (I x v) by (auto; now left). destruct (IH (assign x v n)) as (n' & E & B); [intros y w J; apply (I y w); now right|].
    exists n'. split; [exact E|]. intros y. rewrite B. unfold bound. cbn. reflexivity.
Qed.

(** The statements that the command is faithful for: modules without dots, symbols that are in the module itself (or nowhere), modules
    without __all__. *)
Definition simple (t : statement) : Prop :=
  match t with
  | ImportModule m => length m = 1
  | ImportModuleAs _ _ => True
  | FromImport m s | FromImportAs m s _ => find m <> None -> find (m ++ [s]) <> None -> exists md v, find m = Some md /\ entry md s = Some v
  | FromImportAll m => forall md, find m = Some md -> all md = None
  end.

(** The command does what the statement does; and if the statement fails, the command is refused and changes nothing. *)
Theorem c70_import_partial : forall t n, identifier "" = false -> identifier "*" = false ->
  well_formed identifier t -> simple t -> (forall l x v, bindings find t = Some l -> In (x, v) l -> immutable x = false) ->
  exists n' o, run (command t) n = (n', o) /\
    match bindings find t with
    | Some l => o = Done /\ forall x, n' x = bound l n x
    | None => o = Refused /\ n' = n
    end.
Proof.
  intros t n NE NS W S I.
  assert (ID : forall s, identifier s = true -> s <> "" /\ s <> "*") by (intros s T; split; intros ->; congruence).
  assert (TR : forall s, identifier s = true -> truthy (Some s) = true) by (intros [|] T; [congruence|reflexivity]).
  destruct t as [m|m a|m s|m s a|m]; cbn [command bindings] in *; unfold Import.run, setup; cbn [a_module a_symbol a_name].
  - destruct m as [|top [|]]; try discriminate S. cbn [truthy andb negb orb default written String.concat].
    destruct (find [top]) as [md|] eqn:F; cbn in *; [|eauto]. unfold setvar_import. rewrite (I _ top (object md) eq_refl) by now left. eauto.
  - rewrite (TR a W), W. cbn [truthy andb negb orb default]. destruct (find m) as [md|] eqn:F; cbn in *; [|eauto].
    unfold setvar_import. rewrite (I _ a (object md) eq_refl) by now left. eauto.
  - destruct (ID s W) as [_ NW]. apply String.eqb_neq in NW. rewrite (TR s W), NW, W. cbn [truthy andb negb orb default].
    destruct (find m) as [md|] eqn:F; [|eauto]. rewrite get_entry. unfold symbol in *. destruct (entry md s) as [v|] eqn:G.
    + cbn in *. unfold setvar_import. rewrite (I _ s v eq_refl) by now left. eauto.
    + cbn [simple] in S. destruct (find (m ++ [s])) as [sub|] eqn:FS; [|cbn; eauto]. exfalso. destruct S as (md' & v & F' & G'); try congruence.
  - destruct W as [W W']. destruct (ID s W) as [_ NW]. apply String.eqb_neq in NW. rewrite (TR s W), (TR a W'), NW, W, W'. cbn [truthy andb negb orb default].
    destruct (find m) as [md|] eqn:F; [|eauto]. rewrite get_entry. unfold symbol in *. destruct (entry md s) as [v|] eqn:G.
    + cbn in *. unfold setvar_import. rewrite (I _ a v eq_refl) by now left. eauto.
    + cbn [simple] in S. destruct (find (m ++ [s])) as [sub|] eqn:FS; [|cbn; eauto]. exfalso. destruct S as (md' & v & F' & G'); try congruence.
  - change (truthy (Some "*")) with true. change (String.eqb "*" "*") with true. cbn [truthy andb negb orb]. cbn [simple] in S.
    destruct (find m) as [md|] eqn:F; [|eauto]. rewrite (S md eq_refl) in *.
    destruct (import_all_ok (contents md) n) as (n' & E & B).
    + intros x v J P. apply (I _ x v eq_refl). apply filter_In. split; [exact J|]. cbn. unfold private in P. now rewrite P.
    + exists n', Done. split; [exact E|]. split; [reflexivity|exact B].
Qed.

(** A symbol or a name that is no identifier, and a name for *, are refused; and no import changes a variable that must not be changed. *)
Theorem c70_invalid : forall m s a n,
  (s <> "" /\ s <> "*" /\ identifier s = false -> run (mkarguments m (Some s) a) n = (n, Refused)) /\
  (a = Some "*" \/ (exists x, a = Some x /\ x <> "" /\ identifier x = false) -> identifier "*" = false -> forall o, run (mkarguments m o a) n = (n, Refused)) /\
  (forall x, run (mkarguments m (Some "*") (Some x)) n = (n, Refused)).
Proof.
  intros m s a n. assert (TR : forall s, s <> "" -> truthy (Some s) = true) by (intros [|] T; [congruence|reflexivity]).
  unfold Import.run, setup. cbn [a_symbol a_name a_module]. split; [|split].
  - intros (NE & NS & ID). apply String.eqb_neq in NS. rewrite (TR s NE), NS, ID. reflexivity.
  - intros H NS o. assert (Q : exists x, a = Some x /\ x <> "" /\ identifier x = false) by (destruct H as [-> | H]; [exists "*"; repeat split; auto; discriminate|exact H]).
    destruct Q as (x & -> & NE & ID). rewrite (TR x NE), ID. cbn [andb negb]. rewrite andb_false_r, andb_false_l. reflexivity.
  - intros x. change (String.eqb "*" "*") with true. cbn [andb negb]. now rewrite !andb_false_r.
Qed.
Theorem c70_immutable : forall a n x, immutable x = true -> fst (run a n) x = n x.
Proof.
  intros a n x IM.
  assert (SV : forall y v n, fst (setvar_import V immutable y v n) x = n x).
  { intros y v n0. unfold setvar_import. destruct (immutable y) eqn:E; [reflexivity|]. cbn. unfold assign. destruct (String.eqb_spec x y); congruence. }
  assert (IA : forall d n, fst (import_all V immutable d n) x = n x).
  { induction d as [|[y v] d IH]; intros n0; cbn; [reflexivity|]. destruct (private y); [apply IH|]. specialize (SV y v n0).
    destruct (setvar_import V immutable y v n0) as [n1 []]; cbn [fst] in SV; [now rewrite IH|exact SV|exact SV]. }
  unfold Import.run. destruct (setup _ a); [|reflexivity]. destruct (find (a_module a)); [|reflexivity]. destruct (a_symbol a) as [s|]; [|apply SV].
  destruct (String.eqb s "*"); [apply IA|]. destruct (identifier s); [|reflexivity]. destruct (get s _); [apply SV|reflexivity].
Qed.

(** import a.b binds a variable named a.b, which no expression can use, and not a. *)
Theorem c70_dotted_refuted : forall a b r n md, identifier "" = false -> find (a :: b :: r) = Some md ->
  immutable (written (a :: b :: r)) = false -> well_formed identifier (ImportModule (a :: b :: r)) ->
  identifier (written (a :: b :: r)) = false ->
  let n' := fst (run (command (ImportModule (a :: b :: r))) n) in
  n' (written (a :: b :: r)) = Some (object md) /\ n' a = n a.
Proof.
  intros a b r n md NE F I [_ W] NI n'. unfold n', Import.run, setup. cbn [command a_module a_symbol a_name truthy andb negb orb default].
  rewrite F. unfold setvar_import. rewrite I. cbn [fst]. unfold assign. rewrite String.eqb_refl. split; [reflexivity|].
  destruct (String.eqb_spec a (written (a :: b :: r))) as [E|]; [|reflexivity]. rewrite <- E in NI. rewrite (W a) in NI; [discriminate|now left].
Qed.
(** A submodule that the package does not mention is refused. *)
Theorem c70_submodule_refuted : forall m s n md sub, identifier s = true -> s <> "*" -> find m = Some md -> entry md s = None ->
  find (m ++ [s]) = Some sub ->
  bindings find (FromImport m s) = Some [(s, object sub)] /\ run (command (FromImport m s)) n = (n, Refused).
Proof.
  intros m s n md sub ID NW F G FS. split.
  - cbn. rewrite F. unfold symbol. rewrite G, FS. reflexivity.
  - apply String.eqb_neq in NW. unfold Import.run. cbn [command a_module a_symbol a_name]. destruct (setup _ _); [|reflexivity].
    now rewrite F, NW, ID, get_entry, G.
Qed.
(** __all__ is ignored: names are imported that are not in it, and names in it that start with an underscore are not. *)
Lemma import_all_keeps d (n : vars V) y : (forall x v, In (x, v) d -> private x = false -> immutable x = false) ->
  fst (import_all V immutable d n) y = bound (filter (fun e => negb (private (fst e))) d) n y.
Proof. intros I. destruct (import_all_ok d n I) as (n' & E & B). now rewrite E, B. Qed.
Lemma bound_not_in l (n : vars V) x : ~ In x (map fst l) -> bound l n x = n x.
Proof.
  unfold bound. generalize (n x). induction l as [|[y v] l IH]; intros o N; [reflexivity|]. cbn in *. destruct (String.eqb_spec x y) as [->|]; [tauto|].
  apply IH. tauto.
Qed.
Lemma bound_in l (n : vars V) x : In x (map fst l) -> bound l n x <> None.
Proof.
  unfold bound. generalize (n x). induction l as [|[y v] l IH] using rev_ind; [contradiction|]. intros o I. rewrite fold_left_app. cbn.
  destruct (String.eqb_spec x y); [discriminate|]. apply IH. rewrite map_app in I. apply in_app_or in I as [I|[I|[]]]; [exact I|cbn in I; congruence].
Qed.
Lemma all_of_names f (l : list string) r : all_of (fun s => option_map (@pair string V s) (f s)) l = Some r -> map fst r = l.
Proof.
  revert r. induction l as [|s l IH]; intros r E; cbn in E; [now injection E as <-|]. destruct (f s); cbn in E; [|discriminate].
  destruct (all_of _ l) as [q|]; [|discriminate]. injection E as <-. cbn. f_equal. auto.
Qed.
Theorem c70_all_refuted : forall m md l r n x, identifier "*" = false -> find m = Some md -> all md = Some l -> bindings find (FromImportAll m) = Some r ->
  (forall x v, In (x, v) (contents md) -> private x = false -> immutable x = false) -> n x = None ->
  let n' := fst (run (command (FromImportAll m)) n) in
  (In x (map fst (contents md)) -> private x = false -> ~ In x l -> n' x <> None /\ bound r n x = None) /\
  (In x l -> private x = true -> n' x = None /\ bound r n x <> None).
Proof.
  intros m md l r n x NS F A B I NX n'.
  assert (E : n' x = bound (filter (fun e => negb (private (fst e))) (contents md)) n x).
  { unfold n', Import.run, setup. cbn [command a_module a_symbol a_name]. change (truthy (Some "*")) with true. change (String.eqb "*" "*") with true.
    cbn [truthy andb negb orb]. rewrite F. now apply import_all_keeps. }
  cbn in B. rewrite F, A in B. apply all_of_names in B. rewrite E. split.
  - intros J P N. split; [|rewrite bound_not_in; congruence]. apply bound_in. apply in_map_iff in J as ([y v] & <- & J). apply in_map_iff. exists (y, v).
    split; [reflexivity|]. apply filter_In. split; [exact J|]. cbn in *. now rewrite P.
  - intros J P. split; [|apply bound_in; congruence]. rewrite bound_not_in; [exact NX|]. intros K. apply in_map_iff in K as (e & <- & K).
    apply filter_In in K as [_ K]. rewrite P in K. discriminate.
Qed.
(** Importing everything from a module that has a name that must not be changed is refused, but what comes before that name is imported. *)
Theorem c70_halfway_refuted : forall m md x v y w r n, find m = Some md -> contents md = (x, v) :: (y, w) :: r ->
  private x = false -> private y = false -> immutable x = false -> immutable y = true ->
  run (command (FromImportAll m)) n = (assign x v n, Refused).
Proof.
  intros m md x v y w r n F C PX PY IX IY. unfold Import.run, setup. cbn [command a_module a_symbol a_name].
  change (truthy (Some "*")) with true. change (String.eqb "*" "*") with true. cbn [truthy andb negb orb]. rewrite F, C. cbn. rewrite PX, PY.
  unfold setvar_import. now rewrite IX, IY.
Qed.
(** import m '' fails an assertion; import m --as '' makes a variable without a name. *)
Theorem c70_empty_refuted : forall m md n, find m = Some md -> identifier "" = false -> immutable "" = false ->
  run (mkarguments m (Some "") None) n = (n, Crash) /\ run (mkarguments m None (Some "")) n = (assign "" (object md) n, Done).
Proof.
  intros m md n F I IM. unfold Import.run, setup. cbn [a_module a_symbol a_name]. change (String.eqb "" "*") with false. cbn [truthy andb negb orb default].
  rewrite F, I. unfold setvar_import. now rewrite IM.
Qed.
End Proofs.
Print Assumptions c70_import_partial.
Print Assumptions c70_invalid.
Print Assumptions c70_immutable.
Print Assumptions c70_dotted_refuted.
Print Assumptions c70_submodule_refuted.
Print Assumptions c70_all_refuted.
Print Assumptions c70_halfway_refuted.
Print Assumptions c70_empty_refuted.

(** An example: math, and a package with a submodule and an __all__. *)
Definition a_math : module nat := mkmodule 1 [("__name__", 2); ("pi", 3); ("sin", 4)] None.
Definition a_package : module nat := mkmodule 5 [("_x", 6); ("y", 7); ("z", 8)] (Some ["_x"; "y"]).
Definition world (m : dotted) : option (module nat) :=
  match m with
  | ["math"] => Some a_math
  | ["package"] => Some a_package
  | ["package"; "sub"] => Some (mkmodule 9 [] None)
  | _ => None
  end.
Definition ids (s : string) : bool := existsb (String.eqb s) ["math"; "pi"; "sin"; "p"; "package"; "sub"; "cos"; "_x"; "y"; "z"].
Definition nothing : string -> option nat := fun _ => None.
Definition imported (t : statement) (l : list string) : list (option nat) := map (fst (run world ids (fun _ => false) (command t) nothing)) l.
Theorem c70_example :
  (forall t, In t [FromImportAs ["math"] "pi" "p"; FromImportAll ["math"]; ImportModule ["math"]; FromImport ["math"] "cos"; ImportModuleAs ["package"; "sub"] "p"] ->
    well_formed ids t /\ simple nat world t) /\
  imported (FromImportAs ["math"] "pi" "p") ["p"; "pi"] = [Some 3; None] /\
  imported (FromImportAll ["math"]) ["__name__"; "pi"; "sin"; "math"] = [None; Some 3; Some 4; None] /\
  imported (ImportModuleAs ["package"; "sub"] "p") ["p"; "package"] = [Some 9; None] /\
  bindings world (FromImport ["math"] "cos") = None /\
  imported (ImportModule ["package"; "sub"]) ["package"; "package.sub"] = [None; Some 9] /\
  bindings world (ImportModule ["package"; "sub"]) = Some [("package", 5)] /\
  imported (FromImport ["package"] "sub") ["sub"] = [None] /\ bindings world (FromImport ["package"] "sub") = Some [("sub", 9)] /\
  imported (FromImportAll ["package"]) ["_x"; "y"; "z"] = [None; Some 7; Some 8] /\
  bindings world (FromImportAll ["package"]) = Some [("_x", 6); ("y", 7)].
Proof.
  split; [|repeat split].
  intros t I. repeat (destruct I as [<-|I]; [split; cbn; auto|]); try contradiction.
  - intros md [= <-]. reflexivity.
  - split; [discriminate|]. intros x [<-|[]]. reflexivity.
Qed.
Print Assumptions c70_example.
