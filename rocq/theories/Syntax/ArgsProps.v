(** C29: arguments of operators and pipelines. *)
From Verif.Syntax Require Import ArgsFacts4 ArgsTable.
Local Open Scope char_scope.
Local Open Scope list_scope.

(** ** Operators *)

(** For every declaration that the argument parser accepts, with distinct attributes, and whatever the
    conversions do: the parser accepts exactly the argument lists that can be read as flags, flag
    values and positional arguments, each word having one role, and sets the attributes accordingly;
    everything else is refused. *)
Theorem c29_operator_arguments : forall conv d args attrs, validate d = true -> NoDup (targets d) ->
  (parse conv d args = Some attrs <->
   exists tss us pos, Forall2 (stands_for d) args tss /\ reading conv d (concat tss) us pos attrs).
Proof. intros conv d args attrs V T. now apply parse_reading. Qed.
Print Assumptions c29_operator_arguments.

(** The declarations of marcel's operators are all of this kind. *)
Theorem c29_all_operators : forall d, In d all_ops -> validate d = true /\ NoDup (targets d).
Proof.
  assert (F : forallb (fun d => validate d && distinct (targets d)) all_ops = true) by (vm_compute; reflexivity).
  intros d I. rewrite forallb_forall in F. apply F, andb_true_iff in I as [A B]. split; auto. now apply distinct_NoDup.
Qed.
Print Assumptions c29_all_operators.

(** Each attribute is set once. *)
Theorem c29_attributes_once : forall conv d args attrs, validate d = true -> NoDup (targets d) ->
  parse conv d args = Some attrs -> NoDup (map fst attrs).
Proof.
  intros conv d args attrs V T P. apply c29_operator_arguments in P as (tss & us & pos & _ & R); auto.
  destruct R as [W U O TK PO FI AM EX (fvs & avs & rest & UV & FL & AT)].
  assert (LF : length (map (fun u => f_target (u_flag u)) us) = length fvs) by (rewrite map_length; eapply Forall2_len; eauto).
  assert (LA : length (map a_target (d_anons d)) = length avs).
  { rewrite map_length. clear -FL. induction FL; cbn; auto. }
  assert (X : NoDup (map (fun u => f_target (u_flag u)) us ++ map a_target (d_anons d) ++
                     match d_list d with Some (_, t) => [t] | None => [] end)).
  { unfold targets in T. apply NoDup_app_inv in T as (T1 & T2 & T3).
    assert (U2 : NoDup (map f_target (map u_flag us))).
    { apply NoDup_map_in with (big := d_flags d); auto. intros f I. apply in_map_iff in I as (u & <- & I).
      rewrite Forall_forall in U. now apply U. }
    rewrite map_map in U2. clear -U U2 T2 T3. induction us as [|u us IH]; cbn; auto.
    inversion U2; subst. inversion U; subst. constructor; [|now apply IH].
    rewrite in_app_iff. intros [I|I]; auto. apply (T3 (f_target (u_flag u))); auto. apply in_map. apply H3. }
  destruct (d_list d) as [[n t]|].
  - destruct AT as (lvs & _ & ->). rewrite !map_app, !map_fst_combine by auto. exact X.
  - destruct AT as (_ & ->). rewrite !map_app, !map_fst_combine by auto. rewrite app_nil_r in X. exact X.
Qed.
Print Assumptions c29_attributes_once.

(** [write -cf x /tmp/out]: a cluster is refused when its flags conflict; [read -ch a b] sets two flags
    and gives the file names in order. *)
Definition as_given (_ : text) (o : obj) : option obj := Some o.

Example c29_case :
  parse as_given op_read [OStr (txt "-ch"); OStr (txt "a"); OStr (txt "b")] =
    Some [(txt "csv", OTrue); (txt "headings", OTrue); (txt "filenames_arg", OList [OStr (txt "a"); OStr (txt "b")])] /\
  parse as_given op_gen [OStr (txt "-p"); OInt 3; OInt 10] =
    Some [(txt "pad_arg", OInt 3); (txt "count_arg", OInt 10); (txt "start_arg", OInt 0)] /\
  parse as_given op_write [OStr (txt "-ct"); OStr (txt "out")] = None.
Proof. repeat split; vm_compute; reflexivity. Qed.

(** The job operators [bg], [fg] declare [-j] and [-p] as alternatives to a mandatory positional
    argument: with either flag every command line is refused. *)
Theorem c29_job_flags_refuted : forall conv args attrs, parse conv op_fg args = Some attrs ->
  exists v, attrs = [(txt "job_id", v)].
Proof.
  intros conv args attrs P. apply c29_operator_arguments in P; [|apply c29_all_operators; vm_compute; tauto ..].
  destruct P as (tss & us & pos & _ & R). destruct R as [W U O TK PO FI AM EX (fvs & avs & rest & UV & FL & AT)].
  cbn in FL. cbn [d_list op_fg] in AT. destruct AT as [-> ->].
  inversion FL as [|a o v as_ pos' vs r C F|a v as_ vs r D F]; subst; [|discriminate D].
  inversion F; subst. destruct us as [|u us].
  { inversion UV; subst. exists v. reflexivity. }
  exfalso. destruct (EX [txt "jid"; txt "pid"; txt "job_id"]) as [A _]; [now left|].
  inversion U as [|? ? (I & _) _]; subst.
  assert (G1 : In (f_name (u_flag u)) (given op_fg (u :: us) [o])) by (now left).
  assert (G2 : In (txt "job_id") (given op_fg (u :: us) [o])).
  { unfold given. apply in_or_app. right. now left. }
  specialize (A (f_name (u_flag u)) (txt "job_id")).
  cbn in I. destruct I as [Q|[Q|[]]]; rewrite <- Q in *; cbn [f_name] in *.
  - specialize (A ltac:(cbn; tauto) ltac:(cbn; tauto) G1 G2). discriminate.
  - specialize (A ltac:(cbn; tauto) ltac:(cbn; tauto) G1 G2). discriminate.
Qed.
Print Assumptions c29_job_flags_refuted.

(** ** Pipelines bound to variables *)

(** The arguments of a pipeline are accepted exactly if they are named arguments, each parameter at most
    once, and parameters named without a value, followed by positional arguments. The named arguments
    and the positional ones are kept, in order; the parameters named without a value are dropped. *)
Theorem c29_pipeline_arguments_partial : forall ts args kwargs, parse_pipeline_args ts = Some (args, kwargs) <->
  exists us, ts = concat (map fst us) ++ args /\
    Forall (fun u => named (fst u) (snd u)) us /\ kwargs = somes (map snd us) /\ NoDup (map fst kwargs) /\
    (forall o p, In o args -> ~ names_param o p) /\
    (forall us' o, us = us' ++ [([o], None)] -> args = []).
Proof.
  intros ts args kwargs. unfold parse_pipeline_args. split.
  - intros E. destruct (pipeline_args (mkpps [] [] None false) ts) as [s|] eqn:P; [|discriminate]. injection E as <- <-.
    assert (I0 : pinv [] (mkpps [] [] None false) []).
    { unfold pinv. cbn. repeat split; auto; try easy; try constructor. intros us' o Q. now destruct us'. }
    destruct (pinv_all _ _ _ _ _ I0 P) as (us & W & U & K & N & PO & D & C). exists us. repeat split; auto.
    intros us' o ->. destruct (pp_param s); [now destruct C|]. exfalso. eapply C; reflexivity.
  - intros (us & -> & U & -> & N & PO & C). destruct (pipeline_uses us U N) as (p & E & L).
    rewrite pipeline_args_app, E. destruct p as [p|].
    + destruct L as (us' & o & L); [discriminate|]. rewrite (C _ _ L). reflexivity.
    + destruct (pipeline_positional args [] (somes (map snd us)) false PO) as (dn & ->). reflexivity.
Qed.
Print Assumptions c29_pipeline_arguments_partial.

(** A parameter named without a value is silently dropped. *)
Theorem c29_pipeline_arguments_refuted :
  parse_pipeline_args [OStr (txt "--a"); OStr (txt "--b"); OInt 1; OInt 2] = Some ([OInt 2], [(txt "b", OInt 1)]) /\
  parse_pipeline_args [OStr (txt "-a")] = Some ([], []).
Proof. split; reflexivity. Qed.
Print Assumptions c29_pipeline_arguments_refuted.

(** Calling a pipeline with distinct parameters: each named argument goes to its parameter, the
    positional ones to the first parameters, no parameter gets two, and the others are None. *)
Theorem c29_pipeline_call : forall first params ts args kwargs b, NoDup params ->
  parse_pipeline_args ts = Some (args, kwargs) -> call_pipeline first params ts = Ok b ->
  length args + length kwargs <= length params /\
  (forall p v, dget p kwargs = Some v -> dget p (combine params args) = None) /\
  (forall p, In p params -> dget p b = match dget p kwargs, dget p (combine params args) with
                                       | Some v, _ => Some v
                                       | None, Some v => Some v
                                       | None, None => Some ONone
                                       end) /\
  (first = true -> forall p v, dget p b = Some v -> In p params).
Proof.
  intros first params ts args kwargs b NP P C. unfold call_pipeline in C. rewrite P in C.
  apply c29_pipeline_arguments_partial in P as (us & _ & _ & _ & NK & _ & _).
  destruct (bindings params args kwargs) as [b'| | |] eqn:B; try discriminate.
  destruct (first && negb (forallb (fun kv => existsb (teqb (fst kv)) params) b'))%bool eqn:X; [discriminate|].
  injection C as ->. destruct (bindings_get _ _ _ _ NP NK B) as (L & D & G). repeat split; auto.
  - intros p I. rewrite G. apply existsb_teqb in I. rewrite I. destruct (dget p kwargs), (dget p (combine params args)); auto.
  - intros -> p v E. cbn in X. apply negb_false_iff in X. rewrite forallb_forall in X.
    assert (I : In p (map fst b)).
    { destruct (in_dec (list_eq_dec Ascii.ascii_dec) p (map fst b)); auto. apply dget_None in n. congruence. }
    apply in_map_iff in I as ([k w] & Q & I). cbn in Q. subst k. apply X in I. now apply existsb_teqb in I.
Qed.
Print Assumptions c29_pipeline_call.

Example c29_pipeline_case :
  call_pipeline true [txt "a"; txt "b"; txt "c"] [OStr (txt "-c"); OInt 3; OInt 1] =
    Ok [(txt "a", OInt 1); (txt "c", OInt 3); (txt "b", ONone)].
Proof. reflexivity. Qed.

(** A name that is no parameter is not reported as a usage error: a pipeline at the start of a command
    fails with an AssertionError, and one that receives input runs with a variable of that name. *)
Theorem c29_unknown_parameter_refuted :
  call_pipeline true [txt "a"] [OStr (txt "--b"); OInt 1] = Crash /\
  call_pipeline false [txt "a"] [OStr (txt "--b"); OInt 1] = Ok [(txt "b", OInt 1); (txt "a", ONone)].
Proof. split; reflexivity. Qed.
Print Assumptions c29_unknown_parameter_refuted.
