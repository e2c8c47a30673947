(** C01-C04: properties of the execution core.

    Vocabulary.  A stream is a list of [event]s.  [open_stream es]: [es] contains tuples and Errors but
    no end-of-stream.  [exec m (es, Ok)] is a run of the operator or pipeline [m] on a source that
    delivers [es] and then ends; its value is the events handed to the consumer and how the run ended
    ([Ok], or [Kill] when the command is aborted).  [through m es] is what the freshly set up [m] does
    with the events [es], whatever they are. [rows], [errs]: the tuples / Errors of a stream. *)
From Verif.Ops Require Import Rerun.
Local Open Scope string_scope.
Local Open Scope list_scope.

(** * C01 *)

(** Running a pipeline is running its second part on everything the first part delivers: its tuples,
    its Errors and its end-of-stream, in order. *)
Theorem c01_pipeline_is_composition :
  forall ms1 ms2, Forall builtin ms1 -> Forall builtin ms2 -> forall es,
  through (pipe (ms1 ++ ms2)) es =
  let '(o1, r1) := through (pipe ms1) es in
  let '(o2, r2) := through (pipe ms2) o1 in
  (o2, first_raise r2 r1).
Proof.
  intros ms1 ms2 H1 H2. apply through_pipe_app.
  - eapply Forall_impl; [|exact H1]. exact builtin_orderly.
  - eapply Forall_impl; [|exact H2]. exact builtin_orderly.
Qed.

(** A run is: everything the source sends, followed by end-of-stream if the source ended normally. *)
Theorem c01_run_is_stream_then_end :
  forall m es r0,
  exec m (es, r0) =
  match r0 with
  | Ok => through m (es ++ [Flush])
  | _ => let '(o, r) := through m es in (o, first_raise r r0)
  end.
Proof. exact exec_through. Qed.

(** Grouping does not matter: [(a | b) | c] and [a | (b | c)] deliver the same. *)
Theorem c01_grouping :
  forall a b c, builtin a -> builtin b -> builtin c -> forall es,
  through (compose (compose a b) c) es = through (compose a (compose b c)) es.
Proof.
  intros a b c Ha Hb Hc es. apply builtin_orderly in Ha, Hb, Hc.
  rewrite !through_seq; auto using orderly_seq.
  destruct (through a es) as [o1 r1]. rewrite through_seq by auto.
  destruct (through b o1) as [o2 r2]. destruct (through c o2) as [o3 r3]. f_equal.
  destruct r3, r2; reflexivity.
Qed.

(** Using a pipeline held in a variable inside a pipeline delivers what writing it out would deliver,
    followed by one more end-of-stream. *)
Theorem c01_stored_pipeline :
  forall m es o, error_transparent m -> open_stream es ->
  exec m (es, Ok) = (o, Ok) -> exec (nested m) (es, Ok) = (o ++ [Flush], Ok).
Proof. exact nested_exec. Qed.

Definition add_one : func := fun args => match args with [VInt n] => Some (VInt (n + 1)) | _ => None end.
Definition even : func := fun args => match args with [VInt n] => Some (VBool (Z.even n)) | _ => None end.
Definition ints (l : list Z) : list event := map (fun n => Data (VInt n)) l.

Example c01_example :
  Forall builtin [map_op add_one; select_op even; head_op 2] /\
  exec (pipe [map_op add_one; select_op even; head_op 2]) (ints [0; 1; 2; 3; 4; 5; 6]%Z, Ok)
    = ([Data (VTuple [VInt 2]); Data (VTuple [VInt 4]); Flush], Ok).
Proof. split; [repeat constructor|reflexivity]. Qed.

(** * C02 *)

Section C02.
  Variable es : list event.
  Hypothesis Hes : open_stream es.

  (** Event by event: a tuple whose function call raises is replaced by one Error, any other by the
      result; Errors stay in place; the run ends normally. *)
  Theorem c02_map : forall f, exists out,
    exec (map_op f) (es, Ok) = (out ++ [Flush], Ok) /\
    Forall2 (fun e o => match e with
                        | Data x => match f (components (wrap x)) with
                                    | Some v => o = Data v
                                    | None => exists r, o = Fatal (MkErr "map" r)
                                    end
                        | Err e | Fatal e => o = Err e
                        | Flush => False
                        end) es out.
  Proof.
    intros f. rewrite (map_exec f Hes). eexists. split; [reflexivity|].
    clear - Hes. unfold open_stream in Hes. induction es as [|e l IH]; simpl in *; [constructor|].
    apply andb_true_iff in Hes. destruct Hes as [He Hl].
    destruct e as [x|e|e|]; try discriminate; simpl; try (constructor; [reflexivity|auto]).
    destruct (f (components (wrap x))) eqn:E; (constructor; [rewrite E; eauto|auto]).
  Qed.

  (** select: the tuple itself, nothing, or one Error. *)
  Theorem c02_select : forall f, exists outs,
    exec (select_op f) (es, Ok) = (concat outs ++ [Flush], Ok) /\
    Forall2 (fun e o => match e with
                        | Data x => match f (components (wrap x)) with
                                    | Some v => o = if truthy v then [Data (wrap x)] else []
                                    | None => exists r, o = [Fatal (MkErr "select" r)]
                                    end
                        | Err e | Fatal e => o = [Err e]
                        | Flush => False
                        end) es outs.
  Proof.
    intros f. rewrite (select_exec f Hes). rewrite flat_map_concat_map. eexists. split; [reflexivity|].
    clear - Hes. unfold open_stream in Hes. induction es as [|e l IH]; simpl in *; [constructor|].
    apply andb_true_iff in Hes. destruct Hes as [He Hl].
    destruct e as [x|e|e|]; try discriminate; simpl; (constructor; [|auto]); auto.
    destruct (f (components (wrap x))) eqn:E; eauto.
  Qed.

  (** squish: reduces the components; an Error if some application raises. *)
  Theorem c02_squish : forall f, exists out,
    exec (squish_op f) (es, Ok) = (out ++ [Flush], Ok) /\
    Forall2 (fun e o => match e with
                        | Data x => match fold_left (fun acc y => match acc with Some a => f [a; y] | None => None end)
                                                    (components (wrap x)) (Some VNone) with
                                    | Some v => o = Data v
                                    | None => exists r, o = Fatal (MkErr "squish" r)
                                    end
                        | Err e | Fatal e => o = Err e
                        | Flush => False
                        end) es out.
  Proof.
    intros f. rewrite (squish_exec f Hes). eexists. split; [reflexivity|].
    assert (forall xs a, match squish_fold f a xs with
                         | inl v => fold_left (fun acc y => match acc with Some a => f [a; y] | None => None end) xs (Some a) = Some v
                         | inr _ => fold_left (fun acc y => match acc with Some a => f [a; y] | None => None end) xs (Some a) = None
                         end) as Hfold.
    { induction xs as [|x xs IHx]; intros a; simpl; [reflexivity|].
      destruct (f [a; x]) as [a'|]; [apply IHx|]. clear. induction xs; simpl; auto. }
    clear - Hes Hfold. unfold open_stream in Hes. induction es as [|e l IH]; simpl in *; [constructor|].
    apply andb_true_iff in Hes. destruct Hes as [He Hl].
    destruct e as [x|e|e|]; try discriminate; simpl; try (constructor; [reflexivity|auto]).
    pose proof (Hfold (components (wrap x)) VNone) as Hx.
    destruct (squish_fold f VNone (components (wrap x))); (constructor; [rewrite Hx; eauto|auto]).
  Qed.

  (** cast: see C43 for the conversion; a failing one gives one Error. *)
  Theorem c02_cast : forall fs, exists out,
    exec (cast_op fs) (es, Ok) = (out ++ [Flush], Ok) /\
    Forall2 (fun e o => match e with
                        | Data x => (exists vs, cast_row fs (components (wrap x)) = inl vs /\ o = Data (VTuple vs)) \/
                                    (exists bad, cast_row fs (components (wrap x)) = inr bad /\ exists r, o = Fatal (MkErr "cast" r))
                        | Err e | Fatal e => o = Err e
                        | Flush => False
                        end) es out.
  Proof.
    intros fs. rewrite (cast_exec fs Hes). eexists. split; [reflexivity|].
    clear - Hes. unfold open_stream in Hes. induction es as [|e l IH]; simpl in *; [constructor|].
    apply andb_true_iff in Hes. destruct Hes as [He Hl].
    destruct e as [x|e|e|]; try discriminate; simpl; try (constructor; [reflexivity|auto]).
    destruct (cast_row fs (components (wrap x))) eqn:E; (constructor; [eauto|auto]).
  Qed.
End C02.

(** Other tuples are treated as if the failing ones were absent. *)
Theorem c02_others_unaffected :
  forall f es, open_stream es ->
  let fails e := match e with Data x => match f (components (wrap x)) with None => true | _ => false end | _ => false end in
  rows (fst (exec (map_op f) (es, Ok))) = rows (fst (exec (map_op f) (filter (fun e => negb (fails e)) es, Ok))) /\
  rows (fst (exec (select_op f) (es, Ok))) = rows (fst (exec (select_op f) (filter (fun e => negb (fails e)) es, Ok))).
Proof.
  intros f es He fails.
  assert (open_stream (filter (fun e => negb (fails e)) es)) as Hf.
  { clear - He. unfold open_stream in *. induction es as [|e l IH]; simpl in *; auto.
    apply andb_true_iff in He. destruct He as [H1 H2]. destruct (negb (fails e)); simpl; auto. now rewrite H1, IH. }
  rewrite !map_exec, !select_exec by auto. cbn [fst]. rewrite !rows_app.
  split; f_equal; clear - He; unfold open_stream in He; induction es as [|e l IH]; simpl in *; auto;
    apply andb_true_iff in He; destruct He as [He Hl]; destruct e as [x|e|e|]; try discriminate; simpl; auto;
    destruct (f (components (wrap x))) as [v|] eqn:E; simpl; rewrite ?E, ?rows_app; auto.
  - simpl. now rewrite IH.
  - destruct (truthy v); simpl; now rewrite IH.
Qed.

Example c02_example :
  exec (map_op add_one) ([Data (VInt 1); Data (VStr "a"); Data (VInt 5)], Ok)
  = ([Data (VInt 2); Fatal (MkErr "map" (VTuple [VStr "a"])); Data (VInt 6); Flush], Ok).
Proof. reflexivity. Qed.

(** * C03 *)

(** All operators but write hand an Error on, unchanged, at once, without changing state. *)
Theorem c03_errors_forwarded_at_once :
  forall m, builtin m -> (forall w, m <> write_op w) -> forall s e, step m s (Err e) = (s, [Err e], Ok).
Proof.
  intros m Hm Hw. destruct Hm; try (intros s e; reflexivity).
  - unfold tail_op. destruct (Z.eqb n 0); [|destruct (Z.ltb 0 n)]; intros s e; reflexivity.
  - unfold window_op. destruct p as [p|]; [intros s e; reflexivity|].
    destruct o as [z|]; [destruct (Z.eqb z 0)|].
    + destruct d as [z'|]; [destruct (Z.leb 0 z')|]; intros s e; reflexivity.
    + destruct (Z.leb 0 z); intros s e; reflexivity.
    + destruct d as [z'|]; [destruct (Z.leb 0 z')|]; intros s e; reflexivity.
  - unfold red_op. destruct (existsb r_group rs); intros s e; reflexivity.
  - destruct p; intros s e; reflexivity.
  - exfalso. now apply (Hw w).
Qed.

(** Through any pipeline of such operators that runs to its end, all Errors arrive, in order. *)
Theorem c03_errors_survive_pipelines :
  forall ms es o,
  Forall (fun m => builtin m /\ forall w, m <> write_op w) ms -> open_stream es ->
  exec (pipe ms) (es, Ok) = (o, Ok) -> sublist (errs es) (errs o).
Proof.
  intros ms es o Hms He. apply transparent_exec_errs; auto. apply transparent_pipe.
  eapply Forall_impl; [|exact Hms]. intros m [H1 H2]. intros s e. now apply c03_errors_forwarded_at_once.
Qed.

(** The filtering operators keep Errors in place among the tuples they keep. *)
Theorem c03_errors_keep_their_place :
  forall es, open_stream es ->
  (forall n, n <> 0%Z -> exists o, exec (head_op n) (es, Ok) = (o ++ [Flush], Ok) /\ errs o = errs es /\ sublist o (map as_input es)) /\
  (forallb hashable (rows es) = true ->
   exists o, exec unique_op (es, Ok) = (o ++ [Flush], Ok) /\ errs o = errs es /\ sublist o (map as_input es)) /\
  (exists o, exec unique_consecutive_op (es, Ok) = (o ++ [Flush], Ok) /\ errs o = errs es /\ sublist o (map as_input es)).
Proof.
  intros es He. split; [|split].
  - intros n Hn. destruct (@head_exec n es Hn He) as (o & E & H1 & H2 & _). exists o. auto.
  - intros Hh. destruct (@unique_exec es He Hh) as (o & E & H1 & H2 & _). exists o. auto.
  - destruct (@unique_consecutive_exec es He) as (o & E & H1 & H2 & _). exists o. auto.
Qed.

Example c03_example :
  exec (pipe [head_op 1; red_op false [MkRed (fun a => nth_error a 1) false false]])
    ([Err (MkErr "ls" VNone); Data (VInt 1); Err (MkErr "ls" (VInt 2)); Data (VInt 3)], Ok)
  = ([Err (MkErr "ls" VNone); Err (MkErr "ls" (VInt 2)); Data (VTuple [VInt 1]); Flush], Ok).
Proof. reflexivity. Qed.

(** * C04 *)

(** For pipelines built from the operators of [tells_once] the consumer is told of the end exactly
    once, after everything else.  Not for all operators: see the refutations. *)
Theorem c04_end_told_once_partial :
  forall ms es o, Forall tells_once ms -> open_stream es ->
  exec (pipe ms) (es, Ok) = (o, Ok) -> exists o', o = o' ++ [Flush] /\ open_stream o'.
Proof. exact tells_once_pipe. Qed.

(** A positive tail tells twice, on every input. *)
Theorem c04_tail_refuted :
  forall n es, (n > 0)%Z -> open_stream es ->
  exists o, exec (tail_op n) (es, Ok) = (o ++ [Flush; Flush], Ok).
Proof.
  intros n es Hn He. unfold tail_op. destruct (Z.eqb_spec n 0); [lia|]. destruct (Z.ltb_spec 0 n); [|lia].
  rewrite tail_keep_exec; auto; [|lia]. eexists. rewrite app_assoc. reflexivity.
Qed.

(** An overlapping window that got no input does not tell at all, so that `... | red` after it yields
    nothing. *)
Theorem c04_window_refuted :
  forall n, (n > 0)%Z -> exec (window_op None (Some n) None) ([], Ok) = ([], Ok).
Proof.
  intros n Hn. unfold window_op. destruct (Z.eqb_spec n 0); [lia|]. destruct (Z.leb_spec 0 n); [|lia]. reflexivity.
Qed.

(** union tells once more than its last pipeline does. *)
Theorem c04_union_refuted :
  forall ps p es, Forall (fun q => snd q = Ok) (ps ++ [p]) -> open_stream es ->
  flushes (fst (exec (union_op (ps ++ [p])) (es, Ok))) = S (flushes (fst p)).
Proof.
  intros ps p es Hp He. destruct (@union_exec (ps ++ [p]) es He Hp) as (o & E & _ & _ & Hf).
  rewrite E. cbn [fst]. rewrite flushes_app, Hf, rev_app_distr. simpl. lia.
Qed.

(** args with an incomplete last group tells twice. *)
Theorem c04_args_refuted :
  exists run, flushes (fst (exec (args_op false 2 run) (ints [1; 2; 3]%Z, Ok))) = 2.
Proof. exists (fun a => ([Data (VTuple a)], Ok)). reflexivity. Qed.

(** A pipeline held by a variable: once more than the pipeline itself (c01_stored_pipeline). *)
Theorem c04_stored_pipeline_refuted :
  forall m es o, error_transparent m -> open_stream es -> exec m (es, Ok) = (o, Ok) ->
  flushes (fst (exec (nested m) (es, Ok))) = S (flushes o).
Proof.
  intros m es o Hm He E. rewrite (nested_exec Hm He E). cbn [fst]. rewrite flushes_app. simpl. lia.
Qed.

(** What the user sees: [gen 3 | tail 2 | union (| gen 1 |)] outputs the row of [gen 1] twice. *)
Example c04_duplicate_rows :
  rows (fst (exec (pipe [tail_op 2; union_op [(ints [0]%Z ++ [Flush], Ok)]]) (ints [0; 1; 2]%Z, Ok)))
  = [VTuple [VInt 1]; VTuple [VInt 2]; VTuple [VInt 0]; VTuple [VInt 0]].
Proof. reflexivity. Qed.

Example c04_example :
  Forall tells_once [map_op add_one; sort_op None; window_disjoint 2] /\
  exec (pipe [map_op add_one; sort_op None; window_disjoint 2]) (ints [3; 1; 2]%Z, Ok)
  = ([Data (VTuple [VInt 2; VInt 3]); Data (VTuple [VInt 4; VNone]); Flush], Ok).
Proof. split; [repeat constructor|reflexivity]. Qed.

Print Assumptions c01_pipeline_is_composition.
Print Assumptions c01_run_is_stream_then_end.
Print Assumptions c01_grouping.
Print Assumptions c01_stored_pipeline.
Print Assumptions c02_map.
Print Assumptions c02_select.
Print Assumptions c02_squish.
Print Assumptions c02_cast.
Print Assumptions c02_others_unaffected.
Print Assumptions c03_errors_forwarded_at_once.
Print Assumptions c03_errors_survive_pipelines.
Print Assumptions c03_errors_keep_their_place.
Print Assumptions c04_end_told_once_partial.
Print Assumptions c04_tail_refuted.
Print Assumptions c04_window_refuted.
Print Assumptions c04_union_refuted.
Print Assumptions c04_stored_pipeline_refuted.
