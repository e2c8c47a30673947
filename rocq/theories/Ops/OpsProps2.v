(** C14-C22: operators with pipelines as arguments, gen, and running a pipeline again. *)
From Verif.Ops Require Import ExecProps OpsProps1 Rerun.
Set Implicit Arguments.
Local Open Scope string_scope.
Local Open Scope list_scope.

(** * C14 difference *)

(** A row is output iff at least as many equal rows precede it in the input as [p] yields; so of each
    distinct row the first k occurrences are removed, k being its number of occurrences in [p]. *)
Theorem c14_difference : forall p es, open_stream es -> snd p = Ok -> hashable_rows (arg_rows p) ->
  hashable_rows (rows es) ->
  exists out, exec (difference_op p) (es, Ok) = (out ++ [Flush], Ok) /\
    rows out = keep_by (fun before x => Nat.leb (count x (arg_rows p)) (count x before)) [] (rows es) /\
    errs out = errs es /\ sublist out (map as_input es).
Proof. exact difference_exec. Qed.

(** Counting version: occurrences in the output = occurrences in the input minus occurrences in p. *)
Lemma keep_by_count_diff right y l : forall before,
  count y (keep_by (fun before x => Nat.leb (count x right) (count x before)) before l) =
  (count y (before ++ l) - count y right) - (count y before - count y right).
Proof.
  induction l as [|x l IH]; intros before; cbn [keep_by].
  - rewrite app_nil_r. change (count y []) with 0. lia.
  - assert (count y (before ++ x :: l) = count y before + (if py_eq y x then 1 else 0) + count y l) as E1.
    { replace (x :: l) with ([x] ++ l) by reflexivity. rewrite !count_app, count_one. lia. }
    specialize (IH (before ++ [x])). rewrite !count_app, count_one in IH. rewrite E1.
    destruct (py_eq y x) eqn:Exy.
    + rewrite <- (@count_cong y x right Exy), <- (@count_cong y x before Exy).
      destruct (Nat.leb_spec (count y right) (count y before)).
      * replace (x :: keep_by (fun before x => Nat.leb (count x right) (count x before)) (before ++ [x]) l)
          with ([x] ++ keep_by (fun before x => Nat.leb (count x right) (count x before)) (before ++ [x]) l) by reflexivity.
        rewrite count_app, count_one, Exy, IH. lia.
      * rewrite IH. lia.
    + destruct (Nat.leb_spec (count x right) (count x before)).
      * replace (x :: keep_by (fun before x => Nat.leb (count x right) (count x before)) (before ++ [x]) l)
          with ([x] ++ keep_by (fun before x => Nat.leb (count x right) (count x before)) (before ++ [x]) l) by reflexivity.
        rewrite count_app, count_one, Exy, IH. lia.
      * rewrite IH. lia.
Qed.

Theorem c14_difference_counts : forall p es o, open_stream es -> snd p = Ok -> hashable_rows (arg_rows p) ->
  hashable_rows (rows es) -> exec (difference_op p) (es, Ok) = (o, Ok) ->
  forall x, count x (rows o) = count x (rows es) - count x (arg_rows p).
Proof.
  intros p es o He Hp Hh Hr E x. destruct (@difference_exec p es He Hp Hh Hr) as (out & F & H1 & _).
  rewrite F in E. injection E as <-. rewrite rows_app. cbn [rows]. rewrite app_nil_r, H1.
  unfold diff_keep. rewrite keep_by_count_diff. rewrite app_nil_l. change (count x []) with 0. lia.
Qed.

(** p is run once: after the first tuple, nothing depends on p any more, for good. *)
Theorem c14_difference_runs_p_once : forall p es s x, df_first s = false ->
  (forall p' e, step (difference_op p) s e = step (difference_op p') s e) /\
  df_first (res_st (feed (difference_op p) s es)) = false /\
  (snd p = Ok -> hashable_rows (arg_rows p) ->
   df_first (res_st (step (difference_op p) (MkDiff 1 true []) (Data x))) = false).
Proof.
  assert (forall x s, df_first (res_st (difference_probe x s)) = df_first s) as Hp.
  { intros x s. unfold difference_probe. destruct (hashable x); [|reflexivity].
    destruct (dget x (df_right s)); reflexivity. }
  intros p es s x Hs. split; [|split].
  - intros p' [y|e|e|]; cbn; auto. rewrite Hs. reflexivity.
  - revert s Hs. induction es as [|e es IH]; intros s Hs; auto.
    cbn [feed]. unfold deliver.
    assert (df_first (res_st (step (difference_op p) s (as_input e))) = false) as H1.
    { destruct e as [y|e|e|]; cbn; auto. rewrite Hs. now rewrite Hp. }
    destruct (step (difference_op p) s (as_input e)) as [[s1 o1] r1]. cbn [res_st fst] in H1.
    destruct (caught e r1); auto. specialize (IH s1 H1). destruct (feed (difference_op p) s1 es) as [[s2 o2] r2]. auto.
  - intros Hok Hh. cbn. destruct (@load_counts (fst p) (snd p)) with (d := @nil (val * nat)) (l := @nil val) as (d & E & _).
    + destruct p; exact Hh.
    + apply table_nil.
    + rewrite E, Hok. apply Hp.
Qed.

Example c14_example :
  rows (fst (exec (difference_op (ints [2; 2; 5]%Z, Ok)) (ints [1; 2; 3; 2; 2]%Z, Ok)))
  = [VTuple [VInt 1]; VTuple [VInt 3]; VTuple [VInt 2]].
Proof. reflexivity. Qed.

(** * C15 intersect *)

Theorem c15_intersect : forall ps es, open_stream es -> ps <> [] -> Forall ok_arg ps -> hashable_rows (rows es) ->
  exists out, exec (intersect_op ps) (es, Ok) = (out ++ [Flush], Ok) /\
    rows out = keep_by (fun before x => Nat.ltb (count x before) (min_count x ps)) [] (rows es) /\
    errs out = errs es /\ sublist out (map as_input es).
Proof. exact intersect_exec. Qed.

Lemma keep_by_count_int (f : val -> nat) (Hf : forall x y, py_eq x y = true -> f x = f y) y l : forall before,
  count y (keep_by (fun before x => Nat.ltb (count x before) (f x)) before l) =
  Nat.min (count y (before ++ l)) (f y) - Nat.min (count y before) (f y).
Proof.
  induction l as [|x l IH]; intros before; cbn [keep_by].
  - rewrite app_nil_r. change (count y []) with 0. lia.
  - assert (count y (before ++ x :: l) = count y before + (if py_eq y x then 1 else 0) + count y l) as E1.
    { replace (x :: l) with ([x] ++ l) by reflexivity. rewrite !count_app, count_one. lia. }
    specialize (IH (before ++ [x])). rewrite !count_app, count_one in IH. rewrite E1.
    set (rest := keep_by (fun before x => Nat.ltb (count x before) (f x)) (before ++ [x]) l) in *.
    assert (count y (x :: rest) = (if py_eq y x then 1 else 0) + count y rest) as E2.
    { replace (x :: rest) with ([x] ++ rest) by reflexivity. rewrite count_app, count_one. lia. }
    destruct (py_eq y x) eqn:Exy.
    + rewrite <- (Hf y x Exy), <- (@count_cong y x before Exy).
      destruct (Nat.ltb_spec (count y before) (f y)); rewrite ?E2, IH; lia.
    + destruct (Nat.ltb_spec (count x before) (f x)); rewrite ?E2, IH; lia.
Qed.

(** Counting version: occurrences in the output = minimum over the input and all the pipelines. *)
Theorem c15_intersect_counts : forall ps es o, open_stream es -> ps <> [] -> Forall ok_arg ps -> hashable_rows (rows es) ->
  exec (intersect_op ps) (es, Ok) = (o, Ok) ->
  forall x, count x (rows o) = fold_left Nat.min (map (fun p => count x (arg_rows p)) ps) (count x (rows es)).
Proof.
  intros ps es o He Hn Ha Hr E x. destruct (@intersect_exec ps es He Hn Ha Hr) as (out & F & H1 & _).
  rewrite F in E. injection E as <-. rewrite rows_app. cbn [rows]. rewrite app_nil_r, H1.
  unfold int_keep. rewrite (@keep_by_count_int (fun x => min_count x ps)).
  - rewrite app_nil_l. change (count x []) with 0. rewrite Nat.min_0_l, Nat.sub_0_r. unfold min_count.
    destruct ps as [|p ps]; [congruence|]. cbn [map fold_left].
    generalize (count x (rows es)) (count x (arg_rows p)). generalize (map (fun p => count x (arg_rows p)) ps).
    induction l as [|n l IH]; intros a b; cbn [fold_left]; auto. rewrite IH. now rewrite Nat.min_assoc.
  - intros a b Hab. unfold min_count. rewrite (map_ext _ (fun p => count b (arg_rows p))); auto.
    intros p. now apply count_cong.
Qed.

Example c15_example :
  rows (fst (exec (intersect_op [(ints [1; 2; 2; 3]%Z, Ok); (ints [2; 2; 1; 1]%Z, Ok)]) (ints [2; 1; 2; 2; 3; 1]%Z, Ok)))
  = [VTuple [VInt 2]; VTuple [VInt 1]; VTuple [VInt 2]].
Proof. reflexivity. Qed.

(** * C16 union *)

Theorem c16_union : forall ps es, open_stream es -> Forall (fun p => snd p = Ok) ps ->
  exists out, exec (union_op ps) (es, Ok) = (out ++ [Flush], Ok) /\
    rows out = rows es ++ flat_map (fun p => rows (fst p)) ps /\
    errs out = errs es ++ flat_map (fun p => errs (fst p)) ps.
Proof. intros ps es He Hp. destruct (@union_exec ps es He Hp) as (o & E & H1 & H2 & _). eauto. Qed.

Example c16_example :
  rows (fst (exec (union_op [(ints [3]%Z, Ok); (ints [4; 1]%Z, Ok)]) (ints [1; 2]%Z, Ok)))
  = [VTuple [VInt 1]; VTuple [VInt 2]; VTuple [VInt 3]; VTuple [VInt 4]; VTuple [VInt 1]].
Proof. reflexivity. Qed.

(** * C17 join *)

Theorem c17_join : forall keep p es, open_stream es -> snd p = Ok ->
  Forall joinable_or_empty (arg_rows p) -> Forall joinable (rows es) ->
  exists out, exec (join_op keep p) (es, Ok) = (out ++ [Flush], Ok) /\ errs out = errs es /\
    rows out = flat_map (fun x =>
      let found := filter (fun m => match components x, components m with
                                    | k :: _, k' :: _ => py_eq k k'
                                    | _, _ => false
                                    end) (arg_rows p) in
      match found with
      | [] => if keep then [VTuple (components x)] else []
      | _ => map (fun m => VTuple (components x ++ tl (components m))) found
      end) (rows es).
Proof.
  intros keep p es He Hp Ha Hr. destruct (@join_exec keep p es He Hp Ha Hr) as (o & E & H1 & H2).
  exists o. split; [exact E|]. split; [exact H2|]. rewrite H1. clear - Hr.
  induction Hr as [|x l Hx Hl IH]; simpl; auto. rewrite IH. f_equal. unfold join_rows, joinable in *.
  destruct (components x) as [|k ks]; [contradiction|]. fold (matches k (arg_rows p)).
  destruct (matches k (arg_rows p)); reflexivity.
Qed.

Example c17_example :
  rows (fst (exec (join_op true (pairs [(1, 7); (2, 8); (1, 9)]%Z, Ok)) (pairs [(1, 10); (5, 50)]%Z, Ok)))
  = [VTuple [VInt 1; VInt 10; VInt 7]; VTuple [VInt 1; VInt 10; VInt 9]; VTuple [VInt 5; VInt 50]].
Proof. reflexivity. Qed.

(** * C18 filter *)

Theorem c18_filter : forall compare discard p es, open_stream es -> snd p = Ok -> hashable_rows (arg_rows p) ->
  Forall (filterable compare) (rows es) ->
  exists out, exec (filter_op compare discard p) (es, Ok) = (out ++ [Flush], Ok) /\
    rows out = filter (fun x => if discard then negb (occurs compare (arg_rows p) x)
                                else occurs compare (arg_rows p) x) (rows es) /\
    errs out = errs es.
Proof.
  intros compare discard p es He Hp Ha Hr. destruct (@filter_exec compare discard p es He Hp Ha Hr) as (o & E & H1 & H2 & _).
  exists o. split; [exact E|]. split; [|exact H2]. rewrite H1. apply filter_ext. intros x. destruct discard, (occurs compare (arg_rows p) x); reflexivity.
Qed.

(** Each input row is output by exactly one of --keep and --discard, as often as it occurs. *)
Theorem c18_filter_splits : forall compare p es o1 o2, open_stream es -> snd p = Ok -> hashable_rows (arg_rows p) ->
  Forall (filterable compare) (rows es) ->
  exec (filter_op compare false p) (es, Ok) = (o1, Ok) -> exec (filter_op compare true p) (es, Ok) = (o2, Ok) ->
  sublist (rows o1) (rows es) /\ sublist (rows o2) (rows es) /\
  length (rows o1) + length (rows o2) = length (rows es) /\
  forall x, In x (rows o1) -> ~ In x (rows o2).
Proof.
  intros compare p es o1 o2 He Hp Ha Hr E1 E2.
  destruct (@c18_filter compare false p es He Hp Ha Hr) as (q1 & F1 & G1 & _).
  destruct (@c18_filter compare true p es He Hp Ha Hr) as (q2 & F2 & G2 & _).
  rewrite F1 in E1. rewrite F2 in E2. injection E1 as <-. injection E2 as <-.
  rewrite !rows_app. cbn [rows]. rewrite !app_nil_r, G1, G2.
  assert (forall (f : val -> bool) l, sublist (filter f l) l) as Hs.
  { intros f l. induction l as [|x l IH]; simpl; [constructor|]. destruct (f x); [now apply sub_take|now apply sub_skip]. }
  split; [apply Hs|]. split; [apply Hs|]. split.
  - generalize (rows es). induction l as [|x l IH]; simpl; auto. destruct (occurs compare (arg_rows p) x); simpl; lia.
  - intros x H1 H2. apply filter_In in H1, H2. destruct H1 as [_ H1], H2 as [_ H2]. rewrite H1 in H2. discriminate.
Qed.

Example c18_example :
  rows (fst (exec (filter_op (Some add_one) false (ints [2; 4]%Z, Ok)) (ints [1; 2; 3]%Z, Ok)))
    = [VTuple [VInt 1]; VTuple [VInt 3]] /\
  Forall (filterable (Some add_one)) (rows (ints [1; 2; 3]%Z)).
Proof.
  split; [reflexivity|]. repeat constructor; (eexists; split; [reflexivity|split; [reflexivity|discriminate]]).
Qed.

(** * C19 case *)

(** Every row goes to at most one branch; it goes to none iff some predicate raises before one is
    true, or none is true and there is no default. *)
Theorem c19_at_most_one_branch : forall preds d n1 n2 x,
  routed preds d n1 x = true -> routed preds d n2 x = true -> n1 = n2.
Proof.
  intros preds d n1 n2 x. rewrite <- !sent_routed. unfold sent.
  destruct (case_route preds d 0 (components x)) as [[k|]|]; try discriminate.
  intros H1 H2. apply Nat.eqb_eq in H1, H2. congruence.
Qed.

Theorem c19_some_branch : forall preds x, no_route preds x = false ->
  exists n, routed preds true n x = true.
Proof.
  intros preds x. rewrite <- (unsent_no_route preds true). unfold unsent. intros H.
  pose proof (@case_route_spec preds true (components x) 0) as Hs.
  destruct (case_route preds true 0 (components x)) as [[k|]|] eqn:E; try discriminate.
  - exists k. rewrite <- sent_routed. unfold sent. rewrite E. apply Nat.eqb_refl.
  - destruct Hs as [Hs _]. discriminate.
Qed.

(** The output is an interleaving of what each branch's pipeline outputs on exactly the rows routed to
    it, and the Errors passed on or raised by predicates. *)
Theorem c19_case : forall (preds : list func) (ms : list machine) (d : bool) (es : list event), open_stream es ->
  length ms = length preds + (if d then 1 else 0) ->
  Forall (fun m => setup m (fresh m) <> None) ms ->
  (forall n, n < length ms -> snd (exec (nth n ms wire) (branch_in preds d n es, Ok)) = Ok) ->
  exists t, exec (case_op preds ms d) (es, Ok) = (map snd t ++ [Flush], Ok) /\
    from None t = case_own preds es /\
    forall n, n < length ms ->
      rows (from (Some n) t) = rows (fst (exec (nth n ms wire) (branch_in preds d n es, Ok))) /\
      errs (from (Some n) t) = errs (fst (exec (nth n ms wire) (branch_in preds d n es, Ok))).
Proof.
  intros preds ms d es He Hl Hs Hok.
  destruct (@case_exec_spec preds ms d es He Hl Hs) as (t & E & H1 & H2).
  - intros n Hn. specialize (Hok n Hn). now rewrite exec_through in Hok.
  - exists t. split; [exact E|]. split; [exact H1|]. intros n Hn. rewrite (H2 n Hn), rows_redirect, errs_redirect.
    now rewrite exec_through.
Qed.

Example c19_example :
  fst (exec (case_op [even] [map_op add_one; head_op 1] true) (ints [1; 2; 3; 4]%Z, Ok))
  = [Data (VTuple [VInt 1]); Data (VTuple [VInt 3]); Data (VTuple [VInt 5]); Flush].
Proof. reflexivity. Qed.

(** * C20 args *)

(** The pipeline is run on consecutive groups of n inputs; the groups concatenated are the input, the
    last group padded with None; outputs are concatenated. *)
Theorem c20_args : forall n run es, 0 < n -> open_stream es ->
  exists groups, padded_chunks n (map unwrap_op_output (rows es)) groups /\
    (Forall (fun a => snd (run a) = Ok) groups ->
     exists out, exec (args_op false n run) (es, Ok) = (out ++ [Flush], Ok) /\
       rows out = flat_map (fun a => rows (fst (run a))) groups /\
       (errs es = [] -> errs out = flat_map (fun a => errs (fst (run a))) groups)).
Proof. exact args_exec. Qed.

Theorem c20_args_all : forall run es, open_stream es ->
  let xs := map unwrap_op_output (rows es) in
  (xs <> [] -> snd (run [VList xs]) = Ok) ->
  exists out, exec (args_op true 1 run) (es, Ok) = (out ++ [Flush], Ok) /\
    rows out = if xs then [] else rows (fst (run [VList xs])).
Proof. exact args_all_exec. Qed.

Example c20_example :
  rows (fst (exec (args_op false 2 (fun a => ([Data (VTuple a)], Ok))) (ints [1; 2; 3]%Z, Ok)))
  = [VTuple [VInt 1; VInt 2]; VTuple [VInt 3; VNone]].
Proof. reflexivity. Qed.

(** * C21 gen *)

Theorem c21_gen : forall count start, count <> 0%Z ->
  snd (gen_source count start None) = Ok /\
  length (fst (gen_source count start None)) = Z.to_nat count /\
  forall i, i < Z.to_nat count ->
    nth_error (fst (gen_source count start None)) i = Some (Data (VInt (start + Z.of_nat i))).
Proof.
  intros c s _. unfold gen_source, gen_setup. cbn [fst snd]. split; [reflexivity|].
  rewrite map_length, zrange_length. split; [reflexivity|]. intros i Hi.
  rewrite nth_error_map, (nth_error_nth' (zrange s c) 0%Z) by now rewrite zrange_length.
  now rewrite zrange_nth.
Qed.

(** With --pad, when accepted: the i-th output is the decimal representation of start + i filled with
    zeros on the left to exactly the width, and string order is numeric order. *)
Definition padded (width : Z) (n : Z) : string :=
  append (zeros (Z.to_nat width - String.length (dec n))) (dec n).

Theorem c21_gen_padded : forall count start pad, snd (gen_source count start (Some pad)) = Ok ->
  length (fst (gen_source count start (Some pad))) = Z.to_nat count /\
  forall i, i < Z.to_nat count ->
    nth_error (fst (gen_source count start (Some pad))) i = Some (Data (VStr (padded pad (start + Z.of_nat i)))) /\
    String.length (padded pad (start + Z.of_nat i)) = Z.to_nat pad /\
    forall j, j < Z.to_nat count ->
      str_ltb (padded pad (start + Z.of_nat i)) (padded pad (start + Z.of_nat j)) = Nat.ltb i j.
Proof.
  intros c s p Hok. unfold gen_source in *. destruct (gen_setup c s (Some p)) as [fmt|] eqn:E; [|discriminate].
  cbn [fst snd] in *. rewrite map_length, zrange_length. split; [reflexivity|].
  assert (forall i, i < Z.to_nat c -> In (s + Z.of_nat i)%Z (zrange s c)) as Hin.
  { intros i Hi. unfold zrange. apply in_map_iff. exists i. split; auto. apply in_seq. lia. }
  intros i Hi. destruct (@gen_pad_ok c s p fmt E _ (Hin i Hi)) as (H1 & H2 & H3). split; [|split].
  - rewrite nth_error_map, (nth_error_nth' (zrange s c) 0%Z) by now rewrite zrange_length.
    rewrite zrange_nth by auto. cbn [option_map]. rewrite H1. reflexivity.
  - exact (@zero_pad_length (Z.to_nat p) _ H2 H3).
  - intros j Hj. destruct (@gen_pad_ok c s p fmt E _ (Hin j Hj)) as (H4 & H5 & H6).
    unfold padded. fold (zero_pad (Z.to_nat p) (dec (s + Z.of_nat i))). fold (zero_pad (Z.to_nat p) (dec (s + Z.of_nat j))).
    rewrite zero_pad_lex by auto. destruct (Nat.ltb_spec i j), (Z.ltb_spec (s + Z.of_nat i) (s + Z.of_nat j)); auto; lia.
Qed.

(** Padding is refused with an infinite or negative sequence, or when the largest number is too wide. *)
Theorem c21_gen_pad_refused : forall count start pad,
  snd (gen_source count start (Some pad)) = Kill <->
  count = 0%Z \/ (start < 0)%Z \/ (pad < Z.of_nat (String.length (dec (start + count - 1))))%Z.
Proof.
  intros c s p. unfold gen_source, gen_setup. destruct (Z.eqb_spec c 0); [intuition|].
  destruct (Z.ltb_spec s 0); [intuition|].
  destruct (Z.ltb_spec p (Z.of_nat (String.length (dec (s + c - 1))))); cbn; [intuition|]. split; [discriminate|].
  intros [H'|[H'|H']]; lia.
Qed.

(** Operators that raise nothing to their sender, whatever they are given. *)
Inductive calm : machine -> Prop :=
| calm_map : forall f, calm (map_op f)
| calm_select : forall f, calm (select_op f)
| calm_squish : forall f, calm (squish_op f)
| calm_cast : forall fs, calm (cast_op fs)
| calm_head : forall n, calm (head_op n)
| calm_tail : forall n, n <> 0%Z -> calm (tail_op n)
| calm_sort : forall k, calm (sort_op k)
| calm_unique_c : calm unique_consecutive_op
| calm_window_p : forall p, calm (window_op (Some p) None None)
| calm_window_o : forall n, (n > 0)%Z -> calm (window_op None (Some n) None)
| calm_window_d : forall n, (n > 0)%Z -> calm (window_op None None (Some n))
| calm_expand : calm (expand_op None)
| calm_union : forall ps, calm (union_op ps)
| calm_write : forall w, calm (write_op w).

Lemma calm_orderly m : calm m -> orderly m.
Proof. intros H. apply builtin_orderly. destruct H; constructor. Qed.

Definition never_raises (m : machine) : Prop :=
  forall s e, not_flush e = true -> caught e (res_outcome (step m s (as_input e))) = Ok.

Lemma calm_never_raises m : calm m -> never_raises m.
Proof.
  intros H. destruct H; try (intros s [x|e|e|] He; try discriminate; reflexivity).
  - intros s [x|e|e|] He; try discriminate; try reflexivity. cbn. unfold call. destruct (f (components (wrap x))); reflexivity.
  - intros s [x|e|e|] He; try discriminate; try reflexivity. cbn. unfold call. destruct (f (components (wrap x))); reflexivity.
  - intros s [x|e|e|] He; try discriminate; try reflexivity. cbn. destruct (squish_fold f VNone (components (wrap x))); reflexivity.
  - intros s [x|e|e|] He; try discriminate; try reflexivity. cbn. destruct (cast_row fs (components (wrap x))); reflexivity.
  - intros s [x|e|e|] He; try discriminate; try reflexivity. cbn. destruct (Z.ltb 0 n); reflexivity.
  - unfold tail_op. destruct (Z.eqb_spec n 0); [contradiction|].
    destruct (Z.ltb 0 n); intros s [x|e|e|] He; try discriminate; try reflexivity; cbn;
      match goal with |- context [if ?c then _ else _] => destruct c end; reflexivity.
  - intros [c|] [x|e|e|] He; try discriminate; reflexivity.
  - intros s [x|e|e|] He; try discriminate; try reflexivity. cbn. destruct (py_eq s (wrap x)); reflexivity.
  - intros s [x|e|e|] He; try discriminate; try reflexivity. cbn. unfold call.
    destruct (p (components (wrap x))) as [v|]; [destruct (truthy v)|]; reflexivity.
  - unfold window_op. destruct (Z.eqb_spec n 0); [lia|]. destruct (Z.leb_spec 0 n); [|lia].
    intros s [x|e|e|] He; try discriminate; reflexivity.
  - unfold window_op. destruct (Z.leb_spec 0 n); [|lia].
    intros s [x|e|e|] He; try discriminate; try reflexivity. cbn.
    match goal with |- context [if ?c then _ else _] => destruct c end; reflexivity.
  - intros s [x|e|e|] He; try discriminate; try reflexivity. cbn. destruct (w (wrap x)); reflexivity.
Qed.

Lemma never_raises_feed m : never_raises m -> forall es s, open_stream es -> res_outcome (feed m s es) = Ok.
Proof.
  intros Hm. unfold open_stream. induction es as [|e es IH]; intros s He; [reflexivity|].
  cbn [forallb] in He. apply andb_true_iff in He. destruct He as [He Hes]. cbn [feed]. unfold deliver.
  specialize (Hm s e He). destruct (step m s (as_input e)) as [[s1 o1] r1]. cbn in Hm. rewrite Hm.
  specialize (IH s1 Hes). destruct (feed m s1 es) as [[s2 o2] r2]. exact IH.
Qed.

Lemma never_raises_compose a b : orderly a -> never_raises a -> never_raises b -> never_raises (compose a b).
Proof.
  intros Ho Ha Hb s e He. cbn. specialize (Ha (fst s) e He).
  assert (open_stream (res_out (step a (fst s) (as_input e)))) as Hopen.
  { destruct e as [x|e|e|]; try discriminate; cbn [as_input].
    - apply (orderly_data_out Ho).
    - apply is_err_not_flush, (orderly_err_out Ho).
    - apply is_err_not_flush, (orderly_err_out Ho). }
  destruct (step a (fst s) (as_input e)) as [[s1 o1] r1]. cbn in Ha, Hopen.
  pose proof (@never_raises_feed b Hb o1 (snd s) Hopen) as Hf. destruct (feed b (snd s) o1) as [[s2 o2] r2].
  cbn in Hf. subst r2. exact Ha.
Qed.

Lemma never_raises_pipe ms : Forall calm ms -> never_raises (pipe ms).
Proof.
  induction 1 as [|m ms Hm Hms IH]; cbn [pipe].
  - intros s [x|e|e|] He; try discriminate; reflexivity.
  - apply never_raises_compose; auto using calm_orderly, calm_never_raises.
Qed.

(** `gen 0 s | ...`: after any number k of tuples, no such pipeline has told gen to stop; in
    particular `gen 0 | head n` runs for ever after its n rows have been output. *)
Theorem c21_gen_zero_never_stops : forall ms, Forall calm ms -> forall s start k,
  res_outcome (feed (pipe ms) s (gen_forever start k)) = Ok.
Proof. intros ms Hms s start k. apply never_raises_feed; [now apply never_raises_pipe|apply open_gen]. Qed.

Example c21_example :
  fst (gen_source 3 9 (Some 4%Z)) = [Data (VStr "0009"); Data (VStr "0010"); Data (VStr "0011")] /\
  snd (gen_source 3 9 (Some 1%Z)) = Kill /\
  Forall calm [map_op add_one; head_op 3].
Proof. split; [reflexivity|]. split; [reflexivity|]. repeat constructor. Qed.

(** * C22 running again *)

(** A pipeline made of these operators, whatever runs it has been through (completed or aborted),
    behaves like a new one.  Not in [restartable]: reverse, difference, intersect, join, filter, case. *)
Theorem c22_rerun_partial : forall ms, Forall restartable ms ->
  forall s, between_runs (pipe ms) s -> forall src, run_from (pipe ms) s src = exec (pipe ms) src.
Proof.
  intros ms Hms s _ src. apply resets_run. apply resets_pipe. eapply Forall_impl; [|exact Hms].
  exact restartable_resets.
Qed.

(** difference: the same rows as in the first run, whatever happened before, unless the input contains
    the row (None,). *)
Theorem c22_difference_rerun_partial : forall p es s, open_stream es -> snd p = Ok -> hashable_rows (arg_rows p) ->
  hashable_rows (rows es) -> Forall (fun x => py_eq x (VTuple [VNone]) = false) (rows es) ->
  rows (fst (run_from (difference_op p) s (es, Ok))) = rows (fst (exec (difference_op p) (es, Ok))).
Proof.
  intros p es s He Hp Ha Hr Hn. destruct (@difference_rerun p es s He Hp Ha Hr Hn) as (o1 & E1 & H1 & _).
  destruct (@difference_exec p es He Hp Ha Hr) as (o2 & E2 & H2 & _).
  rewrite E1, E2. cbn [fst]. rewrite !rows_app, H1, H2. reflexivity.
Qed.

Definition second_run (m : machine) (src : source) : source := run_from m (res_st (exec_from m (fresh m) src)) src.

(** reverse: every second run on a non-empty input aborts. *)
Theorem c22_reverse_refuted : forall x es, open_stream es ->
  second_run reverse_op (Data x :: es, Ok) = ([], Kill).
Proof.
  intros x es He. unfold second_run.
  assert (res_st (exec_from reverse_op (fresh reverse_op) (Data x :: es, Ok)) = None) as ->; [|reflexivity].
  unfold exec_from. cbn [fst snd].
  change (setup reverse_op (fresh reverse_op)) with (@Some (St reverse_op) (Some (@nil val))). cbv iota beta.
  rewrite (@reverse_feed (Data x :: es) []); [reflexivity|unfold open_stream in *; cbn [forallb]; now rewrite He].
Qed.

(** difference: a row (None,) of the input is dropped by the second run. *)
Theorem c22_difference_refuted :
  let p := (ints [1]%Z, Ok) in let src := ([Data VNone], Ok) in
  rows (fst (exec (difference_op p) src)) = [VTuple [VNone]] /\
  rows (fst (second_run (difference_op p) src)) = [].
Proof. split; reflexivity. Qed.

(** intersect: the counts used up by the first run are missing in the second. *)
Theorem c22_intersect_refuted :
  let ps := [(ints [1; 2]%Z, Ok)] in let src := (ints [1; 2; 3]%Z, Ok) in
  rows (fst (exec (intersect_op ps) src)) = [VTuple [VInt 1]; VTuple [VInt 2]] /\
  rows (fst (second_run (intersect_op ps) src)) = [].
Proof. split; reflexivity. Qed.

(** filter and join are given spurious right rows (None,) / extra rows in the second run. *)
Theorem c22_filter_refuted :
  let p := (ints [1]%Z, Ok) in let src := ([Data VNone], Ok) in
  rows (fst (exec (filter_op None false p) src)) = [] /\
  rows (fst (second_run (filter_op None false p) src)) = [VTuple [VNone]].
Proof. split; reflexivity. Qed.

Theorem c22_join_refuted :
  let p := (ints [1]%Z, Ok) in let src := ([Data VNone], Ok) in
  rows (fst (exec (join_op false p) src)) = [] /\
  rows (fst (second_run (join_op false p) src)) = [VTuple [VNone]].
Proof. split; reflexivity. Qed.

(** case: the branches are not set up again. *)
Theorem c22_case_refuted :
  let m := case_op [even] [head_op 1] false in let src := (ints [2; 4]%Z, Ok) in
  rows (fst (exec m src)) = [VTuple [VInt 2]] /\ rows (fst (second_run m src)) = [].
Proof. split; reflexivity. Qed.

Example c22_example :
  Forall restartable [map_op add_one; sort_op None; head_op 2] /\
  (second_run (pipe [map_op add_one; sort_op None; head_op 2]) (ints [3; 1; 2]%Z, Ok))
  = ([Data (VTuple [VInt 2]); Data (VTuple [VInt 3]); Flush], Ok).
Proof. split; [repeat constructor|reflexivity]. Qed.

Print Assumptions c14_difference.
Print Assumptions c14_difference_counts.
Print Assumptions c14_difference_runs_p_once.
Print Assumptions c15_intersect.
Print Assumptions c15_intersect_counts.
Print Assumptions c16_union.
Print Assumptions c17_join.
Print Assumptions c18_filter.
Print Assumptions c18_filter_splits.
Print Assumptions c19_at_most_one_branch.
Print Assumptions c19_some_branch.
Print Assumptions c19_case.
Print Assumptions c20_args.
Print Assumptions c20_args_all.
Print Assumptions c21_gen.
Print Assumptions c21_gen_padded.
Print Assumptions c21_gen_pad_refused.
Print Assumptions c21_gen_zero_never_stops.
Print Assumptions c22_rerun_partial.
Print Assumptions c22_difference_rerun_partial.
Print Assumptions c22_reverse_refuted.
