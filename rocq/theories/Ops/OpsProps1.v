(** C05-C13, C43, C44: the operators that work on one stream.

    Vocabulary: [exec m (es, Ok)] is a run of operator [m] on a source that delivers the tuples and
    Errors [es] and ends; [rows], [errs]: its tuples and Errors.  The rest is in Spec.v. *)
From Coq Require Import Permutation Sorted.
From Verif.Ops Require Import ExecProps Rerun.
Set Implicit Arguments.
Local Open Scope string_scope.
Local Open Scope list_scope.

Lemma rows_map_Err es : rows (map Err es) = [].
Proof. induction es; simpl; auto. Qed.
Lemma errs_map_Err es : errs (map Err es) = es.
Proof. induction es; simpl; congruence. Qed.

(** * C05 head *)

Theorem c05_head_takes_prefix : forall n es, (n > 0)%Z -> open_stream es ->
  exists out, exec (head_op n) (es, Ok) = (out ++ [Flush], Ok) /\
    rows out = firstn (Z.to_nat n) (rows es) /\ errs out = errs es.
Proof.
  intros n es Hn He. destruct (@head_exec n es ltac:(lia) He) as (o & E & H1 & H2 & H3).
  exists o. repeat split; auto. destruct (Z.ltb_spec 0 n); [auto|lia].
Qed.

Theorem c05_head_skips_prefix : forall n es, (n > 0)%Z -> open_stream es ->
  exists out, exec (head_op (- n)) (es, Ok) = (out ++ [Flush], Ok) /\
    rows out = skipn (Z.to_nat n) (rows es) /\ errs out = errs es.
Proof.
  intros n es Hn He. destruct (@head_exec (- n) es ltac:(lia) He) as (o & E & H1 & H2 & H3).
  exists o. repeat split; auto. destruct (Z.ltb_spec 0 (- n)); [lia|]. now rewrite Z.opp_involutive in H3.
Qed.

Theorem c05_head_zero_rejected : forall src, exec (head_op 0) src = ([], Kill).
Proof. exact head_zero. Qed.

(** head n and head -n split the stream. *)
Theorem c05_head_splits : forall n es o1 o2, (n > 0)%Z -> open_stream es ->
  exec (head_op n) (es, Ok) = (o1, Ok) -> exec (head_op (- n)) (es, Ok) = (o2, Ok) ->
  rows o1 ++ rows o2 = rows es.
Proof.
  intros n es o1 o2 Hn He E1 E2.
  destruct (c05_head_takes_prefix Hn He) as (p1 & F1 & R1 & _).
  destruct (c05_head_skips_prefix Hn He) as (p2 & F2 & R2 & _).
  rewrite F1 in E1. rewrite F2 in E2. injection E1 as <-. injection E2 as <-.
  rewrite !rows_app, R1, R2. cbn [rows]. rewrite !app_nil_r. apply firstn_skipn.
Qed.

Example c05_example :
  exec (head_op 2) (ints [1; 2; 3]%Z, Ok) = ([Data (VTuple [VInt 1]); Data (VTuple [VInt 2]); Flush], Ok) /\
  exec (head_op (-2)) (ints [1; 2; 3]%Z, Ok) = ([Data (VTuple [VInt 3]); Flush], Ok).
Proof. split; reflexivity. Qed.

(** * C06 tail *)

Theorem c06_tail_takes_suffix : forall n es, (n > 0)%Z -> open_stream es ->
  exists out, fst (exec (tail_op n) (es, Ok)) = out /\ snd (exec (tail_op n) (es, Ok)) = Ok /\
    rows out = skipn (length (rows es) - Z.to_nat n) (rows es) /\ errs out = errs es.
Proof.
  intros n es Hn He. unfold tail_op. destruct (Z.eqb_spec n 0); [lia|]. destruct (Z.ltb_spec 0 n); [|lia].
  rewrite tail_keep_exec by (auto; lia). cbn [fst snd]. eexists. split; [reflexivity|]. split; [reflexivity|].
  rewrite !rows_app, !errs_app, rows_map_Err, errs_map_Err. cbn [rows errs app]. rewrite !app_nil_r.
  rewrite rows_map_Data, SetFacts.errs_map_Data, app_nil_r. split; auto.
  unfold lastn. now rewrite <- skipn_map, map_wrap_rows.
Qed.

Theorem c06_tail_drops_suffix : forall n es, (n > 0)%Z -> open_stream es ->
  exists out, exec (tail_op (- n)) (es, Ok) = (out ++ [Flush], Ok) /\
    rows out = firstn (length (rows es) - Z.to_nat n) (rows es) /\ errs out = errs es.
Proof.
  intros n es Hn He. unfold tail_op. destruct (Z.eqb_spec (- n) 0); [lia|]. destruct (Z.ltb_spec 0 (- n)); [lia|].
  rewrite Z.opp_involutive. destruct (@tail_skip_exec (Z.to_nat n) es ltac:(lia) He) as (o & E & H1 & H2). eauto.
Qed.

Theorem c06_tail_zero_rejected : forall src, exec (tail_op 0) src = ([], Kill).
Proof. reflexivity. Qed.

Theorem c06_tail_splits : forall n es o1 o2, (n > 0)%Z -> open_stream es ->
  exec (tail_op n) (es, Ok) = (o1, Ok) -> exec (tail_op (- n)) (es, Ok) = (o2, Ok) ->
  rows o2 ++ rows o1 = rows es.
Proof.
  intros n es o1 o2 Hn He E1 E2.
  destruct (c06_tail_takes_suffix Hn He) as (p1 & F1 & _ & R1 & _).
  destruct (c06_tail_drops_suffix Hn He) as (p2 & F2 & R2 & _).
  rewrite E1 in F1. rewrite F2 in E2. injection E2 as <-. cbn [fst] in F1. subst p1.
  rewrite rows_app, R1, R2. cbn [rows]. rewrite app_nil_r. apply firstn_skipn.
Qed.

Example c06_example :
  rows (fst (exec (tail_op 2) (ints [1; 2; 3; 4; 5]%Z, Ok))) = [VTuple [VInt 4]; VTuple [VInt 5]] /\
  rows (fst (exec (tail_op (-2)) (ints [1; 2; 3; 4; 5]%Z, Ok))) = [VTuple [VInt 1]; VTuple [VInt 2]; VTuple [VInt 3]].
Proof. split; reflexivity. Qed.

(** * C07 reverse, sort *)

Theorem c07_reverse : forall es, open_stream es ->
  exec reverse_op (es, Ok) = (map Err (errs es) ++ map Data (rev (rows es)) ++ [Flush], Ok).
Proof. exact reverse_exec. Qed.

(** Keys of one shape (ints, strings, tuples or lists of such): sort outputs a permutation of the
    input, in nondecreasing key order, and rows with equal keys keep their input order. *)
Theorem c07_sort : forall key t es, open_stream es ->
  (forall x, In x (rows es) -> exists k, sort_key key x = Some k /\ has_kty t k) ->
  exists sorted,
    exec (sort_op key) (es, Ok) = (map Err (errs es) ++ map Data sorted ++ [Flush], Ok) /\
    Permutation (rows es) sorted /\
    StronglySorted (fun x y => forall kx ky, sort_key key x = Some kx -> sort_key key y = Some ky ->
                      py_lt ky kx = Some false) sorted /\
    forall k, filter (keq key k) sorted = filter (keq key k) (rows es).
Proof. intros key t es He Hk. exact (sort_exec key t He Hk). Qed.

(** Whatever the keys: all rows come out or none does, the latter only when the command is aborted or
    an Error reported. *)
Theorem c07_sort_all_or_nothing : forall key es, open_stream es ->
  let out := exec (sort_op key) (es, Ok) in
  (snd out = Ok /\ Permutation (rows es) (rows (fst out))) \/ (snd out <> Ok /\ rows (fst out) = []).
Proof. exact sort_exec_any. Qed.

Theorem c07_sort_bad_key : forall f es, open_stream es ->
  (exists x, In x (rows es) /\ f (components x) = None) ->
  exists e, exec (sort_op (Some f)) (es, Ok) = (map Err (errs es) ++ [Fatal (MkErr "sort" e)], Resume).
Proof. exact sort_exec_bad_key. Qed.

Definition neg : func := fun args => match args with [VInt n] => Some (VInt (- n)) | _ => None end.

Example c07_example :
  (forall x, In x (rows (ints [3; 1; 2]%Z)) -> exists k, sort_key (Some neg) x = Some k /\ has_kty KInt k) /\
  exec (sort_op (Some neg)) (ints [3; 1; 2]%Z, Ok)
  = ([Data (VTuple [VInt 3]); Data (VTuple [VInt 2]); Data (VTuple [VInt 1]); Flush], Ok).
Proof.
  split; [|reflexivity]. intros x [<-|[<-|[<-|[]]]]; (eexists; split; [reflexivity|exact I]).
Qed.

(** * C08 unique *)

Lemma nub_keep l : forall seen, filter (fun y => negb (py_mem y seen)) (nub l) = keep_by first_occurrence seen l.
Proof.
  induction l as [|x l IH]; intros seen; cbn [nub keep_by filter]; auto.
  rewrite filter_filter.
  assert (filter (fun y => negb (py_mem y seen) && negb (py_eq x y)) (nub l) = keep_by first_occurrence (seen ++ [x]) l) as E.
  { rewrite <- IH. apply filter_ext. intros y. unfold py_mem. rewrite existsb_app. cbn [existsb].
    rewrite orb_false_r, negb_orb. now rewrite (@py_eq_sym x y). }
  unfold first_occurrence at 1. fold (py_mem x seen). destruct (negb (py_mem x seen)); now rewrite E.
Qed.

Lemma run_heads_keep l : forall b y, run_heads_after y l = keep_by new_run (b ++ [y]) l.
Proof.
  induction l as [|x l IH]; intros b y; cbn [run_heads_after keep_by]; auto.
  unfold new_run at 1. rewrite rev_app_distr. cbn [rev app]. rewrite <- IH. destruct (py_eq y x); reflexivity.
Qed.

(** The rows output are exactly those not preceded by an equal row, in order. *)
Theorem c08_unique : forall es, open_stream es -> forallb hashable (rows es) = true ->
  exists out, exec unique_op (es, Ok) = (out ++ [Flush], Ok) /\
    rows out = keep_by first_occurrence [] (rows es) /\ errs out = errs es.
Proof.
  intros es He Hh. destruct (@unique_exec es He Hh) as (o & E & H1 & _ & H3). exists o. repeat split; auto.
  rewrite H3, <- nub_keep. symmetry. apply filter_true. reflexivity.
Qed.

(** Every input row equals some output row, and no two output rows are equal. *)
Theorem c08_unique_complete : forall es o, open_stream es -> forallb hashable (rows es) = true ->
  exec unique_op (es, Ok) = (o, Ok) ->
  (forall x, In x (rows es) -> existsb (py_eq x) (rows o) = true) /\
  ForallOrdPairs (fun x y => py_eq x y = false) (rows o).
Proof.
  intros es o He Hh E. destruct (@unique_exec es He Hh) as (p & F & _ & _ & H3).
  rewrite F in E. injection E as <-. rewrite rows_app. cbn [rows]. rewrite app_nil_r, H3. split.
  - intros x Hx. fold (py_mem x (nub (rows es))). rewrite py_mem_nub. unfold py_mem. apply existsb_exists.
    exists x. split; auto. apply py_eq_refl.
  - generalize (rows es). induction l as [|x l IH]; cbn [nub]; constructor.
    + apply Forall_forall. intros y Hy. apply filter_In in Hy. destruct Hy as [_ Hy]. now apply negb_true_iff in Hy.
    + clear - IH. induction IH as [|y l' Hy Hl IH']; cbn [filter]; [constructor|].
      destruct (negb (py_eq x y)); auto. constructor; auto.
      apply Forall_forall. intros z Hz. apply filter_In in Hz. rewrite Forall_forall in Hy. now apply Hy.
Qed.

Theorem c08_unique_consecutive : forall es, open_stream es ->
  exists out, exec unique_consecutive_op (es, Ok) = (out ++ [Flush], Ok) /\
    rows out = keep_by new_run [] (rows es) /\ errs out = errs es.
Proof.
  intros es He. destruct (@unique_consecutive_exec es He) as (o & E & H1 & _ & H3). exists o. repeat split; auto.
  rewrite H3. destruct (rows es) as [|x l]; auto. cbn [run_heads keep_by]. unfold new_run at 1. cbn [rev app].
  now rewrite (run_heads_keep l [] x).
Qed.

(** A row that cannot be hashed aborts the command. *)
Theorem c08_unique_unhashable : forall es, open_stream es -> forallb hashable (rows es) = false ->
  snd (exec unique_op (es, Ok)) = Kill.
Proof. exact unique_unhashable. Qed.

Example c08_example :
  rows (fst (exec unique_op (ints [1; 2; 2; 1; 3]%Z, Ok))) = [VTuple [VInt 1]; VTuple [VInt 2]; VTuple [VInt 3]] /\
  rows (fst (exec unique_consecutive_op (ints [1; 2; 2; 1; 3]%Z, Ok))) =
    [VTuple [VInt 1]; VTuple [VInt 2]; VTuple [VInt 1]; VTuple [VInt 3]].
Proof. split; reflexivity. Qed.

(** * C09 window *)

Theorem c09_disjoint : forall n es, (n > 0)%Z -> open_stream es ->
  exists ws out, exec (window_op None None (Some n)) (es, Ok) = (out ++ [Flush], Ok) /\
    rows out = map VTuple ws /\ padded_chunks (Z.to_nat n) (map unwrap_op_output (rows es)) ws /\
    errs out = errs es.
Proof.
  intros n es Hn He. unfold window_op. destruct (Z.leb_spec 0 n); [|lia].
  destruct (@disjoint_exec (Z.to_nat n) es ltac:(lia) He) as (ws & o & E & H1 & H2 & H3). exists ws, o. auto.
Qed.

Theorem c09_predicate : forall p es, open_stream es ->
  (forall x, In x (rows es) -> p (components x) <> None) ->
  exists ws out, exec (window_op (Some p) None None) (es, Ok) = (out ++ [Flush], Ok) /\
    rows out = map window_of ws /\ cut_at (pred_holds p) (rows es) ws /\ errs out = errs es.
Proof.
  intros p es He Hp. cbn [window_op]. destruct (@pred_exec p es He) as (ws & o & E & H1 & H2 & H3).
  assert (forall x, In x (rows es) -> pred_defined p x = true) as Hd.
  { intros x Hx. unfold pred_defined. specialize (Hp x Hx). now destruct (p (components x)). }
  exists ws, o. split; [exact E|]. split; [exact H1|]. split.
  - assert (filter (pred_defined p) (rows es) = rows es) as <-; [|exact H2].
    clear - Hd. induction (rows es) as [|x l IH]; simpl; auto. rewrite (Hd x) by now left. f_equal. apply IH.
    intros y Hy. apply Hd. now right.
  - rewrite H3. clear - Hd. induction es as [|[x|e|e|] es IH]; simpl in *; auto; try (f_equal; auto).
    rewrite (Hd (wrap x)) by now left. simpl. auto.
Qed.

(** Overlapping windows: full statement for streams with at least n tuples: window i consists of
    tuples i .. i+n-1, None beyond the end, one window per tuple. *)
Theorem c09_overlap_partial : forall n es, (n > 0)%Z -> open_stream es ->
  Z.to_nat n <= length (rows es) ->
  let ys := map unwrap_op_output (rows es) in
  exists out, exec (window_op None (Some n) None) (es, Ok) = (out ++ [Flush], Ok) /\
    rows out = map (fun i => VTuple (map (fun j => nth (i + j) ys VNone) (seq 0 (Z.to_nat n))))
                 (seq 0 (length (rows es))) /\ errs out = errs es.
Proof.
  intros n es Hn He Hl ys. unfold window_op. destruct (Z.eqb_spec n 0); [lia|]. destruct (Z.leb_spec 0 n); [|lia].
  destruct (@overlap_exec (Z.to_nat n) es ltac:(lia) He) as (o & E & H1 & H2). fold ys in E, H2.
  assert (length ys = length (rows es)) as Hy by apply map_length.
  destruct (Nat.eqb_spec (length ys) 0); [lia|]. exists o. repeat split; auto. rewrite H2.
  rewrite Nat.max_r by lia. rewrite Hy. reflexivity.
Qed.

(** With fewer tuples than the window size there are spurious windows consisting of None only. *)
Theorem c09_overlap_refuted : forall n es, (n > 0)%Z -> open_stream es ->
  0 < length (rows es) < Z.to_nat n ->
  length (rows (fst (exec (window_op None (Some n) None) (es, Ok)))) = Z.to_nat n /\
  In (VTuple (repeat VNone (Z.to_nat n))) (rows (fst (exec (window_op None (Some n) None) (es, Ok)))).
Proof.
  intros n es Hn He Hl. unfold window_op. destruct (Z.eqb_spec n 0); [lia|]. destruct (Z.leb_spec 0 n); [|lia].
  destruct (@overlap_exec (Z.to_nat n) es ltac:(lia) He) as (o & E & H1 & H2).
  rewrite map_length in *. destruct (Nat.eqb_spec (length (rows es)) 0); [lia|].
  rewrite E. cbn [fst]. rewrite rows_app, H2. cbn [rows]. rewrite app_nil_r, map_length, seq_length. split; [lia|].
  apply in_map_iff. exists (length (rows es)). split; [|apply in_seq; lia]. f_equal. unfold window_at.
  generalize (Z.to_nat n) at 1 2. intros k. generalize 0. induction k as [|k IH]; intros a; cbn; auto.
  rewrite IH. f_equal. apply nth_overflow. rewrite map_length. lia.
Qed.

Example c09_example :
  rows (fst (exec (window_op None None (Some 2%Z)) (ints [1; 2; 3]%Z, Ok)))
    = [VTuple [VInt 1; VInt 2]; VTuple [VInt 3; VNone]] /\
  rows (fst (exec (window_op None (Some 2%Z) None) (ints [1; 2; 3]%Z, Ok)))
    = [VTuple [VInt 1; VInt 2]; VTuple [VInt 2; VInt 3]; VTuple [VInt 3; VNone]] /\
  rows (fst (exec (window_op (Some even) None None) (ints [1; 2; 3; 4; 5; 7]%Z, Ok)))
    = [VTuple [VInt 1]; VTuple [VInt 2; VInt 3]; VTuple [VInt 4; VInt 5; VInt 7]].
Proof. repeat split; reflexivity. Qed.

(** * C10 red *)

(** Component i of the output is the left fold of function i over column i.  The initial value is
    None, or 0 for the count function. Rows that are too short are reported and left out. *)
Theorem c10_red : forall rs es vs, open_stream es -> existsb r_group rs = false ->
  folds (map r_fun rs) (map (fun r => if r_is_count r then VInt 0 else VNone) rs) vs
        (filter (fun x => Nat.leb (length rs) (length (components x))) (rows es)) ->
  exists out, exec (red_op false rs) (es, Ok) = (out ++ [Data (VTuple vs); Flush], Ok) /\ rows out = [].
Proof.
  intros rs es vs He Hg Hf. unfold red_op. rewrite Hg.
  destruct (@red_plain_exec rs es vs He Hf) as (o & E & H1 & _). eauto.
Qed.

Theorem c10_red_incremental : forall rs es, open_stream es -> existsb r_group rs = false ->
  Forall (fun x => exists xs, x = VTuple xs /\ length rs <= length xs) (rows es) ->
  (exists vs, folds (map r_fun rs) (map (fun r => if r_is_count r then VInt 0 else VNone) rs) vs (rows es)) ->
  exists out vss, exec (red_op true rs) (es, Ok) = (out ++ [Flush], Ok) /\
    errs out = errs es /\ length vss = length (rows es) /\
    rows out = map (fun p => VTuple (components (fst p) ++ snd p)) (combine (rows es) vss) /\
    forall j, j < length (rows es) ->
      folds (map r_fun rs) (map (fun r => if r_is_count r then VInt 0 else VNone) rs) (nth j vss [])
            (firstn (S j) (rows es)).
Proof. intros rs es He Hg. unfold red_op. rewrite Hg. exact (@red_incr_exec rs es He). Qed.

Definition plus : func := fun args => match args with
  | [VInt a; VInt b] => Some (VInt (a + b)) | [VNone; b] => Some b | _ => None end.
Definition maxf : func := fun args => match args with
  | [VInt a; VInt b] => Some (VInt (Z.max a b)) | [VNone; b] => Some b | _ => None end.
Definition pairs (l : list (Z * Z)) : list event := map (fun p => Data (VTuple [VInt (fst p); VInt (snd p)])) l.

Example c10_example :
  folds (map r_fun [MkRed plus false false; MkRed maxf false false]) [VNone; VNone] [VInt 6; VInt 9]
    (filter (fun x => Nat.leb 2 (length (components x))) (rows (pairs [(1, 9); (2, 8); (3, 7)]%Z))) /\
  exec (red_op false [MkRed plus false false; MkRed maxf false false]) (pairs [(1, 9); (2, 8); (3, 7)]%Z, Ok)
    = ([Data (VTuple [VInt 6; VInt 9]); Flush], Ok).
Proof.
  split; [|reflexivity]. split; [reflexivity|]. intros [|[|i]] f E; simpl in E; try (injection E as <-; reflexivity).
  destruct i; discriminate.
Qed.

(** * C11 red with grouping *)

(** One output row per group, in order of first appearance of the group key; each holds the key
    components at the '.' positions (the last value seen) and the folds over exactly the group's rows. *)
Theorem c11_red_groups : forall rs es, open_stream es -> existsb r_group rs = true ->
  Forall (fun x => length rs <= length (components x) /\ hashable (group_key rs x) = true) (rows es) ->
  groups_defined rs (rows es) ->
  exists vss, exec (red_op false rs) (es, Ok) =
      (map Err (errs es) ++ map (fun vs => Data (VTuple vs)) vss ++ [Flush], Ok) /\
    Forall2 (fun k vs => folds (map eff rs) (repeat VNone (length rs)) vs (filter (in_group rs k) (rows es)))
      (keep_by first_occurrence [] (map (group_key rs) (rows es))) vss.
Proof.
  intros rs es He Hg Hf Hd. unfold red_op. rewrite Hg.
  destruct (@red_group_exec rs es He Hf Hd) as (vss & E & H). exists vss. split; auto.
  rewrite <- nub_keep. rewrite filter_true by reflexivity. exact H.
Qed.

(** With --incremental each row is output at once, followed by the folds of its group so far, those at the '.' positions left out. *)
Theorem c11_red_groups_incremental : forall rs es, open_stream es -> existsb r_group rs = true ->
  Forall (fun x => exists xs, x = VTuple xs /\ length rs <= length xs /\ hashable (group_key rs x) = true) (rows es) ->
  groups_defined rs (rows es) ->
  exists out vss, exec (red_op true rs) (es, Ok) = (out ++ [Flush], Ok) /\
    errs out = errs es /\ length vss = length (rows es) /\
    rows out = map (fun p => VTuple (components (fst p) ++
                                     map snd (filter (fun q => negb (r_group (fst q))) (combine rs (snd p)))))
                 (combine (rows es) vss) /\
    forall j, j < length (rows es) ->
      folds (map eff rs) (repeat VNone (length rs)) (nth j vss [])
        (filter (in_group rs (group_key rs (nth j (rows es) VNone))) (firstn (S j) (rows es))).
Proof. intros rs es He Hg. unfold red_op. rewrite Hg. exact (@red_group_incr_exec rs es He). Qed.

Example c11_incremental_example :
  exec (red_op true [MkRed plus true false; MkRed plus false false]) (pairs [(1, 10); (2, 20); (1, 30)]%Z, Ok)
  = ([Data (VTuple [VInt 1; VInt 10; VInt 10]); Data (VTuple [VInt 2; VInt 20; VInt 20]); Data (VTuple [VInt 1; VInt 30; VInt 40]); Flush], Ok).
Proof. reflexivity. Qed.

Example c11_example :
  exec (red_op false [MkRed plus true false; MkRed plus false false]) (pairs [(1, 10); (2, 20); (1, 30)]%Z, Ok)
  = ([Data (VTuple [VInt 1; VInt 40]); Data (VTuple [VInt 2; VInt 20]); Flush], Ok).
Proof. reflexivity. Qed.

Example c11_example_hypotheses :
  let rs := [MkRed plus true false; MkRed plus false false] in
  let xs := rows (pairs [(1, 10); (2, 20); (1, 30)]%Z) in
  Forall (fun x => length rs <= length (components x) /\ hashable (group_key rs x) = true) xs /\ groups_defined rs xs.
Proof.
  split; [repeat constructor|]. intros x [<-|[<-|[<-|[]]]].
  - exists [VInt 1; VInt 40]. split; [reflexivity|]. intros [|[|i]] f E; simpl in E; try (injection E as <-; reflexivity). destruct i; discriminate.
  - exists [VInt 2; VInt 20]. split; [reflexivity|]. intros [|[|i]] f E; simpl in E; try (injection E as <-; reflexivity). destruct i; discriminate.
  - exists [VInt 1; VInt 40]. split; [reflexivity|]. intros [|[|i]] f E; simpl in E; try (injection E as <-; reflexivity). destruct i; discriminate.
Qed.

(** * C12 *)

(** With a single function the claim holds. *)
Theorem c12_failing_tuples_skipped_partial : forall r es, open_stream es -> r_group r = false ->
  exists out, exec (red_op false [r]) (es, Ok) = (out ++ [Flush], Ok) /\
    rows out = [VTuple [fold_skip (r_fun r) (if r_is_count r then VInt 0 else VNone)
                          (column 0 (filter (fun x => Nat.leb 1 (length (components x))) (rows es)))]].
Proof.
  intros r es He Hg. unfold red_op. cbn [existsb]. rewrite Hg. exact (@red_single_exec r es He).
Qed.

(** With several functions it does not: the totals of the functions before the failing one already
    include the failing tuple. *)
Theorem c12_refuted :
  exec (red_op false [MkRed plus false false; MkRed plus false false])
    ([Data (VTuple [VInt 1; VInt 1]); Data (VTuple [VInt 10; VStr "x"])], Ok)
  = ([Fatal (MkErr "red" (VTuple [VInt 1; VStr "x"])); Data (VTuple [VInt 11; VInt 1]); Flush], Ok).
Proof. reflexivity. Qed.

(** And in general: whenever the first function succeeds and the second fails on a tuple. *)
Theorem c12_partial_update_refuted : forall f g a b x y a', f [a; x] = Some a' -> g [b; y] = None ->
  let m := red_plain false [MkRed f false false; MkRed g false false] in
  step m (Some [a; b]) (Data (VTuple [x; y])) =
  (Some [a'; b], [Fatal (MkErr "red" (VTuple [b; y]))], Resume).
Proof. intros f g a b x y a' Hf Hg. cbn. rewrite Hf. cbn. rewrite Hg. reflexivity. Qed.

(** * C13 expand *)

(** A row holding one sequence gives its elements; any other row gives its components. *)
Theorem c13_expand : forall es, open_stream es ->
  exists outs, exec (expand_op None) (es, Ok) = (concat outs ++ [Flush], Ok) /\
    Forall2 (fun e o => match e with
                        | Data x => o = map Data match components (wrap x) with
                                                 | [only] => match elements only with Some ys => ys | None => [only] end
                                                 | xs => xs
                                                 end
                        | Err e | Fatal e => o = [Err e]
                        | Flush => False
                        end) es outs.
Proof.
  intros es He. cbn [expand_op]. rewrite (@expand_all_exec es He), flat_map_concat_map.
  eexists. split; [reflexivity|]. unfold open_stream in He. induction es as [|e l IH]; simpl in *; [constructor|].
  apply andb_true_iff in He. destruct He as [He Hl].
  destruct e as [x|e|e|]; try discriminate; simpl; (constructor; [|auto]); auto.
  destruct (components (wrap x)) as [|y [|z zs]]; auto. destruct y; reflexivity.
Qed.

Lemma replace_nth_spec i y xs : i < length xs -> firstn i xs ++ [y] ++ skipn (S i) xs = replace_nth i y xs.
Proof.
  intros Hi. unfold replace_nth. revert i Hi. induction xs as [|x xs IH]; intros i Hi; [simpl in Hi; lia|].
  destruct i as [|i].
  - simpl. f_equal. rewrite <- seq_shift, map_map. simpl. rewrite <- (firstn_all xs) at 1.
    clear. rewrite firstn_all. induction xs as [|x xs IH]; simpl; auto. f_equal. rewrite <- seq_shift, map_map. auto.
  - simpl. f_equal. rewrite <- seq_shift, map_map. simpl. apply IH. simpl in Hi. lia.
Qed.

(** expand i: one row per element of component i, the other components unchanged; rows without
    component i, or with something else there, are unchanged. *)
Theorem c13_expand_component : forall i es, (0 <= i)%Z -> open_stream es ->
  exists outs, exec (expand_op (Some i)) (es, Ok) = (concat outs ++ [Flush], Ok) /\
    Forall2 (fun e o => match e with
                        | Data x =>
                          o = map Data match nth_error (components (wrap x)) (Z.to_nat i) with
                                       | None => [wrap x]
                                       | Some c =>
                                         match elements c with
                                         | None => [wrap x]
                                         | Some ys => map (fun y => like (wrap x) (replace_nth (Z.to_nat i) y (components (wrap x)))) ys
                                         end
                                       end
                        | Err e | Fatal e => o = [Err e]
                        | Flush => False
                        end) es outs.
Proof.
  intros i es Hi He. cbn [expand_op]. rewrite (@expand_at_exec i es Hi He), flat_map_concat_map.
  eexists. split; [reflexivity|]. unfold open_stream in He. induction es as [|e l IH]; cbn [forallb map] in *; [constructor|].
  apply andb_true_iff in He. destruct He as [He Hl].
  destruct e as [x|e|e|]; try discriminate; (constructor; [|auto]); auto.
  cbv zeta. destruct (Z.leb_spec (Z.of_nat (length (components (wrap x)))) i) as [Hl'|Hl'].
  - destruct (nth_error (components (wrap x)) (Z.to_nat i)) eqn:E; [|reflexivity].
    assert (Z.to_nat i < length (components (wrap x))) by (apply nth_error_Some; congruence). lia.
  - assert (Z.to_nat i < length (components (wrap x))) as Hlt by lia.
    rewrite (nth_error_nth' _ VNone Hlt). set (c := nth (Z.to_nat i) (components (wrap x)) VNone).
    assert (forall ys, map (fun y => Data (rebuild (wrap x) (firstn (Z.to_nat i) (components (wrap x)) ++ [y] ++ skipn (S (Z.to_nat i)) (components (wrap x))))) ys
        = map Data (map (fun y => like (wrap x) (replace_nth (Z.to_nat i) y (components (wrap x)))) ys)) as Hm.
    { intros ys. rewrite map_map. apply map_ext. intros y. now rewrite replace_nth_spec. }
    assert (elements c = None -> expand_components [c] = [c]) as Hn by (destruct c; auto; discriminate).
    assert (forall ys, elements c = Some ys -> expand_components [c] = ys) as Hs by (destruct c; simpl; intros; congruence).
    destruct (elements c) as [ys|] eqn:Ec.
    + rewrite (Hs ys eq_refl). apply Hm.
    + rewrite (Hn eq_refl), Hm. simpl. do 2 f_equal. rewrite <- replace_nth_spec by auto. subst c.
      cbn [app]. rewrite <- (@skipn_nth_cons _ VNone (Z.to_nat i)) by auto. rewrite firstn_skipn.
      destruct x; reflexivity.
Qed.

Example c13_example :
  rows (fst (exec (expand_op (Some 1%Z)) ([Data (VTuple [VInt 1; VList [VInt 7; VInt 8]; VStr "z"])], Ok)))
  = [VTuple [VInt 1; VInt 7; VStr "z"]; VTuple [VInt 1; VInt 8; VStr "z"]].
Proof. reflexivity. Qed.

(** * C43 cast *)

(** Per row: either all conversions succeed, and component i is the i-th function applied to it (None
    stays None, surplus components stay), or the row is replaced by an Error naming a component whose
    conversion raised. *)
Theorem c43_cast : forall fs es, open_stream es ->
  exists out, exec (cast_op fs) (es, Ok) = (out ++ [Flush], Ok) /\
    Forall2 (fun e o =>
      match e with
      | Data x => let xs := components (wrap x) in
        (exists vs, o = Data (VTuple vs) /\ length vs = length xs /\
           forall i, i < length xs ->
             match nth i xs VNone, nth_error fs i with
             | VNone, _ => nth i vs VNone = VNone
             | c, Some f => f [c] = Some (nth i vs VNone)
             | c, None => nth i vs VNone = c
             end) \/
        (exists i f bad, o = Fatal (MkErr "cast" (VTuple [bad])) /\ nth_error xs i = Some bad /\ bad <> VNone /\
           nth_error fs i = Some f /\ f [bad] = None)
      | Err e | Fatal e => o = Err e
      | Flush => False
      end) es out.
Proof.
  intros fs es He. rewrite (cast_exec fs He). 
  assert (forall es, flat_map (fun e => match e with
                      | Data x => match cast_row fs (components (wrap x)) with
                                  | inl vs => [Data (VTuple vs)]
                                  | inr bad => [Fatal (MkErr "cast" (VTuple [bad]))]
                                  end
                      | Err e | Fatal e => [Err e]
                      | Flush => []
                      end) es = flat_map (fun e => match e with
                      | Data x => [match cast_row fs (components (wrap x)) with
                                  | inl vs => Data (VTuple vs)
                                  | inr bad => Fatal (MkErr "cast" (VTuple [bad]))
                                  end]
                      | Err e | Fatal e => [Err e]
                      | Flush => []
                      end) es) as Hm.
  { intros es0. apply flat_map_ext. intros [x|e|e|]; auto. destruct (cast_row fs (components (wrap x))); auto. }
  rewrite Hm. eexists. split; [reflexivity|]. clear Hm.
  unfold open_stream in He. induction es as [|e l IH]; simpl in *; [constructor|].
  apply andb_true_iff in He. destruct He as [He Hl].
  destruct e as [x|e|e|]; try discriminate; simpl; (constructor; [|auto]); auto.
  destruct (cast_row fs (components (wrap x))) as [vs|bad] eqn:E.
  - left. exists vs. split; auto. exact (@cast_row_spec fs _ vs E).
  - right. destruct (@cast_row_fails fs _ bad E) as (i & f & H1 & H2 & H3 & H4). exists i, f, bad. auto.
Qed.

Definition to_int : func := fun args => match args with
  | [VInt a] => Some (VInt a) | [VBool b] => Some (VInt (if b then 1 else 0)) | _ => None end.

Example c43_example :
  fst (exec (cast_op [to_int; to_int]) ([Data (VTuple [VBool true; VNone; VStr "s"]); Data (VTuple [VInt 1; VStr "q"])], Ok))
  = [Data (VTuple [VInt 1; VNone; VStr "s"]); Fatal (MkErr "cast" (VTuple [VStr "q"])); Flush].
Proof. reflexivity. Qed.

(** * C44 write *)

Lemma write_data w s x : deliver (write_op w) s (Data x) =
  if w (wrap x) then (inl (wrap x) :: s, [Data (wrap x)], Ok) else (s, [Err (MkErr "write" (wrap x)); Data (wrap x)], Ok).
Proof. unfold deliver; simpl. destruct (w (wrap x)); reflexivity. Qed.

Lemma write_feed w es : open_stream es -> forall s,
  exists out, feed (write_op w) s es =
    (rev (flat_map (fun e => match e with
                             | Data x => if w (wrap x) then [inl (wrap x)] else []
                             | Err e | Fatal e => [inr e]
                             | Flush => []
                             end) es) ++ s, out, Ok) /\
    rows out = rows es /\
    errs out = map (fun x => MkErr "write" x) (filter (fun x => negb (w x)) (rows es)).
Proof.
  unfold open_stream. induction es as [|e es IH]; intros He s; [exists []; auto|].
  cbn [forallb] in He. apply andb_true_iff in He. destruct He as [He Hl].
  destruct e as [x|e|e|]; try discriminate; cbn [feed].
  - rewrite write_data. destruct (w (wrap x)) eqn:Ew.
    + destruct (IH Hl (inl (wrap x) :: s)) as (o & E & H1 & H2). rewrite E.
      eexists. split; [cbn [flat_map app rev]; rewrite Ew; cbn [app rev]; rewrite <- app_assoc; reflexivity|].
      cbn [rows errs app filter]. rewrite Ew, wrap_wrap. cbn [negb]. rewrite H1, H2. auto.
    + destruct (IH Hl s) as (o & E & H1 & H2). rewrite E.
      eexists. split; [cbn [flat_map app rev]; rewrite Ew; reflexivity|].
      cbn [rows errs app filter]. rewrite Ew, wrap_wrap. cbn [negb map]. rewrite H1, H2. auto.
  - change (deliver (write_op w) s (Err e)) with (inr e :: s : St (write_op w), @nil event, Ok). cbv iota beta.
    destruct (IH Hl (inr e :: s)) as (o & E & H1 & H2). rewrite E.
    eexists. split; [cbn [flat_map app rev]; rewrite <- app_assoc; reflexivity|]. cbn [rows errs app]. auto.
  - change (deliver (write_op w) s (Fatal e)) with (inr e :: s : St (write_op w), @nil event, Ok). cbv iota beta.
    destruct (IH Hl (inr e :: s)) as (o & E & H1 & H2). rewrite E.
    eexists. split; [cbn [flat_map app rev]; rewrite <- app_assoc; reflexivity|]. cbn [rows errs app]. auto.
Qed.

(** Every tuple goes on unchanged, whether or not it could be written; a failure to write one is
    reported as an Error; what has been written is, in order, the tuples that could be written and the
    Errors of the input. *)
Theorem c44_write_passes_through : forall w es, open_stream es ->
  exists written out, exec_from (write_op w) (fresh (write_op w)) (es, Ok) = (rev written, out ++ [Flush], Ok) /\
    rows out = rows es /\
    errs out = map (fun x => MkErr "write" x) (filter (fun x => negb (w x)) (rows es)) /\
    written = flat_map (fun e => match e with
                                 | Data x => if w (wrap x) then [inl (wrap x)] else []
                                 | Err e | Fatal e => [inr e]
                                 | Flush => []
                                 end) es.
Proof.
  intros w es He. destruct (@write_feed w es He []) as (o & E & H1 & H2).
  unfold exec_from. change (setup (write_op w) (fresh (write_op w))) with (Some ([] : St (write_op w))).
  cbv iota beta. cbn [fst snd]. rewrite E.
  eexists _, o. split; [|repeat split; eauto]. rewrite app_nil_r. reflexivity.
Qed.

Example c44_example :
  exec (write_op (fun x => negb (py_eq x (VTuple [VInt 2])))) (ints [1; 2; 3]%Z, Ok)
  = ([Data (VTuple [VInt 1]); Err (MkErr "write" (VTuple [VInt 2])); Data (VTuple [VInt 2]); Data (VTuple [VInt 3]); Flush], Ok).
Proof. reflexivity. Qed.

Print Assumptions c05_head_takes_prefix.
Print Assumptions c05_head_skips_prefix.
Print Assumptions c05_head_zero_rejected.
Print Assumptions c05_head_splits.
Print Assumptions c06_tail_takes_suffix.
Print Assumptions c06_tail_drops_suffix.
Print Assumptions c06_tail_zero_rejected.
Print Assumptions c06_tail_splits.
Print Assumptions c07_reverse.
Print Assumptions c07_sort.
Print Assumptions c07_sort_all_or_nothing.
Print Assumptions c07_sort_bad_key.
Print Assumptions c08_unique.
Print Assumptions c08_unique_complete.
Print Assumptions c08_unique_consecutive.
Print Assumptions c08_unique_unhashable.
Print Assumptions c09_disjoint.
Print Assumptions c09_predicate.
Print Assumptions c09_overlap_partial.
Print Assumptions c09_overlap_refuted.
Print Assumptions c10_red.
Print Assumptions c10_red_incremental.
Print Assumptions c11_red_groups.
Print Assumptions c12_failing_tuples_skipped_partial.
Print Assumptions c12_partial_update_refuted.
Print Assumptions c13_expand.
Print Assumptions c13_expand_component.
Print Assumptions c43_cast.
Print Assumptions c44_write_passes_through.
