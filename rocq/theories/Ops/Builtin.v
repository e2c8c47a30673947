(** The operators that have been modelled, as one inductive class, and what holds for all of them. *)
From Verif.Ops Require Export GenFacts.
Set Implicit Arguments.
Local Open Scope list_scope.

Inductive builtin : machine -> Prop :=
| b_map : forall f, builtin (map_op f)
| b_select : forall f, builtin (select_op f)
| b_squish : forall f, builtin (squish_op f)
| b_cast : forall fs, builtin (cast_op fs)
| b_head : forall n, builtin (head_op n)
| b_tail : forall n, builtin (tail_op n)
| b_reverse : builtin reverse_op
| b_sort : forall k, builtin (sort_op k)
| b_unique : builtin unique_op
| b_unique_c : builtin unique_consecutive_op
| b_window : forall p o d, builtin (window_op p o d)
| b_red : forall i rs, builtin (red_op i rs)
| b_expand : forall p, builtin (expand_op p)
| b_difference : forall p, builtin (difference_op p)
| b_intersect : forall ps, builtin (intersect_op ps)
| b_union : forall ps, builtin (union_op ps)
| b_join : forall k p, builtin (join_op k p)
| b_filter : forall c d p, builtin (filter_op c d p)
| b_case : forall preds ms d, builtin (case_op preds ms d)
| b_args : forall a n run, builtin (args_op a n run)
| b_write : forall w, builtin (write_op w)
| b_nested : forall ms, Forall builtin ms -> builtin (nested (pipe ms)).

Lemma map_Data_not_flush xs : forallb not_flush (map Data xs) = true.
Proof. induction xs; simpl; auto. Qed.

Lemma flush_window_not_flush w : forallb not_flush (flush_window w) = true.
Proof. destruct w; reflexivity. Qed.

Lemma feed_not_flush m : orderly m -> forall s es, open_stream es -> open_stream (res_out (feed m s es)).
Proof. intros Hm s es He. now apply orderly_feed_noflush. Qed.

Fixpoint builtin_orderly m (H : builtin m) {struct H} : orderly m.
Proof.
  destruct H.
  - apply orderly_mk_op. intros s x. unfold call. destruct (f (components x)); reflexivity.
  - apply orderly_mk_op. intros s x. unfold call. destruct (f (components x)) as [v|]; [destruct (truthy v)|]; reflexivity.
  - apply orderly_mk_op. intros s x. destruct (squish_fold f VNone (components x)); reflexivity.
  - apply orderly_mk_op. intros s x. destruct (cast_row fs (components x)); reflexivity.
  - unfold head_op. destruct (Z.eqb n 0); [|destruct (Z.ltb 0 n)]; apply orderly_mk_op; intros s x; cbn;
      repeat match goal with |- context [if ?c then _ else _] => destruct c end; reflexivity.
  - unfold tail_op. destruct (Z.eqb n 0); [|destruct (Z.ltb 0 n)]; apply orderly_mk_op; intros s x; cbn;
      repeat match goal with |- context [if ?c then _ else _] => destruct c end; reflexivity.
  - apply orderly_mk_op. intros [c|] x; reflexivity.
  - apply orderly_mk_op. intros [c|] x; reflexivity.
  - apply orderly_mk_op. intros s x. destruct (hashable x); [destruct (py_mem x s)|]; reflexivity.
  - apply orderly_mk_op. intros s x. destruct (py_eq s x); reflexivity.
  - assert (forall n, orderly (window_disjoint n)) as Hd.
    { intros n. apply orderly_mk_op. intros w x. cbn.
      destruct (Nat.eqb (length (w ++ [unwrap_op_output x])) n); cbn; auto. apply flush_window_not_flush. }
    assert (orderly fail_setup) as Hf by (apply orderly_mk_op; intros s x; reflexivity).
    unfold window_op. destruct p as [p|].
    + apply orderly_mk_op. intros w x. unfold call. destruct (p (components x)) as [v|]; [|reflexivity].
      destruct (truthy v); cbn; auto. apply flush_window_not_flush.
    + destruct o as [z|].
      * destruct (Z.eqb z 0).
        -- destruct d as [z'|]; [destruct (Z.leb 0 z')|]; auto.
        -- destruct (Z.leb 0 z); auto. apply orderly_mk_op. intros w x. cbn.
           match goal with |- context [if ?c then [Data _] else []] => destruct c end; reflexivity.
      * destruct d as [z'|]; [destruct (Z.leb 0 z')|]; auto.
  - unfold red_op. destruct (existsb r_group rs).
    + apply orderly_mk_op. intros s x. destruct (Nat.ltb (length (components x)) (length rs)); [reflexivity|].
      destruct s as [d|]; [|reflexivity].
      cbv zeta. destruct (hashable (VTuple (select_positions r_group rs (components x)))); [|reflexivity].
      destruct (red_group_update rs _ (components x)) as [acc [args|]]; [reflexivity|].
      destruct i; [|reflexivity]. destruct (append_to_row x _); reflexivity.
    + apply orderly_mk_op. intros s x. destruct (Nat.ltb (length (components x)) (length rs)); [reflexivity|].
      destruct s as [d|]; [|reflexivity].
      destruct (red_update rs _ (components x)) as [acc [args|]]; [reflexivity|].
      destruct i; [|reflexivity]. destruct (append_to_row x _); reflexivity.
  - destruct p as [p|]; apply orderly_mk_op; intros s x.
    + cbn. destruct (Z.leb (Z.of_nat (length (components x))) p); [reflexivity|].
      destruct (Z.ltb p 0); [reflexivity|]. cbn. set (l := match nth _ _ _ with VTuple _ => _ | _ => _ end).
      clearbody l. induction l; simpl; auto.
    + apply map_Data_not_flush.
  - assert (forall x s, forallb not_flush (res_out (difference_probe x s)) = true) as Hp.
    { intros x s. unfold difference_probe. destruct (hashable x); [destruct (dget x (df_right s))|]; reflexivity. }
    apply orderly_mk_op. intros s x. destruct (df_first s); [|apply Hp].
    destruct (load add_count (df_loaders s) (fst p) (snd p) (df_right s)) as [d [| |]]; [apply Hp|reflexivity|reflexivity].
  - assert (forall x s, forallb not_flush (res_out (intersect_probe x s)) = true) as Hp.
    { intros x s. unfold intersect_probe. destruct (is_common s) as [c|]; [|reflexivity].
      destruct (hashable x); [destruct (dget x c) as [[|n]|]|]; reflexivity. }
    apply orderly_mk_op. intros s x. destruct (is_common s); [apply Hp|].
    destruct (consume_args (is_loaders s) ps None) as [d [| |]]; [apply Hp|reflexivity|reflexivity].
  - apply orderly_mk_op. intros s x. reflexivity.
  - assert (forall x s, forallb not_flush (res_out (join_probe k x s)) = true) as Hp.
    { intros x s. unfold join_probe. destruct (components x) as [|v l]; [reflexivity|].
      destruct (hashable v); [|reflexivity]. destruct (dget v (jn_inner s)) as [ms|].
      - unfold res_out; simpl. induction ms; simpl; auto.
      - destruct k; reflexivity. }
    apply orderly_mk_op. intros s x. destruct (jn_first s); [|apply Hp].
    destruct (load add_inner (jn_loaders s) (fst p) (snd p) (jn_inner s)) as [d [| |]]; [apply Hp|reflexivity|reflexivity].
  - assert (forall x r s, forallb not_flush (res_out (filter_probe c (negb d) x r s)) = true) as Hp.
    { intros x r s. unfold filter_probe. destruct (match c with Some f => f (components x) | None => Some (VTuple (components x)) end) as [v|]; [|reflexivity].
      destruct (hashable (wrap_op_input v)); [|reflexivity]. destruct (Bool.eqb (py_mem (wrap_op_input v) r) (negb d)); reflexivity. }
    apply orderly_mk_op. intros s x. destruct (ft_right s); [apply Hp|].
    cbv zeta. destruct (load add_member (S (ft_loaders s)) (fst p) (snd p) []) as [r [| |]]; [apply Hp|reflexivity|reflexivity].
  - apply orderly_mk_op. intros s x. destruct (case_route preds d 0 (components x)) as [[n|]|]; try reflexivity.
    destruct (feed_nth ms n [Data x] (snd s)) as [[s' o] r]. apply redirect_open.
  - apply orderly_mk_op. intros s x. cbn.
    destruct (negb a && Nat.eqb (length (s ++ [unwrap_op_output x])) n); [apply redirect_open|reflexivity].
  - split; intros s e; cbn; try reflexivity. destruct (w e); reflexivity.
  - assert (Forall orderly ms) as Ho.
    { induction H as [|m ms Hm Hms IH]; constructor; auto. }
    apply orderly_mk_op. intros s x. apply (feed_not_flush (orderly_pipe Ho)). reflexivity.
Defined.
