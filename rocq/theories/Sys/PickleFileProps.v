(** C32: a reservoir never has a reader and a writer at once. *)
From Verif.Sys Require Import PickleFile.

(** ** Specification *)
(** A file open for writing is the only one open. *)
Definition exclusive {row} (s : pfile row) : Prop := forall h, In (h, Writing) (opened s) -> opened s = [(h, Writing)].
Definition reading {row} (s : pfile row) : Prop := exists h, In (h, Reading) (opened s).
Definition writing {row} (s : pfile row) : Prop := exists h, In (h, Writing) (opened s).
Definition unused {row} (s : pfile row) : Prop := opened s = [].

Section C32.
Context {row : Type}.
Notation pf := (pfile row).

(** The history never opens a reader while another is open. *)
Fixpoint one_reader (s : pf) (l : list (act row)) : Prop :=
  match l with
  | [] => True
  | a :: r => (a = AReader -> ~ reading s) /\ one_reader (next s a) r
  end.

Definition inv1 (s : pf) : Prop :=
  match readers s, writer s with
  | Some h, None => opened s = [(h, Reading)]
  | None, Some h => opened s = [(h, Writing)]
  | None, None => opened s = []
  | _, _ => False
  end.

Lemma inv1_next : forall s a, inv1 s -> (a = AReader -> ~ reading s) -> inv1 (next s a).
Proof.
  intros [r w o n c] a I H. unfold inv1 in *. cbn in I. destruct r as [r|], w as [w|]; try easy; subst o.
  - destruct a; cbn; auto.
    + exfalso. apply (H eq_refl). exists r. now left.
    + unfold write. destruct (is_open _ _ _); cbn; auto.
    + now rewrite Nat.eqb_refl.
  - destruct a; cbn; auto.
    + unfold write. destruct (is_open _ _ _); cbn; auto.
    + now rewrite Nat.eqb_refl.
  - destruct a; cbn; auto.
Qed.
Lemma inv1_history : forall l s, inv1 s -> one_reader s l -> inv1 (history s l).
Proof. induction l as [|a l IH]; intros s I H; cbn; auto. destruct H as (H & O). apply IH; auto. now apply inv1_next. Qed.

Lemma inv1_exclusive : forall s, inv1 s -> exclusive s.
Proof.
  intros [r w o n c] I h H. unfold inv1 in I. cbn in *. destruct r as [r|], w as [w|]; try easy; subst o; cbn in *.
  - destruct H as [H|[]]; discriminate.
  - destruct H as [H|[]]. injection H as ->. reflexivity.
  - destruct H.
Qed.

Theorem c32_exclusive_partial : forall l, one_reader empty l -> exclusive (history empty l).
Proof. intros l H. now apply inv1_exclusive, inv1_history. Qed.

(** Misuse is refused, and changes nothing. *)
Theorem c32_refused_partial : forall l, one_reader empty l ->
  let s := history empty l in
  (writing s -> next s AReader = s /\ forall append, next s (AWriter append) = s) /\
  (reading s -> forall append, next s (AWriter append) = s) /\
  (reading s \/ writing s -> next s ADelete = s).
Proof.
  intros l H s. assert (I : inv1 s) by now apply inv1_history. clearbody s. clear l H.
  destruct s as [r w o n c]. unfold inv1, reading, writing in *. cbn in *.
  assert (A : forall (h k : nat), (h, Reading) = (k, Writing) -> False) by discriminate.
  assert (B : forall (h k : nat), (h, Writing) = (k, Reading) -> False) by discriminate.
  destruct r as [r|], w as [w|]; try easy; subst o; cbn; (split; [|split]); try (intros (h & [E|[]])); try (intros (h & []));
    try (intros [(h & []) | (h & [])]); auto; try (exfalso; eauto).
Qed.
(** When nothing is open, opening is never refused. *)
Theorem c32_available_partial : forall l, one_reader empty l ->
  let s := history empty l in unused s -> open_reader s <> None /\ forall append, open_writer append s <> None.
Proof.
  intros l H s. assert (I : inv1 s) by now apply inv1_history. clearbody s. clear l H.
  destruct s as [r w o n c]. unfold inv1, unused in *. cbn in *. intros ->.
  destruct r as [r|], w as [w|]; try easy; subst; cbn; split; intros; discriminate.
Qed.

(** Without restriction: never two writers. *)
Definition inv2 (s : pf) : Prop :=
  (forall h, In (h, Writing) (opened s) -> writer s = Some h) /\
  (forall h m, In (h, m) (opened s) -> h < fresh s) /\ NoDup (map fst (opened s)).
Lemma drop_in : forall h x (l : list (nat * mode)), In x (drop h l) <-> In x l /\ fst x <> h.
Proof. intros h x l. unfold drop. rewrite filter_In, negb_true_iff, Nat.eqb_neq. tauto. Qed.
Lemma drop_nodup : forall h (l : list (nat * mode)), NoDup (map fst l) -> NoDup (map fst (drop h l)).
Proof.
  induction l as [|[k m] l IH]; cbn; intros H; auto. inversion_clear H as [|? ? N D].
  destruct (negb (k =? h)); cbn; auto. constructor; auto. intros X. apply N. apply in_map_iff in X as ((a & b) & <- & I).
  apply drop_in in I as (I & _). apply in_map_iff. now exists (a, b).
Qed.
Lemma inv2_next : forall s a, inv2 s -> inv2 (next s a).
Proof.
  intros [r w o n c] a (I & J & D). unfold inv2 in *. cbn in I, J, D.
  assert (FN : forall m, ~ In (n, m) o) by (intros m X; apply J in X; lia).
  assert (FD : ~ In n (map fst o)) by (intros X; apply in_map_iff in X as ((k & m) & E & X); cbn in E; subst; eapply FN; eauto).
  destruct a; cbn.
  - unfold open_reader. cbn. destruct w as [w|]; cbn; [auto|]. repeat split.
    + intros h [E|E]; [discriminate|auto].
    + intros h m [E|E]; [injection E; lia|]. apply J in E. lia.
    + now constructor.
  - unfold open_writer. cbn. destruct r as [r|]; [cbn; auto|]. destruct w as [w|]; cbn; [auto|]. repeat split.
    + intros h [E|E]; [now injection E as ->|]. apply I in E. discriminate.
    + intros h m [E|E]; [injection E; lia|]. apply J in E. lia.
    + now constructor.
  - unfold write. destruct (is_open _ _ _); cbn; auto.
  - unfold close. cbn. destruct r as [r|]; [|destruct w as [w|]]; cbn; auto.
    + repeat split; [| |now apply drop_nodup].
      * intros h E. apply drop_in in E as (E & _). auto.
      * intros h m E. apply drop_in in E as (E & _). eauto.
    + repeat split; [| |now apply drop_nodup].
      * intros h E. apply drop_in in E as (E & X). apply I in E. injection E as ->. now elim X.
      * intros h m E. apply drop_in in E as (E & _). eauto.
  - unfold delete. cbn. destruct r as [r|]; [cbn; auto|]. destruct w as [w|]; cbn; auto.
Qed.
Theorem c32_one_writer : forall l h h',
  In (h, Writing) (opened (history (row:=row) empty l)) -> In (h', Writing) (opened (history (row:=row) empty l)) -> h = h'.
Proof.
  intros l h h' A B. assert (I : inv2 (history empty l)).
  { assert (X : inv2 (empty : pf)) by (repeat split; [intros ? []|intros ? ? []|constructor]).
    clear A B. revert X. generalize (empty : pf). induction l as [|a l IH]; intros s X; cbn; auto. apply IH. now apply inv2_next. }
  destruct I as (I & _). apply I in A, B. congruence.
Qed.

(** ** Pipelines *)
Lemma write_all_spec : forall rows (s : pf) h, writer s = Some h -> In (h, Writing) (opened s) ->
  write_all rows s = Pfile (readers s) (writer s) (opened s) (fresh s) (content s ++ rows).
Proof.
  intros rows [r w o n c] h W I. cbn in *. subst w. unfold write_all. cbn.
  assert (O : forall c : list row, is_open h Writing (Pfile r (Some h) o n c) = true).
  { intros c'. unfold is_open. apply existsb_exists. exists (h, Writing). cbn. now rewrite Nat.eqb_refl. }
  revert c. induction rows as [|x rows IH]; intros c; cbn; [now rewrite app_nil_r|].
  unfold write at 2. rewrite O. cbn. rewrite IH, <- app_assoc. reflexivity.
Qed.

(** The number of operators of a pipeline that use the reservoir. *)
Definition uses (l : list pop) : nat := length (filter (fun p => match p with POther _ => false | _ => true end) l).
Lemma setup_busy : forall l (s s' : pf), inv1 s -> opened s <> [] -> ~ In PLoad l -> setup_ops l s = (s', true) -> uses l = 0 /\ s' = s.
Proof.
  induction l as [|p l IH]; intros s s' I N L E; cbn in *; [now injection E|].
  destruct p as [|a|[|]].
  - elim L. now left.
  - exfalso. unfold inv1 in I. unfold open_writer in E. destruct (readers s); [discriminate|]. destruct (writer s); [discriminate|]. now elim N.
  - apply IH; auto.
  - discriminate.
Qed.
Lemma cleanup_unused : forall l (s : pf), uses l = 0 -> cleanup_ops l s = s.
Proof. induction l as [|[|a|b] l IH]; cbn; intros s U; auto; discriminate. Qed.

(** The content after a pipeline. *)
Fixpoint stored (l : list pop) (old rows : list row) : list row :=
  match l with
  | [] => old
  | PStore a :: _ => (if a then old else []) ++ rows
  | _ :: r => stored r old rows
  end.
Lemma stored_none : forall l old rows, uses l = 0 -> stored l old rows = old.
Proof. induction l as [|[|a|b] l IH]; cbn; intros; auto; discriminate. Qed.

Lemma release : forall l s s' ok rows, inv1 s -> unused s ->
  (forall a b, l = a ++ PLoad :: b -> uses a = 0) ->
  setup_ops l s = (s', ok) -> ok = true ->
  let s'' := cleanup_ops l (write_all rows s') in
  inv1 s'' /\ unused s'' /\ content s'' = stored l (content s) rows.
Proof.
  induction l as [|p l IH]; intros s s' ok rows I U F E OK; cbn in *.
  - injection E as <- <-. unfold inv1, unused, write_all in *. rewrite U in I.
    destruct s as [r w o n c]. cbn in *. subst o. destruct r as [r|], w as [w|]; try easy.
  - subst ok. unfold inv1, unused in I, U. rewrite U in I.
    destruct s as [r w o n c]. cbn in I, U. subst o. destruct r as [r|], w as [w|]; try easy.
    assert (NL : p <> POther true -> p <> POther false -> ~ In PLoad l).
    { intros N1 N2 X. apply in_split in X as (a & b & ->). specialize (F (p :: a) b eq_refl). destruct p as [| |[|]]; cbn in F; congruence. }
    destruct p as [|ap|[|]]; cbn in E.
    + apply setup_busy in E as (Z & ->); [|reflexivity|discriminate|apply NL; discriminate].
      cbn -[close]. rewrite cleanup_unused by auto. rewrite stored_none by auto. cbn. rewrite Nat.eqb_refl. cbn. auto.
    + apply setup_busy in E as (Z & ->); [|reflexivity|discriminate|apply NL; discriminate].
      rewrite (write_all_spec rows _ n) by (auto; now left). cbn. rewrite cleanup_unused by auto. rewrite Nat.eqb_refl. cbn.
      destruct ap; auto.
    + apply (IH (Pfile None None [] n c) s' true rows); auto; try reflexivity.
      intros a b ->. apply (F (POther true :: a) b). reflexivity.
    + discriminate.
Qed.

(** A pipeline whose setup succeeds gives the reservoir back, and its content is what was there before,
    replaced or followed by what was stored. load can only come first in a pipeline. *)
Theorem c32_pipeline : forall hist l rows s ok,
  one_reader empty hist -> unused (history empty hist) -> (forall a b, l = a ++ PLoad :: b -> a = []) ->
  run_pipeline l rows (history empty hist) = (s, ok) -> ok = true ->
  unused s /\ content s = stored l (content (history empty hist)) rows /\
  open_reader s <> None /\ forall append, open_writer append s <> None.
Proof.
  intros hist l rows s ok O U F E OK. subst ok. unfold run_pipeline in E.
  destruct (setup_ops l (history empty hist)) as [s' ok] eqn:S. destruct ok; [|discriminate]. injection E as <-.
  assert (I : inv1 (history empty hist)) by now apply inv1_history.
  destruct (release l _ s' true rows I U) as (I' & U' & C); auto.
  { intros a b X. apply F in X. now subst a. }
  repeat split; auto.
  - unfold inv1 in I'. unfold unused in U'. unfold open_reader. rewrite U' in I'. destruct (writer _); [|discriminate]. destruct (readers _); easy.
  - intros a. unfold inv1 in I'. unfold unused in U'. unfold open_writer. rewrite U' in I'. destruct (writer _), (readers _); easy.
Qed.

End C32.

(** ** What does not hold *)
(** Two readers: when one of them is closed, a writer is let in although the other one is still open; and when that
    one reaches its end, the file of the writer is closed, and what it writes fails. *)
Theorem c32_two_readers_refuted :
  let s := history (row:=nat) empty [AReader; AReader; AClose; AWriter false] in
  reading s /\ writing s /\ ~ exclusive s /\
  opened (next s AClose) = [(0, Reading)] /\ write 2 7 (next s AClose) = None.
Proof.
  cbn. repeat split.
  - exists 0. right. now left.
  - exists 2. now left.
  - intros H. specialize (H 2 (or_introl eq_refl)). discriminate.
Qed.

(** load x | store x fails, as it must, but the reader is never closed: x cannot be stored to any more. *)
Theorem c32_refusal_locks_refuted :
  let '(s, ok) := run_pipeline (row:=nat) [PLoad; PStore false] [] empty in
  ok = false /\ reading s /\ forall rows, run_pipeline [PStore false] rows s = (s, false).
Proof. cbn. split; auto. split; [exists 0; now left|]. reflexivity. Qed.

(** A pipeline that cannot run (gen 3 | store x | head 0) loses the content, and leaves x unusable. *)
Theorem c32_content_lost_refuted :
  let s0 := fst (run_pipeline (row:=nat) [PStore false] [1; 2; 3] empty) in
  let '(s, ok) := run_pipeline [PStore false; POther false] [4] s0 in
  content s0 = [1; 2; 3] /\ ok = false /\ content s = [] /\ writing s /\ open_reader s = None.
Proof. cbn. repeat split. exists 1. now left. Qed.

(** Jobs: nothing stops another process from writing. *)
Theorem c32_jobs_refuted :
  let ps0 : procs nat := fun _ => empty in
  let ps := proc_step (proc_step ps0 1 (AWriter false)) 2 (AWriter false) in
  writing (ps 1) /\ writing (ps 2).
Proof. cbn. split; exists 0; now left. Qed.

(** The file is one file: whatever processes do to it, in any order, all of them find the same in it. *)
Theorem c32_jobs_one_file : forall (row : Type) (l : list (nat * act row)) (ps : procs row),
  (forall i j, content (ps i) = content (ps j)) ->
  let ps' := fold_left (fun ps p => proc_step ps (fst p) (snd p)) l ps in
  forall i j, content (ps' i) = content (ps' j).
Proof.
  intros row l. induction l as [|[k a] l IH]; intros ps H; cbn; [exact H|]. apply IH.
  assert (X : forall i, content (proc_step ps k a i) = content (next (ps k) a)).
  { intro i. unfold proc_step. destruct (Nat.eqb k i); reflexivity. }
  intros i j. rewrite !X. reflexivity.
Qed.

(** ** Cases *)
Example c32_case : one_reader (row:=nat) empty [AWriter false; AWrite 0 5; AReader; AClose; AReader; AWriter true; AClose] /\
  content (history (row:=nat) empty [AWriter false; AWrite 0 5; AReader; AClose; AReader; AWriter true; AClose]) = [5].
Proof.
  split; [|reflexivity]. cbn. repeat split; auto; try discriminate.
  - intros _ (h & [E|[]]). discriminate.
  - intros _ (h & []).
Qed.
Example c32_case2 : run_pipeline (row:=nat) [POther true; PStore true] [6; 7] (fst (run_pipeline [PStore false] [5] empty)) =
  (Pfile None None [] 2 [5; 6; 7], true).
Proof. reflexivity. Qed.

Print Assumptions c32_exclusive_partial.
Print Assumptions c32_refused_partial.
Print Assumptions c32_available_partial.
Print Assumptions c32_one_writer.
Print Assumptions c32_pipeline.
Print Assumptions c32_two_readers_refuted.
Print Assumptions c32_refusal_locks_refuted.
Print Assumptions c32_content_lost_refuted.
Print Assumptions c32_jobs_refuted.
Print Assumptions c32_jobs_one_file.
