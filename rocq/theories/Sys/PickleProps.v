(** C33: load returns what was stored. *)
From Verif.Sys Require Import Pickle.

(** ** Specification *)
(** What has been stored: the rows of the last store without append, and of the stores after it. *)
Fixpoint expected (h : list (bool * list pobj)) (old : list pval) : list pval :=
  match h with
  | [] => old
  | (a, rows) :: r => expected r ((if a then old else []) ++ map value rows)
  end.

(** An identity belongs to one object: [heap] says which. *)
Fixpoint in_heap (heap : nat -> pobj) (o : pobj) : Prop :=
  match o with
  | OInt _ => True
  | OStr id _ => heap id = o
  | OTup id l => heap id = o /\ (fix all l := match l with [] => True | o :: r => in_heap heap o /\ all r end) l
  end.
Fixpoint all_in_heap (heap : nat -> pobj) (l : list pobj) : Prop :=
  match l with [] => True | o :: r => in_heap heap o /\ all_in_heap heap r end.

(** The identities of the strings and non-empty tuples in a row, each as often as it occurs. *)
Fixpoint ids (o : pobj) : list nat :=
  match o with
  | OInt _ => []
  | OStr id _ => [id]
  | OTup _ [] => []
  | OTup id l => flat_map ids l ++ [id]
  end.
Definition unshared (rows : list pobj) : Prop := NoDup (flat_map ids rows).

(** ** Proofs *)
Section Ind.
  Variable P : pobj -> Prop.
  Hypothesis HI : forall z, P (OInt z).
  Hypothesis HS : forall i s, P (OStr i s).
  Hypothesis HT : forall i l, Forall P l -> P (OTup i l).
  Fixpoint pobj_ind' (o : pobj) : P o :=
    match o with
    | OInt z => HI z
    | OStr i s => HS i s
    | OTup i l => HT i l ((fix go l : Forall P l := match l with [] => Forall_nil P | o :: r => Forall_cons o (pobj_ind' o) (go r) end) l)
    end.
End Ind.

Lemma save_tup : forall memo id o r,
  save memo (OTup id (o :: r)) =
  match index id memo with
  | Some i => (PGet i, memo)
  | None => let '(es, memo') := save_list memo (o :: r) in (PTup es, memo' ++ [id])
  end.
Proof.
  intros. cbn -[index]. destruct (index id memo); auto.
Qed.
Lemma load_tup : forall memo e r,
  load memo (PTup (e :: r)) =
  match load_list memo (e :: r) with Some (vs, memo) => Some (VTup vs, memo ++ [VTup vs]) | None => None end.
Proof. reflexivity. Qed.
Lemma heap_list : forall heap l,
  (fix all l := match l with [] => True | o :: r => in_heap heap o /\ all r end) l = all_in_heap heap l.
Proof. induction l as [|o l IH]; cbn; auto. now rewrite IH. Qed.

Lemma index_nth : forall id memo i, index id memo = Some i -> nth_error memo i = Some id.
Proof.
  induction memo as [|x memo IH]; cbn; intros i H; [discriminate|]. destruct (Nat.eqb x id) eqn:E.
  - injection H as <-. apply Nat.eqb_eq in E. now subst.
  - destruct (index id memo); [|discriminate]. injection H as <-. cbn. auto.
Qed.
Lemma index_none : forall id memo, index id memo = None <-> ~ In id memo.
Proof.
  induction memo as [|x memo IH]; cbn; [tauto|]. destruct (Nat.eqb x id) eqn:E.
  - apply Nat.eqb_eq in E. split; [discriminate|]. intros H. elim H. now left.
  - apply Nat.eqb_neq in E. destruct (index id memo); cbn; split; intros H; try discriminate; try tauto.
    exfalso. destruct IH as (_ & IH). assert (X : Some n = None) by (apply IH; tauto). discriminate.
Qed.

(** Reading with the numbering of the writer. *)
Definition memo_of (heap : nat -> pobj) (memo : list nat) : list pval := map (fun id => value (heap id)) memo.

Arguments memo_of : simpl never.
Lemma save_list_len : forall l memo, length (fst (save_list memo l)) = length l.
Proof.
  induction l as [|o l IH]; intros memo; cbn; auto. destruct (save memo o) as [e m]. specialize (IH m).
  destruct (save_list m l) as [es m']. cbn in *. now rewrite IH.
Qed.

Lemma save_load : forall heap o memo, in_heap heap o ->
  load (memo_of heap memo) (fst (save memo o)) = Some (value o, memo_of heap (snd (save memo o))).
Proof.
  intros heap. induction o as [z|id s|id l IH] using pobj_ind'; intros memo H; cbn [in_heap] in H.
  - reflexivity.
  - cbn. destruct (index id memo) as [i|] eqn:E; cbn.
    + apply index_nth in E. unfold memo_of. rewrite nth_error_map, E. cbn. now rewrite H.
    + unfold memo_of. rewrite map_app. cbn. now rewrite H.
  - destruct H as (H & A). rewrite heap_list in A. destruct l as [|o r]; [reflexivity|].
    rewrite save_tup. destruct (index id memo) as [i|] eqn:E.
    + apply index_nth in E. cbn. unfold memo_of. rewrite nth_error_map, E. cbn. now rewrite H.
    + assert (L : forall l memo, Forall (fun o => forall memo, in_heap heap o ->
                    load (memo_of heap memo) (fst (save memo o)) = Some (value o, memo_of heap (snd (save memo o)))) l ->
                  all_in_heap heap l ->
                  load_list (memo_of heap memo) (fst (save_list memo l)) = Some (map value l, memo_of heap (snd (save_list memo l)))).
      { clear. induction l as [|o l IH]; intros memo F A; [reflexivity|]. cbn. inversion_clear F as [|? ? F1 F2]. destruct A as (A1 & A2).
        specialize (F1 memo A1). destruct (save memo o) as [e m]. cbn in F1. specialize (IH m F2 A2).
        destruct (save_list m l) as [es m']. cbn in *. now rewrite F1, IH. }
      specialize (L (o :: r) memo IH A). pose proof (save_list_len (o :: r) memo) as N.
      destruct (save_list memo (o :: r)) as [es m]. cbn [fst snd] in *. destruct es as [|e es]; [discriminate|].
      rewrite load_tup, L. unfold memo_of. rewrite map_app. cbn [map]. now rewrite H.
Qed.

Lemma save_load_list : forall heap l memo, all_in_heap heap l ->
  load_list (memo_of heap memo) (fst (save_list memo l)) = Some (map value l, memo_of heap (snd (save_list memo l))).
Proof.
  intros heap. induction l as [|o l IH]; intros memo A; [reflexivity|]. destruct A as (A1 & A2). cbn.
  pose proof (save_load heap o memo A1) as F1. destruct (save memo o) as [e m]. cbn in F1. specialize (IH m A2).
  destruct (save_list m l) as [es m']. cbn in *. now rewrite F1, IH.
Qed.

(** What one store wrote is read back exactly, whatever objects the rows share. *)
Theorem c33_store : forall heap rows file, all_in_heap heap rows -> load_file (store false rows file) = Some (map value rows).
Proof.
  intros heap rows file A. unfold load_file, store. cbn [app].
  change (@nil pval) with (memo_of heap []). rewrite (save_load_list heap rows [] A). reflexivity.
Qed.

(** Without references, the numbering does not matter. *)
Lemma unshared_memo : forall o memo, NoDup (memo ++ ids o) -> snd (save memo o) = memo ++ ids o /\
  forall m, exists m', load m (fst (save memo o)) = Some (value o, m').
Proof.
  induction o as [z|id s|id l IH] using pobj_ind'; intros memo N.
  - cbn. rewrite app_nil_r. split; eauto.
  - cbn in *. assert (X : index id memo = None).
    { apply index_none. apply NoDup_remove_2 in N. now rewrite app_nil_r in N. }
    rewrite X. split; eauto. intros m. cbn. eauto.
  - destruct l as [|o r]; [cbn; rewrite app_nil_r; split; eauto|].
    change (ids (OTup id (o :: r))) with (flat_map ids (o :: r) ++ [id]) in *.
    rewrite app_assoc in N. rewrite save_tup.
    assert (X : index id memo = None).
    { apply index_none. intros I. apply NoDup_remove_2 in N. rewrite app_nil_r in N. apply N. apply in_or_app. now left. }
    rewrite X.
    assert (N' : NoDup (memo ++ flat_map ids (o :: r))) by (apply NoDup_remove_1 in N; now rewrite app_nil_r in N).
    clear X. revert IH N'. generalize (o :: r). clear o r N. intros l IH N'.
    assert (L : snd (save_list memo l) = memo ++ flat_map ids l /\
                forall m, exists m', load_list m (fst (save_list memo l)) = Some (map value l, m')).
    { revert memo N'. induction l as [|o l IHl]; intros memo N; cbn in *.
      - rewrite app_nil_r. split; eauto.
      - inversion_clear IH as [|? ? F1 F2]. rewrite app_assoc in N.
        assert (N1 : NoDup (memo ++ ids o)).
        { clear - N. revert N. generalize (memo ++ ids o). intros a. induction a as [|x a IH]; cbn; intros N; constructor; inversion_clear N; auto.
          intros I. apply H. apply in_or_app. now left. }
        specialize (F1 memo N1) as (S1 & L1). destruct (save memo o) as [e m1]. cbn in S1, L1. subst m1.
        destruct (IHl F2 _ N) as (S2 & L2). destruct (save_list (memo ++ ids o) l) as [es m2]. cbn in *. subst m2.
        split; [now rewrite app_assoc|]. intros m. destruct (L1 m) as (m1 & ->). destruct (L2 m1) as (m2 & ->). eauto. }
    destruct L as (L1 & L2). destruct (save_list memo l) as [es m] eqn:E. cbn in L1, L2. subst m. cbn [fst snd].
    split; [now rewrite app_assoc|]. intros m. destruct (L2 m) as (m' & E2). destruct es as [|e es].
    + cbn in E2. injection E2 as E2 _. cbn. rewrite <- E2. eauto.
    + rewrite load_tup, E2. cbn. eauto.
Qed.

Lemma unshared_list : forall l memo, NoDup (memo ++ flat_map ids l) ->
  forall m, exists m', load_list m (fst (save_list memo l)) = Some (map value l, m').
Proof.
  induction l as [|o l IH]; intros memo N m; cbn in *; [eauto|]. rewrite app_assoc in N.
  assert (N1 : NoDup (memo ++ ids o)).
  { clear - N. revert N. generalize (memo ++ ids o). intros a. induction a as [|x a IH]; cbn; intros N; constructor; inversion_clear N; auto.
    intros I. apply H. apply in_or_app. now left. }
  destruct (unshared_memo o memo N1) as (S1 & L1). destruct (save memo o) as [e m1]. cbn in S1, L1. subst m1.
  specialize (IH _ N). destruct (save_list (memo ++ ids o) l) as [es m2]. cbn in *.
  destruct (L1 m) as (m1 & ->). destruct (IH m1) as (m' & ->). eauto.
Qed.

Lemma load_app : forall a b m vs m', load_list m a = Some (vs, m') ->
  load_list m (a ++ b) = match load_list m' b with Some (ws, m'') => Some (vs ++ ws, m'') | None => None end.
Proof.
  induction a as [|e a IH]; intros b m vs m' H; cbn in *.
  - injection H as <- <-. destruct (load_list m b) as [[ws m'']|]; reflexivity.
  - destruct (load m e) as [[v m1]|]; [|discriminate]. destruct (load_list m1 a) as [[vs' m2]|] eqn:E; [|discriminate].
    injection H as <- <-. rewrite (IH b _ _ _ E). destruct (load_list m2 b) as [[ws m'']|]; reflexivity.
Qed.

(** Any history of stores, if no string or tuple object occurs twice in what is appended. *)
Theorem c33_history_partial : forall heap h,
  Forall (fun s => all_in_heap heap (snd s) /\ (fst s = true -> unshared (snd s))) h ->
  load_file (stores h []) = Some (expected h []).
Proof.
  intros heap h F.
  assert (G : forall h file old m, Forall (fun s => all_in_heap heap (snd s) /\ (fst s = true -> unshared (snd s))) h ->
     load_list [] file = Some (old, m) -> load_file (stores h file) = Some (expected h old)).
  { clear. induction h as [|[a rows] h IH]; intros file old m F L; cbn.
    - unfold load_file. now rewrite L.
    - inversion_clear F as [|? ? (A & U) F']. cbn in A, U. unfold store. destruct a.
      + destruct (unshared_list rows [] (U eq_refl) m) as (m' & E).
        eapply IH; auto. rewrite (load_app _ _ _ _ _ L), E. reflexivity.
      + eapply IH; auto. cbn [app]. change (@nil pval) with (memo_of heap []). rewrite (save_load_list heap rows [] A). reflexivity. }
  eapply G; eauto. reflexivity.
Qed.

(** ** What does not hold *)
(** gen 3 | map (x: (x, 'a')) | store r, then gen 3 | map (x: (x, 'b')) | store -a r, then load r:
    the constant 'b' is one object; from the second appended row on, 'a' comes back instead. *)
Theorem c33_append_refuted : exists heap h,
  Forall (fun s => all_in_heap heap (snd s)) h /\ load_file (stores h []) <> Some (expected h []) /\
  load_file (stores h []) <> None.
Proof.
  set (row i id s := OTup i [OInt (Z.of_nat i); OStr id s]).
  exists (fun i => if Nat.eqb i 10 then OStr 10 "a" else if Nat.eqb i 11 then OStr 11 "b" else
          if Nat.ltb i 3 then row i 10 "a"%string else row i 11 "b"%string).
  exists [(false, [row 0 10 "a"; row 1 10 "a"; row 2 10 "a"]%string); (true, [row 3 11 "b"; row 4 11 "b"; row 5 11 "b"]%string)].
  split; [|split].
  - repeat constructor; cbn; repeat split; auto.
  - cbn. intros H. discriminate H.
  - cbn. discriminate.
Qed.

(** ** Cases *)
Example c33_case : unshared [OTup 0 [OInt 1; OStr 1 "x"%string]; OTup 2 [OInt 2; OStr 3 "x"%string]] /\
  exists heap, all_in_heap heap [OTup 0 [OInt 1; OStr 1 "x"%string]; OTup 2 [OInt 2; OStr 1 "x"%string]] /\
  fst (save_list [] [OTup 0 [OInt 1; OStr 1 "x"%string]; OTup 2 [OInt 2; OStr 1 "x"%string]]) = [PTup [PInt 1; PStr "x"%string]; PTup [PInt 2; PGet 0]].
Proof.
  split.
  - unfold unshared. cbn. repeat constructor; cbn; intuition discriminate.
  - exists (fun i => match i with 0 => OTup 0 [OInt 1; OStr 1 "x"%string] | 1 => OStr 1 "x"%string | _ => OTup 2 [OInt 2; OStr 1 "x"%string] end).
    cbn. repeat split.
Qed.

Print Assumptions c33_store.
Print Assumptions c33_history_partial.
Print Assumptions c33_append_refuted.
