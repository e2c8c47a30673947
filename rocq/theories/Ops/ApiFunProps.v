(** C81: args and case with pipelines of the Python API. *)
From Verif.Ops Require Export ApiFunFacts.
Local Open Scope list_scope.

Lemma new_ops_spec : forall bs m l m', new_ops m bs = (l, m') -> l = seq (next m) (length bs) /\ next m' = next m + length bs /\ plains m' l bs /\
  (forall i, i < next m -> kinds m' i = kinds m i /\ receiver m' i = receiver m i /\ hist m' i = hist m i) /\
  (forall i, In i l -> receiver m' i = None /\ hist m' i = []) /\ cells m' = cells m /\ out m' = out m.
Proof.
  induction bs as [ | b bs IH]; intros m l m' E; cbn in E.
  - injection E as <- <-. cbn. repeat split; auto; try contradiction. constructor.
  - destruct (new_ops _ bs) as [l0 m0] eqn:F in E. injection E as <- <-. destruct (IH _ _ _ F) as (A & B & C & D & G & H & J). cbn in *.
    assert (K0 : kinds m0 (next m) = Plain b /\ receiver m0 (next m) = None /\ hist m0 (next m) = []).
    { destruct (D (next m)) as (X & Y & Z); [lia | ]. rewrite X, Y, Z, !set_same. auto. }
    repeat split; auto; try lia; try congruence.
    + constructor; [apply K0 | exact C].
    + destruct (D i) as (X & _); [lia | ]. rewrite X. apply set_other. lia.
    + destruct (D i) as (_ & X & _); [lia | ]. rewrite X. apply set_other. lia.
    + destruct (D i) as (_ & _ & X); [lia | ]. rewrite X. apply set_other. lia.
    + destruct H0 as [<- | I]; [apply K0 | now apply G].
    + destruct H0 as [<- | I]; [apply K0 | now apply G].
Qed.

Lemma replace_nth : forall A (l : list A) n x d, n < length l -> nth n (replace n x l) d = x.
Proof. induction l as [ | y l IH]; intros n x d L; cbn in L; [lia | ]. destruct n; cbn; [reflexivity | ]. apply IH. lia. Qed.
Lemma replace_length : forall A (l : list A) n x, length (replace n x l) = length l.
Proof. induction l as [ | y l IH]; intros [ | n] x; cbn; auto. Qed.
Lemma or_ops_spec : forall l m c, c < length (cells m) -> nth c (cells (or_ops m c l)) [] = nth c (cells m) [] ++ l /\
  next (or_ops m c l) = next m /\ kinds (or_ops m c l) = kinds m /\ receiver (or_ops m c l) = receiver m /\ hist (or_ops m c l) = hist m /\ out (or_ops m c l) = out m.
Proof.
  induction l as [ | i l IH]; intros m c L; cbn; [rewrite app_nil_r; now repeat split | ].
  destruct (IH (or_op m c i) c) as (A & B & C & D & E & F); [cbn; now rewrite replace_length | ]. rewrite A. cbn in *. rewrite replace_nth by exact L.
  rewrite <- app_assoc. repeat split; auto.
Qed.

Lemma link_other : forall l m i, ~ In i l -> receiver (link l m) i = receiver m i.
Proof.
  induction l as [ | j l IH]; intros m i N; [reflexivity | ]. cbn in *. rewrite IH by tauto. destruct l; [reflexivity | ]. cbn. apply set_other. intuition.
Qed.
Lemma link_rest : forall l m, next (link l m) = next m /\ kinds (link l m) = kinds m /\ hist (link l m) = hist m /\ cells (link l m) = cells m /\ out (link l m) = out m.
Proof.
  induction l as [ | j l IH]; intros m; [now repeat split | ]. cbn. destruct (IH (match l with [] => m | k :: _ => set_receiver m j (Some k) end)) as (A & B & C & D & E).
  rewrite A, B, C, D, E. destruct l; now repeat split.
Qed.
Lemma link_linked : forall l m d, NoDup l -> (l <> [] -> receiver m (last l d) = None) -> linked (link l m) l.
Proof.
  induction l as [ | j l IH]; intros m d ND LN; [exact I | ]. inversion ND as [ | ? ? NI ND']; subst. cbn [link linked]. split.
  - rewrite link_other by exact NI. destruct l as [ | k l]; [exact (LN (fun x => nil_cons (eq_sym x))) | ]. cbn. apply set_same.
  - apply (IH _ d); [exact ND' | ]. intros NE. destruct l as [ | k l]; [contradiction | ]. cbn [receiver set_receiver].
    rewrite set_other; [apply LN; discriminate | ]. intros Q. apply NI. rewrite <- Q. apply (@exists_last _ (k :: l)) in NE. destruct NE as (a & b & ->). rewrite last_last. apply in_or_app. right. now left.
Qed.

Lemma setups_good : forall ids bs m cs, plains m ids bs -> redirects m cs -> forallb (fun b => negb (bad_setup b)) bs = true ->
  exists m', setups (ids ++ cs) m = (m', true) /\ same m m' /\ out m' = out m /\ (forall i, In i ids -> hist m' i = []) /\ forall i, ~ In i ids -> hist m' i = hist m i.
Proof.
  induction ids as [ | i ids IH]; intros bs m cs P R G.
  - inversion P; subst. exists m. cbn. split; [ | repeat split; auto; contradiction]. clear - R. induction cs as [ | c cs IH]; [reflexivity | ]. inversion R as [ | ? ? E R']; subst. cbn. rewrite E. auto.
  - inversion P as [ | ? b ? bs' K P']; subst. cbn in G. apply andb_prop in G. destruct G as [G1 G2]. cbn. rewrite K. apply negb_true_iff in G1. rewrite G1.
    destruct (IH bs' (set_hist m i []) cs) as (m' & A & B & C & D & E); auto. exists m'. split; [exact A | ]. split; [exact B | ]. split; [exact C | ]. split.
    + intros j [<- | J]; [ | now apply D]. destruct (in_dec Nat.eq_dec i ids) as [J | J]; [now apply D | ]. rewrite E by exact J. cbn. apply set_same.
    + intros j J. cbn in J. rewrite E by tauto. cbn. apply set_other. intuition.
Qed.

(** The pipeline can be run *)
Record fit (p : pipefun) (m : mem) : Prop := {
  fi_exe : exe p = None;
  fi_redirects : redirects m (custom p);
  fi_nodup : NoDup (custom p);
  fi_old : forall i, In i (custom p) -> i < next m;
  fi_last : custom p <> [] -> receiver m (last (custom p) 0) = None }.

Lemma run_new : forall limit p m args b bs, fit p m -> custom p <> [] -> length args = f_params (function p) -> f_call (function p) args = New b bs ->
  forallb (fun b => negb (bad_setup b)) (b :: bs) = true -> length bs + length (custom p) < limit ->
  exists m', run_pipeline limit p m args = (m', p, Normal) /\ fit p m' /\ out m' = out m ++ alone b bs.
Proof.
  intros limit p m args b bs F NE LA FC G LM. destruct F as [F1 F2 F3 F4 F5]. unfold run_pipeline, create. rewrite F1, LA, Nat.eqb_refl, FC.
  destruct (new_ops m (b :: bs)) as [l m1] eqn:E1. destruct (new_ops_spec _ _ _ _ E1) as (A1 & A2 & A3 & A4 & A5 & A6 & A7).
  set (m2 := set_cells m1 (cells m1 ++ [l])). destruct (or_ops_spec (custom p) m2 (length (cells m1))) as (B1 & B2 & B3 & B4 & B5 & B6); [cbn; rewrite app_length; cbn; lia | ].
  set (m3 := or_ops m2 (length (cells m1)) (custom p)) in *. rewrite B1. cbn [cells m2 set_cells]. rewrite app_nth2, Nat.sub_diag by lia. cbn [nth].
  destruct (custom p) as [ | r rs] eqn:EC; [contradiction | ].
  destruct l as [ | i ids']; [discriminate | ]. set (l := i :: ids') in *. change ((i :: ids') ++ r :: rs) with (i :: (ids' ++ r :: rs)). cbv iota.
  change (i :: (ids' ++ r :: rs)) with (l ++ r :: rs).
  assert (DIS : forall j, In j l -> ~ In j (r :: rs)) by (intros j J Q; apply F4 in Q; rewrite A1 in J; apply in_seq in J; lia).
  assert (NDL : NoDup l) by (rewrite A1; apply seq_NoDup).
  assert (NDA : NoDup (l ++ r :: rs)).
  { clear - NDL F3 DIS. induction l as [ | a l IH]; [exact F3 | ]. inversion NDL; subst. cbn. constructor; [ | apply IH; auto; intros j J; apply DIS; now right].
    intros Q. apply in_app_or in Q. destruct Q as [Q | Q]; [contradiction | ]. exact (DIS a (or_introl eq_refl) Q). }
  assert (RM : forall j, In j (r :: rs) -> receiver m3 j = receiver m j /\ kinds m3 j = kinds m j).
  { intros j J. rewrite B3, B4. cbn. destruct (A4 j (F4 j J)) as (X & Y & _). auto. }
  assert (LAST : forall d, last (l ++ r :: rs) d = last (r :: rs) 0).
  { intros d. destruct (@exists_last _ (r :: rs)) as (u & v & Q); [discriminate | ]. rewrite Q, app_assoc, !last_last. reflexivity. }
  assert (LK : linked (link (l ++ r :: rs) m3) (l ++ r :: rs)).
  { apply (link_linked _ _ 0 NDA). intros _. rewrite LAST. destruct (RM (last (r :: rs) 0)) as [X _]; [ | rewrite X; apply F5; discriminate].
    destruct (@exists_last _ (r :: rs)) as (u & v & Q); [discriminate | ]. rewrite Q, last_last. apply in_or_app. right. now left. }
  destruct (link_rest (l ++ r :: rs) m3) as (C1 & C2 & C3 & C4 & C5). set (m4 := link (l ++ r :: rs) m3) in *.
  assert (P4 : plains m4 l (b :: bs)) by (unfold plains in *; rewrite C2, B3; exact A3).
  assert (R4 : redirects m4 (r :: rs)).
  { unfold redirects in *. rewrite Forall_forall in *. intros j J. rewrite C2. destruct (RM j J) as [_ X]. rewrite X. now apply F2. }
  destruct (setups_good l (b :: bs) m4 (r :: rs) P4 R4 G) as (m5 & D1 & D2 & D3 & D4 & D5). rewrite D1. unfold l at 1. cbn [app].
  assert (P5 := plains_same _ _ _ _ D2 P4). assert (R5 := redirects_same _ _ _ D2 R4). assert (L5 := linked_same _ _ _ D2 LK).
  assert (K5 : kinds m5 i = Plain b) by (inversion P5; auto). unfold runs_first. rewrite K5.
  assert (P5' : plains m5 ids' bs) by (inversion P5; auto). inversion NDL as [ | ? ? NI ND']; subst.
  assert (L5' : linked m5 (ids' ++ r :: rs)) by (apply L5).
  assert (RC : receiver m5 i = hd_error (ids' ++ [r])) by (destruct L5 as [Q _]; rewrite Q; now destruct ids').
  assert (H5 : holds m5 ids' (map (fun _ => []) bs)).
  { unfold holds. apply f2_length in P5'. clear - D4 P5'. assert (X : forall j, In j ids' -> hist m5 j = []) by (intros j J; apply D4; now right). clear D4. revert bs P5'.
    induction ids' as [ | a ids' IH]; intros [ | b bs] Q; try discriminate; [reflexivity | ]. cbn. f_equal; [apply X; now left | ]. apply IH; [intros j J; apply X; now right | ]. cbn in Q. lia. }
  destruct (receives_chain bs limit m5 ids' r rs (map (fun _ => []) bs) (on_run b)) as (m6 & E2 & E3 & E4 & E5 & E6); eauto; [lia | ].
  rewrite RC, E2.
  destruct (flush_chain (b :: bs) limit m6 l r rs ([] :: fst (flows bs (map (fun _ => []) bs) (on_run b))) i) as (m7 & G1 & G2 & G3); auto.
  { cbn in *. lia. }
  { exact (plains_same _ _ _ _ E3 P5). }
  { exact (redirects_same _ _ _ E3 R5). }
  { exact (linked_same _ _ _ E3 L5). }
  { unfold holds in *. cbn. rewrite E5. f_equal. rewrite E4 by exact NI. apply D4. now left. }
  rewrite G1. exists m7. split; [destruct p; cbn in *; now subst | ]. split.
  - assert (SM : same m4 m7) by exact (same_trans _ _ _ (same_trans _ _ _ D2 E3) G2). constructor; rewrite ?EC; auto.
    + exact (redirects_same _ _ _ SM R4).
    + intros j J. destruct SM as (Q & _). rewrite Q, C1, B2. cbn. rewrite A2. apply F4 in J. lia.
    + intros _. destruct SM as (_ & _ & Q & _). rewrite Q. assert (Z : linked m4 (l ++ r :: rs)) by exact LK. clear - Z.
      destruct (@exists_last _ (r :: rs)) as (u & v & Q); [discriminate | ]. rewrite Q in *. rewrite last_last. rewrite app_assoc in Z.
      induction (l ++ u) as [ | a w IH]; cbn in Z; [apply Z | apply IH, Z].
  - rewrite G3, E6, D3, C5, B6. cbn [out m2 set_cells]. rewrite A7, <- app_assoc. f_equal. unfold alone. rewrite <- flows_finish, flows_app by (now rewrite map_length).
    destruct (flows bs (map (fun _ => []) bs) (on_run b)) as [h1 o1]. cbn. destruct (flows bs h1 (on_flush b [])) as [h2 o2]. now rewrite app_assoc.
Qed.

Lemma app_same_length : forall A (a b c d : list A), a ++ b = c ++ d -> length a = length c -> a = c /\ b = d.
Proof.
  induction a as [ | x a IH]; intros b [ | y c] d E L; cbn in *; try discriminate; [auto | ]. injection E as -> E. destruct (IH b c d E) as [-> ->]; [lia | auto].
Qed.

Definition ample (size limit : nat) (p : pipefun) : Prop := custom p <> [] /\ size + length (custom p) < limit.

Lemma run_group : forall limit size p m g, fit p m -> fresh_function (function p) size -> ample size limit p -> length g = f_params (function p) ->
  exists m', run_pipeline limit p m g = (m', p, Normal) /\ fit p m' /\ out m' = out m ++ call_alone (function p) g.
Proof.
  intros limit size p m g F FF [NE LM] L. destruct (ff_new _ _ FF g L) as (b & bs & E & S & G).
  destruct (run_new limit p m g b bs F NE L E G) as (m' & A & B & C); [lia | ]. exists m'. unfold call_alone. rewrite E. auto.
Qed.

Lemma args_all : forall limit size xs p m pending gs, fit p m -> fresh_function (function p) size -> ample size limit p ->
  length pending < f_params (function p) -> groups (f_params (function p)) (pending ++ xs) gs ->
  exists m1 pend, args_receive limit false p m pending xs = (m1, p, pend, Normal) /\
    exists m2, args_flush limit false p m1 pend = (m2, p, Normal) /\ fit p m2 /\ out m2 = out m ++ concat (map (call_alone (function p)) gs).
Proof.
  intros limit size. induction xs as [ | x xs IH]; intros p m pending gs F FF AM LP GS; assert (NP : n_parameters (function p) = f_params (function p)) by (unfold n_parameters; rewrite (ff_locals _ _ FF); lia).
  - exists m, pending. split; [reflexivity | ]. rewrite app_nil_r in GS. unfold args_flush. rewrite NP. pose proof (ff_params _ _ FF) as PP. destruct pending as [ | y pending].
    + exists m. inversion GS as [ | g ys gs' L GS' E | g [L1 L2] E]; subst; [rewrite app_nil_r; auto | | cbn in *; lia]. destruct g; [cbn in L; lia | discriminate].
    + inversion GS as [ | g ys gs' L GS' E | g L E]; subst.
      * exfalso. rewrite <- E, app_length in LP. lia.
      * destruct (run_group limit size p m ((y :: pending) ++ repeat VNone (f_params (function p) - length (y :: pending)))) as (m' & A & B & C); auto; [rewrite app_length, repeat_length; lia | ].
        exists m'. rewrite A. split; [reflexivity | ]. split; [exact B | ]. rewrite C. cbn [map concat]. now rewrite app_nil_r.
  - cbn [args_receive]. rewrite NP. cbn [negb andb]. destruct (Nat.eqb_spec (length (pending ++ [x])) (f_params (function p))) as [L | L].
    + assert (Q : exists gs', gs = (pending ++ [x]) :: gs' /\ groups (f_params (function p)) xs gs').
      { replace (pending ++ x :: xs) with ((pending ++ [x]) ++ xs) in GS by (now rewrite <- app_assoc). inversion GS as [E | g ys gs' L' GS' E | g L' E]; subst.
        - destruct pending; discriminate.
        - apply app_same_length in E; [ | congruence]. destruct E as [-> ->]. eauto.
        - exfalso. rewrite app_length in L'. lia. }
      destruct Q as (gs' & -> & GS'). destruct (run_group limit size p m (pending ++ [x])) as (m' & A & B & C); auto. rewrite A.
      destruct (IH p m' [] gs') as (m1 & pend & A1 & m2 & A2 & F2 & O2); auto; [cbn; pose proof (ff_params _ _ FF); lia | ].
      exists m1, pend. split; [exact A1 | ]. exists m2. split; [exact A2 | ]. split; [exact F2 | ]. rewrite O2, C, <- app_assoc. reflexivity.
    + apply IH; auto; [rewrite app_length in *; cbn in *; lia | ]. now rewrite <- app_assoc.
Qed.

Lemma customized : forall p m, exe p = None -> redirects m (custom p) -> NoDup (custom p) -> (forall i, In i (custom p) -> i < next m) ->
  exists p' m', customize p m = (p', m') /\ function p' = function p /\ custom p' = custom p ++ [next m] /\ fit p' m' /\ out m' = out m.
Proof.
  intros p m E R ND O. unfold customize, new_op. cbn. rewrite E. do 2 eexists. split; [reflexivity | ]. split; [reflexivity | ]. split; [reflexivity | ]. split; [ | reflexivity].
  constructor; cbn; auto.
  - unfold redirects in *. rewrite Forall_forall in *. intros i I. cbn. apply in_app_or in I. destruct I as [I | [<- | []]]; [ | apply set_same].
    rewrite set_other by (apply O in I; lia). now apply R.
  - clear - ND O. induction (custom p) as [ | c l IH]; cbn; [repeat constructor; auto | ]. inversion ND; subst. constructor; [ | apply IH; auto; intros; apply O; now right].
    intros Q. apply in_app_or in Q. destruct Q as [Q | [Q | []]]; [contradiction | ]. specialize (O c (or_introl eq_refl)). lia.
  - intros i I. apply in_app_or in I. destruct I as [I | [<- | []]]; [apply O in I | ]; lia.
  - intros _. rewrite last_last. apply set_same.
Qed.

Lemma skipn_out : forall (a b : list val), skipn (length a) (a ++ b) = b.
Proof. induction a; cbn; auto. Qed.

(** gather(xs | args(f)), again and again: for each group of arguments, in order, what f(...) delivers by itself *)
Theorem c81_args : forall f size limit m xss gss, fresh_function f size -> Forall2 (groups (f_params f)) xss gss -> size + length xss < limit ->
  args_runs limit false (mkp f [] None) m xss = map (fun gs => (concat (map (call_alone f) gs), Normal)) gss.
Proof.
  intros f size limit m xss gss FF GS LM.
  enough (Q : forall p m, function p = f -> exe p = None -> redirects m (custom p) -> NoDup (custom p) -> (forall i, In i (custom p) -> i < next m) ->
    size + length (custom p) + length xss < limit -> args_runs limit false p m xss = map (fun gs => (concat (map (call_alone f) gs), Normal)) gss).
  { apply Q; [reflexivity | reflexivity | constructor | constructor | intros i [] | cbn; lia]. }
  clear m LM. induction GS as [ | xs gs xss gss G GS IH]; intros p m E X R ND O LM; [reflexivity | ]. cbn [args_runs map]. unfold args_run.
  assert (OK : args_ok false p = true).
  { unfold args_ok, n_parameters. rewrite E, (ff_locals _ _ FF). pose proof (ff_params _ _ FF). destruct (f_params f); [lia | reflexivity]. }
  rewrite OK. destruct (customized p m X R ND O) as (p' & m' & C1 & C2 & C3 & C4 & C5). rewrite C1.
  assert (E' : function p' = f) by congruence.
  destruct (args_all limit size xs p' m' [] gs) as (m1 & pend & A1 & m2 & A2 & F2 & O2); auto; try (rewrite E'; auto).
  { split; rewrite C3; [now destruct (custom p) | ]. rewrite app_length. cbn in *. lia. }
  { cbn. pose proof (ff_params _ _ FF). lia. }
  rewrite A1, A2. rewrite O2, C5, skipn_out, E'. f_equal. apply IH; auto; try apply F2. rewrite C3, app_length. cbn in *. lia.
Qed.

(** With all=True: one call, with the list of everything *)
Lemma args_receive_all : forall limit xs p m pending, args_receive limit true p m pending xs = (m, p, pending ++ xs, Normal).
Proof. induction xs as [ | x xs IH]; intros p m pending; cbn; [now rewrite app_nil_r | ]. rewrite IH, <- app_assoc. reflexivity. Qed.
Theorem c81_args_all : forall f size limit m xss, fresh_function f size -> f_params f = 1 -> size + length xss < limit ->
  args_runs limit true (mkp f [] None) m xss = map (fun xs => (match xs with [] => [] | _ => call_alone f [VList xs] end, Normal)) xss.
Proof.
  intros f size limit m xss FF F1 LM.
  enough (Q : forall p m, function p = f -> exe p = None -> redirects m (custom p) -> NoDup (custom p) -> (forall i, In i (custom p) -> i < next m) ->
    size + length (custom p) + length xss < limit -> args_runs limit true p m xss = map (fun xs => (match xs with [] => [] | _ => call_alone f [VList xs] end, Normal)) xss).
  { apply Q; [reflexivity | reflexivity | constructor | constructor | intros i [] | cbn; lia]. }
  clear m LM. induction xss as [ | xs xss IH]; intros p m E X R ND O LM; [reflexivity | ]. cbn [args_runs map]. unfold args_run.
  assert (OK : args_ok true p = true) by (unfold args_ok, n_parameters; now rewrite E, (ff_locals _ _ FF), F1).
  rewrite OK. destruct (customized p m X R ND O) as (p' & m' & C1 & C2 & C3 & C4 & C5). rewrite C1, args_receive_all. cbn [app].
  assert (E' : function p' = f) by congruence.
  assert (Q : exists m2, args_flush limit true p' m' xs = (m2, p', Normal) /\ fit p' m2 /\ out m2 = out m' ++ match xs with [] => [] | _ => call_alone f [VList xs] end).
  { destruct xs as [ | x xs]; [exists m'; rewrite app_nil_r; auto | ]. unfold args_flush. rewrite <- E'. apply (run_group limit size); auto; try (rewrite E'; auto).
    split; rewrite C3; [now destruct (custom p) | ]. rewrite app_length. cbn in *. lia. }
  destruct Q as (m2 & -> & F2 & O2). rewrite O2, C5, skipn_out. f_equal. apply IH; auto; try apply F2. rewrite C3, app_length. cbn in *. lia.
Qed.
