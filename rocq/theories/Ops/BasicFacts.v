From Coq Require Import Permutation Sorted.
From Verif.Exec Require Export MachineFacts.
From Verif.Ops Require Export Spec.
Set Implicit Arguments.
Local Open Scope list_scope.


Lemma open_cons e es : open_stream (e :: es) <-> not_flush e = true /\ open_stream es.
Proof. unfold open_stream; simpl. now rewrite andb_true_iff. Qed.


Ltac sub :=
  match goal with
  | |- sublist (?x :: _) (?x :: _) => apply sub_take
  | |- sublist _ (_ :: _) => apply sub_skip
  | |- sublist [] [] => apply sub_nil
  end; auto.

Ltac dfeed :=
  match goal with
  | |- context [feed ?m ?s ?es] =>
    let s' := fresh "s'" in let o := fresh "o" in let r := fresh "r" in
    destruct (feed m s es) as [[s' o] r]
  end.

(** ** Stateless operators *)

Lemma feed_stateless receive flush es :
  (forall x, res_st (receive tt x) = tt /\ res_outcome (receive tt x) <> Kill) ->
  open_stream es ->
  feed (mk_op tt (@keep_state unit) receive flush) tt es =
  (tt, flat_map (fun e => match e with
                          | Data x => res_out (receive tt (wrap x))
                          | Err e | Fatal e => [Err e]
                          | Flush => []
                          end) es, Ok).
Proof.
  intros H; induction es as [|e es IH]; intros He; [reflexivity|].
  apply open_cons in He; destruct He as [He Hes]. specialize (IH Hes).
  cbn [feed]. unfold deliver. destruct e as [x|e|e|]; try discriminate; cbn [as_input caught flat_map].
  - cbn [mk_op step]. destruct (H (wrap x)) as [H1 H2].
    destruct (receive tt (wrap x)) as [[s o] r] eqn:Er. unfold res_st, res_outcome in *; simpl in *. subst s.
    unfold res_out at 1; simpl.
    destruct r; try congruence; simpl; rewrite IH; reflexivity.
  - simpl. rewrite IH. reflexivity.
  - simpl. rewrite IH. reflexivity.
Qed.

Lemma exec_stateless receive es :
  (forall x, res_st (receive tt x) = tt /\ res_outcome (receive tt x) <> Kill) ->
  open_stream es ->
  exec (mk_op tt (@keep_state unit) receive (@default_flush unit)) (es, Ok) =
  (flat_map (fun e => match e with
                      | Data x => res_out (receive tt (wrap x))
                      | Err e | Fatal e => [Err e]
                      | Flush => []
                      end) es ++ [Flush], Ok).
Proof.
  intros H He. rewrite exec_through. unfold through; cbn [setup mk_op fresh keep_state].
  rewrite feed_app. cbn [St mk_op].
  pose proof (feed_stateless receive (@default_flush unit) H He) as E.
  cbn [St mk_op] in E. rewrite E. reflexivity.
Qed.

Lemma map_exec f es : open_stream es ->
  exec (map_op f) (es, Ok) =
  (flat_map (fun e => match e with
                      | Data x => match f (components (wrap x)) with
                                  | Some v => [Data v]
                                  | None => [Fatal (MkErr "map" (VTuple (components (wrap x))))]
                                  end
                      | Err e | Fatal e => [Err e]
                      | Flush => []
                      end) es ++ [Flush], Ok).
Proof.
  intros He. unfold map_op. rewrite exec_stateless; auto.
  - do 2 f_equal. apply flat_map_ext; intros [x|e|e|]; auto. unfold call.
    destruct (f (components (wrap x))); reflexivity.
  - intros x; unfold call. destruct (f (components x)); (split; [reflexivity | unfold res_outcome; simpl; congruence]).
Qed.

Lemma select_exec f es : open_stream es ->
  exec (select_op f) (es, Ok) =
  (flat_map (fun e => match e with
                      | Data x => match f (components (wrap x)) with
                                  | Some v => if truthy v then [Data (wrap x)] else []
                                  | None => [Fatal (MkErr "select" (VTuple (components (wrap x))))]
                                  end
                      | Err e | Fatal e => [Err e]
                      | Flush => []
                      end) es ++ [Flush], Ok).
Proof.
  intros He. unfold select_op. rewrite exec_stateless; auto.
  - do 2 f_equal. apply flat_map_ext; intros [x|e|e|]; auto. unfold call.
    destruct (f (components (wrap x))); reflexivity.
  - intros x; unfold call. destruct (f (components x)); (split; [reflexivity | unfold res_outcome; simpl; congruence]).
Qed.

Lemma squish_exec f es : open_stream es ->
  exec (squish_op f) (es, Ok) =
  (flat_map (fun e => match e with
                      | Data x => match squish_fold f VNone (components (wrap x)) with
                                  | inl v => [Data v]
                                  | inr args => [Fatal (MkErr "squish" (VTuple args))]
                                  end
                      | Err e | Fatal e => [Err e]
                      | Flush => []
                      end) es ++ [Flush], Ok).
Proof.
  intros He. unfold squish_op. rewrite exec_stateless; auto.
  - do 2 f_equal. apply flat_map_ext; intros [x|e|e|]; auto.
    destruct (squish_fold f VNone (components (wrap x))); reflexivity.
  - intros x. destruct (squish_fold f VNone (components x)); (split; [reflexivity | unfold res_outcome; simpl; congruence]).
Qed.

Lemma cast_exec fs es : open_stream es ->
  exec (cast_op fs) (es, Ok) =
  (flat_map (fun e => match e with
                      | Data x => match cast_row fs (components (wrap x)) with
                                  | inl vs => [Data (VTuple vs)]
                                  | inr bad => [Fatal (MkErr "cast" (VTuple [bad]))]
                                  end
                      | Err e | Fatal e => [Err e]
                      | Flush => []
                      end) es ++ [Flush], Ok).
Proof.
  intros He. unfold cast_op. rewrite exec_stateless; auto.
  - do 2 f_equal. apply flat_map_ext; intros [x|e|e|]; auto.
    destruct (cast_row fs (components (wrap x))); reflexivity.
  - intros x. destruct (cast_row fs (components x)); (split; [reflexivity | unfold res_outcome; simpl; congruence]).
Qed.

(** cast, declaratively: same length; component i is cast by function i when both exist and the
    component is not None, and otherwise unchanged. *)
Lemma cast_row_spec fs xs vs : cast_row fs xs = inl vs ->
  length vs = length xs /\
  forall i, i < length xs ->
    match nth i xs VNone, nth_error fs i with
    | VNone, _ => nth i vs VNone = VNone
    | x, Some f => f [x] = Some (nth i vs VNone)
    | x, None => nth i vs VNone = x
    end.
Proof.
  revert fs vs; induction xs as [|x xs IH]; intros fs vs H; simpl in H.
  - inversion H; subst; simpl. split; auto; intros; lia.
  - destruct (match x with VNone => Some VNone | _ => match fs with [] => Some x | f :: _ => f [x] end end)
      as [v|] eqn:Ev; [|discriminate].
    destruct (cast_row (tl fs) xs) as [vs'|] eqn:Ec; [|discriminate].
    inversion H; subst vs; clear H. destruct (IH _ _ Ec) as [Hl Hi]. split; [simpl; lia|].
    intros [|i] Hlt; simpl.
    + destruct fs as [|f fs]; simpl; destruct x; congruence.
    + specialize (Hi i ltac:(simpl in Hlt; lia)).
      assert (nth_error (tl fs) i = nth_error fs (S i)) as E by (destruct fs; [destruct i|]; reflexivity).
      rewrite E in Hi. exact Hi.
Qed.

Lemma cast_row_fails fs xs bad : cast_row fs xs = inr bad ->
  exists i f, nth_error xs i = Some bad /\ bad <> VNone /\ nth_error fs i = Some f /\ f [bad] = None.
Proof.
  revert fs; induction xs as [|x xs IH]; intros fs H; simpl in H; [discriminate|].
  destruct (match x with VNone => Some VNone | _ => match fs with [] => Some x | f :: _ => f [x] end end)
    as [v|] eqn:Ev.
  - destruct (cast_row (tl fs) xs) as [vs'|e] eqn:Ec; [discriminate|]. inversion H; subst e.
    destruct (IH _ Ec) as (i & f & H1 & H2 & H3 & H4). exists (S i), f.
    destruct fs; [destruct i; discriminate|]. auto.
  - inversion H; subst x. exists 0. destruct fs as [|f fs]; [destruct bad; discriminate|].
    exists f. repeat split; destruct bad; simpl in *; congruence.
Qed.

(** ** head *)

Lemma head_feed n es received : (0 <= received)%Z -> open_stream es ->
  exists out,
    feed (head_op n) received es = ((received + Z.of_nat (length (rows es)))%Z, out, Ok) /\
    errs out = errs es /\ sublist out (map as_input es) /\
    rows out = if Z.ltb 0 n then firstn (Z.to_nat (n - received)) (rows es)
               else skipn (Z.to_nat (- n - received)) (rows es).
Proof.
  revert received; induction es as [|e es IH]; intros rc Hr He.
  - exists []. simpl. rewrite Z.add_0_r. repeat split; try sub.
    destruct (Z.ltb 0 n); now rewrite ?firstn_nil, ?skipn_nil.
  - apply open_cons in He; destruct He as [He Hes].
    destruct e as [x|e|e|]; try discriminate; cbn [feed]; unfold deliver; cbn [as_input step head_op mk_op].
    + destruct (IH (rc + 1)%Z ltac:(lia) Hes) as (out & E & He' & Hsub & Hrows).
      cbn [rows length]. rewrite Nat2Z.inj_succ.
      destruct (Z.ltb_spec 0 n) as [Hn|Hn].
      * exists ((if Z.leb (rc + 1) n then [Data (wrap x)] else []) ++ out).
        split; [|split; [|split]].
        -- cbn [caught]. cbn [St head_op mk_op] in E. rewrite E. replace (rc + 1 + Z.of_nat (length (rows es)))%Z with (rc + Z.succ (Z.of_nat (length (rows es))))%Z by lia. reflexivity.
        -- destruct (Z.leb (rc + 1) n); simpl; auto.
        -- simpl. destruct (Z.leb (rc + 1) n); simpl; sub.
        -- destruct (Z.leb_spec (rc + 1) n); simpl.
           ++ rewrite wrap_wrap, Hrows.
              replace (Z.to_nat (n - rc)) with (S (Z.to_nat (n - (rc + 1)))) by lia. reflexivity.
           ++ rewrite Hrows. replace (Z.to_nat (n - (rc + 1))) with 0 by lia.
              replace (Z.to_nat (n - rc)) with 0 by lia. reflexivity.
      * exists ((if Z.ltb (- n) (rc + 1) then [Data (wrap x)] else []) ++ out).
        split; [|split; [|split]].
        -- cbn [caught]. cbn [St head_op mk_op] in E. rewrite E. replace (rc + 1 + Z.of_nat (length (rows es)))%Z with (rc + Z.succ (Z.of_nat (length (rows es))))%Z by lia. reflexivity.
        -- destruct (Z.ltb (- n) (rc + 1)); simpl; auto.
        -- simpl. destruct (Z.ltb (- n) (rc + 1)); simpl; sub.
        -- destruct (Z.ltb_spec (- n) (rc + 1)); simpl.
           ++ rewrite wrap_wrap, Hrows. replace (Z.to_nat (- n - (rc + 1))) with 0 by lia.
              replace (Z.to_nat (- n - rc)) with 0 by lia. reflexivity.
           ++ rewrite Hrows.
              replace (Z.to_nat (- n - rc)) with (S (Z.to_nat (- n - (rc + 1)))) by lia. reflexivity.
    + destruct (IH rc Hr Hes) as (out & E & He' & Hsub & Hrows).
      exists (Err e :: out). cbn [St head_op mk_op] in E. cbn [caught]. rewrite E. simpl.
      repeat split; try sub; auto; congruence.
    + destruct (IH rc Hr Hes) as (out & E & He' & Hsub & Hrows).
      exists (Err e :: out). cbn [St head_op mk_op] in E. cbn [caught]. rewrite E. simpl.
      repeat split; try sub; auto; congruence.
Qed.

Lemma head_exec n es : n <> 0%Z -> open_stream es ->
  exists out,
    exec (head_op n) (es, Ok) = (out ++ [Flush], Ok) /\
    errs out = errs es /\ sublist out (map as_input es) /\
    rows out = if Z.ltb 0 n then firstn (Z.to_nat n) (rows es)
               else skipn (Z.to_nat (- n)) (rows es).
Proof.
  intros Hn He. destruct (head_feed n (received := 0%Z) ltac:(lia) He) as (out & E & H1 & H2 & H3).
  exists out. rewrite exec_through. unfold through. cbn [setup head_op mk_op fresh].
  destruct (Z.eqb_spec n 0) as [|_]; [congruence|].
  rewrite feed_app. cbn [St head_op mk_op] in *. rewrite E. rewrite !Z.sub_0_r in H3.
  repeat split; auto.
Qed.

Lemma head_zero src : exec (head_op 0) src = ([], Kill).
Proof. reflexivity. Qed.
