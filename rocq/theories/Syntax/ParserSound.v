(** Whatever the parser accepts is in the language, and it always answers. *)
From Verif.Syntax Require Import LexerFacts ParserSpec ParserFacts.
Local Open Scope list_scope.

Section Sound.
Variable shell_args : text -> bool.
Notation pipeline := (pipeline shell_args).
Notation op_sequence := (op_sequence shell_args).
Notation arguments := (arguments shell_args).
Notation argument := (argument shell_args).
Notation Pipeline := (Pipeline shell_args true clear).
Notation OpSequence := (OpSequence shell_args true clear).
Notation OpArgs := (OpArgs shell_args true clear).
Notation Args := (Args shell_args true clear).
Notation Arg := (Arg shell_args true clear).
Notation Body := (Body shell_args true clear).

Lemma look2_clear : forall a b t, look2 a b t = Ok false ->
  forall k r, Reads false t k r -> Nothing r \/ exists k' r', Reads false r k' r' /\ (a k && b k')%bool = false.
Proof.
  intros a b t H k r R. apply look2_false in H as [N|(k0 & r0 & R0 & H)]; [exfalso; eapply reads_nothing; eauto|].
  destruct (reads_fun _ _ _ _ _ _ R R0) as [-> ->]. auto.
Qed.

Lemma clear_no_params : forall t, look2 is_word is_comma t = Ok false -> look2 is_word is_colon t = Ok false ->
  clear false t.
Proof.
  intros t H1 H2 k r R W. destruct (look2_clear _ _ _ H1 _ _ R) as [N|(k1 & r1 & R1 & F1)]; [auto|].
  destruct (look2_clear _ _ _ H2 _ _ R) as [N|(k2 & r2 & R2 & F2)]; [auto|].
  destruct (reads_fun _ _ _ _ _ _ R1 R2) as [-> ->]. rewrite W in *. cbn in *. right. eauto.
Qed.

Lemma clear_params : forall a b t, look2 a b t = Ok false -> clear true t.
Proof.
  intros a b t H1 k r R W. destruct (look2_clear _ _ _ H1 _ _ R) as [N|(k1 & r1 & R1 & F1)]; [auto|].
  right. exists k1, r1. split; auto. discriminate.
Qed.

Lemma redirect_again : forall ops t ops' r, redirected ops t = Ok (ops', r) ->
  (ops' = ops /\ r = t) \/ exists w, Redirect t w r /\ ops' = ops ++ [w].
Proof. intros. apply redirected_ok in H as [(-> & -> & _)|H]; auto. Qed.

Lemma body_sound : forall (seq : text -> res (list call * text)) t ps ops r,
  (forall t ops r, seq t = Ok (ops, r) -> OpSequence t ops r) ->
  pipeline_body seq t = Ok (ps, ops, r) ->
  Pipeline t ps ops r /\ exists x, next_token false r = Ok x.
Proof.
  intros seq t ps ops r IH H. unfold pipeline_body in H.
  apply bind_ok in H as (c1 & C1 & H). apply bind_ok in H as (c2 & C2 & H).
  apply bind_ok in H as ((ps' & t1) & V & H).
  apply bind_ok in H as ((ops' & t2) & BD & H). apply bind_ok in H as (x & NX & H). inv H.
  unfold pipeline_ops in BD. apply bind_ok in BD as (b3 & B3 & BD).
  split; [|eauto].
  assert (P : Params true t ps t1 /\ (ps = [] -> c1 = false /\ c2 = false /\ t1 = t)).
  { destruct c2.
    - assert (W : exists k r0 sep r', Reads false t k r0 /\ is_word k = true /\ Reads false r0 sep r' /\ (is_comma sep || is_colon sep)%bool = true).
      { destruct c1.
        - apply look2_true in C1 as (k & r0 & s & r' & ? & ? & ? & C). exists k, r0, s, r'. rewrite C. auto.
        - apply look2_true in C2 as (k & r0 & s & r' & ? & ? & ? & C). exists k, r0, s, r'. rewrite C, orb_true_r. auto. }
      destruct W as (k & r0 & s & r' & R & W & R2 & C). pose proof (vars_sound _ _ _ _ _ R W V) as VS.
      split; [eapply PSome; eauto|]. intros ->. now apply vars_nonempty in VS.
    - inv V. split; [constructor|]. intros _. destruct c1; [discriminate|auto]. }
  destruct P as [P PN]. econstructor; [exact P|].
  assert (CL : b3 = false -> clear (match ps with [] => false | _ => true end) t1).
  { intros ->. destruct ps as [|p ps].
    - destruct (PN eq_refl) as (-> & -> & ->). now apply clear_no_params.
    - eapply clear_params; eauto. }
  destruct b3.
  - apply look2_true in B3 as (k & r0 & k' & r' & R & W & R' & L). unfold Reads in R, R'.
    rewrite R in BD. cbn [bind] in BD. rewrite R' in BD. cbn [bind] in BD.
    apply bind_ok in BD as ([[gt t3]|] & G & BD).
    + apply tok1_some in G as [G GG]. apply bind_ok in BD as ([[target t4]|] & T & BD); [|discriminate].
      apply tok1_some in T as [T TT]. inv BD. rewrite <- reading_redirect, <- writing_redirect by auto.
      eapply BLtGt; eauto. econstructor; eauto.
    + apply bind_ok in BD as (e & PE & BD). destruct e.
      * inv BD. rewrite <- reading_redirect by auto. eapply BLt; eauto.
      * apply bind_ok in BD as ((ops1 & t3) & S & BD). apply redirect_again in BD as [(-> & ->)|(w & RD & ->)];
          rewrite <- reading_redirect by auto.
        -- eapply BLtSeq; eauto.
        -- cbn [app]. eapply BLtSeqGt; eauto.
  - apply bind_ok in BD as (b4 & B4 & BD). destruct b4.
    + apply redirected_ok in BD as [(-> & -> & L)|(w & RD & ->)]; [congruence|]. now apply BGt.
    + apply bind_ok in BD as ((ops1 & t3) & S & BD). apply redirect_again in BD as [(-> & ->)|(w & RD & ->)].
      * eapply BSeq; eauto.
      * eapply BSeqGt; eauto.
Qed.

Lemma sound : forall f,
  (forall t ps ops r, pipeline f t = Ok (ps, ops, r) -> Pipeline t ps ops r /\ exists x, next_token false r = Ok x) /\
  (forall t ops r, op_sequence f t = Ok (ops, r) -> OpSequence t ops r) /\
  (forall m t l r, arguments f m t = Ok (l, r) -> Args m t l r) /\
  (forall m t a r, argument f m t = Ok (Some (a, r)) -> Arg m t a r).
Proof.
  induction f as [|f (IP & IS & IAS & IA)]; [repeat split; intros; discriminate|]. split; [|split; [|split]].
  - intros. eapply body_sound; eauto.
  - intros t ops r H. change (sequence_body shell_args (arguments f) (op_sequence f) t = Ok (ops, r)) in H.
    unfold sequence_body in H. apply bind_ok in H as ((c & t1) & O & H).
    assert (OA : OpArgs t c t1).
    { unfold op_args in O. apply bind_ok in O as ([[k t2]|] & E & O).
      - apply tok1_some in E as [E EE]. inv O. now constructor.
      - apply bind_ok in O as ([[k t2]|] & W & O); [|discriminate]. apply tok1_some in W as [W WW].
        apply bind_ok in O as ((l & t3) & AR & O). inv O. econstructor; eauto. }
    apply bind_ok in H as ([[p t2]|] & P & H).
    + apply tok1_some in P as [P PP]. apply bind_ok in H as ((cs & t3) & S & H). inv H. eapply SeqMore; eauto.
    + inv H. now constructor.
  - intros m t l r H. change (arguments_body (argument f) (arguments f) m t = Ok (l, r)) in H.
    unfold arguments_body in H. apply bind_ok in H as ([[a t1]|] & A & H).
    + apply bind_ok in H as ((l' & t2) & AR & H). inv H. econstructor; eauto.
    + inv H. constructor.
  - intros m t a r H. change (argument_body (pipeline f) m t = Ok (Some (a, r))) in H.
    unfold argument_body in H. apply bind_ok in H as ([[b t1]|] & B & H).
    + destruct m; [discriminate|]. apply tok1_some in B as [B BB].
      apply bind_ok in H as (((ps & ops) & t2) & P & H). apply bind_ok in H as ([[e t3]|] & E & H); [|discriminate].
      apply tok1_some in E as [E EE]. inv H. eapply ArgPipe; eauto. eapply IP; eauto.
    + apply bind_ok in H as ([[k t1]|] & K & H); [|discriminate]. apply tok1_some in K as [K KK].
      destruct (missing_quote k) eqn:Q; inv H. now constructor.
Qed.

Lemma vars_shorter : forall lax t vs r, Vars lax t vs r -> length r < length t.
Proof.
  induction 1; repeat match goal with H : Reads _ _ _ _ |- _ => apply reads_shorter in H end; lia.
Qed.

Lemma params_shorter : forall lax t vs r, Params lax t vs r -> length r <= length t.
Proof. destruct 1; auto. apply vars_shorter in H3. lia. Qed.

Lemma redirect_shorter : forall t w r, Redirect t w r -> length r < length t.
Proof. destruct 1; repeat match goal with H : Reads _ _ _ _ |- _ => apply reads_shorter in H end; lia. Qed.

Lemma shorter :
  (forall m t a r, Arg m t a r -> length r < length t) /\
  (forall m t l r, Args m t l r -> length r <= length t) /\
  (forall t c r, OpArgs t c r -> length r < length t) /\
  (forall t ops r, OpSequence t ops r -> length r < length t) /\
  (forall t ps ops r, Pipeline t ps ops r -> length r <= length t) /\
  (forall p t ops r, Body p t ops r -> length r <= length t).
Proof.
  apply grammar_ind; intros;
    repeat match goal with
           | H : Reads _ _ _ _ |- _ => apply reads_shorter in H
           | H : Params _ _ _ _ |- _ => apply params_shorter in H
           | H : Redirect _ _ _ |- _ => apply redirect_shorter in H
           end; lia.
Qed.

Lemma tok1_no_fuel : forall m w t, tok1 m w t <> Fuel.
Proof.
  intros m w t. unfold tok1. pose proof (next_token_no_fuel m t). destruct (next_token m t) as [[[k r]|]| | |]; cbn; try easy.
Qed.

Lemma look2_no_fuel : forall a b t, look2 a b t <> Fuel.
Proof.
  intros a b t. unfold look2. pose proof (next_token_no_fuel false t). destruct (next_token false t) as [[[k r]|]| | |]; cbn; try easy.
  pose proof (next_token_no_fuel false r). destruct (next_token false r) as [[[k' r']|]| | |]; cbn; easy.
Qed.

Lemma redirected_no_fuel : forall ops t, redirected ops t <> Fuel.
Proof.
  intros ops t. unfold redirected. pose proof (look2_no_fuel is_gt is_word t).
  destruct (look2 is_gt is_word t) as [[|]| | |]; cbn; try easy.
  pose proof (next_token_no_fuel false t). destruct (next_token false t) as [[[k r]|]| | |]; cbn; try easy.
  pose proof (next_token_no_fuel false r). destruct (next_token false r) as [[[k' r']|]| | |]; cbn; easy.
Qed.

Lemma bind_no_fuel : forall A B (r : res A) (f : A -> res B),
  r <> Fuel -> (forall a, r = Ok a -> f a <> Fuel) -> bind r f <> Fuel.
Proof. intros A B [a| | |] f N H; cbn; try easy. now apply H. Qed.

Lemma vars_no_fuel : forall t, vars t <> Fuel.
Proof.
  intros t. unfold vars. apply bind_no_fuel; [apply next_token_no_fuel|].
  intros [[k r]|] E; [|easy]. apply vars_loop_fuel. apply reads_shorter in E. lia.
Qed.

Ltac nofuel :=
  repeat first
    [ discriminate
    | apply tok1_no_fuel | apply look2_no_fuel | apply next_token_no_fuel | apply redirected_no_fuel | apply vars_no_fuel
    | match goal with
      | |- bind _ _ <> Fuel => apply bind_no_fuel; [|intros ? ?]
      | |- (match ?x with _ => _ end) <> Fuel => destruct x eqn:?
      end ].

Lemma pipeline_body_no_fuel : forall seq t,
  (forall t1, length t1 <= length t -> seq t1 <> Fuel) -> pipeline_body seq t <> Fuel.
Proof.
  intros seq t HS. unfold pipeline_body.
  apply bind_no_fuel; [apply look2_no_fuel|]. intros c1 C1.
  apply bind_no_fuel; [nofuel|]. intros c2 C2.
  apply bind_no_fuel; [nofuel|]. intros (ps & t1) V.
  assert (L1 : length t1 <= length t).
  { destruct c2.
    - assert (W : exists k r0, Reads false t k r0 /\ is_word k = true).
      { destruct c1; [apply look2_true in C1 as (k & r0 & ? & ? & ? & ? & _)|apply look2_true in C2 as (k & r0 & ? & ? & ? & ? & _)]; eauto. }
      destruct W as (k & r0 & R & W). pose proof (vars_sound _ _ _ _ _ R W V) as VS. apply vars_shorter in VS. lia.
    - inv V. auto. }
  apply bind_no_fuel.
  - unfold pipeline_ops. apply bind_no_fuel; [apply look2_no_fuel|]. intros b3 B3. destruct b3.
    + apply bind_no_fuel; [apply next_token_no_fuel|]. intros [[s t2]|] E2; [|easy]. apply reads_shorter in E2.
      apply bind_no_fuel; [apply next_token_no_fuel|]. intros [[l t3]|] E3; [|easy]. apply reads_shorter in E3.
      apply bind_no_fuel; [apply tok1_no_fuel|]. intros [[g t4]|] E4; [nofuel|].
      apply bind_no_fuel; [unfold pipeline_end; nofuel|]. intros [|] E5; [easy|].
      apply bind_no_fuel; [apply HS; lia|]. intros (? & ?) ?. apply redirected_no_fuel.
    + apply bind_no_fuel; [apply look2_no_fuel|]. intros [|] B4; [apply redirected_no_fuel|].
      apply bind_no_fuel; [now apply HS|]. intros (? & ?) ?. apply redirected_no_fuel.
  - intros (ops & t2) _. nofuel.
Qed.

Lemma fuel_enough : forall f,
  (forall t, 4 * length t + 4 <= f -> pipeline f t <> Fuel) /\
  (forall t, 4 * length t + 3 <= f -> op_sequence f t <> Fuel) /\
  (forall m t, 4 * length t + 2 <= f -> arguments f m t <> Fuel) /\
  (forall m t, 4 * length t + 1 <= f -> argument f m t <> Fuel).
Proof.
  induction f as [|f (IP & IS & IAS & IA)]; [repeat split; intros; lia|]. split; [|split; [|split]].
  - intros t L. apply pipeline_body_no_fuel. intros t1 L1. apply IS. lia.
  - intros t L. change (sequence_body shell_args (arguments f) (op_sequence f) t <> Fuel). unfold sequence_body.
    apply bind_no_fuel.
    + unfold op_args. apply bind_no_fuel; [apply tok1_no_fuel|]. intros [[k t1]|] E; [easy|].
      apply bind_no_fuel; [apply tok1_no_fuel|]. intros [[k t1]|] E1; [|easy]. apply tok1_some in E1 as [E1 _].
      apply reads_shorter in E1. apply bind_no_fuel; [apply IAS; lia|]. intros (? & ?) ?. easy.
    + intros (c & t1) O. apply bind_no_fuel; [apply tok1_no_fuel|]. intros [[p t2]|] P; [|easy].
      apply tok1_some in P as [P _]. apply reads_shorter in P.
      assert (L1 : length t1 <= length t).
      { unfold op_args in O. apply bind_ok in O as ([[k t3]|] & E & O).
        - inv O. apply tok1_some in E as [E _]. apply reads_shorter in E. lia.
        - apply bind_ok in O as ([[k t3]|] & W & O); [|discriminate]. apply tok1_some in W as [W _]. apply reads_shorter in W.
          apply bind_ok in O as ((l & t4) & AR & O). inv O. apply sound in AR. apply shorter in AR. lia. }
      apply bind_no_fuel; [apply IS; lia|]. intros (? & ?) ?. easy.
  - intros m t L. change (arguments_body (argument f) (arguments f) m t <> Fuel). unfold arguments_body.
    apply bind_no_fuel; [apply IA; lia|]. intros [[a t1]|] A; [|easy].
    apply sound in A. apply shorter in A.
    apply bind_no_fuel; [apply IAS; lia|]. intros (? & ?) ?. easy.
  - intros m t L. change (argument_body (pipeline f) m t <> Fuel). unfold argument_body.
    apply bind_no_fuel; [nofuel|]. intros [[b t1]|] B; [|nofuel]. destruct m; [discriminate|].
    apply tok1_some in B as [B _]. apply reads_shorter in B. apply bind_no_fuel; [apply IP; lia|].
    intros ((? & ?) & ?) ?. nofuel.
Qed.

(** The parser's own amount of fuel gives what any amount gives. *)
Lemma pipeline_any : forall f g t x, pipeline f t = Ok x -> 4 * length t + 4 <= g -> pipeline g t = Ok x.
Proof.
  intros f g t x H L. pose proof (proj1 (fuel_enough g) t L) as N.
  destruct (Nat.le_ge_cases f g) as [F|F].
  - pose proof (proj1 (fuel_mono shell_args f g F) t) as R. rewrite R; auto. rewrite H. discriminate.
  - pose proof (proj1 (fuel_mono shell_args g f F) t) as R. rewrite R in H; auto.
Qed.

Lemma argument_any : forall f g m t x, argument f m t = Ok x -> 4 * length t + 1 <= g -> argument g m t = Ok x.
Proof.
  intros f g m t x H L. pose proof (proj2 (proj2 (proj2 (fuel_enough g))) m t L) as N.
  destruct (Nat.le_ge_cases f g) as [F|F].
  - pose proof (proj2 (proj2 (proj2 (fuel_mono shell_args f g F))) m t) as R. rewrite R; auto. rewrite H. discriminate.
  - pose proof (proj2 (proj2 (proj2 (fuel_mono shell_args g f F))) m t) as R. rewrite R in H; auto.
Qed.
End Sound.
