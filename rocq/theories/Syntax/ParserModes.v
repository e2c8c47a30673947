(** A token read otherwise than as an argument of a shell is no longer than the argument. *)
From Verif.Syntax Require Import LexerFacts ParserSpec ParserFacts.
Local Open Scope char_scope.
Local Open Scope list_scope.

Definition only_marcel (c : ascii) : Prop := c = "=" \/ c = "#" \/ c = "," \/ c = ":".

Lemma terms : forall c, shell_term c = true -> marcel_term c = true.
Proof.
  intros c. unfold shell_term, marcel_term. cbn [existsb]. rewrite !orb_true_iff. tauto.
Qed.
Lemma terms_only : forall c, marcel_term c = true -> shell_term c = false -> only_marcel c.
Proof.
  intros c. unfold shell_term, marcel_term, only_marcel. cbn [existsb]. intros M S.
  repeat (apply orb_false_iff in S as [? S]).
  repeat (apply orb_true_iff in M as [M|M]); try congruence; apply Ascii.eqb_eq in M; auto.
Qed.

Lemma scan_modes : forall n t q cs1 r1 cs2 r2, length t <= n ->
  scan_string shell_term q t = Ok (cs1, r1) -> scan_string marcel_term q t = Ok (cs2, r2) ->
  (r1 = r2 /\ cs1 = cs2) \/ (length r1 < length r2 /\ exists c r, r2 = c :: r /\ only_marcel c).
Proof.
  induction n as [|n IH]; intros t q cs1 r1 cs2 r2 L H1 H2.
  - destruct t; [|cbn in L; lia]. cbn in *. inv H1. inv H2. auto.
  - destruct t as [|c t]; [cbn in *; inv H1; inv H2; auto|]. cbn in L.
    assert (SC : forall l t' q', length t' <= n -> scons l (scan_string shell_term q' t') = Ok (cs1, r1) ->
      scons l (scan_string marcel_term q' t') = Ok (cs2, r2) ->
      (r1 = r2 /\ cs1 = cs2) \/ (length r1 < length r2 /\ exists c r, r2 = c :: r /\ only_marcel c)).
    { intros l t' q' L' S1 S2. apply scons_ok in S1 as (x1 & S1 & ->). apply scons_ok in S2 as (x2 & S2 & ->).
      destruct (IH _ _ _ _ _ _ L' S1 S2) as [[-> ->]|D]; auto. }
    cbn [scan_string] in H1, H2.
    destruct (isspace c) eqn:SP; cbn [orb] in H1, H2.
    { destruct q; [eapply SC; eauto; lia|]. inv H1. inv H2. auto. }
    destruct (marcel_term c) eqn:M; [destruct (shell_term c) eqn:S|].
    + destruct q; [eapply SC; eauto; lia|]. inv H1. inv H2. auto.
    + pose proof (terms_only c M S) as OM.
      assert (QB : is_quote c = false /\ (c =? bslash) = false) by (destruct OM as [->|[->|[->| ->]]]; auto).
      destruct QB as [Q B]. rewrite Q, B in H1. destruct q.
      * eapply SC; eauto. lia.
      * inv H2. right. apply scons_ok in H1 as (x1 & S1 & ->). apply scan_suffix in S1 as (p & -> & _).
        split; [cbn; rewrite app_length; lia|]. eauto.
    + assert (S : shell_term c = false) by (destruct (shell_term c) eqn:S; auto; apply terms in S; congruence).
      rewrite S in H1. destruct (is_quote c); [eapply SC; eauto; lia|].
      destruct (c =? bslash); [|eapply SC; eauto; lia].
      destruct q as [q|].
      * destruct (q =? squote); [eapply SC; eauto; lia|]. destruct t as [|d t]; [discriminate|]. cbn in L.
        destruct (d =? bslash); eapply SC; eauto; lia.
      * destruct t as [|d t]; [inv H1; inv H2; auto|]. cbn in L. eapply SC; eauto; lia.
Qed.

Lemma skip_ws_le : forall p y, length (skip_ws y) <= length (skip_ws (p ++ y)).
Proof.
  induction p as [|c p IH]; intros y; [auto|]. cbn [app skip_ws]. destruct (isspace c); auto.
  cbn [length]. rewrite app_length. enough (length (skip_ws y) <= length y) by lia.
  clear. induction y as [|c y IH]; cbn; auto. destruct (isspace c); cbn; lia.
Qed.

Lemma raw_modes : forall t k1 r1 k2 r2, raw_token true t = Ok (Some (k1, r1)) -> raw_token false t = Ok (Some (k2, r2)) ->
  (forall c r, t = c :: r -> isspace c = false) ->
  (r1 = r2 /\ consolidatable k1 = consolidatable k2) \/
  (consolidatable k2 = false /\ consolidatable k1 = false) \/
  (consolidatable k2 = false /\ consolidatable k1 = true /\ exists p, r2 = p ++ r1) \/
  (consolidatable k2 = true /\ consolidatable k1 = true /\ length r1 < length r2 /\ exists c r, r2 = c :: r /\ only_marcel c).
Proof.
  intros t k1 r1 k2 r2 H1 H2 NS. destruct t as [|c t]; [discriminate|].
  unfold raw_token in H1, H2. cbv iota zeta in H1, H2. cbn [negb andb] in H1, H2. cbv iota in H1, H2.
  remember (c :: t) as T.
  destruct (starts ["("; "|"] T) eqn:S1.
  { right. right. left. unfold symbol in H2. inv H2.
    assert (S0 : c = "(" /\ exists t', t = "|" :: t').
    { cbn [starts] in S1. destruct t as [|b t]; [rewrite andb_false_r in S1; discriminate|]. rewrite andb_true_r in S1.
      apply andb_true_iff in S1 as [A B]. apply Ascii.eqb_eq in A, B. subst. eauto. }
    destruct S0 as [-> [t' ->]]. change (starts ["("] ("(" :: "|" :: t')) with true in H1. cbv iota in H1.
    destruct (expression ("(" :: "|" :: t')) as [r| | |] eqn:EX; try discriminate. inv H1. split; auto. split; auto.
    unfold expression in EX. cbn in EX. apply escan_suffix in EX as (p & ->). exists p. reflexivity. }
  destruct (starts ["|"; ")"] T) eqn:S2.
  { right. left. unfold symbol in H2. inv H2. split; auto.
    assert (S0 : c = "|").
    { cbn [starts] in S2. apply andb_true_iff in S2 as [A _]. apply Ascii.eqb_eq in A. now subst. }
    subst c. cbn in H1. now inv H1. }
  destruct (starts ["("] T) eqn:S3.
  { destruct (expression T) as [r| | |]; try discriminate. inv H1. inv H2. left. auto. }
  destruct (starts [")"] T) eqn:S4; [discriminate|].
  destruct (starts ["|"] T) eqn:S5; [unfold symbol in *; inv H1; inv H2; auto|].
  assert (STR : forall kk a, starts [a] T = true -> symbol kk 1 T = Ok (Some (k2, r2)) -> consolidatable (mktok kk []) = false ->
     shell_term a = false -> is_quote a = false -> (a =? bslash) = false -> a <> "!" -> a <> "#" -> a <> ">" -> a <> "<" ->
     consolidatable k2 = false /\ consolidatable k1 = true /\ exists p, r2 = p ++ r1).
  { intros kk a S SY CK ST QA BA N1 N2 N3 N4. unfold symbol in SY. rewrite HeqT in S. cbn [starts] in S. rewrite andb_true_r in S. apply Ascii.eqb_eq in S. subst a.
    assert (EQB : forall x, x <> c -> forall r, starts (x :: r) T = false).
    { intros x NX r. rewrite HeqT. cbn [starts]. destruct (x =? c) eqn:Q; auto. apply Ascii.eqb_eq in Q. easy. }
    rewrite !EQB in H1 by congruence. injection SY as <- <-. split; [exact CK|].
    destruct (scan_string shell_term None T) as [[cs r]| | |] eqn:SC; try discriminate.
    destruct (literal cs); try discriminate. injection H1 as <- <-. split; auto. rewrite HeqT in SC. cbn [scan_string] in SC.
    rewrite (NS c t HeqT), ST, QA, BA in SC. cbn [orb] in SC. apply scons_ok in SC as (x & SC & _).
    apply scan_suffix in SC as (p & -> & _). exists p. rewrite HeqT. reflexivity. }
  destruct (starts ["@"] T) eqn:S6.
  { right. right. left. eapply STR; eauto; try reflexivity; discriminate. }
  destruct (starts ["!"] T) eqn:S7.
  { left. destruct (starts ["!"; "!"] T); unfold symbol in *; inv H1; inv H2; auto. }
  destruct (starts ["="] T) eqn:S8.
  { right. right. left. eapply STR; eauto; try reflexivity; discriminate. }
  destruct (starts [","] T) eqn:S9.
  { right. right. left. eapply STR; eauto; try reflexivity; discriminate. }
  destruct (starts [":"] T) eqn:S10.
  { right. right. left. eapply STR; eauto; try reflexivity; discriminate. }
  destruct (starts ["#"] T) eqn:S11; [discriminate|].
  repeat match type of H1 with
  | (if ?b then _ else _) = _ => destruct b; [unfold symbol in *; inv H1; inv H2; left; auto; fail|]
  end.
  destruct (scan_string shell_term None T) as [[cs1 x1]| | |] eqn:SC1; try discriminate.
  destruct (scan_string marcel_term None T) as [[cs2 x2]| | |] eqn:SC2; try discriminate.
  destruct (literal cs1); try discriminate. destruct (literal cs2); try discriminate. inv H1. inv H2.
  destruct (scan_modes _ _ _ _ _ _ _ (le_n _) SC1 SC2) as [[-> ->]|D]; auto.
  right. right. right. destruct D. auto.
Qed.

Lemma only_marcel_stops : forall c r k adj rest, only_marcel c -> unconsolidated false (c :: r) = Ok (Some (k, adj, rest)) ->
  consolidatable k = false.
Proof.
  intros c r k adj rest OM H. unfold unconsolidated in H.
  destruct OM as [->|[->|[->| ->]]]; cbn in H; inv H; reflexivity.
Qed.

Lemma gather_suffix : forall f m acc adj t ks r, gather f m acc adj t = Ok (ks, r) -> length r <= length t.
Proof.
  induction f as [|f IH]; intros m acc adj t ks r H; cbn [gather] in H; destruct adj; try discriminate; try (inv H; lia).
  destruct (unconsolidated m t) as [[[[k a] rest]|]| | |] eqn:U; try discriminate.
  destruct (consolidatable k); [|inv H; lia]. apply IH in H. apply unconsolidated_ok in U as (u & u' & _ & _ & -> & _).
  rewrite !app_length. lia.
Qed.

(** One piece *)
Lemma piece_modes : forall t k1 a1 r1 k2 a2 r2,
  unconsolidated true t = Ok (Some (k1, a1, r1)) -> unconsolidated false t = Ok (Some (k2, a2, r2)) ->
  (r1 = r2 /\ a1 = a2 /\ consolidatable k1 = consolidatable k2) \/
  (consolidatable k2 = false /\ consolidatable k1 = false) \/
  (consolidatable k2 = false /\ consolidatable k1 = true /\ length r1 <= length r2) \/
  (consolidatable k2 = true /\ consolidatable k1 = true /\ length r1 < length r2 /\ a2 = true /\ exists c r, r2 = c :: r /\ only_marcel c).
Proof.
  intros t k1 a1 r1 k2 a2 r2 H1 H2. unfold unconsolidated in *.
  destruct (raw_token true (skip_ws t)) as [[[x1 y1]|]| | |] eqn:R1; try discriminate.
  destruct (raw_token false (skip_ws t)) as [[[x2 y2]|]| | |] eqn:R2; try discriminate. inv H1. inv H2.
  destruct (raw_modes _ _ _ _ _ R1 R2) as [[-> Q]|[Q|[(Q1 & Q2 & p & ->)|(Q1 & Q2 & L & c & r & -> & OM)]]]; auto.
  - apply skip_ws_head.
  - right. right. left. split; auto. split; auto. apply skip_ws_le.
  - right. right. right. assert (SP : isspace c = false) by (destruct OM as [->|[->|[->| ->]]]; reflexivity).
    cbn [skip_ws]. rewrite SP. repeat split; auto; [|eauto].
    assert (LS : forall y, length (skip_ws y) <= length y).
    { clear. induction y as [|c y IH]; cbn; auto. destruct (isspace c); cbn; lia. }
    specialize (LS y1). lia.
Qed.

Lemma gather_modes : forall f1 f2 acc1 acc2 adj t ks1 r1 ks2 r2,
  gather f1 true acc1 adj t = Ok (ks1, r1) -> gather f2 false acc2 adj t = Ok (ks2, r2) -> length r1 <= length r2.
Proof.
  induction f1 as [|f1 IH]; intros f2 acc1 acc2 adj t ks1 r1 ks2 r2 H1 H2.
  - destruct adj; [discriminate|]. rewrite gather_false in *. inv H1. inv H2. auto.
  - destruct adj; [|rewrite gather_false in *; inv H1; inv H2; auto].
    destruct f2 as [|f2]; [discriminate|]. cbn [gather] in H1, H2.
    destruct (unconsolidated true t) as [[[[k1 a1] x1]|]| | |] eqn:U1; try discriminate.
    destruct (unconsolidated false t) as [[[[k2 a2] x2]|]| | |] eqn:U2; try discriminate.
    destruct (piece_modes _ _ _ _ _ _ _ U1 U2) as [(-> & -> & Q)|[(Q2 & Q1)|[(Q2 & Q1 & L)|(Q2 & Q1 & L & -> & c & r & -> & OM)]]].
    + rewrite Q in H1. destruct (consolidatable k2); [eapply IH; eauto|]. inv H1. inv H2. auto.
    + rewrite Q1 in H1. rewrite Q2 in H2. inv H1. inv H2. auto.
    + rewrite Q1 in H1. rewrite Q2 in H2. inv H2. apply gather_suffix in H1.
      apply unconsolidated_ok in U1 as (u & u' & _ & _ & -> & _). rewrite !app_length. lia.
    + rewrite Q1 in H1. rewrite Q2 in H2. apply gather_suffix in H1.
      destruct f2 as [|f2]; [discriminate|]. cbn [gather] in H2.
      destruct (unconsolidated false (c :: r)) as [[[[k3 a3] x3]|]| | |] eqn:U3; try discriminate.
      rewrite (only_marcel_stops _ _ _ _ _ OM U3) in H2. inv H2. lia.
Qed.

Lemma next_modes : forall t k1 r1 k2 r2, Reads true t k1 r1 -> Reads false t k2 r2 ->
  (is_word k1 || is_expr k1)%bool = true -> length r1 <= length r2.
Proof.
  intros t k1 r1 k2 r2 H1 H2 A. unfold Reads, next_token in *.
  destruct (unconsolidated true t) as [[[[x1 a1] y1]|]| | |] eqn:U1; try discriminate.
  destruct (unconsolidated false t) as [[[[x2 a2] y2]|]| | |] eqn:U2; try discriminate.
  destruct (gather (length y1) true [x1] (a1 && consolidatable x1) y1) as [[ks1 z1]| | |] eqn:G1; try discriminate.
  destruct (gather (length y2) false [x2] (a2 && consolidatable x2) y2) as [[ks2 z2]| | |] eqn:G2; try discriminate.
  assert (Z1 : z1 = r1) by (destruct ks1 as [|? [|? ?]]; try (match type of H1 with context [consolidate ?x] => destruct (consolidate x) end; try discriminate); clear - H1; inv H1; auto).
  assert (Z2 : z2 = r2) by (destruct ks2 as [|? [|? ?]]; try (match type of H2 with context [consolidate ?x] => destruct (consolidate x) end; try discriminate); clear - H2; inv H2; auto).
  subst z1 z2.
  destruct (piece_modes _ _ _ _ _ _ _ U1 U2) as [(-> & -> & Q)|[(Q2 & Q1)|[(Q2 & Q1 & L)|(Q2 & Q1 & L & -> & c & r & -> & OM)]]].
  - rewrite Q in G1. eapply gather_modes; eauto.
  - rewrite Q1, andb_false_r, gather_false in G1. inv G1. cbn in H1. inv H1.
    exfalso. unfold consolidatable, is_word, is_expr in *. destruct (tkind k1); discriminate.
  - rewrite Q2, andb_false_r, gather_false in G2. inv G2. apply gather_suffix in G1. lia.
  - rewrite Q2 in G2. cbn [andb] in G2. apply gather_suffix in G1. change (length (c :: r)) with (S (length r)) in G2.
    cbn [gather] in G2. destruct (unconsolidated false (c :: r)) as [[[[k3 a3] x3]|]| | |] eqn:U3; try discriminate.
    rewrite (only_marcel_stops _ _ _ _ _ OM U3) in G2. inv G2. lia.
Qed.
