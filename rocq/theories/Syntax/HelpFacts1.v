(** C59: markup. *)
From Coq Require Import Lia.
From Verif.Syntax Require Import HelpSpec.
Local Open Scope char_scope.
Local Open Scope list_scope.

(** ** Pointers *)
Lemma next_char : forall x b r, char_ok x ->
  next (mktp b (write_char x ++ r)) = (TChar (char_of x), mktp (rev (write_char x) ++ b) r).
Proof.
  intros [c|c] b r H; unfold next; cbn in *.
  - destruct H as (A & B & C). apply Ascii.eqb_neq in A, B, C. now rewrite A, B, C.
  - reflexivity.
Qed.
Lemma peek_char : forall x b r, char_ok x -> peek (mktp b (write_char x ++ r)) = TChar (char_of x).
Proof.
  intros [c|c] b r H; unfold peek; cbn in *.
  - destruct H as (A & B & C). apply Ascii.eqb_neq in A, B, C. now rewrite A, B, C.
  - reflexivity.
Qed.

Lemma htok_eqb_eq : forall a b, htok_eqb a b = true <-> a = b.
Proof.
  intros [| | |c] [| | |d]; cbn; split; intros H; try easy.
  - apply Ascii.eqb_eq in H. now subst.
  - inversion H. apply Ascii.eqb_refl.
Qed.
Lemma htok_eqb_neq : forall a b, a <> b -> htok_eqb a b = false.
Proof. intros a b H. destruct (htok_eqb a b) eqn:E; auto. now apply htok_eqb_eq in E. Qed.

Lemma next_shorter : forall p x q, next p = (x, q) -> x <> TEnd -> length (after q) < length (after p).
Proof.
  intros [b a] x q H N. unfold next in H. cbn in *. destruct a as [|c r]; [inversion H; subst; easy|].
  destruct (c =? obrace); [inversion H; subst; cbn; lia|]. destruct (c =? cbrace); [inversion H; subst; cbn; lia|].
  destruct (c =? bslash); [|inversion H; subst; cbn; lia].
  destruct r; inversion H; subst; cbn; [easy|lia].
Qed.

Lemma advance_fuel : forall n m c p, length (after p) <= n -> length (after p) <= m -> advance_loop n c p = advance_loop m c p.
Proof.
  induction n as [|n IH]; intros m c p A B.
  - assert (E : after p = []) by (destruct (after p); cbn in *; [easy|lia]).
    destruct m; cbn; unfold next; rewrite E; reflexivity.
  - destruct m as [|m].
    + assert (E : after p = []) by (destruct (after p); cbn in *; [easy|lia]). cbn. unfold next. rewrite E. reflexivity.
    + cbn. destruct (next p) as [x q] eqn:N. pose proof (next_shorter _ _ _ N) as S.
      destruct x; auto; destruct (htok_eqb _ c); auto; apply IH; assert (length (after q) < length (after p)) by (apply S; discriminate); lia.
Qed.

Lemma advance_step : forall c p x q, next p = (x, q) -> x <> TEnd -> x <> c -> advance_past c p = advance_past c q.
Proof.
  intros c p x q N E D. unfold advance_past. pose proof (next_shorter _ _ _ N E) as L.
  destruct (length (after p)) as [|n] eqn:Q; [lia|]. cbn [advance_loop]. rewrite N.
  destruct x; try easy; rewrite (htok_eqb_neq _ _ D); apply advance_fuel; lia.
Qed.
Lemma advance_found : forall c p q, next p = (c, q) -> c <> TEnd -> advance_past c p = q.
Proof.
  intros c p q N E. unfold advance_past. destruct (length (after p)); cbn [advance_loop]; rewrite N;
    assert (htok_eqb c c = true) by (now apply htok_eqb_eq); destruct c; try easy; now rewrite H.
Qed.
Lemma advance_at_end : forall c b, advance_past c (mktp b []) = mktp b [].
Proof. reflexivity. Qed.

Lemma advance_chars : forall l c b r, Forall char_ok l -> (forall x, In x l -> TChar (char_of x) <> c) ->
  advance_past c (mktp b (flat_map write_char l ++ r)) = advance_past c (mktp (rev (flat_map write_char l) ++ b) r).
Proof.
  induction l as [|x l IH]; intros c b r F N; [reflexivity|]. inversion F as [|y z Y Z]; subst. cbn [flat_map].
  rewrite <- app_assoc. rewrite (advance_step _ _ _ _ (next_char x b _ Y)); [|discriminate|apply N; now left].
  rewrite IH; auto; [|intros; apply N; now right]. now rewrite rev_app_distr, app_assoc.
Qed.

(** A text with no special characters. *)
Definition clean (t : text) : Prop := Forall (fun c => c <> obrace /\ c <> cbrace /\ c <> bslash) t.
Lemma clean_chars : forall t, clean t -> Forall char_ok (map Raw t).
Proof. intros t C. unfold clean in C. rewrite Forall_forall in C. apply Forall_forall. intros x I. apply in_map_iff in I. destruct I as (c & <- & I). now apply C. Qed.
Lemma write_raw : forall t, flat_map write_char (map Raw t) = t.
Proof. induction t; cbn; congruence. Qed.
Lemma advance_clean : forall t c b r, clean t -> (forall x, In x t -> TChar x <> c) ->
  advance_past c (mktp b (t ++ r)) = advance_past c (mktp (rev t ++ b) r).
Proof.
  intros t c b r C N. pose proof (advance_chars (map Raw t) c b r (clean_chars _ C)) as H. rewrite write_raw in H. apply H.
  intros x I. apply in_map_iff in I. destruct I as (d & <- & I). now apply N.
Qed.

Lemma contents_to_app : forall b t r b', length b' = length t + length b -> contents_to (mktp b (t ++ r)) (mktp b' r) = t.
Proof.
  intros b t r b' H. unfold contents_to. cbn. replace (length b' - length b) with (length t) by lia.
  rewrite firstn_app, firstn_all. replace (length t - length t) with 0 by lia. cbn. now rewrite app_nil_r.
Qed.

(** ** Text markup *)
Lemma lower_flag : forall x, In x ["b"; "B"; "i"; "I"] ->
  (lower x =? "b") = ((x =? "b") || (x =? "B")) /\ (lower x =? "i") = ((x =? "i") || (x =? "I")) /\
  x <> obrace /\ x <> cbrace /\ x <> bslash /\ x <> colon.
Proof. cbn. intros x I. repeat destruct I as [<-|I]; try easy; (split; [reflexivity|]; split; [reflexivity|]; repeat split; discriminate). Qed.

Lemma style_flags_ok : forall fl bi, Forall (fun x => In x ["b"; "B"; "i"; "I"]) fl ->
  style_flags fl bi = HOk (fst bi || existsb (fun x => (x =? "b") || (x =? "B")) fl,
                           snd bi || existsb (fun x => (x =? "i") || (x =? "I")) fl).
Proof.
  induction fl as [|x fl IH]; intros [b i] F; cbn; [now rewrite !orb_false_r|].
  inversion F as [|y z Y Z]; subst. destruct (lower_flag x Y) as (A & B & _). rewrite A, B. cbn in Y.
  repeat destruct Y as [<-|Y]; try easy; cbn; rewrite IH; auto; cbn; now rewrite ?orb_true_r, ?orb_assoc.
Qed.

Lemma digit_cases : forall d, d < 6 -> exists c, ascii_of_nat (48 + d) = c /\ digit_value c = Some d /\
  c <> obrace /\ c <> cbrace /\ c <> bslash /\ c <> colon.
Proof.
  intros d H. do 6 (destruct d as [|d]; [eexists; split; [reflexivity|]; repeat split; discriminate|]). lia.
Qed.

Lemma next_raw : forall c b r, c <> obrace -> c <> cbrace -> c <> bslash -> next (mktp b (c :: r)) = (TChar c, mktp (c :: b) r).
Proof. intros c b r A B C. apply (next_char (Raw c) b r). now repeat split. Qed.

Lemma formatting_ok : forall code s b r, style_code code s ->
  formatting (mktp b (obrace :: code ++ colon :: r)) = HOk (s, mktp (colon :: rev code ++ obrace :: b) r).
Proof.
  intros code s b r H. destruct H; try reflexivity.
  rename H into Hc. destruct (digit_cases r0) as (d1 & -> & V1 & X1 & X2 & X3 & X4); auto.
  destruct (digit_cases g) as (d2 & -> & V2 & Y1 & Y2 & Y3 & Y4); auto. destruct (digit_cases b0) as (d3 & -> & V3 & Z1 & Z2 & Z3 & Z4); auto.
  assert (Hn : next (mktp b (obrace :: (c :: d1 :: d2 :: d3 :: flags) ++ colon :: r)) =
    (MOpen, mktp (obrace :: b) ((c :: d1 :: d2 :: d3 :: flags) ++ colon :: r))) by reflexivity.
  unfold formatting. rewrite Hn. clear Hn.
  assert (Lc : lower c = "c") by (cbn in Hc; repeat destruct Hc as [<-|Hc]; try easy; reflexivity).
  cbn [app]. rewrite next_raw; try (cbn in Hc; repeat destruct Hc as [<-|Hc]; try easy; discriminate).
  rewrite Lc. cbn [Ascii.eqb Bool.eqb].
  change ("c" =? "r") with false. change ("c" =? "b") with false. change ("c" =? "i") with false. change ("c" =? "n") with false. change ("c" =? "c") with true. cbv iota zeta.
  rewrite next_raw; auto. rewrite next_raw; auto. rewrite next_raw; auto. cbn [int_of_tok]. rewrite V1, V2, V3. cbn [option_map].
  assert (Cl : clean flags). { unfold clean. eapply Forall_impl; [|exact H4]. intros x I. destruct (lower_flag x I) as (_ & _ & P & Q & R & _). auto. }
  set (bb := d3 :: d2 :: d1 :: c :: obrace :: b).
  assert (AT : advance_to (TChar colon) (mktp bb (flags ++ colon :: r)) = Some (mktp (rev flags ++ bb) (colon :: r))).
  { unfold advance_to. rewrite advance_clean; auto.
    2:{ intros x I E. rewrite Forall_forall in H4. specialize (H4 x I). destruct (lower_flag x H4) as (_ & _ & _ & _ & _ & P). congruence. }
    erewrite advance_found; [|apply next_raw; discriminate|discriminate]. unfold backup. cbn [before after].
    destruct (rev flags) as [|f fs] eqn:RF; cbn [app].
    - unfold bb. apply Ascii.eqb_neq in Z3. now rewrite Z3.
    - assert (NF : f <> bslash). { rewrite Forall_forall in H4. assert (I : In f flags) by (apply in_rev; rewrite RF; now left). destruct (lower_flag f (H4 f I)) as (_ & _ & _ & _ & P & _). auto. }
      apply Ascii.eqb_neq in NF. now rewrite NF. }
  rewrite AT. rewrite contents_to_app by (rewrite app_length, rev_length; lia).
  destruct (2 <? length flags)%nat eqn:E2; [apply Nat.ltb_lt in E2; lia|]. rewrite style_flags_ok; auto. cbn [hbind fst snd orb].
  rewrite next_raw by discriminate. cbn [snd]. unfold bb. cbn [rev]. rewrite <- !app_assoc. reflexivity.
Qed.

Lemma markup_content_ok : forall l fuel c b r, Forall char_ok l -> length (flat_map write_char l) < fuel ->
  markup_content fuel c (mktp b (flat_map write_char l ++ cbrace :: r)) =
  HOk (c ++ map char_of l, mktp (cbrace :: rev (flat_map write_char l) ++ b) r).
Proof.
  induction l as [|x l IH]; intros fuel c b r F L.
  - destruct fuel; cbn in *; [lia|]. now rewrite app_nil_r.
  - inversion F as [|y z Y Z]; subst. destruct fuel as [|f]; [lia|]. cbn [markup_content flat_map]. rewrite <- app_assoc.
    unfold at_end. destruct (after _) as [|a0 a1] eqn:A. { cbn in A. destruct x; discriminate. }
    rewrite next_char by auto. rewrite IH; auto. 2:{ cbn [flat_map] in L. rewrite app_length in L. assert (1 <= length (write_char x)) by (destruct x; cbn; lia). lia. }
    cbn [map]. rewrite <- app_assoc. cbn [app]. rewrite rev_app_distr, <- app_assoc. reflexivity.
Qed.

(** ** The text and the marks of a written text *)
Fixpoint marks_of (count : nat) (b : list piece) : list mark :=
  match b with
  | [] => []
  | Ch x :: r => marks_of (if isspace (char_of x) then count else S count) r
  | Styled _ s content :: r =>
    let k := length (nonws (map char_of content)) in mkmark count k s :: marks_of (count + k) r
  end.

Lemma map_show_styled : forall s l, plain (map (fun x => (char_of x, Some s)) l) = map char_of l.
Proof. intros s l. unfold plain. rewrite map_map. reflexivity. Qed.

Lemma remove_markup_ok : forall l fuel b count pl ms, Forall piece_ok l -> length (write l) < fuel ->
  remove_markup fuel (mktp b (write l)) count pl ms = HOk (pl ++ plain (show l), ms ++ marks_of count l).
Proof.
  induction l as [|p l IH]; intros fuel b count pl ms F L.
  - destruct fuel; cbn in *; [lia|]. now rewrite !app_nil_r.
  - inversion F as [|y z Y Z]; subst. destruct fuel as [|f]; [lia|]. cbn [write flat_map] in *. fold (write l) in *.
    rewrite app_length in L. cbn [remove_markup]. destruct p as [x|code s content].
    + cbn [write_piece] in *. assert (1 <= length (write_char x)) by (destruct x; cbn; lia).
      unfold at_end. destruct (after _) as [|a0 a1] eqn:A. { cbn in A. destruct x; discriminate. } clear A a0 a1.
      rewrite peek_char by auto. rewrite next_char by auto. cbn [snd]. rewrite IH; auto; [|lia].
      cbn [show flat_map show_piece marks_of plain map app fst]. now rewrite <- app_assoc.
    + destruct Y as (Sc & Fc & _). cbn [write_piece] in *. unfold at_end. cbn [after app].
      unfold peek. cbn [after]. change (obrace =? obrace) with true. cbv iota.
      unfold text_markup.
      assert (EQ : obrace :: (code ++ colon :: flat_map write_char content ++ [cbrace]) ++ write l =
                   obrace :: code ++ colon :: (flat_map write_char content ++ cbrace :: write l)).
      { rewrite <- app_assoc. cbn. rewrite <- app_assoc. reflexivity. }
      rewrite EQ. rewrite (formatting_ok _ _ b _ Sc). cbn [hbind]. rewrite markup_content_ok; auto.
      2:{ cbn [after]. rewrite app_length. cbn. lia. }
      cbn [hbind app marked]. rewrite IH; auto.
      2:{ cbn [length] in L. rewrite ?app_length in L. cbn [length] in L. rewrite ?app_length in L. cbn in L. lia. }
      cbn [show flat_map show_piece marks_of]. unfold plain. rewrite map_app, map_map, <- !app_assoc. reflexivity.
Qed.

(** ** Applying the marks *)
Inductive marked_as : nat -> shown -> list mark -> Prop :=
| marked_none : forall n a, marked_as n (map (fun c => (c, None)) a) []
| marked_some : forall n a m s A ms, m <> [] -> marked_as (n + length a + length m) A ms ->
    marked_as n (map (fun c => (c, None)) a ++ map (fun c => (c, Some s)) m ++ A) (mkmark (n + length a) (length m) s :: ms).

Lemma ink_app : forall a b, ink (a ++ b) = ink a ++ ink b.
Proof. intros. apply filter_app. Qed.
Lemma nonws_app : forall a b, nonws (a ++ b) = nonws a ++ nonws b.
Proof. intros. apply filter_app. Qed.
Lemma ink_map : forall (s : option style) t, ink (map (fun c => (c, s)) t) = map (fun c => (c, s)) (nonws t).
Proof. intros s. induction t as [|c t IH]; [reflexivity|]. cbn. destruct (isspace c); cbn; [auto|f_equal; auto]. Qed.
Lemma plain_ink : forall s, plain (ink s) = nonws (plain s).
Proof. induction s as [|[c x] s IH]; [reflexivity|]. unfold plain, ink, nonws in *. cbn. destruct (isspace c); cbn; auto. now f_equal. Qed.

Lemma marked_shift : forall n x A ms, isspace x = false -> marked_as (S n) A ms -> marked_as n ((x, None) :: A) ms.
Proof.
  intros n x A ms Sx H. inversion H as [k a|k a m s A' ms' Nm Hm]; subst.
  - apply (marked_none n (x :: a)).
  - change ((x, None) :: map (fun c => (c, None)) a ++ map (fun c => (c, Some s)) m ++ A') with
      (map (fun c => (c, @None style)) (x :: a) ++ map (fun c => (c, Some s)) m ++ A').
    replace (S n + length a) with (n + length (x :: a)) by (cbn; lia). apply marked_some; auto.
    replace (n + length (x :: a) + length m) with (S n + length a + length m) by (cbn; lia). auto.
Qed.
Lemma marks_of_marked : forall l n, Forall piece_ok l -> marked_as n (ink (show l)) (marks_of n l).
Proof.
  induction l as [|p l IH]; intros n F; [apply (marked_none n [])|]. inversion F as [|y z Y Z]; subst.
  destruct p as [x|code s content].
  - cbn [show flat_map show_piece marks_of app]. cbn [ink filter fst]. destruct (isspace (char_of x)) eqn:E; cbn [negb]; auto.
    apply marked_shift; auto.
  - destruct Y as (_ & _ & NE & _). cbn [show flat_map marks_of]. rewrite ink_app.
    assert (E : ink (show_piece (Styled code s content)) = map (fun c => (c, Some s)) (nonws (map char_of content))).
    { rewrite <- ink_map, map_map. reflexivity. }
    rewrite E in *. pose proof (marked_some n [] (nonws (map char_of content)) s (ink (show l)) (marks_of (n + length (nonws (map char_of content))) l)) as M.
    cbn [length map app] in M. rewrite Nat.add_0_r in M. apply M; [|now apply IH]. intros Q. now rewrite Q in NE.
Qed.

Lemma take_nonws_ok : forall t k a r, nonws t = a ++ r -> length a = k ->
  exists x y, take_nonws k t = Some (x, y) /\ t = x ++ y /\ nonws x = a /\ nonws y = r.
Proof.
  induction t as [|c t IH]; intros k a r E L.
  - cbn in E. symmetry in E. apply app_eq_nil in E. destruct E; subst. cbn. exists [], []. auto.
  - destruct k as [|k].
    + destruct a; [|discriminate]. cbn. exists [], (c :: t). cbn in E. auto.
    + cbn [take_nonws]. cbn in E. destruct (isspace c) eqn:Sc; cbn in E.
      * destruct (IH (S k) a r E L) as (x & y & -> & -> & X & Y). exists (c :: x), y. repeat split; auto. cbn. now rewrite Sc.
      * destruct a as [|d a]; [discriminate|]. inversion E; subst. destruct (IH k a r H1) as (x & y & -> & -> & X & Y); [cbn in L; lia|].
        exists (d :: x), y. repeat split; auto. cbn. rewrite Sc. cbn. now f_equal.
Qed.
Lemma take_ws_ok : forall t, nonws t <> [] -> exists x y, take_ws t = Some (x, y) /\ t = x ++ y /\ nonws x = [] /\ nonws y = nonws t.
Proof.
  induction t as [|c t IH]; intros N; [easy|]. cbn in *. destruct (isspace c) eqn:Sc; cbn in *.
  - destruct (IH N) as (x & y & -> & -> & X & Y). exists (c :: x), y. rewrite Y. repeat split; auto. cbn. now rewrite Sc.
  - exists [], (c :: t). cbn. rewrite Sc. auto.
Qed.

Lemma format_marks_ok : forall n A ms, marked_as n A ms -> forall t, nonws t = plain A ->
  exists out, format_marks t n ms = HOk out /\ plain (seen out) = t /\ ink (seen out) = A.
Proof.
  intros n A ms H. induction H as [n a|n a m s A ms Nm H IH]; intros t E.
  - unfold plain in E. rewrite map_map in E. cbn in E. rewrite map_id in E. subst a. destruct t as [|c t].
    + exists []. auto.
    + exists [(None, c :: t)]. cbn [format_marks]. split; auto. cbn [seen flat_map fst snd]. rewrite app_nil_r. split.
      * unfold plain. rewrite map_map. cbn. f_equal. apply map_id.
      * apply ink_map.
  - assert (E' : nonws t = a ++ m ++ plain A).
    { rewrite E. unfold plain. rewrite !map_app, !map_map. cbn. now rewrite !map_id. }
    clear E. destruct t as [|c0 t0]. { cbn in E'. symmetry in E'. apply app_eq_nil in E'. destruct E' as [_ E']. apply app_eq_nil in E'. tauto. }
    set (t := c0 :: t0) in *. unfold t at 1. cbn [format_marks]. fold t. cbn [preceding marked mstyle].
    replace (n + length a - n) with (length a) by lia.
    destruct (take_nonws_ok t (length a) a _ E' eq_refl) as (x1 & y1 & -> & -> & X1 & Y1).
    destruct (take_ws_ok y1) as (x2 & y2 & -> & -> & X2 & Y2). { rewrite Y1. intros Q. apply app_eq_nil in Q. tauto. }
    rewrite Y1 in Y2. destruct (take_nonws_ok y2 (length m) m _ Y2 eq_refl) as (x3 & y3 & -> & -> & X3 & Y3).
    replace (max n (n + length a) + length m) with (n + length a + length m) by lia.
    destruct (IH y3 Y3) as (out & -> & P & I). cbn [hbind]. eexists. split; [reflexivity|].
    cbn [seen flat_map fst snd]. fold (seen out). split.
    + unfold plain in *. rewrite !map_app, P, !map_map. cbn. rewrite !map_id. reflexivity.
    + rewrite !ink_app, !ink_map, X1, X2, X3, I. reflexivity.
Qed.
