(** C59: explicit paragraphs. *)
From Coq Require Import Lia.
From Verif.Syntax Require Import HelpSpec HelpFacts1 HelpFacts2 HelpFacts3 ScriptsProps.
Local Open Scope char_scope.
Local Open Scope list_scope.

(** ** Paragraph markup *)
Lemma split_on_none : forall s t, ~ In s t -> split_on s t = [t].
Proof.
  intros s. induction t as [|c t IH]; intros N; [reflexivity|]. cbn. destruct (c =? s) eqn:E.
  - apply Ascii.eqb_eq in E. exfalso. apply N. now left.
  - rewrite IH; [reflexivity|]. intros I. apply N. now right.
Qed.
Lemma split_on_app : forall s a t, ~ In s a -> split_on s (a ++ s :: t) = a :: split_on s t.
Proof.
  intros s. induction a as [|c a IH]; intros t N; cbn.
  - now rewrite Ascii.eqb_refl.
  - destruct (c =? s) eqn:E; [apply Ascii.eqb_eq in E; exfalso; apply N; now left|]. rewrite IH; [reflexivity|]. intros I. apply N. now right.
Qed.

Lemma digit_char : forall d, (d < 10)%nat -> exists c, ascii_of_nat (48 + d) = c /\ digit_value c = Some d /\
  c <> "," /\ c <> "=" /\ c <> ":" /\ c <> obrace /\ c <> cbrace /\ c <> bslash.
Proof. intros d H. do 10 (destruct d as [|d]; [eexists; split; [reflexivity|]; repeat split; discriminate|]). lia. Qed.

Lemma digits_in : forall ds x, digits_ok ds -> In x (digits ds) -> exists d, (d < 10)%nat /\ x = ascii_of_nat (48 + d).
Proof. intros ds x (_ & F) I. apply in_map_iff in I. destruct I as (d & <- & I). rewrite Forall_forall in F. eauto. Qed.
Lemma digits_not : forall ds, digits_ok ds -> forall x, In x ["," ; "="; ":"; obrace; cbrace; bslash] -> ~ In x (digits ds).
Proof.
  intros ds O x Ix I. destruct (digits_in ds x O I) as (d & L & ->). destruct (digit_char d L) as (c & E & _ & H). rewrite E in Ix.
  cbn in Ix. intuition congruence.
Qed.
Lemma digits_value_ok : forall ds acc, Forall (fun d => (d < 10)%nat) ds ->
  digits_value acc (digits ds) = Some (fold_left (fun a d => 10 * a + d)%nat ds acc).
Proof.
  induction ds as [|d ds IH]; intros acc F; [reflexivity|]. inversion F; subst. cbn [digits map]. destruct (digit_char d) as (c & E & V & _); auto.
  rewrite E. cbn [digits_value]. rewrite V. rewrite IH by auto. reflexivity.
Qed.
Lemma int_of_digits : forall ds, digits_ok ds -> int_of (digits ds) = Some (number ds).
Proof. intros ds (N & F). unfold int_of. destruct ds as [|d ds]; [easy|]. unfold digits at 1. cbn [map]. apply digits_value_ok. auto. Qed.

Definition apply_parg (f : pformat) (a : parg) : pformat :=
  match a with
  | PWrap => mkpf (indent1 f) (indent2 f) true
  | PWrapIs w => mkpf (indent1 f) (indent2 f) w
  | PIndent d => mkpf (number d) (number d) (wrap f)
  | PIndent2 d1 d2 => mkpf (number d1) (number d2) (wrap f)
  end.
Definition over (base : nat * nat) (s : option (nat * nat) * option bool) : pformat :=
  let '(i1, i2) := match fst s with Some ii => ii | None => base end in
  mkpf i1 i2 (match snd s with Some w => w | None => true end).

Lemma parse_part_ok : forall a s base, parg_ok a ->
  exists s', parse_part s (write_parg a) = HOk s' /\ over base s' = apply_parg (over base s) a.
Proof.
  intros a [i w] base O. destruct a as [|[|]|d|d1 d2].
  - eexists. split; [reflexivity|]. unfold over. cbn. destruct (match i with Some ii => ii | None => base end). reflexivity.
  - eexists. split; [reflexivity|]. unfold over. cbn. destruct (match i with Some ii => ii | None => base end). reflexivity.
  - eexists. split; [reflexivity|]. unfold over. cbn. destruct (match i with Some ii => ii | None => base end). reflexivity.
  - cbn [write_parg]. unfold parse_part. change (txt "indent=" ++ digits d) with (txt "indent" ++ "=" :: digits d).
    cbn in O. pose proof (digits_not d O) as N.
    rewrite split_on_app by (cbn; intuition discriminate). rewrite split_on_none by (apply N; cbn; auto).
    change (teqb (map lower (txt "indent")) (txt "indent")) with true. cbv iota.
    rewrite split_on_none by (apply N; cbn; auto). cbn [map]. rewrite int_of_digits by auto. eexists. split; [reflexivity|].
    unfold over. cbn. destruct (match i with Some ii => ii | None => base end). reflexivity.
  - cbn [write_parg]. unfold parse_part. change (txt "indent=" ++ digits d1 ++ colon :: digits d2) with (txt "indent" ++ "=" :: (digits d1 ++ colon :: digits d2)).
    cbn in O. destruct O as (O1 & O2). pose proof (digits_not d1 O1) as N1. pose proof (digits_not d2 O2) as N2.
    rewrite split_on_app by (cbn; intuition discriminate). rewrite split_on_none.
    2:{ intros I. apply in_app_iff in I. destruct I as [I|[I|I]]; [revert I; apply N1; cbn; auto|discriminate|revert I; apply N2; cbn; auto]. }
    change (teqb (map lower (txt "indent")) (txt "indent")) with true. cbv iota. unfold colon.
    rewrite split_on_app by (apply N1; cbn; auto). rewrite split_on_none by (apply N2; cbn; auto).
    cbn [map]. rewrite !int_of_digits by auto. eexists. split; [reflexivity|].
    unfold over. cbn. destruct (match i with Some ii => ii | None => base end). reflexivity.
Qed.
Lemma parse_parts_ok : forall l s base, Forall parg_ok l ->
  exists s', parse_parts s (map write_parg l) = HOk s' /\ over base s' = fold_left apply_parg l (over base s).
Proof.
  induction l as [|a l IH]; intros s base F; [exists s; auto|]. inversion F; subst. cbn [map parse_parts fold_left].
  destruct (parse_part_ok a s base) as (s1 & -> & E1); auto. cbn [hbind]. destruct (IH s1 base) as (s2 & -> & E2); auto. exists s2. now rewrite E2, E1.
Qed.

Lemma parg_no_comma : forall a x, parg_ok a -> In x [","; obrace; cbrace; bslash] -> ~ In x (write_parg a).
Proof.
  intros a x O Ix I. destruct a as [|[|]|d|d1 d2]; cbn [write_parg] in I.
  1-3: cbn in I, Ix; intuition (subst; discriminate).
  - apply in_app_iff in I. destruct I as [I|I]; [cbn in I, Ix; intuition (subst; discriminate)|]. revert I. apply digits_not; auto. cbn in *. intuition.
  - destruct O as (O1 & O2). apply in_app_iff in I. destruct I as [I|I]; [cbn in I, Ix; intuition (subst; discriminate)|].
    apply in_app_iff in I. destruct I as [I|[I|I]]; [revert I; apply digits_not; auto; cbn in *; intuition|cbn in Ix; intuition (subst; discriminate)|revert I; apply digits_not; auto; cbn in *; intuition].
Qed.
Lemma split_pargs : forall l a, ~ In "," a -> Forall parg_ok l ->
  split_on "," (a ++ flat_map (fun x => "," :: write_parg x) l) = a :: map write_parg l.
Proof.
  induction l as [|x l IH]; intros a N F; cbn [flat_map map].
  - rewrite app_nil_r. now apply split_on_none.
  - inversion F; subst. cbn [app]. rewrite split_on_app by auto. rewrite IH; auto. apply parg_no_comma; auto. cbn; auto.
Qed.

Lemma paragraph_markup_ok : forall m, Forall parg_ok (pargs m) -> paragraph_markup (write_pmark m) = HOk (pformat_of m).
Proof.
  intros m F. unfold paragraph_markup, write_pmark. cbv zeta. 
  set (body := code_char m :: flat_map (fun a => "," :: write_parg a) (pargs m)).
  change (obrace :: code_char m :: flat_map (fun a => "," :: write_parg a) (pargs m) ++ [cbrace]) with (obrace :: (body ++ [cbrace])).
  assert (L : last (obrace :: body ++ [cbrace]) obrace = cbrace) by (rewrite app_comm_cons; apply last_last).
  rewrite L. change (obrace =? obrace) with true. change (cbrace =? cbrace) with true. cbn [andb negb tl]. rewrite removelast_last. unfold body.
  change (code_char m :: flat_map (fun a => "," :: write_parg a) (pargs m)) with ([code_char m] ++ flat_map (fun a => "," :: write_parg a) (pargs m)).
  rewrite split_pargs; auto. 2:{ unfold code_char. destruct (is_list m), (upper m); cbn; intuition discriminate. }
  set (base := if is_list m then (4, 6) else (0, 0)).
  destruct (parse_parts_ok (pargs m) (None, None) base F) as (s' & E & O). rewrite E. cbn [hbind].
  assert (B : teqb (map lower [code_char m]) (txt "p") = negb (is_list m)) by (unfold code_char; destruct (is_list m), (upper m); reflexivity).
  assert (B2 : teqb (map lower [code_char m]) (txt "l") = is_list m) by (unfold code_char; destruct (is_list m), (upper m); reflexivity).
  rewrite B, B2. cbn [map length Nat.ltb Nat.leb]. replace (negb (is_list m) || is_list m) with true by (destruct (is_list m); reflexivity). cbn [orb negb].
  unfold pformat_of. fold apply_parg.
  assert (O' : (let '(i1, i2) := match fst s' with Some ii => ii | None => if negb (is_list m) then (0, 0) else (4, 6) end in
      HOk (mkpf i1 i2 (match snd s' with Some w => w | None => true end))) = HOk (over base s')).
  { unfold over, base. destruct (fst s') as [[a b]|]; [reflexivity|]. destruct (is_list m); reflexivity. }
  rewrite O', O. unfold over, base. cbn [fst snd]. destruct (is_list m); reflexivity.
Qed.

Lemma pmark_clean : forall m, Forall parg_ok (pargs m) -> clean (code_char m :: flat_map (fun a => "," :: write_parg a) (pargs m)).
Proof.
  intros m F. unfold clean. apply Forall_forall. intros x [<-|I].
  - unfold code_char. destruct (is_list m), (upper m); repeat split; discriminate.
  - apply in_flat_map in I. destruct I as (a & Ia & [<-|I]); [repeat split; discriminate|]. rewrite Forall_forall in F. specialize (F a Ia).
    repeat split; intros ->; revert I; apply parg_no_comma; auto; cbn; auto.
Qed.

(** ** Finding the next markup *)
Definition tail_of (ps : list (pmark * list piece)) : text := flat_map (fun mb => write_pmark (fst mb) ++ write (snd mb)) ps.

Lemma styled_chars : forall code s, style_code code s -> clean code /\ exists c r, code = c :: r /\ (lower c =? "p") = false /\ (lower c =? "l") = false.
Proof.
  intros code s H. destruct H; try (split; [repeat constructor; discriminate|eexists; eexists; repeat split; reflexivity]).
  destruct (digit_cases r) as (d1 & -> & V1 & W1 & W2 & W3 & _); auto. destruct (digit_cases g) as (d2 & -> & V2 & X1 & X2 & X3 & _); auto. destruct (digit_cases b) as (d3 & -> & V3 & Y1 & Y2 & Y3 & _); auto.
  assert (Cf : clean flags). { unfold clean. eapply Forall_impl; [|exact H4]. intros x I. destruct (lower_flag x I) as (_ & _ & P & Q & R & _). auto. }
  assert (Hc : c = "c" \/ c = "C") by (cbn in H; intuition).
  split.
  - repeat (constructor; [try (destruct Hc; subst; repeat split; discriminate); auto|]); auto.
  - exists c. eexists. split; [reflexivity|]. destruct Hc; subst; split; reflexivity.
Qed.

Lemma next_open : forall b r, next (mktp b (obrace :: r)) = (MOpen, mktp (obrace :: b) r).
Proof. reflexivity. Qed.
Lemma next_close : forall b r, next (mktp b (cbrace :: r)) = (MClose, mktp (cbrace :: b) r).
Proof. reflexivity. Qed.
Lemma find_open_body : forall l fuel bb R, Forall piece_ok l -> (length (write l) <= fuel)%nat ->
  (R = [] \/ exists c r, R = obrace :: c :: r /\ is_pl (TChar c) = true /\ c <> obrace /\ c <> cbrace /\ c <> bslash) ->
  find_open fuel (advance_past MOpen (mktp bb (write l ++ R))) =
  match R with [] => mktp (rev (write l) ++ bb) [] | o :: r => mktp (o :: rev (write l) ++ bb) r end.
Proof.
  induction l as [|p l IH]; intros fuel bb R F L HR.
  - cbn [write flat_map app rev]. destruct HR as [->|(c & r & -> & P & C1 & C2 & C3)].
    + rewrite advance_at_end. destruct fuel; reflexivity.
    + erewrite advance_found; [|apply next_open|discriminate]. destruct fuel as [|f]; [reflexivity|]. cbn [find_open at_end before after negb andb].
      pose proof (peek_char (Raw c) (obrace :: bb) r) as Pk. cbn [write_char app char_of] in Pk. rewrite Pk by (cbn; auto). now rewrite P.
  - inversion F as [|y z Y Z]; subst. cbn [write flat_map] in L |- *. fold (write l) in *. rewrite app_length in L. rewrite rev_app_distr, <- !app_assoc.
    destruct p as [x|code s content].
    + cbn [write_piece] in *. erewrite advance_step; [|apply next_char; exact Y|discriminate|discriminate]. rewrite IH; auto. lia.
    + cbn [write_piece] in *. destruct Y as (Sc & Fc & _). destruct (styled_chars _ _ Sc) as (Cc & c & cr & Ec & Np & Nl).
      cbn [app]. erewrite advance_found; [|apply next_open|discriminate].
      destruct fuel as [|f]; [cbn in L; lia|]. cbn [find_open]. 
      rewrite <- !app_assoc. cbn [app]. rewrite <- app_assoc. cbn [app].
      assert (AE : forall b, at_end (mktp b (code ++ colon :: flat_map write_char content ++ cbrace :: write l ++ R)) = false) by (intros; subst code; reflexivity).
      rewrite AE. cbn [negb andb].
      assert (PK : is_pl (peek (mktp (obrace :: bb) (code ++ colon :: flat_map write_char content ++ cbrace :: write l ++ R))) = false).
      { subst code. cbn [app]. assert (Co : char_ok (Raw c)) by (inversion Cc; auto). pose proof (peek_char (Raw c) (obrace :: bb) (cr ++ colon :: flat_map write_char content ++ cbrace :: write l ++ R) Co) as Pk.
        cbn [write_char app char_of] in Pk. rewrite Pk. unfold is_pl. now rewrite Np, Nl. }
      rewrite PK. cbn [negb].
      rewrite advance_clean by (auto; intros; discriminate).
      erewrite advance_step; [|apply next_raw; discriminate|discriminate|discriminate].
      rewrite advance_chars by (auto; intros; discriminate).
      erewrite advance_step; [|apply next_close|discriminate|discriminate].
      rewrite IH; auto.
      2:{ cbn [length] in L. rewrite ?app_length in L. cbn [length] in L. rewrite ?app_length in L. cbn in L. lia. }
      assert (EQ : rev (obrace :: code ++ colon :: flat_map write_char content ++ [cbrace]) ++ bb =
                   cbrace :: rev (flat_map write_char content) ++ colon :: rev code ++ obrace :: bb).
      { cbn [rev]. rewrite rev_app_distr. cbn [rev]. rewrite rev_app_distr. cbn [rev app]. repeat (rewrite <- app_assoc; cbn [app]). reflexivity. }
      rewrite EQ. reflexivity.
Qed.

(** The last character of a text that is not an escaped backslash is not a backslash. *)
Definition no_bslash (b : text) : Prop := match b with c :: _ => c <> bslash | [] => True end.
Lemma write_end : forall l bb, Forall piece_ok l -> last l (Ch (Raw space)) <> Ch (Esc bslash) -> no_bslash bb -> no_bslash (rev (write l) ++ bb).
Proof.
  intros l bb F N B. destruct l as [|p0 l0]; [exact B|]. assert (NE : p0 :: l0 <> []) by discriminate. destruct (exists_last NE) as (l & p & E). rewrite E in *.
  rewrite last_last in N. apply Forall_app in F. destruct F as (_ & F). inversion F as [|? ? Y _]; subst. unfold write. rewrite flat_map_app. cbn [flat_map]. rewrite app_nil_r, rev_app_distr, <- app_assoc.
  destruct p as [[c|c]|code s content]; cbn [write_piece write_char rev app no_bslash].
  - cbn in Y. tauto.
  - congruence.
  - rewrite rev_app_distr. cbn [rev]. rewrite rev_app_distr. cbn. discriminate.
Qed.

Lemma backup_raw : forall c bb r, no_bslash bb -> backup (mktp (c :: bb) r) = Some (mktp bb (c :: r)).
Proof. intros c bb r N. unfold backup. cbn. destruct bb as [|d b]; [reflexivity|]. cbn in N. apply Ascii.eqb_neq in N. now rewrite N. Qed.
Lemma backup_char : forall x bb r, no_bslash bb -> backup (mktp (rev (write_char x) ++ bb) r) = Some (mktp bb (write_char x ++ r)).
Proof. intros [c|c] bb r N; cbn [write_char rev app]; [now apply backup_raw|reflexivity]. Qed.

Lemma pmark_tail : forall m, exists c r, write_pmark m = obrace :: c :: r /\ is_pl (TChar c) = true /\ c <> obrace /\ c <> cbrace /\ c <> bslash.
Proof. intros m. exists (code_char m). eexists. split; [reflexivity|]. unfold code_char. destruct (is_list m), (upper m); (split; [reflexivity|]; repeat split; discriminate). Qed.

Lemma find_markup_none : forall l bb, Forall piece_ok l -> find_paragraph_markup (mktp bb (write l)) = HOk None.
Proof.
  intros l bb F. unfold find_paragraph_markup. cbn [after]. pose proof (find_open_body l (length (write l)) bb [] F (le_n _) (or_introl eq_refl)) as H.
  rewrite app_nil_r in H. rewrite H. reflexivity.
Qed.
Lemma find_markup_some : forall l bb m rest, Forall piece_ok l -> Forall parg_ok (pargs m) -> rest <> [] ->
  last l (Ch (Raw space)) <> Ch (Esc bslash) -> no_bslash bb ->
  find_paragraph_markup (mktp bb (write l ++ write_pmark m ++ rest)) =
  HOk (Some (mktp (rev (write l) ++ bb) (write_pmark m ++ rest), mktp (rev (write_pmark m) ++ rev (write l) ++ bb) rest)).
Proof.
  intros l bb m rest F P R N B. unfold find_paragraph_markup. cbn [after]. destruct (pmark_tail m) as (c & r & E & Pl & C1 & C2 & C3).
  rewrite find_open_body; auto.
  2:{ rewrite app_length. lia. }
  2:{ right. exists c, (r ++ rest). rewrite E. auto. }
  assert (E2 : write_pmark m = obrace :: (code_char m :: flat_map (fun a => "," :: write_parg a) (pargs m)) ++ [cbrace]) by reflexivity.
  set (body := code_char m :: flat_map (fun a => "," :: write_parg a) (pargs m)) in *.
  rewrite E2. cbn [app]. rewrite <- app_assoc. cbn [app].
  assert (AE : forall b, at_end (mktp b (body ++ cbrace :: rest)) = false) by reflexivity. rewrite AE.
  rewrite (advance_clean body) by (try apply pmark_clean; auto; intros; discriminate).
  erewrite advance_found; [|apply next_close|discriminate]. unfold at_end at 1. cbn [after]. destruct rest as [|r0 rs]; [easy|].
  rewrite backup_raw by (now apply write_end). cbn [rev]. rewrite rev_app_distr. cbn [rev app]. rewrite <- app_assoc. reflexivity.
Qed.

(** ** The line of the markup *)
Definition skip_from (fuel : nat) (p : tp) : option tp :=
  let '(c, q) := next p in
  let '(c, q) := skip_loop fuel c q in
  if htok_eqb c (TChar newline) then Some q else backup q.

Definition is_nil {A} (l : list A) : bool := match l with [] => true | _ => false end.
Lemma blank_not_bslash : forall x, isspace (char_of x) = true -> forall bb, no_bslash (rev (write_char x) ++ bb).
Proof. intros [c|c] H bb; cbn in *; intros ->; discriminate. Qed.

Lemma skip_body : forall b fuel bb ps, Forall piece_ok b -> no_bslash bb -> b <> [] \/ ps <> [] -> (length (write b) <= fuel)%nat ->
  exists pre, let b' := after_markup (is_nil ps) b in
  skip_from fuel (mktp bb (write b ++ tail_of ps)) = Some (mktp (rev pre ++ bb) (write b' ++ tail_of ps)) /\
  write b = pre ++ write b' /\ no_bslash (rev pre ++ bb).
Proof.
  induction b as [|p b IH]; intros fuel bb ps F B NE L.
  - destruct NE as [NE|NE]; [easy|]. destruct ps as [|[m c] ps]; [easy|]. exists []. cbn [write flat_map app rev after_markup]. split; auto.
    destruct (pmark_tail m) as (x & r & E & _). cbn [tail_of flat_map fst snd]. rewrite E. cbn [app].
    unfold skip_from. cbn [next after]. change (obrace =? obrace) with true. cbv iota.
    assert (S : forall q, skip_loop fuel MOpen q = (MOpen, q)) by (destruct fuel; reflexivity). rewrite S. cbn [htok_eqb].
    now rewrite backup_raw.
  - inversion F as [|y z Y Z]; subst. cbn [write flat_map] in L |- *. fold (write b) in *. rewrite app_length in L. cbn [after_markup].
    destruct p as [x|code s content].
    + cbn [blank_piece]. cbn [write_piece] in *. assert (Lx : (1 <= length (write_char x))%nat) by (destruct x; cbn; lia).
      destruct fuel as [|f]; [lia|].
      assert (NX : next (mktp bb ((write_char x ++ write b) ++ tail_of ps)) = (TChar (char_of x), mktp (rev (write_char x) ++ bb) (write b ++ tail_of ps))).
      { rewrite <- app_assoc. now apply next_char. }
      unfold skip_from. rewrite NX. cbn [skip_loop].
      destruct (isspace (char_of x) && negb (char_of x =? newline)) eqn:BP.
      * assert (IS : isspace (char_of x) = true) by (apply andb_prop in BP; tauto).
        assert (SF : (let '(c, q) := let '(c', p') := next (mktp (rev (write_char x) ++ bb) (write b ++ tail_of ps)) in skip_loop f c' p' in
           if htok_eqb c (TChar newline) then Some q else backup q) = skip_from f (mktp (rev (write_char x) ++ bb) (write b ++ tail_of ps))).
        { clear. unfold skip_from. destruct (next _). reflexivity. }
        rewrite SF. destruct b as [|p' b].
        -- destruct ps as [|mb ps].
           ++ exists []. cbn [is_nil write flat_map tail_of app rev]. cbv zeta. cbn [write_piece]. rewrite !app_nil_r. split; [|split; auto].
              unfold skip_from. cbn [next after]. assert (S : forall q, skip_loop f TEnd q = (TEnd, q)) by (destruct f; reflexivity). rewrite S. cbn [htok_eqb].
              rewrite backup_char by auto. now rewrite app_nil_r.
           ++ destruct (IH f (rev (write_char x) ++ bb) (mb :: ps)) as (pre & E1 & E2 & E3); auto.
              { now apply blank_not_bslash. } { right. discriminate. } { cbn. lia. }
              cbn [is_nil after_markup write flat_map] in E1, E2, E3 |- *. rewrite app_nil_r in E2. subst pre. exists (write_char x). rewrite E1. cbn in E3 |- *. rewrite !app_nil_r. auto.
        -- destruct (IH f (rev (write_char x) ++ bb) ps) as (pre & E1 & E2 & E3); auto.
           { now apply blank_not_bslash. } { left. discriminate. } { lia. }
           exists (write_char x ++ pre). cbv zeta in *. rewrite E1, E2, rev_app_distr, <- !app_assoc. auto.
      * destruct (char_of x =? newline) eqn:EN.
        -- apply Ascii.eqb_eq in EN. destruct x as [c|c]; cbn in EN; [|cbn in Y; congruence]. subst c.
           exists [newline]. cbn [char_of htok_eqb]. change (newline =? newline) with true. cbv iota zeta. cbn. repeat split; auto. discriminate.
        -- exists []. cbn [htok_eqb]. rewrite EN. cbv iota zeta.
           assert (EB : (match x with Raw c => if c =? newline then b else Ch x :: b | Esc _ => Ch x :: b end) = Ch x :: b).
           { destruct x as [c|c]; auto. cbn in EN. now rewrite EN. }
           rewrite EB.
           rewrite backup_char by auto. cbn [rev app write flat_map write_piece]. fold (write b). rewrite <- app_assoc. auto.
    + cbn [blank_piece]. exists []. cbv zeta. cbn [rev app]. split; [|split; auto]. 
      unfold skip_from. cbn [write_piece app next after]. change (obrace =? obrace) with true. cbv iota.
      assert (S : forall q, skip_loop fuel MOpen q = (MOpen, q)) by (destruct fuel; reflexivity). rewrite S. cbn [htok_eqb].
      now rewrite backup_raw.
Qed.

(** ** Blocks *)
Fixpoint blocks_of (b : list piece) (ps : list (pmark * list piece)) : list block :=
  (match b with [] => [] | _ => [BText (write b)] end) ++
  match ps with
  | [] => []
  | (m, b') :: r => BPara (pformat_of m) :: blocks_of (after_markup (is_nil r) b') r
  end.

Lemma after_markup_ok : forall last b, Forall piece_ok b -> Forall piece_ok (after_markup last b).
Proof.
  intros last. induction b as [|p b IH]; intros F; [constructor|]. inversion F as [|y z Y Z]; subst. cbn [after_markup]. destruct (blank_piece p).
  - destruct b as [|p' b]; [destruct last; auto|]. now apply IH.
  - destruct p as [[c|c]|]; auto. destruct (c =? newline); auto.
Qed.
Lemma after_markup_last : forall lst b p, after_markup lst b = [] \/ last (after_markup lst b) p = last b p.
Proof.
  intros lst. induction b as [|q b IH]; intros p; [now left|]. cbn [after_markup]. destruct (blank_piece q).
  - destruct b as [|p' b]; [destruct lst; auto|]. change (last (q :: p' :: b) p) with (last (p' :: b) p). apply IH.
  - destruct q as [[c|c]|]; auto. destruct (c =? newline); auto. destruct b; auto.
Qed.
Lemma write_nonempty : forall b, b <> [] -> write b <> [].
Proof. intros [|p b] N; [easy|]. cbn. destruct p as [[c|c]|]; discriminate. Qed.

Definition ends_ok (ps : list (pmark * list piece)) : Prop := match rev ps with (_, []) :: _ => False | _ => True end.
Lemma ends_ok_cons : forall m b r, ends_ok ((m, b) :: r) -> (b <> [] \/ r <> []) /\ ends_ok r.
Proof.
  intros m b r H. unfold ends_ok in *. cbn [rev] in H. destruct r as [|x r].
  - cbn in *. destruct b; [easy|]. split; auto. left. discriminate.
  - split; [right; discriminate|]. destruct (rev (x :: r)) as [|y ys] eqn:R; auto.
Qed.

Lemma find_blocks_ok : forall ps l fuel bb, bodies_ok l ps -> ends_ok ps -> no_bslash bb -> (length (write l ++ tail_of ps) < fuel)%nat ->
  find_blocks fuel (mktp bb (write l ++ tail_of ps)) = HOk (blocks_of l ps).
Proof.
  induction ps as [|[m b] ps IH]; intros l fuel bb O E B L.
  - destruct fuel as [|f]; [lia|]. cbn [tail_of flat_map blocks_of]. rewrite !app_nil_r. cbn [find_blocks]. destruct O as (F & _).
    destruct l as [|p l]; [reflexivity|]. unfold at_end. cbn [after]. pose proof (write_nonempty (p :: l)) as N.
    destruct (write (p :: l)) as [|c t] eqn:W; [exfalso; now apply N|]. rewrite <- W. rewrite find_markup_none by auto. reflexivity.
  - destruct fuel as [|f]; [lia|]. destruct O as (F & N & P & O). fold bodies_ok in O. destruct (ends_ok_cons _ _ _ E) as (NE & E').
    cbn [tail_of flat_map fst snd] in *. fold (tail_of ps) in *. rewrite <- app_assoc in *. cbn [find_blocks].
    assert (R : write b ++ tail_of ps <> []).
    { destruct NE as [NE|NE]; intros Q; apply app_eq_nil in Q; destruct Q as (Q1 & Q2); [now apply (write_nonempty b)|].
      destruct ps as [|[m' b'] ps]; [easy|]. discriminate. }
    assert (AE : at_end (mktp bb (write l ++ write_pmark m ++ write b ++ tail_of ps)) = false).
    { unfold at_end. cbn [after]. destruct (write l ++ write_pmark m ++ write b ++ tail_of ps) eqn:Q; auto. apply app_eq_nil in Q. destruct Q as (_ & Q). discriminate. }
    rewrite AE. rewrite find_markup_some by auto. cbn [hbind].
    rewrite contents_to_app by (rewrite app_length, rev_length; lia). rewrite paragraph_markup_ok by auto. cbn [hbind].
    assert (Fb : Forall piece_ok b) by (destruct ps as [|[? ?] ?]; destruct O; auto).
    assert (NB : no_bslash (rev (write_pmark m) ++ rev (write l) ++ bb)).
    { unfold write_pmark. rewrite app_comm_cons. rewrite (app_comm_cons _ [cbrace]). rewrite rev_app_distr. cbn. discriminate. }
    destruct (skip_body b (length (write b ++ tail_of ps)) (rev (write_pmark m) ++ rev (write l) ++ bb) ps) as (pre & S & W & NB'); auto.
    { rewrite app_length. lia. }
    cbv zeta in S, W. unfold skip_markup_line. cbn [after]. unfold skip_from in S. rewrite S.
    rewrite IH; auto.
    + cbn [hbind blocks_of before]. f_equal. f_equal. destruct l as [|p l].
      * cbn [write flat_map rev app]. rewrite Nat.ltb_irrefl. reflexivity.
      * assert (LT : (length bb <? length (rev (write (p :: l)) ++ bb))%nat = true).
        { apply Nat.ltb_lt. rewrite app_length, rev_length. pose proof (write_nonempty (p :: l)) as Q. destruct (write (p :: l)); [exfalso; now apply Q|cbn; lia]. }
        rewrite LT. rewrite contents_to_app by (rewrite app_length, rev_length; lia). reflexivity.
    + destruct ps as [|[m' b'] ps]; cbn [bodies_ok is_nil] in *.
      * split; auto. apply after_markup_ok; auto.
      * split; [apply after_markup_ok; auto|]. destruct O as (_ & N' & O'). split; auto.
        destruct (after_markup_last false b (Ch (Raw space))) as [->|Q]; [cbn; discriminate|]. now rewrite Q.
    + rewrite !app_length in *. rewrite W in L. rewrite app_length in L. unfold write_pmark in L. cbn [length] in L. lia.
Qed.
