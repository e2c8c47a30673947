(* C51: where filename arguments do not designate the files they name. *)
From Coq Require Import Ascii String List Bool Arith Lia.
From Verif.Syntax Require Import Lexer.
From Verif.Sys Require Import Glob GlobSpec GlobFacts GlobProps.
Import ListNotations.
Local Open Scope char_scope.
Local Open Scope list_scope.

(* ---- backslashes ---- *)
Fixpoint total (p : list text) : nat := match p with [] => 0 | c :: p => length c + total p end.
Lemma total_app : forall a b, total (a ++ b) = total a + total b.
Proof. induction a as [|c a IH]; intros b; cbn; auto. rewrite IH. lia. Qed.
Lemma total_rev : forall a, total (rev a) = total a.
Proof. induction a as [|c a IH]; cbn; auto. rewrite total_app, IH. cbn. lia. Qed.
Lemma total_step : forall n acc c, total (step n acc c) <= total acc + length c.
Proof.
  intros n acc c. unfold step. destruct (_ || _); [lia|]. destruct (_ || _); cbn; [lia|]. destruct acc; cbn; lia.
Qed.
Lemma total_norm : forall n cs, total (norm_comps n [] cs) <= total cs.
Proof.
  intros n cs. rewrite norm_fold, total_rev. change (total cs) with (total [] + total cs). generalize (@nil text).
  induction cs as [|c cs IH]; intros acc; cbn [fold_left]; [cbn; lia|]. specialize (IH (step n acc c)). pose proof (total_step n acc c). cbn. lia.
Qed.
Definition nonslash (t : text) : nat := length (filter (fun c => negb (c =? SLASH)) t).
Lemma total_split : forall t, total (split_slash t) = nonslash t.
Proof.
  induction t as [|c t IH]; auto. unfold nonslash in *. cbn [split_slash filter]. destruct (c =? SLASH); cbn [negb].
  - exact IH.
  - destruct (split_slash t) as [|w ws]; cbn in *; lia.
Qed.
Lemma nonslash_app : forall a b, nonslash (a ++ b) = nonslash a + nonslash b.
Proof. intros a b. unfold nonslash. now rewrite filter_app, app_length. Qed.
Lemma nonslash_plain : forall c : text, ~ In SLASH c -> nonslash c = length c.
Proof.
  unfold nonslash. induction c as [|a c IH]; intros N; auto. cbn. destruct (Ascii.eqb_spec a SLASH) as [->|D]; [exfalso; apply N; now left|].
  cbn. f_equal. apply IH. intros H. apply N. now right.
Qed.
Lemma nonslash_join : forall p : path, Forall ordinary p -> nonslash (join_slash p) = total p.
Proof.
  induction 1 as [|c p (_ & _ & _ & S) F IH]; auto. cbn [join_slash]. change (SLASH :: c ++ join_slash p) with ([SLASH] ++ c ++ join_slash p).
  rewrite !nonslash_app, IH, (nonslash_plain c) by auto. reflexivity.
Qed.
Lemma nonslash_unesc : forall t, nonslash (unesc t) <= nonslash t /\ (In bslash t -> nonslash (unesc t) < nonslash t).
Proof.
  assert (X : forall n t, length t <= n -> nonslash (unesc t) <= nonslash t /\ (In bslash t -> nonslash (unesc t) < nonslash t)).
  { induction n as [|n IH]; intros t L.
    - destruct t; [split; [auto|intros []]|cbn in L; lia].
    - destruct t as [|c t]; [split; [auto|intros []]|]. cbn [unesc]. cbn in L. destruct (Ascii.eqb_spec c bslash) as [->|D].
      + destruct t as [|d t].
        * split; intros; cbn; lia.
        * destruct (IH t) as (A & _); [cbn in L; lia|].
          change (bslash :: d :: t) with ([bslash] ++ [d] ++ t). change (d :: unesc t) with ([d] ++ unesc t). rewrite !nonslash_app.
          split; intros; change (nonslash [bslash]) with 1; lia.
      + destruct (IH t) as (A & B); [lia|]. change (c :: unesc t) with ([c] ++ unesc t). change (c :: t) with ([c] ++ t). rewrite !nonslash_app.
        split; [lia|]. intros [H|H]; [congruence|]. specialize (B H). lia. }
  intros t. eapply X. apply le_n.
Qed.

(* A file with a backslash in its name is never what its own path designates: neither given as text nor as a File. *)
Theorem c51_backslash_refuted : forall s fuel cwd p roots, depth s fuel -> p <> [] -> Forall ordinary p ->
  Forall (fun c => ~ wild c) p -> Exists (fun c => In bslash c) p ->
  normalize s fuel cwd [FnFile p] = Done roots -> ~ In p roots.
Proof.
  intros s fuel cwd p roots D NE O W B R I.
  apply (proj1 (c51_all_and_only _ _ _ _ _ D R p)) in I as (f & cs & [<-|[]] & N & DS).
  assert (PP : posix p = join_slash p) by (destruct p; [congruence|reflexivity]).
  assert (X : forall cs b q, Forall (fun c => ~ wild c) cs -> designates s b cs q -> q = b ++ cs).
  { induction cs0 as [|c cs0 IH]; intros b q F H; inversion H as [|? ? ? ? ? T|? ? ? ? ? W1 W2|? ? ? ? _ K1 K2 Y]; subst.
    - now rewrite app_nil_r.
    - inversion F as [|? ? G _]; subst. exfalso. apply G. left. now left.
    - inversion F; subst. tauto.
    - inversion F as [|? ? G F']; subst. apply IH in Y; auto. rewrite Y, <- app_assoc. reflexivity. }
  unfold normalized, filename_text, normpath in N. rewrite PP in N.
  assert (NB : forall x : ascii, wild [x] -> ~ In x (join_slash p)).
  { intros x Hx H. apply in_join in H as [->|(c & A & C)].
    - destruct Hx as [[Hx|[]]|[[Hx|[]]|[Hx|[]]]]; discriminate.
    - rewrite Forall_forall in W. apply (W c A). destruct Hx as [[->|[]]|[[->|[]]|[->|[]]]]; unfold wild; auto. }
  assert (U : forall t : text, forall x, In x (unesc t) -> In x t).
  { assert (Y : forall n (t : text), length t <= n -> forall x, In x (unesc t) -> In x t).
    { induction n as [|n IH]; intros t L x H; destruct t as [|c t]; auto; cbn in L; [lia|]. cbn [unesc] in H.
      destruct (c =? bslash).
      - destruct t as [|d t]; [destruct H|]. destruct H as [->|H]; [right; now left|]. right. right. apply IH; auto. cbn in L. lia.
      - destruct H as [->|H]; [now left|]. right. apply IH; auto. lia. }
    intros t. eapply Y. apply le_n. }
  assert (SP : forall (t : text) x c, In c (split_slash t) -> In x c -> In x t).
  { induction t as [|a t IH]; intros x c H H2; cbn [split_slash] in H.
    - destruct H as [<-|[]]. destruct H2.
    - destruct (a =? SLASH).
      + destruct H as [<-|H]; [destruct H2|]. right. eauto.
      + destruct (split_slash t) as [|w ws] eqn:E.
        * destruct H as [<-|[]]. destruct H2 as [->|[]]. now left.
        * destruct H as [<-|H].
          -- destruct H2 as [->|H2]; [now left|]. right. apply (IH x w); auto. now left.
          -- right. apply (IH x c); auto. now right. }
  assert (NM : forall n cs' acc c, In c (fold_left (step n) cs' acc) -> In c cs' \/ In c acc).
  { intros n. induction cs' as [|y cs' IH]; intros acc c H; auto. cbn [fold_left] in H. apply IH in H as [H|H]; [left; now right|].
    unfold step in H. destruct (_ || _); auto. destruct (_ || _).
    - destruct H as [->|H]; auto. left. now left.
    - right. destruct acc; auto. now right. }
  set (n := initial_slashes (unesc (join_slash p))) in *.
  set (cs0 := norm_comps n [] (split_slash (unesc (join_slash p)))) in *.
  assert (W0 : Forall (fun c => ~ wild c) cs0).
  { apply Forall_forall. intros c H. unfold cs0 in H. rewrite norm_fold in H. apply in_rev in H. apply NM in H as [H|[]].
    intros [Q|[Q|Q]]; apply (SP _ _ _ H) in Q; apply U in Q; revert Q; apply NB; unfold wild; cbn; auto. }
  assert (T : total cs0 < total p).
  { unfold cs0. eapply Nat.le_lt_trans; [apply total_norm|]. rewrite total_split. rewrite <- (nonslash_join p) by auto.
    apply nonslash_unesc. apply Exists_exists in B as (c & A & C). clear -A C. induction p as [|d p IH]; [destruct A|].
    cbn. right. apply in_or_app. destruct A as [->|A]; auto. }
  (* the result starts with a slash: it is absolute *)
  assert (n = 1 \/ n = 2) as [E|E].
  { unfold n. destruct p as [|c p]; [congruence|]. cbn [join_slash]. change (unesc (SLASH :: c ++ join_slash p)) with (SLASH :: unesc (c ++ join_slash p)).
    unfold initial_slashes. change (starts [SLASH] (SLASH :: unesc (c ++ join_slash p))) with true. cbv iota. destruct (_ && _); auto. }
  - rewrite E in N. cbv iota in N. injection N as N1. rewrite <- N1 in DS. apply X in DS; auto. cbn [app] in DS. apply (f_equal total) in DS. lia.
  - rewrite E in N. cbv iota in N. discriminate.
Qed.
Print Assumptions c51_backslash_refuted.

(* ---- wildcards in names ---- *)
Lemma translate_plain : forall t : text, ~ wild t -> forall n r, length t <= n -> translate n (t ++ r) = map GChar t ++ translate (n - length t) r.
Proof.
  induction t as [|c t IH]; intros W n r L; [cbn; now rewrite Nat.sub_0_r|]. destruct n as [|n]; cbn in L; [lia|]. cbn [app translate map length Nat.sub].
  destruct (Ascii.eqb_spec c "*") as [->|N1]; [exfalso; apply W; left; now left|].
  destruct (Ascii.eqb_spec c "?") as [->|N2]; [exfalso; apply W; right; left; now left|].
  destruct (Ascii.eqb_spec c "[") as [->|N3]; [exfalso; apply W; right; right; now left|].
  f_equal. apply IH; [|lia]. intros [H|[H|H]]; apply W; unfold wild; cbn; auto.
Qed.
Lemma gmatch_plain : forall t g u, gmatch (map GChar t ++ g) u = true <-> exists v, u = t ++ v /\ gmatch g v = true.
Proof.
  induction t as [|c t IH]; intros g u.
  - cbn [map app]. split; [intros H; exists u; auto|]. intros (v & -> & H). exact H.
  - cbn [map app]. destruct u as [|x u].
    + split; [discriminate|]. intros (v & E & _). discriminate.
    + change (gmatch (GChar c :: map GChar t ++ g) (x :: u)) with ((x =? c) && gmatch (map GChar t ++ g) u). rewrite andb_true_iff, IH. split.
      * intros (E & v & -> & H). apply Ascii.eqb_eq in E. subst. exists v. auto.
      * intros (v & E & H). cbn in E. injection E as -> ->. split; [apply Ascii.eqb_refl|eauto].
Qed.
(* the pattern a[c]b, for a, b without wildcards *)
Definition bracketed (a : text) (c : ascii) (b : text) : text := a ++ "[" :: c :: "]" :: b.
Lemma bracketed_matches : forall a c b n, ~ wild a -> ~ wild b -> c <> "!" -> c <> "]" ->
  (matches (bracketed a c b) n <-> n = a ++ c :: b).
Proof.
  intros a c b n WA WB C1 C2. rewrite <- matches_spec. unfold pattern, bracketed. rewrite translate_plain; auto.
  2: rewrite app_length; lia.
  rewrite app_length, Nat.add_comm, Nat.add_sub. change (length ("[" :: c :: "]" :: b)) with (S (S (S (length b)))).
  assert (ST : forall m t, translate (S m) ("[" :: t) =
    match bracket t with Some (neg, body, r') => GClass neg (ranges body) :: translate m r' | None => GChar "[" :: translate m t end) by reflexivity.
  rewrite ST. clear ST.
  assert (BC : bracket (c :: "]" :: b) = Some (false, [c], b)).
  { apply (bracket_class [c] b); [exists c, []; split; [auto|intros []]|cbn; congruence]. }
  rewrite BC.
  assert (TB : forall m, length b <= m -> translate m b = map GChar b).
  { intros m L. pose proof (translate_plain b WB m [] L) as TP. rewrite !app_nil_r in TP. rewrite TP. destruct (m - length b)%nat; apply app_nil_r. }
  rewrite TB by lia.
  rewrite gmatch_plain. split.
  - intros (v & -> & H). f_equal. destruct v as [|x v]; [discriminate|].
    rewrite gmatch_one in H by discriminate. apply andb_true_iff in H as (H & G). change (one_char (GClass false (ranges [c])) x) with (xorb false (in_ranges [(c, c)] x)) in H.
    rewrite xorb_false_l in H. apply in_ranges_spec in H as (r & [<-|[]] & H). cbn [fst snd] in H.
    assert (x = c). { rewrite <- (ascii_nat_embedding x), <- (ascii_nat_embedding c). f_equal. lia. }
    subst x. f_equal. rewrite <- (app_nil_r (map GChar b)) in G. apply gmatch_plain in G as (w & -> & G). destruct w; [apply app_nil_r|discriminate].
  - intros ->. exists (c :: b). split; auto. rewrite gmatch_one by discriminate. apply andb_true_iff. split.
    + cbn. unfold in_ranges, between. cbn. now rewrite Nat.leb_refl.
    + rewrite <- (app_nil_r (map GChar b)). apply gmatch_plain. exists []. split; auto. now rewrite app_nil_r.
Qed.
Lemma bracketed_wild : forall a c b, wild (bracketed a c b).
Proof. intros. right. right. unfold bracketed. apply in_or_app. right. now left. Qed.
Lemma bracketed_not_starstar : forall a c b, bracketed a c b <> STARSTAR.
Proof.
  intros a c b E. assert (H : In "[" STARSTAR) by (rewrite <- E; unfold bracketed; apply in_or_app; right; now left).
  destruct H as [H|[H|[]]]; discriminate.
Qed.

(* simple names down to a component a[c]b, and then simple names: what is designated has a, c and b there *)
Lemma designates_bracketed : forall s d b0 a c b cs q, Forall (fun c => ~ wild c) d -> ~ wild a -> ~ wild b -> c <> "!" -> c <> "]" ->
  Forall (fun c => ~ wild c) cs -> designates s b0 (d ++ bracketed a c b :: cs) q -> q = b0 ++ d ++ (a ++ c :: b) :: cs.
Proof.
  intros s. induction d as [|x d IH]; intros b0 a c b cs q FD WA WB C1 C2 FC H; cbn [app] in H.
  - inversion H as [|? ? ? ? ? T X Y Z|? ? m ? ? W1 W2 I M K X|? ? ? ? W K1 K2 X]; subst.
    + now destruct (bracketed_not_starstar a c b).
    + apply bracketed_matches in M; auto. subst m. cbn [app].
      assert (S : forall cs b q, Forall (fun c => ~ wild c) cs -> designates s b cs q -> q = b ++ cs).
      { clear. induction cs as [|c cs IH]; intros b q F H; inversion H as [|? ? ? ? ? T|? ? ? ? ? W1 W2|? ? ? ? _ K1 K2 Y]; subst.
        - now rewrite app_nil_r.
        - inversion F as [|? ? G _]; subst. exfalso. apply G. left. now left.
        - inversion F; subst. tauto.
        - inversion F as [|? ? G F']; subst. apply IH in Y; auto. rewrite Y, <- app_assoc. reflexivity. }
      apply S in X; auto. rewrite X, <- app_assoc. reflexivity.
    + exfalso. apply W. apply bracketed_wild.
  - inversion FD as [|? ? FX FD']; subst. inversion H as [|? ? ? ? ? T X Y Z|? ? m ? ? W1 W2 I M K X|? ? ? ? W K1 K2 X]; subst.
    + exfalso. apply FX. left. now left.
    + tauto.
    + apply IH in X; auto. rewrite X, <- app_assoc. reflexivity.
Qed.

Lemma bracketed_plain : forall a c b, ~ In bslash a -> ~ In bslash b -> c <> bslash -> ~ In bslash (bracketed a c b).
Proof.
  intros a c b A B C H. apply in_app_or in H as [H|[H|[H|[H|H]]]]; auto; discriminate.
Qed.
Lemma bracketed_ordinary : forall a c b, ~ In SLASH a -> ~ In SLASH b -> c <> SLASH -> ordinary (bracketed a c b).
Proof.
  intros a c b A B C. assert (I : In "[" (bracketed a c b)) by (unfold bracketed; apply in_or_app; right; now left).
  repeat split.
  - intros E. rewrite E in I. destruct I.
  - intros E. rewrite E in I. destruct I as [I|[]]; discriminate.
  - intros E. rewrite E in I. destruct I as [I|[I|[]]]; discriminate.
  - intros H. apply in_app_or in H as [H|[H|[H|[H|H]]]]; auto; discriminate.
Qed.

(* A file named a[c]b, given by its path or as a File, is not what is designated: the file acb is, if there is one. *)
Theorem c51_bracket_refuted : forall s fuel cwd d a c b roots, depth s fuel -> Forall simple d ->
  ~ wild a -> ~ wild b -> ~ In SLASH a -> ~ In SLASH b -> ~ In bslash a -> ~ In bslash b -> ~ In c ["!"; "]"; SLASH; bslash] ->
  normalize s fuel cwd [FnFile (d ++ [bracketed a c b])] = Done roots ->
  forall q, In q roots -> q = d ++ [a ++ c :: b].
Proof.
  intros s fuel cwd d a c b roots D F WA WB SA SB BA BB C R q I.
  apply (proj1 (c51_all_and_only _ _ _ _ _ D R q)) in I as (f & cs & [<-|[]] & N & DS).
  assert (O : Forall ordinary (d ++ [bracketed a c b])).
  { apply Forall_app. split; [eapply Forall_impl; [|exact F]; intros x (H & _); exact H|]. constructor; [|constructor].
    apply bracketed_ordinary; auto. intros ->. apply C. cbn. auto. }
  assert (B : Forall (fun c : text => ~ In bslash c) (d ++ [bracketed a c b])).
  { apply Forall_app. split; [eapply Forall_impl; [|exact F]; intros x (_ & H & _); exact H|]. constructor; [|constructor].
    apply bracketed_plain; auto. intros ->. apply C. cbn. auto. }
  assert (X : exists x p, d ++ [bracketed a c b] = x :: p) by (destruct d; cbn; eauto). destruct X as (x & p & X).
  rewrite X in O, B, N. destruct (c51_written s cwd x p O B) as (_ & N' & _). rewrite N in N'. injection N' as ->. rewrite <- X in DS.
  apply (designates_bracketed s d [] a c b []) in DS; auto.
  - eapply Forall_impl; [|exact F]. intros y (_ & _ & H). exact H.
  - intros ->. apply C. cbn. auto.
  - intros ->. apply C. cbn. auto.
Qed.
Print Assumptions c51_bracket_refuted.

(* In a directory named a[c]b, a plain relative name designates nothing there, but a file of that name in the directory acb. *)
Theorem c51_current_dir_refuted : forall s fuel d a c b x roots, depth s fuel -> Forall (fun c => ~ wild c) d ->
  ~ wild a -> ~ wild b -> ~ In c ["!"; "]"] -> simple x -> hd_error x <> Some TILDE ->
  normalize s fuel (d ++ [bracketed a c b]) [FnStr x] = Done roots ->
  forall q, In q roots -> q = d ++ [a ++ c :: b; x].
Proof.
  intros s fuel d a c b x roots D F WA WB C (O & BX & WX) T R q I.
  apply (proj1 (c51_all_and_only _ _ _ _ _ D R q)) in I as (f & cs & [<-|[]] & N & DS).
  assert (P : FnStr x = FnStr (relative [x])) by (unfold relative, posix; cbn; now rewrite app_nil_r).
  rewrite P in N. destruct (c51_written s (d ++ [bracketed a c b]) x []) as (_ & _ & N'); [constructor; auto|constructor; auto|].
  rewrite N in N'. destruct x as [|y x]; [destruct O; congruence|]. destruct (Ascii.eqb_spec y TILDE) as [->|NT]; [now destruct T|].
  injection N' as ->. rewrite <- app_assoc in DS. cbn [app] in DS. apply (designates_bracketed s d [] a c b) in DS; auto.
  - intros ->. apply C. cbn. auto.
  - intros ->. apply C. cbn. auto.
Qed.
Print Assumptions c51_current_dir_refuted.

(* A symbolic link that leads nowhere cannot be designated by its name, but it is by a pattern. *)
Theorem c51_broken_link_refuted : forall s fuel cwd d n, depth s fuel -> consistent s -> dirs_exist s -> Forall simple (d ++ [n]) ->
  is_dir s d = true -> In n (listdir s d) -> exists_ s (d ++ [n]) = false ->
  normalize s fuel cwd [FnFile (d ++ [n])] = Done [] /\
  (forall roots, normalize s fuel cwd [FnFile (d ++ [txt "*"])] = Done roots -> In (d ++ [n]) roots).
Proof.
  intros s fuel cwd d n D C E F ID I X. split.
  - assert (Y : exists x p, d ++ [n] = x :: p) by (destruct d; cbn; eauto). destruct Y as (x & p & Y). rewrite Y in *.
    destruct (c51_itself_partial s fuel cwd x p D C E F) as (H & _). now rewrite X in H.
  - intros roots R. apply (proj2 (c51_all_and_only _ _ _ _ _ D R (d ++ [n]))).
    exists (FnFile (d ++ [txt "*"])), (d ++ [txt "*"]). split; [now left|]. apply Forall_app in F as (F & _).
    assert (ST : ordinary (txt "*")) by (repeat split; try discriminate; intros [H|[]]; discriminate). split.
    + assert (Y : exists x p, d ++ [txt "*"] = x :: p) by (destruct d; cbn; eauto). destruct Y as (x & p & Y).
      rewrite Y. apply c51_written; rewrite <- Y; apply Forall_app; split.
      * eapply Forall_impl; [|exact F]. intros z (H & _). exact H.
      * constructor; auto.
      * eapply Forall_impl; [|exact F]. intros z (_ & H & _). exact H.
      * constructor; auto. intros [H|[]]; discriminate.
    + assert (G : forall cs b, Forall simple cs -> is_dir s (b ++ cs) = true -> In n (listdir s (b ++ cs)) -> designates s b (cs ++ [txt "*"]) (b ++ cs ++ [n])).
      { induction cs as [|c cs IH]; intros b FC DD LI; cbn [app].
        - rewrite app_nil_r in *. eapply (des_wild s b (txt "*") n); auto; try discriminate.
          + left. now left.
          + exists [GStar], [n]. split; [repeat constructor|]. split; [constructor; [exact Logic.I|constructor]|]. cbn. apply app_nil_r.
          + constructor.
        - inversion FC as [|? ? (O & _ & W) FC']; subst.
          assert (DC : is_dir s (b ++ [c]) = true). { destruct cs as [|c' cs]; [exact DD|]. eapply is_dir_prefix with (q := c' :: cs); eauto. discriminate. }
          apply des_name; [exact W|auto|intros H; destruct cs; discriminate|].
          replace (b ++ c :: cs ++ [n]) with ((b ++ [c]) ++ cs ++ [n]) by (now rewrite <- app_assoc).
          apply IH; auto; now rewrite <- app_assoc. }
      apply (G d []); auto.
Qed.
Print Assumptions c51_broken_link_refuted.

(* Two slashes in front are refused, and it is not reported as such (NotImplementedError). *)
Theorem c51_double_slash_refuted : forall s fuel cwd x, hd_error x <> Some SLASH ->
  hd_error x <> Some bslash -> normalize s fuel cwd [FnStr (SLASH :: SLASH :: x)] = Raises.
Proof.
  intros s fuel cwd x N NB. apply c51_refused. exists (FnStr (SLASH :: SLASH :: x)). split; [now left|]. right.
  assert (E : initial_slashes (unesc (SLASH :: SLASH :: x)) = 2).
  { change (unesc (SLASH :: SLASH :: x)) with (SLASH :: SLASH :: unesc x). unfold initial_slashes, starts. rewrite !Ascii.eqb_refl. cbn [andb].
    assert (Y : match unesc x with [] => false | b :: _ => (SLASH =? b) && true end = false).
    { destruct x as [|c x]; [reflexivity|]. cbn [unesc]. destruct (Ascii.eqb_spec c bslash) as [->|D]; [now destruct NB|].
      destruct (Ascii.eqb_spec SLASH c) as [<-|D2]; [now destruct N|reflexivity]. }
    destruct (unesc x) as [|b u]; [reflexivity|]. rewrite Y. reflexivity. }
  unfold normalized, filename_text, normpath. rewrite E. eauto.
Qed.
Print Assumptions c51_double_slash_refuted.

(* The root directory, given twice, is there twice. *)
Theorem c51_root_twice_refuted : forall s fuel cwd, normalize s fuel cwd [FnStr [SLASH]; FnStr [SLASH]] = Done [[]; []].
Proof. reflexivity. Qed.

(* x/.. is dropped whatever x is: a symbolic link to another place, or no file at all. *)
Theorem c51_link_parent_refuted : forall s fuel cwd a x b, a <> [] -> Forall ordinary (a ++ x :: b) -> Forall (fun c : text => ~ In bslash c) (a ++ x :: b) ->
  normalize s fuel cwd [FnFile (a ++ x :: DOTDOT :: b)] = normalize s fuel cwd [FnFile (a ++ b)].
Proof.
  intros s fuel cwd a x b NE O B. unfold normalize, normalize_paths. replace (normalized s cwd (FnFile (a ++ x :: DOTDOT :: b))) with (normalized s cwd (FnFile (a ++ b))); auto.
  assert (O' : Forall ordinary (a ++ b)). { apply Forall_app in O as (O1 & O2). inversion O2; subst. apply Forall_app. auto. }
  assert (B' : Forall (fun c : text => ~ In bslash c) (a ++ b)). { apply Forall_app in B as (B1 & B2). inversion B2; subst. apply Forall_app. auto. }
  assert (S : Forall (fun c : text => ~ In SLASH c) (a ++ x :: DOTDOT :: b)).
  { apply Forall_app in O as (O1 & O2). inversion O2 as [|? ? OX O3]; subst. apply Forall_app. split; [|constructor; [apply OX|constructor]].
    - eapply Forall_impl; [|exact O1]. intros z (_ & _ & _ & H). exact H.
    - intros [H|[H|[]]]; discriminate.
    - eapply Forall_impl; [|exact O3]. intros z (_ & _ & _ & H). exact H. }
  assert (B2 : Forall (fun c : text => ~ In bslash c) (a ++ x :: DOTDOT :: b)).
  { apply Forall_app in B as (B1 & B3). inversion B3; subst. apply Forall_app. split; auto. constructor; auto. constructor; auto.
    intros [H'|[H'|[]]]; discriminate. }
  destruct a as [|y a]; [congruence|]. cbn [app] in *.
  destruct (c51_written s cwd y (a ++ b) O' B') as (_ & -> & _). symmetry.
  unfold normalized, filename_text, normpath. rewrite unesc_plain by (now apply no_bslash_posix).
  replace (initial_slashes (posix (y :: a ++ x :: DOTDOT :: b))) with 1.
  2: { inversion O as [|? ? (N & _ & _ & SY) _]; subst. destruct y as [|y0 y]; [congruence|]. unfold posix. cbn [join_slash app]. unfold initial_slashes, starts.
       rewrite Ascii.eqb_refl. cbn [andb]. destruct (Ascii.eqb_spec SLASH y0) as [<-|D]; [exfalso; apply SY; now left|reflexivity]. }
  unfold posix. rewrite split_join by auto. cbv iota.
  pose proof (proj1 (proj2 (c51_dots 1 [] (y :: a ++ x :: DOTDOT :: b) x))) as Z. cbn [app] in Z. rewrite Z.
  assert (OX : ordinary x). { rewrite Forall_forall in O. apply O. right. apply in_or_app. right. now left. }
  pose proof (proj1 (proj2 (proj2 (c51_dots 1 (y :: a) b x))) OX) as Z2. cbn [app] in Z2. rewrite Z2.
  pose proof (proj1 (proj2 (proj2 (proj2 (proj2 (c51_dots 1 (y :: a ++ b) [] x))))) O') as Z3. rewrite Z3. reflexivity.
Qed.
Print Assumptions c51_link_parent_refuted.

(* The parent of a home directory is taken to be the current directory. *)
Theorem c51_home_parent_refuted : forall s cwd user b, ordinary (TILDE :: user) -> ~ In bslash user ->
  Forall ordinary b -> Forall (fun c : text => ~ In bslash c) b ->
  hd_error (hd [] b) <> Some TILDE ->
  normalized s cwd (FnStr (relative ((TILDE :: user) :: DOTDOT :: b))) = Done (false, cwd ++ b).
Proof.
  intros s cwd user b O B OB BB T. unfold normalized, filename_text, normpath.
  rewrite unesc_plain.
  2: { intros H. assert (X : In bslash (posix ((TILDE :: user) :: DOTDOT :: b))) by (unfold relative in H; destruct (posix _); [destruct H|now right]).
       revert X. apply no_bslash_posix. constructor; [intros [H1|H1]; [discriminate|auto]|]. constructor; auto. intros [H1|[H1|[]]]; discriminate. }
  rewrite slashes_relative by auto. rewrite split_relative.
  2: { constructor; [apply O|]. constructor; [intros [H1|[H1|[]]]; discriminate|]. eapply Forall_impl; [|exact OB]. intros z (_ & _ & _ & H). exact H. }
  pose proof (proj1 (proj2 (proj2 (c51_dots 0 [] b (TILDE :: user)))) O) as Z. cbn [app] in Z. rewrite Z.
  pose proof (proj1 (proj2 (proj2 (proj2 (proj2 (c51_dots 0 b [] []))))) OB) as Z2. rewrite Z2.
  destruct b as [|[|c x] b]; auto. destruct (Ascii.eqb_spec c TILDE) as [->|N]; [now destruct T|reflexivity].
Qed.
Print Assumptions c51_home_parent_refuted.

(* The same file can be there twice, when .. is left in one of its paths: in directory d/x, ../n and the path of n. *)
Theorem c51_parent_twice_refuted : forall s fuel d x n, depth s fuel -> consistent s -> dirs_exist s -> d <> [] -> Forall simple (d ++ [x; n]) ->
  exists_ s (d ++ [n]) = true -> exists_ s (d ++ [x; DOTDOT; n]) = true ->
  forall roots, normalize s fuel (d ++ [x]) [FnStr (relative [DOTDOT; n]); FnFile (d ++ [n])] = Done roots ->
  In (d ++ [n]) roots /\ In (d ++ [x; DOTDOT; n]) roots.
Proof.
  intros s fuel d x n D C E NE F E1 E2 roots R.
  assert (SN : simple n /\ simple x /\ Forall simple d). { apply Forall_app in F as (F1 & F2). inversion F2 as [|? ? F3 F4]; inversion F4; subst. auto. }
  destruct SN as (SN & SX & SD). pose proof (c51_all_and_only _ _ _ _ _ D R) as A.
  assert (W : Forall (fun c => ~ wild c) (d ++ [n])).
  { apply Forall_app. split; [eapply Forall_impl; [|exact SD]; intros z (_ & _ & H); exact H|]. constructor; [apply SN|constructor]. }
  split; apply A.
  - exists (FnFile (d ++ [n])), (d ++ [n]). split; [right; now left|]. split.
    + destruct d as [|y d]; [congruence|]. cbn [app]. apply c51_written.
      * change (y :: d ++ [n]) with ((y :: d) ++ [n]). apply Forall_app. split; [eapply Forall_impl; [|exact SD]; intros z (H & _); exact H|]. constructor; [apply SN|constructor].
      * change (y :: d ++ [n]) with ((y :: d) ++ [n]). apply Forall_app. split; [eapply Forall_impl; [|exact SD]; intros z (_ & H & _); exact H|]. constructor; [apply SN|constructor].
    + apply designates_simple; auto. destruct d; discriminate.
  - exists (FnStr (relative [DOTDOT; n])), (d ++ [x; DOTDOT; n]). split; [now left|]. split.
    + assert (NB : ~ In bslash n) by apply SN. assert (NS : ~ In SLASH n) by apply SN.
      unfold normalized, filename_text, normpath. rewrite unesc_plain.
      2: { unfold relative, posix. cbn [join_slash tl]. rewrite app_nil_r. intros H. apply in_app_or in H as [[H|[H|[]]]|[H|H]]; try discriminate. auto. }
      replace (initial_slashes (relative [DOTDOT; n])) with 0 by reflexivity.
      rewrite split_relative by (repeat constructor; auto; intros [H|[H|[]]]; discriminate).
      pose proof (proj2 (proj2 (proj2 (proj2 (proj2 (c51_dots 0 [n] [] []))))) eq_refl 1) as Z. cbn [repeat app] in Z. rewrite Z by (constructor; [apply SN|constructor]).
      cbn. now rewrite <- app_assoc.
    + apply designates_simple; auto.
      * apply Forall_app. apply Forall_app in W as (W1 & W2). split; auto. constructor; [apply SX|]. constructor; auto.
        intros [H|[H|H]]; destruct H as [H|[H|[]]]; discriminate.
      * destruct d; discriminate.
Qed.
Print Assumptions c51_parent_twice_refuted.

(* ---- an example: /t has the files a[1], a1, b c and x\y, and l, a link that leads nowhere; /h is a home directory ---- *)
Definition ex_names : list text := [txt "a[1]"; txt "a1"; txt "b c"; txt "x\y"; txt "l"].
Definition ex_fs : fsys := {|
  exists_ := fun p => match p with
                      | [] => true
                      | [d] => text_eqb d (txt "t") || text_eqb d (txt "h")
                      | [d; n] => text_eqb d (txt "t") && existsb (text_eqb n) (removelast ex_names)
                      | _ => false end;
  is_dir := fun p => match p with [] => true | [d] => text_eqb d (txt "t") || text_eqb d (txt "h") | _ => false end;
  subdir := fun p => match p with [] => true | [d] => text_eqb d (txt "t") || text_eqb d (txt "h") | _ => false end;
  listdir := fun p => match p with
                      | [] => [txt "t"; txt "h"]
                      | [d] => if text_eqb d (txt "t") then ex_names else []
                      | _ => [] end;
  home := fun u => match u with [] => Some [txt "h"] | _ => None end |}.
Lemma ex_depth : depth ex_fs 1.
Proof.
  intros b m d T. destruct T as [|b x n d I S T]; [lia|]. inversion T as [|? y ? ? I' S' T']; subst; [lia|]. exfalso.
  destruct b as [|u [|v [|w b]]]; cbn in S'; discriminate.
Qed.
Lemma ex_consistent : consistent ex_fs /\ dirs_exist ex_fs.
Proof.
  split.
  - intros p n. destruct p as [|d [|e [|g p]]]; cbn; try discriminate; auto. intros H. apply andb_true_iff in H as (H & _). now rewrite H.
  - intros [|d [|e p]]; cbn; auto; discriminate.
Qed.
Example ex_simple : Forall simple [txt "t"; txt "b c"].
Proof.
  assert (X : forall t : text, existsb (fun c => existsb (Ascii.eqb c) [SLASH; bslash; "*"; "?"; "["]) t = false -> t <> [] -> t <> DOT -> t <> DOTDOT -> simple t).
  { intros t H N1 N2 N3. assert (Y : forall x, In x [SLASH; bslash; "*"; "?"; "["] -> ~ In x t).
    { intros x I J. assert (Z : existsb (fun c => existsb (Ascii.eqb c) [SLASH; bslash; "*"; "?"; "["]) t = true); [|congruence].
      apply existsb_exists. exists x. split; auto. apply existsb_exists. exists x. split; auto. apply Ascii.eqb_refl. }
    repeat split; auto; try (apply Y; cbn; tauto). intros [W|[W|W]]; revert W; apply Y; cbn; tauto. }
  repeat (apply Forall_cons; [apply X; [reflexivity|discriminate|discriminate|discriminate]|]). apply Forall_nil.
Qed.
Example ex_itself : normalize ex_fs 1 [txt "t"] [FnStr (txt "b c"); FnStr (txt "./z/..//*c"); FnFile [txt "t"; txt "b c"]] =
  Done [[txt "t"; txt "b c"]].
Proof. vm_compute. reflexivity. Qed.
Example ex_bracket : normalize ex_fs 1 [] [FnFile [txt "t"; bracketed (txt "a") "1" []]] = Done [[txt "t"; txt "a1"]].
Proof. vm_compute. reflexivity. Qed.
Example ex_backslash : normalize ex_fs 1 [] [FnFile [txt "t"; txt "x\y"]] = Done [].
Proof. vm_compute. reflexivity. Qed.
Example ex_link : normalize ex_fs 1 [] [FnStr (txt "/t/l"); FnStr (txt "/t/[k-m]*")] = Done [[txt "t"; txt "l"]].
Proof. vm_compute. reflexivity. Qed.
Example ex_home : normalize ex_fs 1 [txt "t"] [FnStr (txt "~/.."); FnStr (txt "~")] = Done [[txt "t"]; [txt "h"]].
Proof. vm_compute. reflexivity. Qed.
Example ex_all : normalize ex_fs 1 [txt "t"] [FnStr (txt "/**/[!l-z]?")] = Done [[txt "t"; txt "a1"]].
Proof. vm_compute. reflexivity. Qed.
