(* Lemmas on patterns and globbing, for C51. *)
From Coq Require Import Ascii String List Bool Arith Lia.
From Verif.Syntax Require Import Lexer.
From Verif.Sys Require Import Glob GlobSpec.
Import ListNotations.
Local Open Scope char_scope.
Local Open Scope list_scope.

Lemma text_eqb_spec : forall a b, reflect (a = b) (text_eqb a b).
Proof. intros a b. unfold text_eqb. destruct (list_eq_dec ascii_dec a b); constructor; auto. Qed.
Lemma text_eqb_refl : forall a, text_eqb a a = true.
Proof. intros a. destruct (text_eqb_spec a a); congruence. Qed.
Lemma path_in_spec : forall p l, reflect (In p l) (path_in p l).
Proof. intros p l. unfold path_in. destruct (in_dec path_eq_dec p l); constructor; auto. Qed.

(* ---- brackets ---- *)
Lemma to_bracket_some : forall t a b, to_bracket t = Some (a, b) <-> t = a ++ "]" :: b /\ ~ In "]" a.
Proof.
  induction t as [|c t IH]; intros a b; cbn [to_bracket].
  - split; [discriminate|]. intros (H & _). destruct a; discriminate.
  - destruct (Ascii.eqb_spec c "]") as [->|N].
    + split.
      * intros H. injection H as <- <-. split; [reflexivity|intros []].
      * intros (H & I). destruct a as [|x a]; [now injection H as ->|]. injection H as <- _. exfalso. apply I. now left.
    + split.
      * destruct (to_bracket t) as [(x, y)|] eqn:E; [|discriminate]. intros H. injection H as <- <-.
        destruct (proj1 (IH x y) eq_refl) as (-> & I). split; [reflexivity|]. intros [H|H]; [congruence|auto].
      * intros (H & I). destruct a as [|x a]; [injection H as -> _; congruence|]. injection H as <- ->.
        replace (to_bracket (a ++ "]" :: b)) with (Some (a, b)); [reflexivity|]. symmetry. apply IH. split; auto. intros X. apply I. now right.
Qed.
Lemma class_body_some : forall t a b, class_body t = Some (a, b) <-> t = a ++ "]" :: b /\ body a.
Proof.
  intros t a b. unfold class_body. destruct t as [|c t].
  - split; [discriminate|]. intros (H & _). destruct a; discriminate.
  - destruct (Ascii.eqb_spec c "]") as [->|N].
    + split.
      * destruct (to_bracket t) as [(x, y)|] eqn:E; [|discriminate]. intros H. injection H as <- <-.
        apply to_bracket_some in E as (-> & I). split; [reflexivity|]. now exists "]", x.
      * intros (H & x & r & -> & I). cbn in H. injection H as <- ->.
        replace (to_bracket (r ++ "]" :: b)) with (Some (r, b)); [reflexivity|]. symmetry. now apply to_bracket_some.
    + split.
      * intros H. apply to_bracket_some in H as (H & I). split; auto. destruct a as [|x a]; [injection H as -> _; congruence|].
        exists x, a. split; auto. intros X. apply I. now right.
      * intros (H & x & r & -> & I). apply to_bracket_some. split; auto. cbn in H. injection H as <- _. intros [X|X]; auto.
Qed.
Lemma class_body_none : forall t, class_body t = None <-> (forall a b, body a -> t <> a ++ "]" :: b).
Proof.
  intros t. split.
  - intros E a b B H. assert (X : class_body t = Some (a, b)) by (now apply class_body_some). congruence.
  - intros H. destruct (class_body t) as [(a, b)|] eqn:E; auto. apply class_body_some in E as (-> & B). now destruct (H a b B).
Qed.

Lemma bracket_class : forall b t, body b -> hd_error b <> Some "!" -> bracket (b ++ "]" :: t) = Some (false, b, t).
Proof.
  intros b t (c & r & -> & I) N. unfold bracket. cbn [app]. destruct (Ascii.eqb_spec c "!") as [->|M]; [cbn in N; congruence|].
  replace (class_body (c :: r ++ "]" :: t)) with (Some (c :: r, t)); [reflexivity|].
  symmetry. apply class_body_some. split; [reflexivity|]. now exists c, r.
Qed.
Lemma bracket_not_class : forall b t, body b -> bracket ("!" :: b ++ "]" :: t) = Some (true, b, t).
Proof.
  intros b t B. unfold bracket. rewrite Ascii.eqb_refl. replace (class_body (b ++ "]" :: t)) with (Some (b, t)); [reflexivity|].
  symmetry. now apply class_body_some.
Qed.
Lemma bracket_none : forall t, (forall b r, body b -> hd_error b <> Some "!" -> t <> b ++ "]" :: r) ->
  (forall b r, body b -> t <> "!" :: b ++ "]" :: r) -> bracket t = None.
Proof.
  intros t H1 H2. unfold bracket. destruct t as [|c t]; auto. destruct (Ascii.eqb_spec c "!") as [->|N].
  - replace (class_body t) with (@None (text * text)); auto. symmetry. apply class_body_none. intros a b B X. eapply H2; eauto. now rewrite X.
  - replace (class_body (c :: t)) with (@None (text * text)); auto. symmetry. apply class_body_none. intros a b B X. eapply H1; eauto.
    destruct B as (x & r & -> & _). cbn in X. injection X as -> _. cbn. congruence.
Qed.

Lemma ranges_members_n : forall n t, length t <= n -> members t (ranges t).
Proof.
  induction n as [|n IH]; intros t L.
  - destruct t; [constructor|cbn in L; lia].
  - destruct t as [|a [|d [|b t]]]; cbn [ranges] in *.
    + constructor.
    + constructor; [discriminate|constructor].
    + constructor; [discriminate|]. constructor; [discriminate|constructor].
    + destruct (Ascii.eqb_spec d "-") as [->|N].
      * constructor. apply IH. cbn in L. lia.
      * constructor; [intros x r H; injection H; congruence|]. change (match t with [] => _ | _ => _ end) with (ranges (d :: b :: t)) || idtac.
        apply (IH (d :: b :: t)). cbn in *. lia.
Qed.
Lemma ranges_members : forall t, members t (ranges t).
Proof. intros t. eapply ranges_members_n. apply le_n. Qed.
Lemma members_ranges : forall t rs, members t rs -> rs = ranges t.
Proof.
  induction 1 as [|a b t rs M IH|a t rs N M IH]; auto.
  - cbn [ranges]. rewrite Ascii.eqb_refl. now rewrite IH.
  - cbn [ranges]. destruct t as [|d [|b t]]; try (now rewrite IH).
    destruct (Ascii.eqb_spec d "-") as [->|X]; [now destruct (N b t)|]. now rewrite IH.
Qed.

Lemma translate_reads : forall n t, length t <= n -> reads t (translate n t).
Proof.
  induction n as [|n IH]; intros t L.
  - destruct t; [constructor|cbn in L; lia].
  - destruct t as [|c t]; [constructor|]. cbn in L. cbn [translate].
    destruct (Ascii.eqb_spec c "*") as [->|N1]; [constructor; apply IH; lia|].
    destruct (Ascii.eqb_spec c "?") as [->|N2]; [constructor; apply IH; lia|].
    destruct (Ascii.eqb_spec c "[") as [->|N3]; [|constructor; auto; apply IH; lia].
    destruct (bracket t) as [((neg, b), r)|] eqn:E.
    + unfold bracket in E. destruct t as [|x t]; [discriminate|]. destruct (Ascii.eqb_spec x "!") as [->|N].
      * destruct (class_body t) as [(u, v)|] eqn:C; [|discriminate]. injection E as <- <- <-. apply class_body_some in C as (-> & B).
        apply reads_not_class; auto. { apply ranges_members. } apply IH. cbn in L. rewrite app_length in L. cbn in L. lia.
      * destruct (class_body (x :: t)) as [(u, v)|] eqn:C; [|discriminate]. injection E as <- <- <-. apply class_body_some in C as (X & B).
        rewrite X. apply reads_class; auto.
        { destruct B as (y & u' & -> & _). cbn in X. injection X as -> _. cbn. congruence. }
        { apply ranges_members. } apply IH. rewrite X, app_length in L. cbn in L. lia.
    + apply reads_bracket.
      * intros b r B H X. rewrite X, bracket_class in E; auto. discriminate.
      * intros b r B X. rewrite X, bracket_not_class in E; auto. discriminate.
      * apply IH. lia.
Qed.
Lemma pattern_reads : forall t, reads t (pattern t).
Proof. intros t. apply translate_reads. apply le_n. Qed.
Lemma reads_translate : forall t g, reads t g -> forall n, length t <= n -> g = translate n t.
Proof.
  induction 1 as [|t g R IH|t g R IH|b rs t g B N M R IH|b rs t g B M R IH|t g N1 N2 R IH|c t g N1 N2 N3 R IH]; intros n L.
  - now destruct n.
  - destruct n as [|n]; cbn in L; [lia|]. cbn [translate]. cbn. rewrite <- (IH n); auto. lia.
  - destruct n as [|n]; cbn in L; [lia|]. cbn [translate]. cbn. rewrite <- (IH n); auto. lia.
  - destruct n as [|n]; cbn in L; [lia|]. cbn [translate]. change ("[" =? "*") with false. change ("[" =? "?") with false. rewrite Ascii.eqb_refl.
    cbv iota. rewrite bracket_class; auto. rewrite <- (members_ranges _ _ M), <- (IH n); auto. rewrite app_length in L. cbn in L. lia.
  - destruct n as [|n]; cbn in L; [lia|]. cbn [translate]. change ("[" =? "*") with false. change ("[" =? "?") with false. rewrite Ascii.eqb_refl.
    cbv iota. rewrite bracket_not_class; auto. rewrite <- (members_ranges _ _ M), <- (IH n); auto. rewrite app_length in L. cbn in L. lia.
  - destruct n as [|n]; cbn in L; [lia|]. cbn [translate]. change ("[" =? "*") with false. change ("[" =? "?") with false. rewrite Ascii.eqb_refl.
    cbv iota. rewrite bracket_none; auto. rewrite <- (IH n); auto. lia.
  - destruct n as [|n]; cbn in L; [lia|]. cbn [translate].
    destruct (Ascii.eqb_spec c "*"); [congruence|]. destruct (Ascii.eqb_spec c "?"); [congruence|]. destruct (Ascii.eqb_spec c "["); [congruence|].
    rewrite <- (IH n); auto. lia.
Qed.
Lemma reads_pattern : forall t g, reads t g -> g = pattern t.
Proof. intros t g R. unfold pattern. apply reads_translate; auto. Qed.

(* ---- matching ---- *)
Lemma in_ranges_spec : forall rs c, in_ranges rs c = true <->
  exists r, In r rs /\ nat_of_ascii (fst r) <= nat_of_ascii c <= nat_of_ascii (snd r).
Proof.
  intros rs c. unfold in_ranges. rewrite existsb_exists. split; intros (r & I & H); exists r; split; auto.
  - unfold between in H. apply andb_true_iff in H as (A & B). apply Nat.leb_le in A, B. lia.
  - unfold between. apply andb_true_iff. split; apply Nat.leb_le; lia.
Qed.
Definition one_char (i : gitem) (c : ascii) : bool :=
  match i with GChar d => (c =? d) | GAny => true | GClass neg rs => xorb neg (in_ranges rs c) | GStar => true end.
Lemma item_one : forall i s, i <> GStar -> (item_matches i s <-> exists c, s = [c] /\ one_char i c = true).
Proof.
  intros [d| | |neg rs] s N; cbn [item_matches one_char]; try congruence.
  - split; [intros ->; exists d; split; auto; apply Ascii.eqb_refl|]. intros (c & -> & E). apply Ascii.eqb_eq in E. now subst.
  - split; intros (c & H); exists c; tauto.
  - split; intros (c & -> & H); exists c; split; auto.
    + rewrite <- in_ranges_spec in H. destruct neg, (in_ranges rs c); cbn; destruct H as (H1 & H2); auto; first [discriminate (H2 eq_refl)|discriminate (H1 eq_refl)|symmetry; auto].
    + rewrite <- in_ranges_spec. destruct neg, (in_ranges rs c); cbn in H; try discriminate; split; congruence.
Qed.

Lemma gmatch_star : forall g t, gmatch (GStar :: g) t = true <-> exists a b, t = a ++ b /\ gmatch g b = true.
Proof.
  intros g t. induction t as [|c t IH].
  - change (gmatch (GStar :: g) []) with (gmatch g [] || false). rewrite orb_false_r. split; [intros H; exists [], []; auto|].
    intros (a & b & E & H). destruct a; [|discriminate]. cbn in E. subst b. exact H.
  - change (gmatch (GStar :: g) (c :: t)) with (gmatch g (c :: t) || gmatch (GStar :: g) t). rewrite orb_true_iff, IH. split.
    + intros [H|(a & b & -> & H)]; [exists [], (c :: t); auto|]. exists (c :: a), b; auto.
    + intros (a & b & E & H). destruct a as [|x a]; cbn in E; [subst b; now left|]. injection E as <- ->. right. eauto.
Qed.
Lemma gmatch_one : forall i g c t, i <> GStar -> gmatch (i :: g) (c :: t) = one_char i c && gmatch g t.
Proof. intros [c0| | |n0 r0] g c t N; try congruence; reflexivity. Qed.

Lemma gmatch_spec : forall g t, gmatch g t = true <-> exists pieces, Forall2 item_matches g pieces /\ concat pieces = t.
Proof.
  induction g as [|i g IH]; intros t.
  - cbn. destruct t as [|c t]; split; auto; try discriminate.
    + intros _. exists []; auto.
    + intros (ps & F & H). inversion F; subst. discriminate.
  - assert (D : i = GStar \/ i <> GStar) by (destruct i; auto; right; discriminate). destruct D as [->|N].
    + rewrite gmatch_star. split.
      * intros (a & b & -> & H). apply IH in H as (ps & F & <-). exists (a :: ps). split; auto. constructor; auto. exact I.
      * intros (ps & F & <-). inversion F as [|? p ? ps' _ F']; subst. exists p, (concat ps'). split; auto. apply IH. eauto.
    + destruct t as [|c t].
      * split; [destruct i; try congruence; discriminate|]. intros (ps & F & H). inversion F as [|? p ? ps' M F']; subst.
        apply item_one in M as (x & -> & _); auto. discriminate.
      * rewrite gmatch_one by auto. rewrite andb_true_iff, IH. split.
        -- intros (H & ps & F & <-). exists ([c] :: ps). split; auto. constructor; auto. apply item_one; eauto.
        -- intros (ps & F & H). inversion F as [|? p ? ps' M F']; subst. apply item_one in M as (x & -> & O); auto.
           cbn in H. injection H as -> <-. split; eauto.
Qed.
Lemma matches_spec : forall pat n, gmatch (pattern pat) n = true <-> matches pat n.
Proof.
  intros pat n. rewrite gmatch_spec. split.
  - intros (ps & F & H). exists (pattern pat), ps. split; auto. apply pattern_reads.
  - intros (g & ps & R & F & H). apply reads_pattern in R. subst g. eauto.
Qed.

(* ---- directories ---- *)
Lemma directories_tree : forall s fuel b d, In d (directories s fuel b) -> exists n, tree s b n d.
Proof.
  intros s. induction fuel as [|fuel IH]; intros b d H; cbn [directories] in H.
  - destruct H as [->|[]]. exists 0. constructor.
  - destruct H as [->|H]; [exists 0; constructor|]. apply in_flat_map in H as (m & I & H).
    destruct (subdir s (b ++ [m])) eqn:E; [|destruct H]. apply IH in H as (n & T). exists (S n). econstructor; eauto.
Qed.
Lemma tree_directories : forall s b n d, tree s b n d -> forall fuel, n <= fuel -> In d (directories s fuel b).
Proof.
  intros s. induction 1 as [b|b m n d I E T IH]; intros fuel L.
  - destruct fuel; now left.
  - destruct fuel as [|fuel]; [lia|]. right. apply in_flat_map. exists m. split; auto. rewrite E. apply IH. lia.
Qed.

Lemma once_in : forall l seen p, In p (once seen l) <-> In p l /\ ~ In p seen.
Proof.
  induction l as [|x l IH]; intros seen p; cbn [once].
  - split; [intros []|intros ([] & _)].
  - destruct (path_in_spec x seen) as [I|N].
    + rewrite IH. split; [intros (A & B); split; auto; now right|]. intros ([->|A] & B); [tauto|auto].
    + cbn [In]. rewrite IH. cbn [In]. split.
      * intros [->|(A & B)]; [auto|]. split; auto.
      * intros ([->|A] & B); [now left|]. destruct (path_eq_dec x p) as [->|D]; [now left|]. right. split; auto. intros [H|H]; auto.
Qed.

Lemma wildcard_spec : forall c, wildcard c = true <-> wild c.
Proof.
  intros c. unfold wildcard, wild. rewrite existsb_exists. split.
  - intros (x & I & H). apply orb_true_iff in H as [H|H]; [apply orb_true_iff in H as [H|H]|]; apply Ascii.eqb_eq in H; subst; auto.
  - intros [H|[H|H]]; eexists; (split; [exact H|reflexivity]).
Qed.
Lemma wildcard_false : forall c, wildcard c = false <-> ~ wild c.
Proof. intros c. rewrite <- wildcard_spec. destruct (wildcard c); split; congruence. Qed.

Lemma select_designates : forall s fuel, depth s fuel -> forall cs b q, In q (select s fuel b cs) <-> designates s b cs q.
Proof.
  intros s fuel D. induction cs as [|c cs IH]; intros b q.
  - cbn. split; [intros [->|[]]; constructor|]. intros H. inversion H; subst. now left.
  - cbn [select]. destruct (text_eqb_spec c STARSTAR) as [->|N].
    + rewrite once_in, in_flat_map. split.
      * intros ((d & I & H) & _). apply directories_tree in I as (n & T). apply IH in H. econstructor; eauto.
      * intros H. split; [|auto]. inversion H as [|? n d ? ? T X|? ? ? ? ? N|? ? ? ? W]; subst; try congruence.
        -- exists d. split; [eapply tree_directories; eauto|]. now apply IH.
        -- exfalso. apply W. left. now left.
    + destruct (wildcard c) eqn:W.
      * rewrite in_flat_map. apply wildcard_spec in W. split.
        -- intros (m & I & H). destruct ((match cs with [] => false | _ => true end && negb (is_dir s (b ++ [m])))
             || negb (gmatch (pattern c) m)) eqn:E; [destruct H|]. apply orb_false_iff in E as (E1 & E2).
           apply negb_false_iff, matches_spec in E2. apply IH in H. eapply des_wild; eauto.
           intros X. destruct cs; [congruence|]. cbn in E1. now apply negb_false_iff in E1.
        -- intros H. inversion H as [| |? ? m ? ? _ _ I M K X|? ? ? ? NW]; subst; try congruence; try tauto.
           exists m. split; auto. apply matches_spec in M. rewrite M. cbn [negb]. rewrite orb_false_r.
           destruct cs as [|c' cs]; [now apply IH|]. rewrite K by discriminate. now apply IH.
      * apply wildcard_false in W. split.
        -- intros H. apply des_name; auto.
           ++ intros X. destruct cs; [congruence|]. destruct (is_dir s (b ++ [c])); [auto|destruct H].
           ++ intros ->. destruct (exists_ s (b ++ [c])); [auto|destruct H].
           ++ apply IH. destruct cs; [destruct (exists_ s (b ++ [c]))|destruct (is_dir s (b ++ [c]))]; auto; destruct H.
        -- intros H. inversion H as [|? ? ? ? ? T|? ? ? ? ? NW1 NW2|? ? ? ? NW K1 K2 X]; subst; try tauto.
           destruct cs as [|c' cs]; [rewrite K2 by reflexivity|rewrite K1 by discriminate]; now apply IH.
Qed.
