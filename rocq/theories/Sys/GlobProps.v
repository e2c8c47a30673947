(* C51: filename arguments designate the files they name. *)
From Coq Require Import Ascii String List Bool Arith Lia.
From Verif.Syntax Require Import Lexer.
From Verif.Sys Require Import Glob GlobSpec GlobFacts.
Import ListNotations.
Local Open Scope char_scope.
Local Open Scope list_scope.

(* ---- the result as a whole ---- *)

Lemma add_roots_firsts : forall found seen seen' r1, add_roots seen found = (seen', r1) ->
  forall l r, firsts seen' l r -> firsts seen (map Some found ++ l) (r1 ++ r).
Proof.
  induction found as [|p found IH]; intros seen seen' r1 E l r F; cbn [add_roots] in E.
  - injection E as -> <-. exact F.
  - destruct (path_in_spec p seen) as [I|N].
    + cbn. apply firsts_old; eauto.
    + destruct (add_roots (p :: seen) found) as (s2, r2) eqn:A. injection E as -> <-. cbn. apply firsts_new; auto. eapply IH; eauto.
Qed.

Definition bad_pattern (cs : list text) : Prop := exists c, In c cs /\ c <> STARSTAR /\ has_starstar c = true.
Lemma glob_raises : forall s fuel cs, glob s fuel cs = Raises <-> bad_pattern cs.
Proof.
  intros s fuel cs. unfold glob. destruct (existsb (fun c => negb (text_eqb c STARSTAR) && has_starstar c) cs) eqn:E; split; auto; try discriminate.
  - intros _. apply existsb_exists in E as (c & I & H). apply andb_true_iff in H as (H1 & H2). exists c. repeat split; auto.
    intros ->. now rewrite text_eqb_refl in H1.
  - intros (c & I & N & H). assert (X : existsb (fun c => negb (text_eqb c STARSTAR) && has_starstar c) cs = true); [|congruence].
    apply existsb_exists. exists c. split; auto. destruct (text_eqb_spec c STARSTAR); [congruence|]. now rewrite H.
Qed.

Lemma glob_done : forall s fuel cs found, glob s fuel cs = Done found -> found = select s fuel [] cs.
Proof. intros s fuel cs found G. unfold glob in G. destruct (existsb _ cs); [discriminate|]. now injection G as <-. Qed.

Lemma loop_done : forall s fuel, depth s fuel -> forall ps seen roots, normalize_loop s fuel seen ps = Done roots ->
  exists founds, Forall2 (fun p l => fst p = false /\ finds s (snd p) l) ps founds /\ firsts seen (concat founds) roots.
Proof.
  intros s fuel D. induction ps as [|(dbl, cs) ps IH]; intros seen roots E; cbn [normalize_loop] in E.
  - injection E as <-. exists []. split; constructor.
  - destruct dbl; [discriminate|]. destruct cs as [|c cs].
    + destruct (normalize_loop s fuel seen ps) as [r|] eqn:L; [|discriminate]. injection E as <-.
      apply IH in L as (founds & F & X). exists ([None] :: founds). split; [constructor; auto; split; auto; left; auto|]. cbn. now constructor.
    + destruct (glob s fuel (c :: cs)) as [found|] eqn:G; [|discriminate].
      destruct (add_roots seen found) as (seen', r1) eqn:A.
      destruct (normalize_loop s fuel seen' ps) as [r|] eqn:L; [|discriminate]. injection E as <-.
      apply IH in L as (founds & F & X). exists (map Some found :: founds). split.
      * constructor; auto. split; auto. right. split; [discriminate|]. exists found. split; auto.
        apply glob_done in G. rewrite G. intros p. now apply select_designates.
      * cbn [concat]. eapply add_roots_firsts; eauto.
Qed.

Lemma paths_done : forall s cwd fs ps, normalize_paths s cwd fs = Done ps -> Forall2 (fun f p => normalized s cwd f = Done p) fs ps.
Proof.
  intros s cwd. induction fs as [|f fs IH]; intros ps E; cbn [normalize_paths] in E.
  - injection E as <-. constructor.
  - destruct (normalized s cwd f) as [p|] eqn:N; [|discriminate]. destruct (normalize_paths s cwd fs) as [ps'|]; [|discriminate].
    injection E as <-. constructor; auto.
Qed.

(* What the arguments designate, each file once, in the order of the arguments.  [normalized] is specified below (c51_written,
   c51_dots). *)
Theorem c51_designates : forall s fuel cwd fs roots, depth s fuel -> normalize s fuel cwd fs = Done roots ->
  exists founds,
    Forall2 (fun f l => exists cs, normalized s cwd f = Done (false, cs) /\ finds s cs l) fs founds /\
    firsts [] (concat founds) roots.
Proof.
  intros s fuel cwd fs roots D E. unfold normalize in E. destruct (normalize_paths s cwd fs) as [ps|] eqn:P; [|discriminate].
  apply paths_done in P. apply loop_done in E as (founds & F & X); auto. exists founds. split; auto. clear X.
  revert founds F. induction P as [|f p fs ps N P IH]; intros founds F; inversion F as [|? l ? founds' (A & B) F']; subst; constructor; auto.
  destruct p as (dbl, cs). cbn in A, B. subst dbl. exists cs. auto.
Qed.
Print Assumptions c51_designates.

(* No file twice, except the root directory. *)
Lemma firsts_seen : forall seen l r, firsts seen l r -> forall p, p <> [] -> In p seen -> ~ In p r.
Proof.
  induction 1 as [seen|seen l r F IH|seen q l r I F IH|seen q l r I F IH]; intros p N S; auto.
  - intros [H|H]; [congruence|]. eapply IH; eauto.
  - intros [->|H]; [tauto|]. eapply IH; eauto. now right.
Qed.
Theorem c51_once : forall s fuel cwd fs roots, depth s fuel -> normalize s fuel cwd fs = Done roots ->
  forall p, p <> [] -> count_occ path_eq_dec roots p <= 1.
Proof.
  intros s fuel cwd fs roots D E p N. apply c51_designates in E as (founds & _ & F); auto. revert F. generalize (@nil path) (concat founds).
  intros seen l F. induction F as [seen|seen l r F IH|seen q l r I F IH|seen q l r I F IH]; cbn [count_occ]; auto.
  - destruct (path_eq_dec [] p); [congruence|auto].
  - destruct (path_eq_dec q p) as [->|D']; auto.
    assert (Z : ~ In p r) by (eapply firsts_seen; eauto; now left).
    apply (count_occ_not_In path_eq_dec) in Z. lia.
Qed.

Lemma firsts_in : forall seen l r, firsts seen l r -> forall p, In p r -> (In (Some p) l \/ (p = [] /\ In None l)).
Proof.
  induction 1 as [seen|seen l r F IH|seen q l r I F IH|seen q l r I F IH]; intros p X.
  - destruct X.
  - destruct X as [<-|X]; [right; split; auto; now left|]. destruct (IH p X) as [H|(H1 & H2)]; [left; now right|right; split; auto; now right].
  - destruct (IH p X) as [H|(H1 & H2)]; [left; now right|right; split; auto; now right].
  - destruct X as [<-|X]; [left; now left|]. destruct (IH p X) as [H|(H1 & H2)]; [left; now right|right; split; auto; now right].
Qed.
Lemma in_firsts : forall seen l r, firsts seen l r -> forall p, In (Some p) l -> ~ In p seen -> In p r.
Proof.
  induction 1 as [seen|seen l r F IH|seen q l r I F IH|seen q l r I F IH]; intros p X N.
  - destruct X.
  - destruct X as [X|X]; [discriminate|]. right. auto.
  - destruct X as [X|X]; [injection X as ->; tauto|auto].
  - destruct X as [X|X]; [injection X as ->; now left|]. destruct (path_eq_dec q p) as [->|D]; [now left|]. right. apply IH; auto.
    intros [H|H]; auto.
Qed.
Lemma in_firsts_none : forall seen l r, firsts seen l r -> In None l -> In [] r.
Proof.
  induction 1 as [seen|seen l r F IH|seen q l r I F IH|seen q l r I F IH]; intros X.
  - destruct X.
  - now left.
  - destruct X as [X|X]; [discriminate|auto].
  - destruct X as [X|X]; [discriminate|]. right. auto.
Qed.

(* A file is in the result exactly if some argument designates it. *)
Theorem c51_all_and_only : forall s fuel cwd fs roots, depth s fuel -> normalize s fuel cwd fs = Done roots ->
  forall p, In p roots <-> exists f cs, In f fs /\ normalized s cwd f = Done (false, cs) /\ designates s [] cs p.
Proof.
  intros s fuel cwd fs roots D E p. apply c51_designates in E as (founds & F & X); auto. split.
  - intros I. assert (Y : exists l, In l founds /\ (In (Some p) l \/ (p = [] /\ In None l))).
    { destruct (firsts_in _ _ _ X p I) as [H|(H1 & H2)]; [|]; rewrite in_concat in *.
      - destruct H as (l & A & B). eauto.
      - destruct H2 as (l & A & B). eauto. }
    destruct Y as (l & L & Y). clear X I. induction F as [|f l' fs founds (cs & N & K) F IH]; [destruct L|].
    destruct L as [->|L].
    + exists f, cs. split; [now left|]. split; auto. destruct K as [(-> & ->)|(NE & ps & -> & W)].
      * destruct Y as [[Y|[]]|(-> & _)]; [discriminate|constructor].
      * destruct Y as [Y|(_ & Y)].
        -- apply in_map_iff in Y as (q & Q & Y). injection Q as ->. now apply W.
        -- apply in_map_iff in Y as (q & Q & _). discriminate.
    + destruct (IH L) as (f' & cs' & A & B). exists f', cs'. split; auto. now right.
  - intros (f & cs & I & N & DS). assert (Y : In (Some p) (concat founds) \/ (p = [] /\ In None (concat founds))).
    { clear X. induction F as [|f' l' fs founds (cs' & N' & K) F IH]; [destruct I|]. cbn [concat]. destruct I as [->|I].
      - rewrite N in N'. injection N' as <-. destruct K as [(-> & ->)|(NE & ps & -> & W)].
        + inversion DS; subst. right. split; auto. now left.
        + left. apply in_or_app. left. apply in_map. now apply W.
      - destruct (IH I) as [H|(H1 & H2)]; [left|right; split; auto]; apply in_or_app; auto. }
    destruct Y as [Y|(-> & Y)]; [eapply in_firsts; eauto|eapply in_firsts_none; eauto].
Qed.
Print Assumptions c51_all_and_only.

(* When the arguments are refused: an unknown user after ~, two slashes in front, ** that is not a component. *)
Theorem c51_refused : forall s fuel cwd fs, normalize s fuel cwd fs = Raises <->
  exists f, In f fs /\ (normalized s cwd f = Raises \/ exists dbl cs, normalized s cwd f = Done (dbl, cs) /\ (dbl = true \/ bad_pattern cs)).
Proof.
  intros s fuel cwd fs. unfold normalize. split.
  - destruct (normalize_paths s cwd fs) as [ps|] eqn:P.
    + apply paths_done in P. generalize (@nil path). induction P as [|f (dbl, cs) fs ps N P IH]; intros seen E; cbn [normalize_loop] in E; [discriminate|].
      destruct dbl. { exists f. split; [now left|]. right. exists true, cs. auto. }
      destruct cs as [|c cs].
      * destruct (normalize_loop s fuel seen ps) eqn:L; [discriminate|]. apply IH in L as (f' & A & B). exists f'. split; auto. now right.
      * destruct (glob s fuel (c :: cs)) eqn:G.
        -- destruct (add_roots seen a) as (seen', r1). destruct (normalize_loop s fuel seen' ps) eqn:L; [discriminate|].
           apply IH in L as (f' & A & B). exists f'. split; auto. now right.
        -- apply glob_raises in G. exists f. split; [now left|]. right. exists false, (c :: cs). auto.
    + intros _. induction fs as [|f fs IH]; cbn [normalize_paths] in P; [discriminate|].
      destruct (normalized s cwd f) as [p|] eqn:N; [|exists f; split; [now left|auto]].
      destruct (normalize_paths s cwd fs) eqn:Q; [discriminate|]. destruct (IH P) as (f' & A & B). exists f'. split; auto. now right.
  - intros (f & I & H). destruct (normalize_paths s cwd fs) as [ps|] eqn:P; auto. apply paths_done in P. generalize (@nil path).
    induction P as [|f' p fs ps N P IH]; [destruct I|]. intros seen. destruct I as [->|I].
    + destruct H as [H|(dbl & cs & H & K)]; [congruence|]. rewrite H in N. injection N as <-. cbn [normalize_loop]. destruct K as [->|K]; auto.
      destruct dbl; auto. destruct cs as [|c cs]; [destruct K as (? & [] & _)|]. apply (glob_raises s fuel) in K. now rewrite K.
    + destruct p as (dbl, cs). cbn [normalize_loop]. destruct dbl; auto. destruct cs as [|c cs]; [now rewrite (IH I)|].
      destruct (glob s fuel (c :: cs)); auto. destruct (add_roots seen a) as (seen', r1). now rewrite (IH I).
Qed.
Print Assumptions c51_refused.

(* ---- how names are read ---- *)

Lemma unesc_plain : forall t, ~ In bslash t -> unesc t = t.
Proof.
  induction t as [|c t IH]; intros N; auto. cbn [unesc]. destruct (Ascii.eqb_spec c bslash) as [->|D]; [exfalso; apply N; now left|].
  rewrite IH; auto. intros H. apply N. now right.
Qed.
Lemma split_slash_plain : forall c t, ~ In SLASH c -> split_slash (c ++ t) = match split_slash t with w :: ws => (c ++ w) :: ws | [] => [c] end.
Proof.
  induction c as [|a c IH]; intros t N; cbn [app].
  - assert (X : split_slash t <> []). { destruct t as [|x t]; cbn [split_slash]; [discriminate|]. destruct (x =? SLASH); [discriminate|]. destruct (split_slash t); discriminate. }
    now destruct (split_slash t).
  - cbn [split_slash]. destruct (Ascii.eqb_spec a SLASH) as [->|D]; [exfalso; apply N; now left|].
    rewrite IH by (intros H; apply N; now right). now destruct (split_slash t).
Qed.
Lemma split_join : forall p : path, Forall (fun c : text => ~ In SLASH c) p -> split_slash (join_slash p) = [] :: p.
Proof.
  induction 1 as [|c p N F IH]; [reflexivity|]. cbn [join_slash split_slash]. rewrite Ascii.eqb_refl. cbv iota.
  rewrite split_slash_plain by auto. rewrite IH. now rewrite app_nil_r.
Qed.
Lemma split_relative : forall (c : text) (p : path), Forall (fun c : text => ~ In SLASH c) (c :: p) -> split_slash (relative (c :: p)) = c :: p.
Proof.
  intros c p F. inversion F as [|? ? N F']; subst. unfold relative, posix. cbn [join_slash tl].
  rewrite split_slash_plain by auto. rewrite split_join by auto. now rewrite app_nil_r.
Qed.
Lemma in_join : forall p x, In x (join_slash p) -> x = SLASH \/ exists c, In c p /\ In x c.
Proof.
  induction p as [|c p IH]; intros x H; cbn in H; [destruct H|]. destruct H as [<-|H]; auto. apply in_app_or in H as [H|H].
  - right. exists c. split; auto. now left.
  - destruct (IH x H) as [->|(d & A & B)]; auto. right. exists d. split; auto. now right.
Qed.
Lemma no_bslash_posix : forall p : path, Forall (fun c : text => ~ In bslash c) p -> ~ In bslash (posix p).
Proof.
  intros p F H. rewrite Forall_forall in F.
  assert (X : bslash = SLASH \/ exists c, In c p /\ In bslash c). { destruct p; [destruct H as [H|[]]; discriminate|]. now apply in_join. }
  destruct X as [X|(c & A & B)]; [discriminate|]. eapply F; eauto.
Qed.
Lemma slashes_posix : forall p, Forall ordinary p -> initial_slashes (posix p) = 1.
Proof.
  intros p F. destruct p as [|c p]; [reflexivity|]. inversion F as [|? ? (N & _ & _ & S) _]; subst. destruct c as [|a c]; [congruence|].
  unfold posix. cbn [join_slash app]. unfold initial_slashes, starts. rewrite Ascii.eqb_refl. cbn [andb].
  destruct (Ascii.eqb_spec SLASH a) as [<-|D]; [exfalso; apply S; now left|reflexivity].
Qed.
Lemma slashes_relative : forall c p, ordinary c -> initial_slashes (relative (c :: p)) = 0.
Proof.
  intros c p (N & _ & _ & S). destruct c as [|a c]; [congruence|]. unfold relative, posix, initial_slashes. cbn [join_slash tl app starts].
  destruct (Ascii.eqb_spec SLASH a) as [<-|D]; [exfalso; apply S; now left|reflexivity].
Qed.

(* one component *)
Definition step (n : nat) (acc : list text) (c : text) : list text :=
  if text_eqb c [] || text_eqb c DOT then acc
  else if negb (text_eqb c DOTDOT)
          || (Nat.eqb n 0 && match acc with [] => true | _ => false end)
          || match acc with l :: _ => text_eqb l DOTDOT | [] => false end
  then c :: acc else tl acc.
Lemma norm_fold : forall n cs acc, norm_comps n acc cs = rev (fold_left (step n) cs acc).
Proof.
  intros n. induction cs as [|c cs IH]; intros acc; [reflexivity|]. cbn [norm_comps fold_left]. unfold step at 2.
  destruct (text_eqb c [] || text_eqb c DOT); [apply IH|]. destruct (negb _ || _ || _); apply IH.
Qed.
Lemma step_ordinary : forall n acc c, ordinary c -> step n acc c = c :: acc.
Proof.
  intros n acc c (A & B & C & _). unfold step. destruct (text_eqb_spec c []); [congruence|]. destruct (text_eqb_spec c DOT); [congruence|].
  destruct (text_eqb_spec c DOTDOT); [congruence|]. reflexivity.
Qed.
Lemma fold_ordinary : forall n cs acc, Forall ordinary cs -> fold_left (step n) cs acc = rev cs ++ acc.
Proof.
  intros n cs acc F. revert acc. induction F as [|c cs O F IH]; intros acc; [reflexivity|]. cbn [fold_left rev]. rewrite step_ordinary, IH; auto.
  now rewrite <- app_assoc.
Qed.

(* Components as they are read: . and empty ones mean nothing, x/.. neither, nor .. after the root; otherwise they are what is written. *)
Theorem c51_dots : forall n (a b : list text) (c : text),
  norm_comps n [] (a ++ DOT :: b) = norm_comps n [] (a ++ b) /\
  norm_comps n [] (a ++ [] :: b) = norm_comps n [] (a ++ b) /\
  (ordinary c -> norm_comps n [] (a ++ c :: DOTDOT :: b) = norm_comps n [] (a ++ b)) /\
  (n <> 0 -> norm_comps n [] (DOTDOT :: b) = norm_comps n [] b) /\
  (Forall ordinary a -> norm_comps n [] a = a) /\
  (n = 0 -> forall k, Forall ordinary a -> norm_comps n [] (repeat DOTDOT k ++ a) = repeat DOTDOT k ++ a).
Proof.
  intros n a b c. rewrite !norm_fold, !fold_left_app. cbn [fold_left]. split; [|split; [|split; [|split; [|split]]]].
  - reflexivity.
  - reflexivity.
  - intros O. rewrite (step_ordinary n _ c) by auto. do 2 f_equal. unfold step. cbn [tl]. destruct O as (_ & _ & N & _).
    change (text_eqb DOTDOT []) with false. change (text_eqb DOTDOT DOT) with false. rewrite text_eqb_refl. rewrite andb_false_r.
    destruct (text_eqb_spec c DOTDOT); [congruence|reflexivity].
  - intros N. do 2 f_equal. unfold step. destruct n; [congruence|reflexivity].
  - intros F. rewrite fold_ordinary by auto. rewrite app_nil_r. apply rev_involutive.
  - intros -> k F. rewrite norm_fold, fold_left_app, fold_ordinary by auto. rewrite rev_app_distr, rev_involutive. f_equal.
    assert (X : forall k acc, Forall (eq DOTDOT) acc -> rev (fold_left (step 0) (repeat DOTDOT k) acc) = rev acc ++ repeat DOTDOT k).
    { clear. induction k as [|k IH]; intros acc F; [now rewrite app_nil_r|]. cbn [repeat fold_left].
      assert (S : step 0 acc DOTDOT = DOTDOT :: acc).
      { unfold step. change (text_eqb DOTDOT []) with false. change (text_eqb DOTDOT DOT) with false. rewrite text_eqb_refl. cbn [negb orb].
        destruct acc as [|l acc]; [reflexivity|]. inversion F; subst. rewrite text_eqb_refl. reflexivity. }
      rewrite S, IH by (constructor; auto). cbn [rev]. now rewrite <- app_assoc. }
    rewrite X by constructor. reflexivity.
Qed.
Print Assumptions c51_dots.

(* Names as they are written.  An absolute path is itself; another one is taken from the current directory, or from
   a home directory if it starts with ~.  (Backslashes: they are removed, see c51_backslash_refuted.) *)
Theorem c51_written : forall s cwd (c : text) (p : path), Forall ordinary (c :: p) -> Forall (fun c : text => ~ In bslash c) (c :: p) ->
  normalized s cwd (FnStr (posix (c :: p))) = Done (false, c :: p) /\
  normalized s cwd (FnFile (c :: p)) = Done (false, c :: p) /\
  normalized s cwd (FnStr (relative (c :: p))) =
    match c with
    | a :: user => if a =? TILDE then match home s user with Some h => Done (false, h ++ p) | None => Raises end
                   else Done (false, cwd ++ c :: p)
    | [] => Raises
    end.
Proof.
  intros s cwd c p O B. assert (S : Forall (fun c => ~ In SLASH c) (c :: p)) by (eapply Forall_impl; [|exact O]; intros x (_ & _ & _ & H); exact H).
  assert (A : normalized s cwd (FnStr (posix (c :: p))) = Done (false, c :: p)).
  { unfold normalized, filename_text, normpath. rewrite unesc_plain by (now apply no_bslash_posix). rewrite slashes_posix by auto.
    unfold posix. rewrite split_join by auto. pose proof (proj1 (proj2 (c51_dots 1 [] (c :: p) c))) as Z. cbn [app] in Z.
    rewrite Z. rewrite (proj1 (proj2 (proj2 (proj2 (proj2 (c51_dots 1 (c :: p) [] c)))))) by auto.
    reflexivity. }
  split; [exact A|]. split; [exact A|].
  unfold normalized, filename_text, normpath. rewrite unesc_plain.
  2: { intros H. apply (no_bslash_posix _ B). unfold relative in H. destruct (posix (c :: p)); [destruct H|now right]. }
  rewrite slashes_relative by (now inversion O). rewrite split_relative by auto.
  pose proof (proj1 (proj2 (proj2 (proj2 (proj2 (c51_dots 0 (c :: p) [] c))))) O) as Z. cbn [app] in Z. rewrite Z.
  inversion O as [|? ? (N & _) _]; subst. destruct c as [|a user]; [congruence|]. reflexivity.
Qed.
Print Assumptions c51_written.

(* A name that is nothing but a name designates that file, if it exists, and nothing else. *)
Lemma is_dir_prefix : forall s, consistent s -> dirs_exist s -> forall q p n, exists_ s (p ++ n :: q) = true -> q <> [] -> is_dir s (p ++ [n]) = true.
Proof.
  intros s C D. induction q as [|m q IH] using rev_ind; intros p n E N; [congruence|].
  destruct q as [|m' q].
  - apply (C (p ++ [n]) m). now rewrite <- app_assoc.
  - apply IH; [|discriminate]. apply D. apply (C _ m). change (p ++ n :: (m' :: q) ++ [m]) with (p ++ (n :: m' :: q) ++ [m]) in E.
    now rewrite app_assoc in E.
Qed.
Lemma designates_simple : forall s, consistent s -> dirs_exist s -> forall cs b q, Forall (fun c => ~ wild c) cs -> cs <> [] ->
  (designates s b cs q <-> q = b ++ cs /\ exists_ s q = true).
Proof.
  intros s C D. induction cs as [|c cs IH]; intros b q F N; [congruence|]. inversion F as [|? ? W F']; subst. split.
  - intros H. inversion H as [|? ? ? ? ? T|? ? ? ? ? W1 W2|? ? ? ? _ K1 K2 X]; subst.
    + exfalso. apply W. left. now left.
    + tauto.
    + destruct cs as [|c' cs].
      * inversion X; subst. auto.
      * apply IH in X as (-> & E); auto; [|discriminate]. rewrite <- app_assoc in *. auto.
  - intros (-> & E). apply des_name; auto.
    + intros X. eapply is_dir_prefix; eauto.
    + intros ->. exact E.
    + destruct cs as [|c' cs]; [constructor|]. apply IH; auto; [discriminate|]. now rewrite <- app_assoc.
Qed.

Lemma simple_not_bad : forall cs, Forall (fun c => ~ wild c) cs -> ~ bad_pattern cs.
Proof.
  intros cs F (c & I & _ & H). rewrite Forall_forall in F. apply (F c I). left. clear -H.
  induction c as [|a [|b c] IH]; cbn [has_starstar] in H; try discriminate. apply orb_true_iff in H as [H|H].
  - apply andb_true_iff in H as (H & _). apply Ascii.eqb_eq in H. subst. now left.
  - right. auto.
Qed.

Lemma one_file : forall s fuel cwd f cs, depth s fuel -> consistent s -> dirs_exist s -> cs <> [] -> Forall (fun c => ~ wild c) cs ->
  normalized s cwd f = Done (false, cs) -> normalize s fuel cwd [f] = Done (if exists_ s cs then [cs] else []).
Proof.
  intros s fuel cwd f cs D C E N F H.
  destruct (normalize s fuel cwd [f]) as [roots|] eqn:R.
  - f_equal. pose proof (c51_once _ _ _ _ _ D R) as O. pose proof (c51_all_and_only _ _ _ _ _ D R) as A.
    assert (B : forall p, In p roots <-> p = cs /\ exists_ s cs = true).
    { intros p. rewrite A. split.
      - intros (f' & cs' & [<-|[]] & H' & X). rewrite H in H'. injection H' as <-. apply designates_simple in X as (-> & X); auto.
      - intros (-> & X). exists f, cs. split; [now left|]. split; auto. apply designates_simple; auto. }
    destruct (exists_ s cs).
    + destruct roots as [|p roots]; [destruct (proj2 (B cs)); auto|]. assert (p = cs) as -> by (apply B; now left).
      destruct roots as [|q roots]; auto. assert (q = cs) as -> by (apply B; right; now left).
      specialize (O cs N). cbn in O. destruct (path_eq_dec cs cs); [lia|congruence].
    + destruct roots as [|p roots]; auto. destruct (proj1 (B p)); [now left|discriminate].
  - apply c51_refused in R as (f' & [<-|[]] & [X|(dbl & cs' & X & Y)]); [congruence|]. rewrite H in X. injection X as <- <-.
    destruct Y as [Y|Y]; [discriminate|]. now apply simple_not_bad in Y.
Qed.

Theorem c51_itself_partial : forall s fuel cwd c p, depth s fuel -> consistent s -> dirs_exist s ->
  Forall simple (c :: p) ->
  normalize s fuel cwd [FnFile (c :: p)] = Done (if exists_ s (c :: p) then [c :: p] else []) /\
  normalize s fuel cwd [FnStr (posix (c :: p))] = Done (if exists_ s (c :: p) then [c :: p] else []) /\
  (Forall (fun c => ~ wild c) cwd -> hd_error c <> Some TILDE ->
   normalize s fuel cwd [FnStr (relative (c :: p))] = Done (if exists_ s (cwd ++ c :: p) then [cwd ++ c :: p] else [])).
Proof.
  intros s fuel cwd c p D C E F.
  assert (O : Forall ordinary (c :: p)) by (eapply Forall_impl; [|exact F]; intros x (H & _); exact H).
  assert (B : Forall (fun c : text => ~ In bslash c) (c :: p)) by (eapply Forall_impl; [|exact F]; intros x (_ & H & _); exact H).
  assert (W : Forall (fun c => ~ wild c) (c :: p)) by (eapply Forall_impl; [|exact F]; intros x (_ & _ & H); exact H).
  destruct (c51_written s cwd c p O B) as (A1 & A2 & A3). split; [|split].
  - apply one_file; auto. discriminate.
  - apply one_file; auto. discriminate.
  - intros WC T. apply one_file; auto.
    + destruct cwd; discriminate.
    + apply Forall_app. auto.
    + rewrite A3. inversion O as [|? ? (N & _) _]; subst. destruct c as [|a user]; [congruence|].
      destruct (Ascii.eqb_spec a TILDE) as [->|X]; [now destruct T|reflexivity].
Qed.
Print Assumptions c51_itself_partial.
