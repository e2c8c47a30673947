(* Facts about the file system of Sys/Layout.v. *)
From Coq Require Import Ascii String List Bool Arith Lia.
From Verif.Sys Require Import Csv Layout LayoutSpec.
Import ListNotations.
Open Scope list_scope.

Local Arguments path_dec : simpl never.

Lemma after_iff : forall p q r, after p q = Some r <-> q = p ++ r.
Proof.
  induction p as [|a p IH]; intros q r; simpl.
  - split; congruence.
  - destruct q as [|b q].
    + split; discriminate.
    + destruct (string_dec a b) as [->|N].
      * rewrite IH. split; intros H; [subst; reflexivity|injection H; auto].
      * split; [discriminate|]. intros H. injection H. congruence.
Qed.

Lemma after_app : forall p r, after p (p ++ r) = Some r.
Proof. intros. apply after_iff. reflexivity. Qed.

Lemma after_none : forall p q, after p q = None <-> forall r, q <> p ++ r.
Proof.
  intros p q. split.
  - intros H r ->. rewrite after_app in H. discriminate.
  - intros H. destruct (after p q) as [l|] eqn:E; auto. apply after_iff in E. destruct (H l E).
Qed.

Lemma look_cons : forall a p w, look (a :: p) w = lookup (a :: p) w.
Proof. reflexivity. Qed.

Lemma look_ne : forall p w, p <> [] -> look p w = lookup p w.
Proof. intros [|a p] w H; [congruence|reflexivity]. Qed.

Lemma lookup_app : forall p w w', lookup p (w ++ w') = match lookup p w with Some e => Some e | None => lookup p w' end.
Proof. induction w as [|[q e] w IH]; simpl; intros; auto. destruct (path_dec p q); auto. Qed.

Lemma look_add : forall p e w q, p <> [] -> look p w = None ->
  look q (add p e w) = if path_dec q p then Some e else look q w.
Proof.
  intros p e w q Hp Hn. destruct q as [|a q].
  - destruct p; [congruence|reflexivity].
  - rewrite !look_cons. unfold add. rewrite lookup_app. simpl.
    destruct (path_dec (a :: q) p) as [E|E].
    + rewrite look_ne in Hn by auto. rewrite E, Hn. reflexivity.
    + destruct (lookup (a :: q) w); reflexivity.
Qed.

Lemma lookup_remove : forall p w q, lookup q (remove p w) = if path_dec q p then None else lookup q w.
Proof.
  induction w as [|[q' e] w IH]; simpl; intros q.
  - destruct (path_dec q p); reflexivity.
  - destruct (path_dec p q') as [E|E]; simpl.
    + rewrite IH. destruct (path_dec q p); auto. destruct (path_dec q q'); auto. congruence.
    + rewrite IH. destruct (path_dec q q'); auto. destruct (path_dec q p); auto. congruence.
Qed.

Lemma look_remove : forall p w q, p <> [] -> look q (remove p w) = if path_dec q p then None else look q w.
Proof.
  intros p w q Hp. destruct q as [|a q].
  - destruct p; [congruence|reflexivity].
  - rewrite !look_cons. apply lookup_remove.
Qed.

Lemma look_put : forall p e w q, p <> [] ->
  look q (add p e (remove p w)) = if path_dec q p then Some e else look q w.
Proof.
  intros p e w q Hp. rewrite look_add; auto.
  - rewrite look_remove by auto. destruct (path_dec q p); reflexivity.
  - rewrite look_remove by auto. destruct (path_dec p p); congruence.
Qed.

Lemma closed_below : forall w p, closed w -> look p w = None -> forall r, look (p ++ r) w = None.
Proof.
  intros w p C H r. induction r as [|a r IH] using rev_ind.
  - rewrite app_nil_r. exact H.
  - destruct (look (p ++ r ++ [a]) w) eqn:E; auto. exfalso.
    rewrite app_assoc in E. assert (look (p ++ r) w = Some D) by (apply (C _ a); congruence). congruence.
Qed.

Lemma closed_file_below : forall w p t, closed w -> look p w = Some (F t) -> forall r, r <> [] -> look (p ++ r) w = None.
Proof.
  intros w p t C H [|a r] N; [congruence|].
  change (a :: r) with ([a] ++ r). rewrite app_assoc. apply closed_below; auto.
  destruct (look (p ++ [a]) w) eqn:E; auto. assert (look p w = Some D) by (apply (C _ a); congruence). congruence.
Qed.

Lemma closed_above : forall w p r, closed w -> r <> [] -> look (p ++ r) w <> None -> look p w = Some D.
Proof.
  intros w p r C N H. destruct (look p w) as [[|t]|] eqn:E; auto.
  - rewrite (closed_file_below w p t C E r N) in H. congruence.
  - rewrite (closed_below w p C E r) in H. congruence.
Qed.

Lemma lookup_relocate : forall src dst w q,
  (forall r, lookup (dst ++ r) w = None) -> after src dst = None ->
  lookup q (relocate src dst w)
  = match after dst q with
    | Some r => lookup (src ++ r) w
    | None => match after src q with Some _ => None | None => lookup q w end
    end.
Proof.
  intros src dst w q Hd Hsd. induction w as [|[k e] w IH].
  - simpl. destruct (after dst q); auto. destruct (after src q); auto.
  - assert (forall r, lookup (dst ++ r) w = None /\ k <> dst ++ r) as Hd'.
    { intros r. specialize (Hd r). simpl in Hd. destruct (path_dec (dst ++ r) k); [discriminate|]. split; auto. }
    specialize (IH (fun r => proj1 (Hd' r))). simpl.
    destruct (after src k) as [rk|] eqn:Ek; simpl.
    + apply after_iff in Ek. subst k.
      destruct (path_dec q (dst ++ rk)) as [->|Nq].
      * rewrite after_app. destruct (path_dec (src ++ rk) (src ++ rk)); congruence.
      * rewrite IH. destruct (after dst q) as [r|] eqn:Eq.
        -- apply after_iff in Eq. subst q. destruct (path_dec (src ++ r) (src ++ rk)) as [E|E]; auto.
           apply app_inv_head in E. congruence.
        -- destruct (after src q) as [r|] eqn:Es; auto.
           destruct (path_dec q (src ++ rk)) as [->|_]; auto. rewrite after_app in Es. discriminate.
    + destruct (path_dec q k) as [->|Nq].
      * destruct (after dst k) as [r|] eqn:Eq.
        -- apply after_iff in Eq. destruct (Hd' r). congruence.
        -- rewrite Ek. reflexivity.
      * rewrite IH. destruct (after dst q) as [r|] eqn:Eq.
        -- destruct (path_dec (src ++ r) k) as [E|E]; auto. subst k. rewrite after_app in Ek. discriminate.
        -- destruct (after src q); auto.
Qed.

Lemma look_relocate : forall src dst w q, src <> [] -> dst <> [] ->
  (forall r, look (dst ++ r) w = None) -> after src dst = None ->
  look q (relocate src dst w)
  = match after dst q with
    | Some r => look (src ++ r) w
    | None => match after src q with Some _ => None | None => look q w end
    end.
Proof.
  intros src dst w q Hs Hd H Hsd. destruct q as [|a q].
  - simpl. destruct dst; [congruence|]. destruct src; [congruence|]. reflexivity.
  - rewrite look_cons, lookup_relocate; auto.
    + destruct (after dst (a :: q)) eqn:E.
      * symmetry. apply look_ne. destruct src; [congruence|discriminate].
      * reflexivity.
    + intros r. specialize (H r). rewrite look_ne in H; auto. destruct dst; [congruence|discriminate].
Qed.

(* ---- what the operations do, when they succeed ---- *)

Definition moved_ (src dst : path) (w w' : fs) : Prop :=
  forall q, look q w'
    = match after dst q with
      | Some r => look (src ++ r) w
      | None => match after src q with Some _ => None | None => look q w end
      end.

Definition put_ (p : path) (e : entry) (w w' : fs) : Prop :=
  forall q, look q w' = if path_dec q p then Some e else look q w.

Lemma parent_snoc : forall p n, parent (p ++ [n]) = p.
Proof. intros. apply removelast_last. Qed.

Lemma name_snoc : forall p n, name (p ++ [n]) = n.
Proof. intros. apply last_last. Qed.

Lemma snoc_ne : forall A (p : list A) n, p ++ [n] <> [].
Proof. destruct p; discriminate. Qed.

Lemma is_dir_iff : forall w p, is_dir w p = true <-> look p w = Some D.
Proof. intros. unfold is_dir. destruct (look p w) as [[|t]|]; split; congruence. Qed.

Lemma exists_iff : forall w p, exists_ w p = true <-> look p w <> None.
Proof. intros. unfold exists_. destruct (look p w); split; congruence. Qed.

Lemma exists_false : forall w p, exists_ w p = false <-> look p w = None.
Proof. intros. unfold exists_. destruct (look p w); split; congruence. Qed.

Lemma mkdir_new : forall b p n w, look p w = Some D -> look (p ++ [n]) w = None ->
  exists w', mkdir b (p ++ [n]) w = Ok w' /\ put_ (p ++ [n]) D w w'.
Proof.
  intros b p n w Hp Hn. unfold mkdir. rewrite Hn, parent_snoc.
  apply is_dir_iff in Hp. rewrite Hp. eexists. split; [reflexivity|].
  intros q. apply look_add; auto. apply snoc_ne.
Qed.

Lemma mkdir_there : forall p w, look p w = Some D -> mkdir true p w = Ok w.
Proof. intros p w H. unfold mkdir. rewrite H. reflexivity. Qed.

Lemma touch_new : forall p n w, look p w = Some D -> look (p ++ [n]) w = None ->
  exists w', touch (p ++ [n]) w = Ok w' /\ put_ (p ++ [n]) (F []) w w'.
Proof.
  intros p n w Hp Hn. unfold touch. rewrite Hn, parent_snoc.
  apply is_dir_iff in Hp. rewrite Hp. eexists. split; [reflexivity|].
  intros q. apply look_add; auto. apply snoc_ne.
Qed.

Lemma write_ok : forall p n t w, look p w = Some D -> look (p ++ [n]) w <> Some D ->
  exists w', write (p ++ [n]) t w = Ok w' /\ put_ (p ++ [n]) (F t) w w'.
Proof.
  intros p n t w Hp Hn. unfold write. destruct (look (p ++ [n]) w) as [[|t']|] eqn:E; [congruence| |].
  - eexists. split; [reflexivity|]. intros q. apply look_put. apply snoc_ne.
  - rewrite parent_snoc. apply is_dir_iff in Hp. rewrite Hp. eexists. split; [reflexivity|].
    intros q. apply look_add; auto. apply snoc_ne.
Qed.

Lemma unlink_ok : forall p t w, look p w = Some (F t) -> exists w', unlink p w = Ok w' /\
  forall q, look q w' = if path_dec q p then None else look q w.
Proof.
  intros p t w H. unfold unlink. rewrite H. eexists. split; [reflexivity|].
  intros q. apply look_remove. intros ->. discriminate.
Qed.

Lemma rename_ok : forall src p n w, closed w -> src <> [] -> look src w <> None -> look p w = Some D ->
  look (p ++ [n]) w = None -> after src (p ++ [n]) = None ->
  exists w', rename src (p ++ [n]) w = Ok w' /\ moved_ src (p ++ [n]) w w'.
Proof.
  intros src p n w C Hne Hs Hp Hn Ha. unfold rename.
  destruct (look src w) as [s|] eqn:E; [|congruence].
  rewrite parent_snoc. apply is_dir_iff in Hp. rewrite Hp, Ha, Hn.
  eexists. split; [reflexivity|]. intros q. apply look_relocate; auto.
  - apply snoc_ne.
  - intros r. apply closed_below; auto.
Qed.

(* shutil.move to a free path *)
Lemma move_to : forall src p n w, closed w -> src <> [] -> look src w <> None -> look p w = Some D ->
  look (p ++ [n]) w = None -> after src (p ++ [n]) = None ->
  exists w', move src (p ++ [n]) w = Ok (p ++ [n], w') /\ moved_ src (p ++ [n]) w w'.
Proof.
  intros src p n w C Hne Hs Hp Hn Ha. unfold move.
  destruct (is_dir w (p ++ [n])) eqn:E. { apply is_dir_iff in E. congruence. }
  simpl. destruct (rename_ok src p n w) as (w' & R & M); auto. rewrite R. simpl. exists w'. auto.
Qed.

(* shutil.move into a directory *)
Lemma move_into : forall s n dst w, closed w -> look (s ++ [n]) w <> None -> look dst w = Some D ->
  look (dst ++ [n]) w = None -> after (s ++ [n]) (dst ++ [n]) = None ->
  exists w', move (s ++ [n]) dst w = Ok (dst ++ [n], w') /\ moved_ (s ++ [n]) (dst ++ [n]) w w'.
Proof.
  intros s n dst w C Hs Hp Hn Ha. unfold move. rewrite name_snoc.
  assert (is_dir w dst = true) as E by (apply is_dir_iff; exact Hp). rewrite E.
  assert (exists_ w (dst ++ [n]) = false) as E2 by (apply exists_false; exact Hn). rewrite E2. simpl.
  destruct (rename_ok (s ++ [n]) dst n w) as (w' & R & M); auto using snoc_ne.
  rewrite R. simpl. exists w'. auto.
Qed.

(* ---- directories stay directories ---- *)

Lemma closed_put : forall p n e w w', closed w -> look p w = Some D ->
  (forall t, e = F t -> look (p ++ [n]) w <> Some D) -> put_ (p ++ [n]) e w w' -> closed w'.
Proof.
  intros p n e w w' C Hp He H q a Hq. rewrite H in Hq. rewrite H.
  destruct (path_dec q (p ++ [n])) as [->|Nq].
  - destruct (path_dec ((p ++ [n]) ++ [a]) (p ++ [n])) as [E|_].
    { exfalso. rewrite <- (app_nil_r (p ++ [n])) in E at 2. apply app_inv_head in E. discriminate. }
    apply C in Hq. destruct e as [|t]; auto. destruct (He t eq_refl Hq).
  - destruct (path_dec (q ++ [a]) (p ++ [n])) as [E|N].
    + apply app_inj_tail in E. destruct E as [-> _]. exact Hp.
    + apply (C q a). exact Hq.
Qed.

Lemma after_longer : forall p q a, after p q <> None -> after p (q ++ [a]) <> None.
Proof.
  intros p q a H. destruct (after p q) as [r|] eqn:E; [|congruence].
  apply after_iff in E. subst q. rewrite <- app_assoc, after_app. discriminate.
Qed.

Lemma closed_moved : forall src p n w w', closed w -> look p w = Some D -> after src (p ++ [n]) = None ->
  moved_ src (p ++ [n]) w w' -> closed w'.
Proof.
  intros src p n w w' C Hp Ha H q a Hq. rewrite H in Hq. rewrite H.
  destruct (after (p ++ [n]) (q ++ [a])) as [r|] eqn:E.
  - apply after_iff in E. destruct r as [|b r _] using rev_ind.
    + rewrite app_nil_r in E. apply app_inj_tail in E. destruct E as [-> _].
      destruct (after (p ++ [n]) p) as [x|] eqn:E1.
      { exfalso. apply after_iff in E1. apply (f_equal (@length _)) in E1. rewrite !app_length in E1. simpl in E1. lia. }
      destruct (after src p) as [x|] eqn:E2; auto.
      exfalso. apply (after_longer src p n); congruence.
    + rewrite app_assoc in E. apply app_inj_tail in E. destruct E as [-> <-].
      rewrite after_app. apply (C _ a). rewrite <- app_assoc. exact Hq.
  - destruct (after (p ++ [n]) q) eqn:E1.
    { exfalso. apply (after_longer (p ++ [n]) q a); congruence. }
    destruct (after src (q ++ [a])) eqn:E2; [congruence|].
    destruct (after src q) eqn:E3.
    { exfalso. apply (after_longer src q a); congruence. }
    apply (C _ a). exact Hq.
Qed.

(* ---- listing a directory ---- *)

Lemma lookup_in : forall p w, lookup p w <> None <-> In p (map fst w).
Proof.
  induction w as [|[q e] w IH]; simpl.
  - tauto.
  - destruct (path_dec p q) as [->|N].
    + split; [intros _; left; reflexivity|discriminate].
    + rewrite IH. split; [tauto|intros [E|E]; [congruence|exact E]].
Qed.

Lemma iterdir_in : forall w p n, In n (iterdir w p) <-> look (p ++ [n]) w <> None.
Proof.
  intros w p n. unfold iterdir. rewrite nodup_In, look_ne by apply snoc_ne.
  rewrite lookup_in, in_flat_map, in_map_iff. split.
  - intros ([q e] & Hi & H). simpl in H. destruct (after p q) as [[|m [|? ?]]|] eqn:E; simpl in H; try tauto.
    destruct H as [->|[]]. apply after_iff in E. exists (q, e). auto.
  - intros ([q e] & E & Hi). simpl in E. subst q. exists (p ++ [n], e). split; auto. simpl.
    rewrite after_app. left. reflexivity.
Qed.

Definition dirs_in (w : fs) (p : path) : list string := filter (fun n => is_dir w (p ++ [n])) (iterdir w p).

Lemma subdirs_eq : forall w p, look p w = Some D -> subdirs w p = Ok (map (sub p) (dirs_in w p)).
Proof.
  intros w p H. unfold subdirs, dirs_in. rewrite H. f_equal.
  induction (iterdir w p) as [|n l IH]; simpl; auto. unfold sub at 1.
  destruct (is_dir w (p ++ [n])); simpl; rewrite IH; reflexivity.
Qed.

Lemma dirs_in_iff : forall w p n, In n (dirs_in w p) <-> look (p ++ [n]) w = Some D.
Proof.
  intros. unfold dirs_in. rewrite filter_In, iterdir_in, is_dir_iff. split; [tauto|]. intros H. split; congruence.
Qed.

Lemma dirs_in_nodup : forall w p, NoDup (dirs_in w p).
Proof. intros. apply NoDup_filter. apply NoDup_nodup. Qed.
