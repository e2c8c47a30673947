(* Proofs about the migrations between layouts (C41). *)
From Coq Require Import Ascii String List Bool Arith Lia.
From Verif.Sys Require Import Csv CsvSpec CsvProps Layout LayoutSpec LayoutFacts.
Import ListNotations.
Open Scope list_scope.

Local Arguments path_dec : simpl never.
Local Arguments string_dec : simpl never.
Local Arguments look : simpl never.

Lemma after_same : forall b x y, after (b ++ x) (b ++ y) = after x y.
Proof. induction b as [|a b IH]; simpl; intros; auto. destruct (string_dec a a); [auto|congruence]. Qed.

Lemma after_out : forall b x q, after b q = None -> after (b ++ x) q = None.
Proof.
  intros b x q H. apply after_none. intros r E. rewrite <- app_assoc in E.
  rewrite after_none in H. apply (H _ E).
Qed.

Lemma after_cons1 : forall n m r, after [n] (m :: r) = if string_dec n m then Some r else None.
Proof. intros. simpl. destruct (string_dec n m); reflexivity. Qed.

Ltac sd := repeat match goal with
  | |- context [string_dec ?a ?b] => destruct (string_dec a b); subst; try congruence
  | H : context [string_dec ?a ?b] |- _ => destruct (string_dec a b); subst; try congruence
  end.

Lemma sub_app : forall p n, sub p n = p ++ [n]. Proof. reflexivity. Qed.

(* moved_ seen from a directory [base] that contains both places *)
Lemma moved_in : forall base x y w w', moved_ (base ++ x) (base ++ y) w w' ->
  (forall l, look (base ++ l) w'
     = match after y l with
       | Some r => look (base ++ x ++ r) w
       | None => match after x l with Some _ => None | None => look (base ++ l) w end
       end) /\
  (forall q, after base q = None -> look q w' = look q w).
Proof.
  intros base x y w w' H. split.
  - intros l. rewrite H, !after_same. destruct (after y l); auto. rewrite app_assoc. reflexivity.
  - intros q N. rewrite H, !after_out by exact N. reflexivity.
Qed.

Lemma put_in : forall base x e w w', put_ (base ++ x) e w w' ->
  (forall l, look (base ++ l) w' = if path_dec l x then Some e else look (base ++ l) w) /\
  (forall q, after base q = None -> look q w' = look q w).
Proof.
  intros base x e w w' H. split.
  - intros l. rewrite H. destruct (path_dec (base ++ l) (base ++ x)) as [E|E]; destruct (path_dec l x); auto.
    + apply app_inv_head in E. congruence.
    + subst. congruence.
  - intros q N. rewrite H. destruct (path_dec q (base ++ x)); auto. subst. rewrite after_app in N. discriminate.
Qed.

(* ---- moving the directories of workspaces ---- *)

Definition in_ (n : string) (ns : list string) : bool := if in_dec string_dec n ns then true else false.

Definition mv (ns : list string) (n : string) : bool := in_ n ns && negb (if string_dec n WS then true else false).

Lemma mv_cons : forall n ns m, n <> WS -> mv (n :: ns) m = (if string_dec m n then true else mv ns m).
Proof.
  intros n ns m N. unfold mv, in_. destruct (string_dec m n) as [->|M].
  - destruct (in_dec string_dec n (n :: ns)) as [|H]; [|destruct H; left; reflexivity].
    destruct (string_dec n WS); [congruence|reflexivity].
  - f_equal. destruct (in_dec string_dec m (n :: ns)) as [H|H]; destruct (in_dec string_dec m ns) as [H'|H']; auto.
    + destruct H; [congruence|tauto].
    + destruct H. right. exact H'.
Qed.

Lemma mv_ws : forall ns m, mv (WS :: ns) m = mv ns m.
Proof.
  intros ns m. unfold mv, in_. destruct (string_dec m WS) as [->|M].
  - rewrite !andb_false_r. reflexivity.
  - f_equal. destruct (in_dec string_dec m (WS :: ns)) as [H|H]; destruct (in_dec string_dec m ns) as [H'|H']; auto.
    + destruct H; [congruence|tauto].
    + destruct H. right. exact H'.
Qed.

Lemma mv_in : forall ns m, mv ns m = true <-> In m ns /\ m <> WS.
Proof.
  intros. unfold mv, in_. destruct (in_dec string_dec m ns); destruct (string_dec m WS); simpl; split; intros; try tauto; try discriminate.
Qed.

Definition moved_dirs (base : path) (ns : list string) (w w' : fs) : Prop :=
  (forall l, look (base ++ l) w'
    = match l with
      | [] => look base w
      | m :: r =>
        if string_dec m WS then
          match r with
          | n :: r' => if mv ns n then look (base ++ n :: r') w else look (base ++ l) w
          | [] => look (base ++ l) w
          end
        else if mv ns m then None else look (base ++ l) w
      end) /\
  (forall q, after base q = None -> look q w' = look q w).

Lemma move_dirs : forall base ns w, closed w -> NoDup ns -> look (base ++ [WS]) w = Some D ->
  (forall n, In n ns -> n <> WS -> look (base ++ [n]) w <> None /\ look (base ++ [WS; n]) w = None) ->
  exists w', move_workspace_dirs (map (sub base) ns) (sub base WS) w = Ok w' /\ closed w' /\ moved_dirs base ns w w'.
Proof.
  intros base ns. induction ns as [|n ns IH]; intros w C ND Hws Hns.
  - exists w. simpl. split; auto. split; auto. split; auto.
    intros [|m r]; [rewrite app_nil_r; reflexivity|]. unfold mv, in_. simpl.
    destruct (string_dec m WS); destruct r; reflexivity.
  - inversion ND as [|? ? Nn ND']; subst. cbn [map move_workspace_dirs].
    rewrite sub_app, name_snoc. destruct (string_dec n WS) as [->|Nw].
    + destruct (IH w) as (w' & R & C' & M); auto.
      { intros m Hm. apply Hns. right. exact Hm. }
      exists w'. split; auto. split; auto. destruct M as [M1 M2]. split; auto.
      intros l. rewrite M1. destruct l as [|m r]; auto. rewrite mv_ws. destruct r as [|x r]; auto.
      rewrite mv_ws. reflexivity.
    + destruct (Hns n (or_introl eq_refl) Nw) as [Hn Hw].
      replace (base ++ [WS; n]) with ((base ++ [WS]) ++ [n]) in Hw by (rewrite <- app_assoc; reflexivity).
      destruct (move_into base n (base ++ [WS]) w) as (w1 & R1 & M1); auto.
      { rewrite <- app_assoc, after_same. simpl. destruct (string_dec n WS); congruence. }
      assert (closed w1) as C1.
      { eapply closed_moved; [exact C|exact Hws| |exact M1].
        rewrite <- app_assoc, after_same. simpl. destruct (string_dec n WS); congruence. }
      rewrite <- app_assoc in R1, M1. change ([WS] ++ [n]) with [WS; n] in R1, M1.
      rewrite sub_app, R1. cbn [bind fst snd].
      destruct (moved_in _ _ _ _ _ M1) as [M1a M1b].
      assert (forall m r, look (base ++ m :: r) w1 =
                if string_dec m WS then
                  match r with
                  | x :: r' => if string_dec x n then look (base ++ n :: r') w else look (base ++ m :: r) w
                  | [] => look (base ++ [m]) w
                  end
                else if string_dec m n then None else look (base ++ m :: r) w) as L.
      { intros m r. rewrite M1a. cbn [after].
        destruct (string_dec m WS) as [->|N2].
        - destruct (string_dec WS WS) as [_|]; [|congruence]. destruct (string_dec n WS) as [|_]; [congruence|].
          destruct r as [|x r']; [reflexivity|].
          destruct (string_dec x n) as [->|Nx].
          + destruct (string_dec n n); [reflexivity|congruence].
          + destruct (string_dec n x); [congruence|reflexivity].
        - destruct (string_dec WS m) as [|_]; [congruence|].
          destruct (string_dec m n) as [->|Nm].
          + destruct (string_dec n n); [reflexivity|congruence].
          + destruct (string_dec n m); [congruence|reflexivity]. }
      assert (exists_ w1 (base ++ [WS; n]) = true) as E1.
      { apply exists_iff. rewrite L. destruct (string_dec WS WS); [|congruence].
        destruct (string_dec n n); [|congruence]. exact Hn. }
      assert (exists_ w1 (base ++ [n]) = false) as E2.
      { apply exists_false. rewrite L. destruct (string_dec n WS); [congruence|].
        destruct (string_dec n n); congruence. }
      rewrite E1, E2. cbn [negb].
      destruct (IH w1) as (w' & R & C' & [M2a M2b]); auto.
      { rewrite L. destruct (string_dec WS WS); [|congruence]. exact Hws. }
      { intros m Hm Nm. destruct (Hns m (or_intror Hm) Nm) as [H1 H2]. rewrite !L. split.
        - destruct (string_dec m WS); [congruence|]. destruct (string_dec m n); [congruence|]. exact H1.
        - destruct (string_dec WS WS); [|congruence]. destruct (string_dec m n); [congruence|]. exact H2. }
      exists w'. split. { exact R. } split; auto. split.
      * intros l. rewrite M2a. destruct l as [|m r].
        { specialize (M1a []). rewrite app_nil_r in M1a. rewrite M1a. simpl. reflexivity. }
        rewrite mv_cons by exact Nw. destruct (string_dec m WS) as [->|Nm].
        -- destruct r as [|x r]. { rewrite L. destruct (string_dec WS WS); [reflexivity|congruence]. }
           rewrite mv_cons by exact Nw. rewrite !L.
           destruct (string_dec x n) as [->|Nx].
           ++ destruct (mv ns n) eqn:E. { apply mv_in in E. tauto. }
              destruct (string_dec WS WS); [|congruence]. reflexivity.
           ++ destruct (mv ns x) eqn:E.
              ** apply mv_in in E. destruct (string_dec x WS); [tauto|]. reflexivity.
              ** destruct (string_dec WS WS); [|congruence]. reflexivity.
        -- rewrite L. destruct (string_dec m WS); [congruence|]. destruct (string_dec m n); subst.
           ++ destruct (mv ns n); reflexivity.
           ++ reflexivity.
      * intros q N. rewrite M2b, M1b; auto.
Qed.

(* ---- fix_dirs ---- *)

Lemma DEF2_WS : DEF2 <> WS. Proof. discriminate. Qed.
Lemma DEF3_WS : DEF3 <> WS. Proof. discriminate. Qed.
Lemma DEF2_DEF3 : DEF2 <> DEF3. Proof. discriminate. Qed.
Definition BROKEN : string := "broken".
Lemma broken_WS : BROKEN <> WS. Proof. discriminate. Qed.

Definition fixed (base : path) (w w' : fs) : Prop :=
  (forall m r, look (base ++ m :: r) w'
    = if string_dec m WS then
        match r with
        | [] => Some D
        | n :: r' => if string_dec n DEF3 then look (base ++ DEF2 :: r') w
                     else if string_dec n DEF2 then None
                     else if is_dir w (base ++ [n]) then look (base ++ n :: r') w else None
        end
      else if string_dec m BROKEN then match r with [] => Some D | _ => None end
      else if is_dir w (base ++ [m]) then None else look (base ++ m :: r) w) /\
  look base w' = look base w /\
  (forall q, after base q = None -> look q w' = look q w).

Lemma mkdir_parents_ok : forall p n w, look p w = Some D -> mkdir_parents (p ++ [n]) w = mkdir true (p ++ [n]) w.
Proof.
  intros p n w H. unfold mkdir_parents. rewrite parent_snoc.
  assert (exists_ w p = true) as -> by (apply exists_iff; congruence). reflexivity.
Qed.

Lemma snoc2 : forall (base : path) a b, base ++ [a; b] = (base ++ [a]) ++ [b].
Proof. intros. rewrite <- app_assoc. reflexivity. Qed.

Lemma snoc_cons : forall (base : path) a r, (base ++ [a]) ++ r = base ++ a :: r.
Proof. intros. rewrite <- app_assoc. reflexivity. Qed.

Lemma fix_dirs_ok : forall base w, closed w -> look base w = Some D -> is_directory w (base ++ [DEF2]) ->
  unreserved w base -> exists w', fix_dirs base w = Ok w' /\ closed w' /\ fixed base w w'.
Proof.
  intros base w C Hb H2 (N3 & NW & NB). unfold is_directory, nothing in *.
  pose proof DEF2_WS as d2w. pose proof DEF3_WS as d3w. pose proof DEF2_DEF3 as d23. pose proof broken_WS as bw.
  unfold fix_dirs. rewrite sub_app.
  rewrite mkdir_parents_ok by exact Hb.
  destruct (mkdir_new true base WS w Hb NW) as (w1 & R1 & P1). rewrite R1. cbn [bind].
  assert (closed w1) as C1. { eapply closed_put; [exact C|exact Hb| |exact P1]. discriminate. }
  destruct (put_in _ _ _ _ _ P1) as [L1 O1].
  assert (look base w1 = Some D) as Hb1.
  { specialize (L1 []). rewrite app_nil_r in L1. rewrite L1. exact Hb. }
  rewrite (subdirs_eq w1 base Hb1). cbn [bind].
  set (ns := dirs_in w1 base).
  assert (forall n, look (base ++ [WS; n]) w1 = None) as NWn.
  { intros n. rewrite L1. destruct (path_dec [WS; n] [WS]); [congruence|].
    rewrite <- snoc_cons. apply closed_below; auto. }
  destruct (move_dirs base ns w1) as (w2 & R2 & C2 & [M2 O2]); auto.
  { apply dirs_in_nodup. }
  { rewrite L1. destruct (path_dec [WS] [WS]); congruence. }
  { intros n Hn _. apply dirs_in_iff in Hn. split; [congruence|apply NWn]. }
  rewrite sub_app in R2. rewrite R2. cbn [bind].
  assert (forall n, mv ns n = is_dir w (base ++ [n])) as Emv.
  { intros n. destruct (mv ns n) eqn:E.
    - apply mv_in in E. destruct E as [E En]. apply dirs_in_iff in E. rewrite L1 in E.
      destruct (path_dec [n] [WS]); [congruence|]. symmetry. apply is_dir_iff. exact E.
    - symmetry. destruct (is_dir w (base ++ [n])) eqn:E'; auto. apply is_dir_iff in E'.
      assert (mv ns n = true); [|congruence]. apply mv_in.
      assert (n <> WS) by (intros ->; congruence). split; auto.
      apply dirs_in_iff. rewrite L1. destruct (path_dec [n] [WS]); [congruence|exact E']. }
  assert (forall m r, look (base ++ m :: r) w2 =
     if string_dec m WS then
       match r with
       | [] => Some D
       | n :: r' => if is_dir w (base ++ [n]) then look (base ++ n :: r') w else None
       end
     else if is_dir w (base ++ [m]) then None else look (base ++ m :: r) w) as L2.
  { intros m r. rewrite M2. destruct (string_dec m WS) as [->|Nm].
    - destruct r as [|n r']. { rewrite L1. destruct (path_dec [WS] [WS]); congruence. }
      rewrite Emv, !L1. destruct (is_dir w (base ++ [n])) eqn:E.
      + destruct (path_dec (n :: r') [WS]) as [E2|]; auto. injection E2 as -> ->.
        apply is_dir_iff in E. congruence.
      + destruct (path_dec (WS :: n :: r') [WS]); [congruence|]. rewrite <- snoc_cons. apply closed_below; auto.
    - rewrite Emv, L1. destruct (is_dir w (base ++ [m])); auto.
      destruct (path_dec (m :: r) [WS]); [congruence|reflexivity]. }
  assert (look base w2 = Some D) as Hb2.
  { specialize (M2 []). rewrite app_nil_r in M2. rewrite M2. exact Hb1. }
  rewrite !sub_app.
  (* rename *)
  destruct (rename_ok ((base ++ [WS]) ++ [DEF2]) (base ++ [WS]) DEF3 w2) as (w3 & R3 & M3); auto.
  { apply snoc_ne. }
  { rewrite snoc_cons, L2. destruct (string_dec WS WS); [|congruence].
    assert (is_dir w (base ++ [DEF2]) = true) as -> by (apply is_dir_iff; exact H2). congruence. }
  { rewrite L2. destruct (string_dec WS WS); congruence. }
  { rewrite snoc_cons, L2. destruct (string_dec WS WS); [|congruence].
    assert (is_dir w (base ++ [DEF3]) = false) as ->; auto. unfold is_dir. rewrite N3. reflexivity. }
  { rewrite !snoc_cons, after_same. reflexivity. }
  rewrite R3. cbn [bind].
  assert (closed w3) as C3.
  { eapply closed_moved; [exact C2| | |exact M3].
    - rewrite L2. destruct (string_dec WS WS); congruence.
    - rewrite !snoc_cons, after_same. reflexivity. }
  rewrite !snoc_cons in M3. destruct (moved_in _ _ _ _ _ M3) as [L3 O3].
  assert (forall m r, look (base ++ m :: r) w3 =
     if string_dec m WS then
       match r with
       | [] => Some D
       | n :: r' => if string_dec n DEF3 then look (base ++ DEF2 :: r') w
                    else if string_dec n DEF2 then None
                    else if is_dir w (base ++ [n]) then look (base ++ n :: r') w else None
       end
     else if is_dir w (base ++ [m]) then None else look (base ++ m :: r) w) as L3'.
  { intros m r. rewrite L3. cbn [after app]. destruct (string_dec WS m) as [<-|Nm].
    - destruct (string_dec WS WS) as [_|]; [|congruence]. destruct r as [|n r'].
      { rewrite L2. destruct (string_dec WS WS); congruence. }
      destruct (string_dec DEF3 n) as [<-|N3n].
      + destruct (string_dec DEF3 DEF3) as [_|]; [|congruence].
        change (base ++ [WS; DEF2] ++ r') with (base ++ WS :: DEF2 :: r').
        rewrite L2. destruct (string_dec WS WS); [|congruence].
        assert (is_dir w (base ++ [DEF2]) = true) as -> by (apply is_dir_iff; exact H2). reflexivity.
      + destruct (string_dec n DEF3) as [|_]; [congruence|].
        destruct (string_dec DEF2 n) as [<-|N2n].
        * destruct (string_dec DEF2 DEF2) as [_|]; [reflexivity|congruence].
        * destruct (string_dec n DEF2) as [|_]; [congruence|]. rewrite L2.
          destruct (string_dec WS WS); [reflexivity|congruence].
    - destruct (string_dec m WS) as [|_]; [congruence|]. rewrite L2.
      destruct (string_dec m WS) as [|_]; [congruence|]. reflexivity. }
  assert (look base w3 = Some D) as Hb3.
  { specialize (L3 []). rewrite app_nil_r in L3. rewrite L3. exact Hb2. }
  (* broken *)
  assert (look (base ++ [BROKEN]) w3 = None) as HB3.
  { rewrite L3'. destruct (string_dec BROKEN WS) as [|_]; [congruence|].
    destruct (is_dir w (base ++ [BROKEN])) eqn:E; auto.
    destruct (look (base ++ [BROKEN]) w) as [[|t]|] eqn:E2; auto.
    - unfold is_dir in E. rewrite E2 in E. discriminate.
    - destruct NB. exists t. exact E2. }
  destruct (mkdir_new false base BROKEN w3 Hb3 HB3) as (w4 & R4 & P4).
  exists w4. split. { exact R4. }
  split. { eapply closed_put; [exact C3|exact Hb3| |exact P4]. discriminate. }
  destruct (put_in _ _ _ _ _ P4) as [L4 O4].
  split; [|split].
  - intros m r. rewrite L4, L3'. destruct (path_dec (m :: r) [BROKEN]) as [E|E].
    + injection E as -> ->. destruct (string_dec BROKEN WS); [congruence|].
      destruct (string_dec BROKEN BROKEN); [reflexivity|congruence].
    + destruct (string_dec m WS); auto. destruct (string_dec m BROKEN) as [->|]; auto.
      destruct r as [|x r]; [congruence|].
      destruct (is_dir w (base ++ [BROKEN])) eqn:E1; auto.
      rewrite <- snoc_cons. destruct (look (base ++ [BROKEN]) w) as [[|t]|] eqn:E2.
      * unfold is_dir in E1. rewrite E2 in E1. discriminate.
      * destruct NB. exists t. exact E2.
      * apply closed_below; auto.
  - specialize (L4 []). rewrite app_nil_r in L4. rewrite L4. simpl.
    destruct (path_dec [] [BROKEN]); [congruence|]. congruence.
  - intros q N. rewrite O4, O3, O2, O1; auto.
Qed.

(* ---- fix_default_workspace ---- *)

Definition filed (base : path) (f1 f2 : string) (w w' : fs) : Prop :=
  (forall m r, look (base ++ m :: r) w'
    = if string_dec m DEF2 then
        match r with
        | [] => Some D
        | n :: r' => if string_dec n f1 then look (base ++ f1 :: r') w
                     else if string_dec n f2 then look (base ++ f2 :: r') w else None
        end
      else if string_dec m f1 then None else if string_dec m f2 then None else look (base ++ m :: r) w) /\
  look base w' = look base w /\
  (forall q, after base q = None -> look q w' = look q w).

Lemma fix_default_ok : forall base f1 f2 w, closed w -> look base w = Some D -> nothing w (base ++ [DEF2]) ->
  f1 <> DEF2 -> f2 <> DEF2 -> f1 <> f2 -> look (base ++ [f1]) w <> None -> look (base ++ [f2]) w <> None ->
  exists w', fix_default_workspace base f1 f2 w = Ok w' /\ closed w' /\ filed base f1 f2 w w'.
Proof.
  intros base f1 f2 w C Hb N2 n1 n2 n12 H1 H2. unfold fix_default_workspace. rewrite !sub_app.
  rewrite mkdir_parents_ok by exact Hb.
  destruct (mkdir_new true base DEF2 w Hb N2) as (w1 & R1 & P1). rewrite R1. cbn [bind].
  assert (closed w1) as C1. { eapply closed_put; [exact C|exact Hb| |exact P1]. discriminate. }
  destruct (put_in _ _ _ _ _ P1) as [L1 O1].
  assert (forall r, r <> [] -> look (base ++ DEF2 :: r) w1 = None) as E1.
  { intros r Hr. rewrite L1. destruct (path_dec (DEF2 :: r) [DEF2]); [congruence|].
    rewrite <- snoc_cons. apply closed_below; auto. }
  destruct (move_into base f1 (base ++ [DEF2]) w1) as (w2 & R2 & M2); auto.
  { rewrite L1. destruct (path_dec [f1] [DEF2]); [congruence|exact H1]. }
  { rewrite L1. destruct (path_dec [DEF2] [DEF2]); congruence. }
  { rewrite snoc_cons. apply E1. discriminate. }
  { rewrite snoc_cons, after_same. simpl. destruct (string_dec f1 DEF2); congruence. }
  rewrite R2. cbn [bind snd].
  assert (closed w2) as C2.
  { eapply closed_moved; [exact C1| | |exact M2].
    - rewrite L1. destruct (path_dec [DEF2] [DEF2]); congruence.
    - rewrite snoc_cons, after_same. simpl. destruct (string_dec f1 DEF2); congruence. }
  rewrite snoc_cons in M2. destruct (moved_in _ _ _ _ _ M2) as [L2 O2].
  assert (forall m r, look (base ++ m :: r) w2
    = if string_dec m DEF2 then
        match r with
        | [] => Some D
        | n :: r' => if string_dec n f1 then look (base ++ f1 :: r') w else None
        end
      else if string_dec m f1 then None else look (base ++ m :: r) w) as L2'.
  { intros m r. rewrite L2. cbn [after app]. destruct (string_dec m DEF2) as [->|Nm].
    - destruct (string_dec DEF2 DEF2) as [_|]; [|congruence].
      destruct (string_dec f1 DEF2) as [|_]; [congruence|].
      destruct r as [|n r']. { rewrite L1. destruct (path_dec [DEF2] [DEF2]); congruence. }
      destruct (string_dec n f1) as [->|Nn].
      + destruct (string_dec f1 f1) as [_|]; [|congruence]. rewrite L1.
        destruct (path_dec (f1 :: r') [DEF2]); [congruence|reflexivity].
      + destruct (string_dec f1 n); [congruence|]. apply E1. discriminate.
    - destruct (string_dec DEF2 m); [congruence|].
      destruct (string_dec m f1) as [->|Nf].
      + destruct (string_dec f1 f1); [reflexivity|congruence].
      + destruct (string_dec f1 m); [congruence|]. rewrite L1.
        destruct (path_dec (m :: r) [DEF2]); [congruence|reflexivity]. }
  destruct (move_into base f2 (base ++ [DEF2]) w2) as (w3 & R3 & M3); auto.
  { rewrite L2'. destruct (string_dec f2 DEF2); [congruence|]. destruct (string_dec f2 f1); [congruence|exact H2]. }
  { rewrite L2'. destruct (string_dec DEF2 DEF2); congruence. }
  { rewrite snoc_cons, L2'. destruct (string_dec DEF2 DEF2); [|congruence]. destruct (string_dec f2 f1); congruence. }
  { rewrite snoc_cons, after_same. simpl. destruct (string_dec f2 DEF2); congruence. }
  rewrite R3. cbn [bind snd]. exists w3. split; auto.
  split.
  { eapply closed_moved; [exact C2| | |exact M3].
    - rewrite L2'. destruct (string_dec DEF2 DEF2); congruence.
    - rewrite snoc_cons, after_same. simpl. destruct (string_dec f2 DEF2); congruence. }
  rewrite snoc_cons in M3. destruct (moved_in _ _ _ _ _ M3) as [L3 O3].
  split; [|split].
  - intros m r. rewrite L3. cbn [after app]. destruct (string_dec m DEF2) as [->|Nm].
    + destruct (string_dec DEF2 DEF2) as [_|]; [|congruence].
      destruct (string_dec f2 DEF2) as [|_]; [congruence|].
      destruct r as [|n r']. { rewrite L2'. destruct (string_dec DEF2 DEF2); congruence. }
      destruct (string_dec f2 n) as [<-|Nn].
      * destruct (string_dec f2 f1) as [|_]; [congruence|]. destruct (string_dec f2 f2) as [_|]; [|congruence].
        rewrite L2'. destruct (string_dec f2 DEF2); [congruence|]. destruct (string_dec f2 f1); [congruence|reflexivity].
      * rewrite L2'. destruct (string_dec DEF2 DEF2) as [_|]; [|congruence].
        destruct (string_dec n f1); auto. destruct (string_dec n f2); [congruence|reflexivity].
    + destruct (string_dec DEF2 m) as [|_]; [congruence|].
      destruct (string_dec f2 m) as [<-|Nf].
      * destruct (string_dec f2 f1); [congruence|]. destruct (string_dec f2 f2); [reflexivity|congruence].
      * rewrite L2'. destruct (string_dec m DEF2) as [|_]; [congruence|].
        destruct (string_dec m f1); auto. destruct (string_dec m f2); [congruence|reflexivity].
  - specialize (L3 []). specialize (L2 []). specialize (L1 []). rewrite !app_nil_r in *.
    rewrite L3. cbn. rewrite L2. cbn. rewrite L1. reflexivity.
  - intros q N. rewrite O3, O2, O1; auto.
Qed.

(* ---- reset_histories ---- *)

Definition HIST : string := "history".

Definition reset (base : path) (stamp : text) (ns : list string) (w w' : fs) : Prop :=
  (forall m r, look (base ++ m :: r) w'
    = if path_dec r [HIST] then if in_ m ns then Some (F (notice stamp)) else look (base ++ m :: r) w
      else look (base ++ m :: r) w) /\
  look base w' = look base w /\
  (forall q, after base q = None -> look q w' = look q w).

Lemma reset_ok : forall base stamp ns w, closed w -> NoDup ns ->
  (forall n, In n ns -> is_directory w (base ++ [n]) /\ is_file w (base ++ [n; HIST])) ->
  exists w', reset_histories stamp (map (sub base) ns) w = Ok w' /\ closed w' /\ reset base stamp ns w w'.
Proof.
  intros base stamp ns. induction ns as [|n ns IH]; intros w C ND H.
  - exists w. cbn. split; auto. split; auto. split; auto. intros m r. destruct (path_dec r [HIST]); auto.
  - inversion ND as [|? ? Nn ND']; subst. cbn [map reset_histories]. rewrite !sub_app.
    destruct (H n (or_introl eq_refl)) as [Hd [t Ht]]. rewrite snoc2 in Ht. unfold is_directory in Hd.
    destruct (unlink_ok _ _ _ Ht) as (w1 & R1 & U1). fold HIST. rewrite R1. cbn [bind].
    assert (look (base ++ [n]) w1 = Some D) as Hd1.
    { rewrite U1. destruct (path_dec (base ++ [n]) ((base ++ [n]) ++ [HIST])) as [E|]; auto.
      exfalso. rewrite <- (app_nil_r (base ++ [n])) in E at 1. apply app_inv_head in E. discriminate. }
    destruct (write_ok (base ++ [n]) HIST (notice stamp) w1 Hd1) as (w2 & R2 & P2).
    { rewrite U1. destruct (path_dec ((base ++ [n]) ++ [HIST]) ((base ++ [n]) ++ [HIST])); congruence. }
    rewrite R2. cbn [bind].
    assert (put_ ((base ++ [n]) ++ [HIST]) (F (notice stamp)) w w2) as P.
    { intros q. rewrite P2, U1. destruct (path_dec q ((base ++ [n]) ++ [HIST])); reflexivity. }
    assert (closed w2) as C2.
    { eapply closed_put; [exact C|exact Hd| |exact P]. intros. congruence. }
    rewrite snoc_cons in P. destruct (put_in _ _ _ _ _ P) as [L O].
    destruct (IH w2) as (w3 & R3 & C3 & (L3 & B3 & O3)); auto.
    { intros m Hm. destruct (H m (or_intror Hm)) as [Hmd [tm Hmt]]. split.
      - unfold is_directory. rewrite L. destruct (path_dec [m] [n; HIST]); [congruence|exact Hmd].
      - exists tm. rewrite L. destruct (path_dec [m; HIST] [n; HIST]); [congruence|exact Hmt]. }
    exists w3. split; auto. split; auto. split; [|split].
    + intros m r. rewrite L3, !L. destruct (path_dec r [HIST]) as [->|Nr].
      * unfold in_. destruct (in_dec string_dec m ns) as [Hi|Hi]; destruct (in_dec string_dec m (n :: ns)) as [Hj|Hj]; auto.
        -- destruct Hj. right. exact Hi.
        -- destruct Hj as [<-|Hj]; [|tauto]. destruct (path_dec [n; HIST] [n; HIST]); congruence.
        -- destruct (path_dec [m; HIST] [n; HIST]) as [E|]; auto. injection E as ->. destruct Hj. left. reflexivity.
      * destruct (path_dec (m :: r) [n; HIST]) as [E|]; auto. injection E as -> ->. congruence.
    + rewrite B3. specialize (L []). rewrite app_nil_r in L. rewrite L. reflexivity.
    + intros q N. rewrite O3, O; auto.
Qed.

Lemma some_inj : forall A (a b : A), Some a = Some b -> a = b.
Proof. congruence. Qed.

(* ---- which layout is found ---- *)

Lemma cfg : forall r, config ++ r = "config"%string :: r. Proof. reflexivity. Qed.

Lemma no_default : forall w, look (config ++ [WS]) w = None -> has_default_ws3 w = false.
Proof.
  intros w H. unfold has_default_ws3. rewrite !sub_app.
  assert (exists_ w (config ++ [WS]) = false) as -> by (apply exists_false; exact H).
  rewrite andb_false_r. reflexivity.
Qed.

Lemma has_default : forall w, closed w -> look (config ++ [WS; DEF3]) w <> None -> has_default_ws3 w = true.
Proof.
  intros w C H. unfold has_default_ws3. rewrite !sub_app, !andb_true_iff. repeat split; apply exists_iff.
  - intros E. apply H. apply (closed_below w config C E [WS; DEF3]).
  - intros E. apply H. apply (closed_below w (config ++ [WS]) C E [DEF3]).
  - exact H.
Qed.

Lemma found_ws3 : forall w t b, has_default_ws3 w = true ->
  look (data ++ [WS; DEF3; HIST]) w = Some (F t) -> history_is_current t = Some b ->
  storage_layout w = Ok (Some (if b then PT else WS3)).
Proof.
  intros w t b H Ht Hb. unfold storage_layout. cbn [first_match matches]. rewrite H.
  change default_history with (data ++ [WS; DEF3; HIST]). rewrite Ht, Hb. cbn [bind]. destruct b; reflexivity.
Qed.

Lemma found_ws2 : forall w, look (config ++ [WS]) w = None -> closed w -> look (config ++ [DEF2]) w <> None ->
  storage_layout w = Ok (Some WS2).
Proof.
  intros w H C H2. unfold storage_layout. cbn [first_match matches]. rewrite (no_default w H). cbn [bind].
  rewrite !sub_app.
  assert (exists_ w config = true) as ->.
  { apply exists_iff. intros E. apply H2. apply (closed_below w config C E). }
  assert (exists_ w (config ++ [DEF2]) = true) as -> by (apply exists_iff; exact H2). reflexivity.
Qed.

Lemma found_ws1 : forall w, look (config ++ [WS]) w = None -> closed w -> look (config ++ [DEF2]) w = None ->
  look (config ++ [MARKER]) w <> None -> storage_layout w = Ok (Some WS1).
Proof.
  intros w H C H2 H1. unfold storage_layout. cbn [first_match matches]. rewrite (no_default w H). cbn [bind].
  rewrite !sub_app.
  assert (exists_ w (config ++ [DEF2]) = false) as -> by (apply exists_false; exact H2).
  rewrite andb_false_r. cbn [bind].
  assert (exists_ w config = true) as ->.
  { apply exists_iff. intros E. apply H1. apply (closed_below w config C E). }
  assert (exists_ w (config ++ [MARKER]) = true) as -> by (apply exists_iff; exact H1). reflexivity.
Qed.

Lemma found_xdg : forall w, look (config ++ [WS]) w = None -> look (config ++ [DEF2]) w = None ->
  look (config ++ [MARKER]) w = None -> look config w <> None -> look data w <> None ->
  storage_layout w = Ok (Some XDG).
Proof.
  intros w H H2 H1 Hc Hd. unfold storage_layout. cbn [first_match matches]. rewrite (no_default w H). cbn [bind].
  rewrite !sub_app.
  assert (exists_ w (config ++ [DEF2]) = false) as -> by (apply exists_false; exact H2).
  assert (exists_ w (config ++ [MARKER]) = false) as -> by (apply exists_false; exact H1).
  rewrite !andb_false_r. cbn [bind].
  assert (exists_ w config = true) as -> by (apply exists_iff; exact Hc).
  assert (exists_ w data = true) as -> by (apply exists_iff; exact Hd). reflexivity.
Qed.

Lemma found_original : forall w, closed w -> look config w = None ->
  look (home ++ [".marcel.py"%string]) w <> None -> look (home ++ [".marcel_history"%string]) w <> None ->
  storage_layout w = Ok (Some Original).
Proof.
  intros w C H H1 H2. unfold storage_layout. cbn [first_match matches].
  rewrite (no_default w (closed_below w config C H [WS])). cbn [bind].
  assert (exists_ w config = false) as -> by (apply exists_false; exact H). cbn [andb bind].
  rewrite !sub_app.
  assert (exists_ w (home ++ [".marcel.py"%string]) = true) as -> by (apply exists_iff; exact H1).
  assert (exists_ w (home ++ [".marcel_history"%string]) = true) as -> by (apply exists_iff; exact H2). reflexivity.
Qed.

(* ---- one migration ---- *)

(* What a migration keeps *)
Definition carried (l l' : layout) (w w' : fs) : Prop :=
  forall i p r, place l i = Some p -> owned l i w -> kept i r -> look (p ++ r) w <> None ->
  exists p', place l' i = Some p' /\ look (p' ++ r) w' = look (p ++ r) w.

Lemma owned_carried : forall l l' w w' i, carried l l' w w' -> owned l i w -> place l i <> None -> owned l' i w'.
Proof.
  intros l l' w w' i H O P. destruct i as [| |n|n]; cbn in *; auto;
    destruct O as (n2 & n3 & nr & p & Hp & Hd); repeat split; auto.
  - destruct (H (Config n) p [] Hp) as (p' & Hp' & E); cbn; auto.
    { repeat split; auto. exists p. auto. }
    { rewrite app_nil_r. unfold is_directory in Hd. congruence. }
    exists p'. split; auto. rewrite !app_nil_r in E. unfold is_directory in *. congruence.
  - destruct (H (Data n) p [] Hp) as (p' & Hp' & E); cbn; auto.
    { repeat split; auto. exists p. auto. }
    { discriminate. }
    { rewrite app_nil_r. unfold is_directory in Hd. congruence. }
    exists p'. split; auto. rewrite !app_nil_r in E. unfold is_directory in *. congruence.
Qed.

Lemma carried_trans : forall l l' l'' w w' w'', carried l l' w w' -> carried l' l'' w' w'' -> carried l l'' w w''.
Proof.
  intros l l' l'' w w' w'' H H' i p r Hp O K E.
  destruct (H i p r Hp O K E) as (p' & Hp' & E').
  destruct (H' i p' r Hp') as (p'' & Hp'' & E''); auto.
  - eapply owned_carried; eauto. congruence.
  - congruence.
  - exists p''. split; auto. congruence.
Qed.

Lemma check_ok : forall l w, storage_layout w = Ok (Some l) -> check l w = Ok (Some l, w).
Proof. intros l w H. unfold check. rewrite H. cbn [bind]. destruct l; reflexivity. Qed.

Definition plain_version (w : fs) : Prop := ~ is_directory w version_file.

Lemma laid_dirs_c : forall w n, closed w -> look (config ++ [n]) w <> None -> look config w = Some D.
Proof. intros w n C H. exact (C config n H). Qed.

Lemma laid_dirs_d : forall w n, closed w -> look (data ++ [n]) w <> None -> look data w = Some D.
Proof. intros w n C H. exact (C data n H). Qed.

Lemma step_xdg : forall w, closed w -> laid_xdg w -> exists w',
  migrate_xdg w = Ok (Some WS1, w') /\ closed w' /\ laid_ws1 w' /\ carried XDG WS1 w w' /\ (plain_version w -> plain_version w').
Proof.
  intros w C (Hs & (th & Hh & Hc) & Uc & Ud & N2c & N2d & Nm & Nr & Hist).
  assert (look config w = Some D) as Dc. { destruct Hs as [t Hs]. apply (laid_dirs_c w "startup.py" C). rewrite cfg. congruence. }
  assert (look data w = Some D) as Dd. { apply (laid_dirs_d w HIST C). unfold HIST. cbn [app data]. congruence. }
  unfold migrate_xdg. rewrite !sub_app.
  destruct (touch_new config MARKER w Dc Nm) as (w1 & R1 & P1). rewrite R1. cbn [bind].
  assert (closed w1) as C1. { eapply closed_put; [exact C|exact Dc| |exact P1]. intros. unfold nothing in Nm. congruence. }
  destruct (put_in _ _ _ _ _ P1) as [L1 O1].
  assert (exists w2, mkdir true (data ++ ["reservoirs"%string]) w1 = Ok w2 /\ closed w2 /\
            (forall r, look (config ++ r) w2 = look (config ++ r) w1) /\
            (forall r, look (data ++ r) w2 = if path_dec r ["reservoirs"%string] then Some D else look (data ++ r) w)) as (w2 & R2 & C2 & Lc & Ld).
  { assert (forall r, look (data ++ r) w1 = look (data ++ r) w) as Ed by (intros; apply O1; reflexivity).
    destruct (look (data ++ ["reservoirs"%string]) w) as [[|t]|] eqn:E.
    - exists w1. rewrite mkdir_there by (rewrite Ed; exact E). repeat split; auto.
      intros r. rewrite Ed. destruct (path_dec r ["reservoirs"%string]); [subst; exact E|reflexivity].
    - destruct Nr. exists t. exact E.
    - destruct (mkdir_new true data "reservoirs" w1) as (w2 & R2 & P2).
      { specialize (Ed []). rewrite app_nil_r in Ed. congruence. }
      { rewrite Ed. exact E. }
      destruct (put_in _ _ _ _ _ P2) as [L2 O2].
      exists w2. split; auto. split.
      { eapply closed_put; [exact C1| | |exact P2]; [|discriminate]. specialize (Ed []). rewrite app_nil_r in Ed. congruence. }
      split.
      + intros r. apply O2. reflexivity.
      + intros r. rewrite L2, Ed. reflexivity. }
  rewrite R2. cbn [bind]. exists w2.
  assert (forall n, n <> MARKER -> look (config ++ [n]) w2 = look (config ++ [n]) w) as Lc'.
  { intros n Hn. rewrite Lc, L1. destruct (path_dec [n] [MARKER]); [congruence|reflexivity]. }
  assert (forall n, n <> "reservoirs"%string -> look (data ++ [n]) w2 = look (data ++ [n]) w) as Ld'.
  { intros n Hn. rewrite Ld. destruct (path_dec [n] ["reservoirs"%string]); [congruence|reflexivity]. }
  destruct Uc as (Uc1 & Uc2 & Uc3). destruct Ud as (Ud1 & Ud2 & Ud3). unfold nothing in *.
  split; [|split; [exact C2|split; [|split]]].
  - apply check_ok. apply found_ws1; auto; rewrite ?Lc' by discriminate; auto.
    rewrite Lc, L1. destruct (path_dec [MARKER] [MARKER]); congruence.
  - split. { destruct Hs as [t Hs]. exists t. change (look (config ++ ["startup.py"%string]) w2 = Some (F t)). rewrite Lc'; [exact Hs|discriminate]. }
    split. { exists th. split; auto. change (look (data ++ [HIST]) w2 = Some (F th)). rewrite Ld'; [exact Hh|discriminate]. }
    split. { split; [|split]; unfold nothing, is_file in *; rewrite ?Lc' by discriminate; auto. }
    split. { split; [|split]; unfold nothing, is_file in *; rewrite ?Ld' by discriminate; auto. }
    split. { unfold nothing. rewrite Lc' by discriminate. exact N2c. }
    split. { unfold nothing. rewrite Ld' by discriminate. exact N2d. }
    split. { exists []. rewrite Lc, L1. destruct (path_dec [MARKER] [MARKER]); congruence. }
    split. { unfold is_directory. rewrite Ld. destruct (path_dec ["reservoirs"%string] ["reservoirs"%string]); congruence. }
    intros n Hn Nn. unfold is_directory, is_file in *. rewrite Ld' in Hn by exact Nn.
    destruct (Hist n Hn Nn) as [t Ht]. exists t. rewrite Ld.
    destruct (path_dec [n; "history"%string] ["reservoirs"%string]); [congruence|exact Ht].
  - intros i p r Hp O K E. exists p. split; [destruct i; exact Hp|].
    destruct i as [| |n|n]; cbn [place] in Hp; apply some_inj in Hp; subst p.
    + rewrite snoc_cons, Lc, L1. destruct (path_dec ("startup.py"%string :: r) [MARKER]); [discriminate|reflexivity].
    + rewrite snoc_cons in *. rewrite Ld. destruct (path_dec ("reservoirs"%string :: r) ["reservoirs"%string]) as [Er|]; auto.
      injection Er as ->. destruct (look (data ++ ["reservoirs"%string]) w) as [[|t]|] eqn:Er; auto.
      * destruct Nr. exists t. exact Er.
      * congruence.
    + rewrite snoc_cons in *. rewrite Lc, L1. destruct (path_dec (n :: r) [MARKER]) as [Er|]; auto. exfalso.
      injection Er as -> ->. apply E. exact Nm.
    + rewrite snoc_cons in *. rewrite Ld. destruct (path_dec (n :: r) ["reservoirs"%string]) as [Er|]; auto. injection Er as -> _.
      cbn in O. tauto.
  - intros V H. apply V. unfold is_directory, version_file in *. rewrite sub_app in *. rewrite Lc' in H; [exact H|discriminate].
Qed.

Lemma step_original : forall w, closed w -> laid_original w -> exists w',
  migrate_original w = Ok (Some XDG, w') /\ closed w' /\ laid_xdg w' /\ carried Original XDG w w' /\ plain_version w'.
Proof.
  intros w C ((ts & Hs) & (th & Hh & Hc) & Dh & Nc & Nd). unfold nothing, is_directory in *.
  unfold migrate_original.
  destruct (mkdir_new true [] "config" w eq_refl Nc) as (w1 & R1 & P1).
  change ([] ++ ["config"%string]) with config in *. rewrite R1. cbn [bind].
  assert (closed w1) as C1. { apply (closed_put [] "config" D w w1); auto. discriminate. }
  assert (look data w1 = None) as Nd1. { rewrite P1. destruct (path_dec data config); [discriminate|exact Nd]. }
  destruct (mkdir_new true [] "data" w1 eq_refl Nd1) as (w2 & R2 & P2).
  change ([] ++ ["data"%string]) with data in *. rewrite R2. cbn [bind].
  assert (closed w2) as C2. { apply (closed_put [] "data" D w1 w2); auto. discriminate. }
  assert (forall a r, a <> "config"%string -> a <> "data"%string -> look (a :: r) w2 = look (a :: r) w) as L2h.
  { intros a r Ha Hb. rewrite P2, P1. destruct (path_dec (a :: r) data) as [E|]; [injection E; congruence|].
    destruct (path_dec (a :: r) config) as [E|]; [injection E; congruence|reflexivity]. }
  assert (forall r, look (config ++ r) w2 = match r with [] => Some D | _ => None end) as L2c.
  { intros r. rewrite P2, P1. destruct (path_dec (config ++ r) data) as [E|]; [discriminate|].
    destruct (path_dec (config ++ r) config) as [E|E].
    - destruct r; [reflexivity|discriminate].
    - destruct r; [rewrite app_nil_r in E; congruence|]. apply closed_below; auto. }
  assert (forall r, look (data ++ r) w2 = match r with [] => Some D | _ => None end) as L2d.
  { intros r. rewrite P2, P1. destruct (path_dec (data ++ r) data) as [E|E].
    - destruct r; [reflexivity|discriminate].
    - destruct (path_dec (data ++ r) config); [discriminate|].
      destruct r; [rewrite app_nil_r in E; congruence|]. apply closed_below; auto. }
  rewrite !sub_app.
  destruct (move_to (home ++ [".marcel.py"%string]) config "startup.py" w2) as (w3 & R3 & M3); auto.
  { discriminate. } { unfold home. cbn [app]. rewrite L2h by discriminate. congruence. }
  { specialize (L2c []). exact L2c. } { apply L2c. }
  rewrite R3. cbn [bind snd].
  assert (closed w3) as C3. { eapply closed_moved; [exact C2| | |exact M3]; [apply (L2c [])|reflexivity]. }
  destruct (move_to (home ++ [".marcel_history"%string]) data "history" w3) as (w4 & R4 & M4); auto.
  { discriminate. } { rewrite M3. change (look ["home"; ".marcel_history"]%string w2 <> None). rewrite L2h by discriminate. congruence. }
  { rewrite M3. apply (L2d []). } { rewrite M3. apply (L2d [_]). }
  rewrite R4. cbn [bind snd].
  assert (closed w4) as C4. { eapply closed_moved; [exact C3| | |exact M4]; [|reflexivity]. rewrite M3. apply (L2d []). }
  exists w4.
  assert (forall r, look (config ++ r) w4 = match r with [] => Some D | a :: r' => if string_dec "startup.py" a then look (home ++ ".marcel.py"%string :: r') w else None end) as Lc.
  { intros r. rewrite M4. change (after (data ++ ["history"%string]) (config ++ r)) with (@None path).
    change (after (home ++ [".marcel_history"%string]) (config ++ r)) with (@None path).
    rewrite M3, after_same. destruct r as [|a r].
    - cbn. apply (L2c []).
    - rewrite after_cons1. destruct (string_dec "startup.py" a).
      + unfold home. cbn [app]. apply L2h; discriminate.
      + change (after (home ++ [".marcel.py"%string]) (config ++ a :: r)) with (@None path). apply (L2c (a :: r)). }
  assert (forall r, look (data ++ r) w4 = match r with [] => Some D | a :: r' => if string_dec "history" a then look (home ++ ".marcel_history"%string :: r') w else None end) as Ld.
  { intros r. rewrite M4, after_same. destruct r as [|a r].
    - cbn. rewrite M3. apply (L2d []).
    - rewrite after_cons1. destruct (string_dec "history" a).
      + rewrite M3. rewrite <- app_assoc. unfold home. cbn. apply L2h; discriminate.
      + change (after (home ++ [".marcel_history"%string]) (data ++ a :: r)) with (@None path).
        rewrite M3. apply (L2d (a :: r)). }
  split; [|split; [exact C4|split; [|split]]].
  - apply check_ok. apply found_xdg.
    + rewrite Lc. reflexivity. + rewrite Lc. reflexivity. + rewrite Lc. reflexivity.
    + specialize (Lc []). rewrite app_nil_r in Lc. rewrite Lc. discriminate.
    + specialize (Ld []). rewrite app_nil_r in Ld. rewrite Ld. discriminate.
  - split. { exists ts. change (look (config ++ ["startup.py"%string]) w4 = Some (F ts)). rewrite Lc. exact Hs. }
    split. { exists th. split; auto. change (look (data ++ ["history"%string]) w4 = Some (F th)). rewrite Ld. exact Hh. }
    split. { split; [|split]; unfold nothing, is_file; rewrite Lc; try reflexivity. intros [t E]. discriminate. }
    split. { split; [|split]; unfold nothing, is_file; rewrite Ld; try reflexivity. intros [t E]. discriminate. }
    split. { unfold nothing. rewrite Lc. reflexivity. }
    split. { unfold nothing. rewrite Ld. reflexivity. }
    split. { unfold nothing. rewrite Lc. reflexivity. }
    split. { unfold is_file. rewrite Ld. intros [t E]. discriminate. }
    intros n Hn _. exfalso. unfold is_directory in Hn. rewrite Ld in Hn.
    destruct (string_dec "history" n); [|discriminate].
    change (home ++ [".marcel_history"%string]) with ["home"%string; ".marcel_history"%string] in Hn. congruence.
  - intros i p r Hp O K E. destruct i; cbn in Hp; try discriminate. apply some_inj in Hp; subst p.
    exists (config ++ ["startup.py"%string]). split; auto. rewrite <- app_assoc, Lc. reflexivity.
  - unfold plain_version, is_directory, version_file. rewrite sub_app, Lc. discriminate.
Qed.

Lemma step_ws1 : forall w, closed w -> laid_ws1 w -> exists w',
  migrate_ws1 w = Ok (Some WS2, w') /\ closed w' /\ laid_ws2 w' /\ carried WS1 WS2 w w' /\ (plain_version w -> plain_version w').
Proof.
  intros w C (Hs & (th & Hh & Hc) & Uc & Ud & N2c & N2d & [tm Hm] & Hr & Hist).
  assert (look config w = Some D) as Dc. { apply (laid_dirs_c w MARKER C). congruence. }
  assert (look data w = Some D) as Dd. { apply (laid_dirs_d w "reservoirs" C). unfold is_directory in Hr. congruence. }
  unfold migrate_ws1.
  destruct (fix_default_ok config MARKER "startup.py" w) as (w1 & R1 & C1 & (L1 & B1 & O1)); auto; try discriminate.
  { congruence. } { destruct Hs as [t Hs]. rewrite cfg. congruence. }
  rewrite R1. cbn [bind].
  assert (forall r, look (data ++ r) w1 = look (data ++ r) w) as Ed by (intros; apply O1; reflexivity).
  destruct (fix_default_ok data "history" "reservoirs" w1) as (w2 & R2 & C2 & (L2 & B2 & O2)); auto; try discriminate.
  { specialize (Ed []). rewrite app_nil_r in Ed. congruence. }
  { unfold nothing. rewrite Ed. exact N2d. }
  { rewrite Ed. cbn [app data]. congruence. }
  { rewrite Ed. unfold is_directory in Hr. congruence. }
  rewrite R2. cbn [bind]. exists w2.
  assert (forall r, look (config ++ r) w2 = look (config ++ r) w1) as Ec by (intros; apply O2; reflexivity).
  destruct Uc as (Uc1 & Uc2 & Uc3). destruct Ud as (Ud1 & Ud2 & Ud3). unfold nothing in *.
  assert (forall m r, m <> DEF2 -> m <> MARKER -> m <> "startup.py"%string -> look (config ++ m :: r) w2 = look (config ++ m :: r) w) as Lc.
  { intros m r n1 n2 n3. rewrite Ec, L1. destruct (string_dec m DEF2); [congruence|]. destruct (string_dec m MARKER); [congruence|].
    destruct (string_dec m "startup.py"); [congruence|reflexivity]. }
  assert (forall m r, m <> DEF2 -> m <> "history"%string -> m <> "reservoirs"%string -> look (data ++ m :: r) w2 = look (data ++ m :: r) w) as Ld.
  { intros m r n1 n2 n3. rewrite L2. destruct (string_dec m DEF2); [congruence|]. destruct (string_dec m "history"); [congruence|].
    destruct (string_dec m "reservoirs"); [congruence|]. apply Ed. }
  split; [|split; [exact C2|split; [|split]]].
  - apply check_ok. apply found_ws2; auto.
    + rewrite Lc by discriminate. exact Uc2.
    + rewrite Ec, L1. discriminate.
  - split. { unfold is_directory. rewrite Ec, L1. reflexivity. }
    split. { unfold is_directory. rewrite L2. reflexivity. }
    split. { split; [|split]; unfold nothing, is_file in *; rewrite Lc by discriminate; auto. }
    split. { split; [|split]; unfold nothing, is_file in *; rewrite Ld by discriminate; auto. }
    split. { exists th. split; auto. rewrite L2. etransitivity; [apply (Ed [_])|exact Hh]. }
    intros n Hn Nn. unfold is_directory, is_file in *. rewrite L2 in *.
    destruct (string_dec n DEF2); [congruence|]. destruct (string_dec n "history"); [discriminate|].
    destruct (string_dec n "reservoirs"); [discriminate|]. rewrite Ed in *. apply Hist; auto.
  - intros i p r Hp O K E. destruct i as [| |n|n]; cbn [place] in Hp; apply some_inj in Hp; subst p; cbn [place].
    + eexists. split; [reflexivity|]. rewrite <- !app_assoc. rewrite Ec.
      change ([DEF2; "startup.py"%string] ++ r) with (DEF2 :: "startup.py"%string :: r).
      rewrite L1. reflexivity.
    + eexists. split; [reflexivity|]. rewrite <- !app_assoc.
      change ([DEF2; "reservoirs"%string] ++ r) with (DEF2 :: "reservoirs"%string :: r).
      rewrite L2. apply (Ed (_ :: _)).
    + destruct O as (n2 & n3 & nr & q & Hq & Hd). apply some_inj in Hq; subst q.
      eexists. split; [reflexivity|]. rewrite snoc_cons. apply Lc; auto.
      * intros ->. unfold is_directory in Hd. congruence.
      * intros ->. unfold is_directory in Hd. destruct Hs as [t Hs]. rewrite cfg in Hd. congruence.
    + destruct O as (n2 & n3 & nr & q & Hq & Hd). apply some_inj in Hq; subst q.
      eexists. split; [reflexivity|]. rewrite snoc_cons. apply Ld; auto.
      intros ->. unfold is_directory in Hd. cbn [app data] in Hd. congruence.
  - intros V H. apply V. unfold is_directory, version_file in *. rewrite sub_app in *. rewrite Lc in H by discriminate. exact H.
Qed.

Lemma step_ws2 : forall w, closed w -> laid_ws2 w -> exists w',
  migrate_ws2 w = Ok (Some WS3, w') /\ closed w' /\ laid_ws3 w' /\ carried WS2 WS3 w w' /\ plain_version w'.
Proof.
  intros w C (H2c & H2d & Uc & Ud & (th & Hh & Hc) & Hist).
  assert (look config w = Some D) as Dc. { apply (laid_dirs_c w DEF2 C). unfold is_directory in *. congruence. }
  assert (look data w = Some D) as Dd. { apply (laid_dirs_d w DEF2 C). unfold is_directory in *. congruence. }
  unfold migrate_ws2.
  destruct (fix_dirs_ok config w) as (w1 & R1 & C1 & (L1 & B1 & O1)); auto.
  rewrite R1. cbn [bind].
  assert (forall r, look (data ++ r) w1 = look (data ++ r) w) as Ed by (intros; apply O1; reflexivity).
  assert (forall r, is_dir w1 (data ++ r) = is_dir w (data ++ r)) as Edd by (intros; unfold is_dir; rewrite Ed; reflexivity).
  destruct (fix_dirs_ok data w1) as (w2 & R2 & C2 & (L2 & B2 & O2)); auto.
  { specialize (Ed []). rewrite app_nil_r in Ed. congruence. }
  { unfold is_directory. rewrite Ed. exact H2d. }
  { destruct Ud as (Ud1 & Ud2 & Ud3). split; [|split]; unfold nothing, is_file; rewrite Ed; auto. }
  rewrite R2. cbn [bind]. exists w2.
  assert (forall r, look (config ++ r) w2 = look (config ++ r) w1) as Ec by (intros; apply O2; reflexivity).
  destruct Uc as (Uc1 & Uc2 & Uc3). destruct Ud as (Ud1 & Ud2 & Ud3). unfold nothing, is_directory in *.
  assert (look (config ++ [WS; DEF3]) w2 = Some D) as Wc. { rewrite Ec, L1. exact H2c. }
  assert (look (data ++ [WS; DEF3; HIST]) w2 = Some (F th)) as Wh. { rewrite L2. etransitivity; [apply (Ed [_; _])|exact Hh]. }
  split; [|split; [exact C2|split; [|split]]].
  - apply check_ok. apply (found_ws3 w2 th false); auto. apply has_default; auto. congruence.
  - split. { exact Wc. }
    split. { unfold is_directory. rewrite L2. etransitivity; [apply (Ed [_])|exact H2d]. }
    split. { exists th. split; auto. }
    intros n Hn Nn. unfold is_directory, is_file in *. rewrite snoc_cons in *.
    rewrite L2 in Hn.
    destruct (string_dec WS WS) as [_|]; [|congruence]. destruct (string_dec n DEF3); [congruence|].
    destruct (string_dec n DEF2); [discriminate|]. rewrite Edd in Hn.
    destruct (is_dir w (data ++ [n])) eqn:E; [|discriminate]. rewrite Ed in Hn.
    destruct (Hist n) as [t Ht]; auto. exists t.
    rewrite L2. destruct (string_dec WS WS) as [_|]; [|congruence]. destruct (string_dec n DEF3); [congruence|].
    destruct (string_dec n DEF2); [congruence|]. rewrite Edd, E, Ed. exact Ht.
  - intros i p r Hp O K E. destruct i as [| |n|n]; cbn [place] in Hp; apply some_inj in Hp; subst p; cbn [place].
    + eexists. split; [reflexivity|]. rewrite <- !app_assoc. rewrite Ec.
      change ([WS; DEF3; "startup.py"%string] ++ r) with (WS :: DEF3 :: "startup.py"%string :: r).
      rewrite L1. reflexivity.
    + eexists. split; [reflexivity|]. rewrite <- !app_assoc.
      change ([WS; DEF3; "reservoirs"%string] ++ r) with (WS :: DEF3 :: "reservoirs"%string :: r).
      rewrite L2. apply (Ed (_ :: _)).
    + destruct O as (n2 & n3 & nr & q & Hq & Hd). apply some_inj in Hq; subst q.
      eexists. split; [reflexivity|]. rewrite <- !app_assoc, Ec.
      change ([WS; n] ++ r) with (WS :: n :: r). rewrite L1.
      destruct (string_dec WS WS) as [_|]; [|congruence]. destruct (string_dec n DEF3); [congruence|].
      destruct (string_dec n DEF2); [congruence|]. 
      assert (is_dir w (config ++ [n]) = true) as -> by (apply is_dir_iff; exact Hd). reflexivity.
    + destruct O as (n2 & n3 & nr & q & Hq & Hd). apply some_inj in Hq; subst q.
      eexists. split; [reflexivity|]. rewrite <- !app_assoc.
      change ([WS; n] ++ r) with (WS :: n :: r). rewrite L2.
      destruct (string_dec WS WS) as [_|]; [|congruence]. destruct (string_dec n DEF3); [congruence|].
      destruct (string_dec n DEF2); [congruence|]. rewrite Edd, Ed.
      assert (is_dir w (data ++ [n]) = true) as -> by (apply is_dir_iff; exact Hd). reflexivity.
  - intros H. unfold is_directory, version_file in *. rewrite sub_app, Ec, L1 in H.
    destruct (string_dec "VERSION" WS); [discriminate|]. destruct (string_dec "VERSION" BROKEN); [discriminate|].
    destruct (is_dir w (config ++ ["VERSION"%string])) eqn:E; [discriminate|]. unfold is_dir in E.
    rewrite H in E. discriminate.
Qed.

(* ---- the file that replaces a history ---- *)

Lemma digit_fine : forall c, isdigit c = true -> isspace c = false /\ c <> LF /\ c <> CR.
Proof.
  intros c H. destruct c as [[|] [|] [|] [|] [|] [|] [|] [|]]; try discriminate H; repeat split; discriminate.
Qed.

Lemma digits_fine : forall n t, digits n t -> Forall (fun c => isspace c = false /\ c <> LF /\ c <> CR) t.
Proof. intros n t [_ H]. eapply Forall_impl; [|exact H]. intros. apply digit_fine. exact H0. Qed.

Lemma notice_is_current : forall stamp, is_stamp stamp -> history_is_current (notice stamp) = Some true.
Proof.
  intros stamp (y & mo & d & h & mi & s & us & Hy & Hmo & Hd & Hh & Hmi & Hs & Hus & E).
  assert (one_line stamp) as OL.
  { subst stamp. repeat match goal with H : digits _ _ |- _ => apply digits_fine in H end.
    assert (forall t, Forall (fun c => isspace c = false /\ c <> LF /\ c <> CR) t -> one_line t) as X.
    { intros t Ht. rewrite Forall_forall in Ht. split; intros Hi; apply Ht in Hi; tauto. }
    assert (forall a b, one_line a -> one_line b -> one_line (a ++ b)) as Y.
    { intros a b [A1 A2] [B1 B2]. split; rewrite in_app_iff; tauto. }
    assert (forall c, c <> LF -> c <> CR -> one_line [c]) as Z.
    { intros c A1 A2. split; simpl; intuition. }
    repeat apply Y; auto; try (apply Z; discriminate).
    split; simpl; intros K; repeat destruct K as [K|K]; try discriminate; auto. }
  assert (strip (stamp ++ [LF]) = stamp) as ST.
  { apply (strip_core [] stamp [LF]); auto.
    - subst stamp. simpl. intros c K. injection K as <-. reflexivity.
    - destruct Hus as [Hl Hf]. destruct us as [|u us _] using rev_ind; [discriminate|].
      subst stamp. rewrite !app_assoc. rewrite rev_app_distr. simpl. intros c K. injection K as <-.
      rewrite Forall_forall in Hf. apply digit_fine. apply Hf. rewrite in_app_iff. right. left. reflexivity. }
  assert (exists rest, notice stamp = [LF] ++ stamp ++ LF :: rest) as [rest Er] by (eexists; reflexivity).
  assert (nth_error (readlines (universal (notice stamp))) 0 = Some [LF]) as E0.
  { rewrite Er. reflexivity. }
  assert (nth_error (readlines (universal (notice stamp))) 1 = Some (stamp ++ [LF])) as E1.
  { rewrite Er. cbn [app]. change (universal (LF :: stamp ++ LF :: rest)) with (LF :: universal (stamp ++ LF :: rest)).
    rewrite universal_line by exact OL. change (universal (LF :: rest)) with (LF :: universal rest).
    change (readlines (LF :: stamp ++ LF :: universal rest)) with ([LF] :: readlines (stamp ++ LF :: universal rest)).
    rewrite readlines_line by exact OL. reflexivity. }
  unfold history_is_current. unfold line at 1. rewrite E0. unfold line. rewrite E1, ST.
  change (strip [LF]) with (@nil ascii). cbn [length Nat.eqb negb].
  destruct Hy as [Ly _], Hmo as [Lmo _], Hd as [Ld _], Hh as [Lh _], Hmi as [Lmi _], Hs as [Ls _].
  destruct y as [|y1 [|y2 [|y3 [|]]]]; try discriminate Ly.
  destruct mo as [|a1 [|a2 [|]]]; try discriminate Lmo.
  destruct d as [|b1 [|b2 [|]]]; try discriminate Ld.
  destruct h as [|c1 [|c2 [|]]]; try discriminate Lh.
  destruct mi as [|e1 [|e2 [|]]]; try discriminate Lmi.
  destruct s as [|f1 [|f2 [|]]]; try discriminate Ls.
  subst stamp. reflexivity.
Qed.

Lemma step_ws3 : forall stamp w, closed w -> laid_ws3 w -> is_stamp stamp -> exists w',
  migrate_ws3 stamp w = Ok (Some PT, w') /\ closed w' /\ laid_pt w' /\ carried WS3 PT w w' /\
  (plain_version w -> plain_version w') /\
  (forall n, is_directory w (data ++ [WS; n]) -> look (data ++ [WS; n; HIST]) w' = Some (F (notice stamp))).
Proof.
  intros stamp w C (Hc & Hd & (th & Hh & Ho) & Hist) St. unfold migrate_ws3.
  assert (look (data ++ [WS]) w = Some D) as Dw.
  { apply (C _ DEF3). rewrite snoc_cons. unfold is_directory in Hd. congruence. }
  rewrite sub_app, subdirs_eq by exact Dw. cbn [bind].
  destruct (reset_ok (data ++ [WS]) stamp (dirs_in w (data ++ [WS])) w) as (w' & R & C' & (L & B & O)); auto.
  { apply dirs_in_nodup. }
  { intros n Hn. apply dirs_in_iff in Hn. split; auto. destruct (string_dec n DEF3) as [->|Nn].
    - exists th. rewrite snoc_cons. exact Hh.
    - apply Hist; auto. }
  rewrite R. cbn [bind]. exists w'.
  assert (forall r, look (config ++ r) w' = look (config ++ r) w) as Ec by (intros; apply O; reflexivity).
  assert (forall n, is_directory w (data ++ [WS; n]) -> look (data ++ [WS; n; HIST]) w' = Some (F (notice stamp))) as Hn.
  { intros n Hn. specialize (L n [HIST]). rewrite snoc_cons in L. rewrite L.
    destruct (path_dec [HIST] [HIST]); [|congruence]. unfold in_.
    destruct (in_dec string_dec n (dirs_in w (data ++ [WS]))) as [|N]; auto.
    exfalso. apply N. apply dirs_in_iff. rewrite snoc_cons. exact Hn. }
  assert (storage_layout w' = Ok (Some PT)) as S.
  { apply (found_ws3 w' (notice stamp) true).
    - apply has_default; auto. rewrite Ec. unfold is_directory in Hc. congruence.
    - apply Hn. exact Hd.
    - apply notice_is_current. exact St. }
  split; [apply check_ok; exact S|]. split; auto. split; [|split; [|split]]; auto.
  - split. { unfold is_directory. rewrite Ec. exact Hc. }
    exists (notice stamp). split; [apply Hn; exact Hd|apply notice_is_current; exact St].
  - intros i p r Hp Ow K E. destruct i as [| |n|n]; cbn [place] in Hp; apply some_inj in Hp; subst p; cbn [place]; (eexists; split; [reflexivity|]).
    + rewrite <- !app_assoc. apply Ec.
    + rewrite <- !app_assoc. change ([WS; DEF3; "reservoirs"%string] ++ r) with (WS :: DEF3 :: "reservoirs"%string :: r).
      specialize (L DEF3 ("reservoirs"%string :: r)). rewrite !snoc_cons in L. rewrite L.
      destruct (path_dec ("reservoirs"%string :: r) [HIST]); [discriminate|reflexivity].
    + rewrite <- !app_assoc. apply Ec.
    + rewrite <- !app_assoc. change ([WS; n] ++ r) with (WS :: n :: r).
      specialize (L n r). rewrite !snoc_cons in L. rewrite L.
      destruct (path_dec r [HIST]) as [->|]; auto. exfalso. apply K. reflexivity.
  - intros V H. apply V. unfold is_directory, version_file in *. rewrite sub_app in *. rewrite Ec in H. exact H.
Qed.

Lemma step_version : forall version w, closed w -> laid_pt w -> plain_version w -> exists w',
  record_version version w = Ok w' /\ closed w' /\ storage_layout w' = Ok (Some PT) /\
  (forall q, q <> version_file -> look q w' = look q w).
Proof.
  intros version w C (Hc & t & Ht & Hb) V.
  assert (look config w = Some D) as Dc.
  { apply (closed_above w config [WS; DEF3] C); [discriminate|]. unfold is_directory in Hc. congruence. }
  unfold record_version. rewrite mkdir_there by exact Dc. cbn [bind].
  destruct (str_lt (installed_version w) version).
  - destruct (write_ok config "VERSION" version w Dc V) as (w' & R & P).
    exists w'. split; auto.
    assert (closed w') as C'. { eapply closed_put; [exact C|exact Dc| |exact P]. intros. exact V. }
    split; auto. split.
    + apply (found_ws3 w' t true); auto.
      * apply has_default; auto. rewrite P. unfold is_directory in Hc.
        destruct (path_dec (config ++ [WS; DEF3]) (config ++ ["VERSION"%string])); congruence.
      * rewrite P. destruct (path_dec (data ++ [WS; DEF3; HIST]) (config ++ ["VERSION"%string])); [discriminate|exact Ht].
    + intros q N. rewrite P. destruct (path_dec q (config ++ ["VERSION"%string])); auto. contradiction.
  - exists w. split; auto. split; auto. split; auto. apply (found_ws3 w t true); auto.
    apply has_default; auto. unfold is_directory in Hc. congruence.
Qed.

(* ---- the theorems ---- *)

(* C41: a directory that is laid out as some version of marcel left it is recognised as such. *)
Theorem c41_recognised : forall l w, closed w -> laid l w -> storage_layout w = Ok (Some l).
Proof.
  intros l w C H. destruct l; cbn [laid] in H.
  - destruct H as ((ts & Hs) & (th & Hh & _) & _ & Nc & Nd). apply found_original; auto;
      unfold home; cbn [app]; congruence.
  - destruct H as ((ts & Hs) & (th & Hh & _) & (A1 & A2 & A3) & _ & B1 & B2 & B3 & _). apply found_xdg; auto.
    + assert (look config w = Some D); [|congruence]. apply (C _ "startup.py"%string). rewrite cfg. congruence.
    + assert (look data w = Some D); [|congruence]. apply (C _ "history"%string). cbn [app data]. congruence.
  - destruct H as ((ts & Hs) & (th & Hh & _) & (A1 & A2 & A3) & _ & B1 & B2 & (tm & B3) & _). apply found_ws1; auto. congruence.
  - destruct H as (A1 & A2 & (A3 & A4 & A5) & _). apply found_ws2; auto. unfold is_directory in A1. congruence.
  - destruct H as (A1 & A2 & (th & Hh & Hf) & _). apply (found_ws3 w th false); auto. apply has_default; auto.
    unfold is_directory in A1. congruence.
  - destruct H as (A1 & t & Ht & Hf). apply (found_ws3 w t true); auto. apply has_default; auto.
    unfold is_directory in A1. congruence.
Qed.

Lemma carried_refl : forall l w, carried l l w w.
Proof. intros l w i p r Hp _ _ _. exists p. auto. Qed.

Lemma chain : forall l stamp w, closed w -> laid l w -> plain_version w -> is_stamp stamp ->
  exists w', migrations 7 stamp (Some l) w = Some (Ok w') /\ closed w' /\ laid_pt w' /\ plain_version w' /\ carried l PT w w'.
Proof.
  intros l stamp w C H V St.
  assert (forall n w, closed w -> laid_pt w -> plain_version w ->
    exists w', migrations (1 + n) stamp (Some PT) w = Some (Ok w') /\ closed w' /\ laid_pt w' /\ plain_version w' /\ carried PT PT w w') as S5.
  { intros n x Cx Hx Vx. exists x. cbn. destruct n; auto using carried_refl. }
  assert (forall n w, closed w -> laid_ws3 w -> plain_version w ->
    exists w', migrations (2 + n) stamp (Some WS3) w = Some (Ok w') /\ closed w' /\ laid_pt w' /\ plain_version w' /\ carried WS3 PT w w') as S4.
  { intros n x Cx Hx Vx. destruct (step_ws3 stamp x Cx Hx St) as (y & R & Cy & Hy & K & Vy & _).
    destruct (S5 n y Cy Hy (Vy Vx)) as (z & Rz & Cz & Hz & Vz & Kz). exists z.
    cbn [plus migrations migrate]. rewrite R. cbn [layout_eqb]. split; auto. eauto using carried_trans. }
  assert (forall n w, closed w -> laid_ws2 w -> 
    exists w', migrations (3 + n) stamp (Some WS2) w = Some (Ok w') /\ closed w' /\ laid_pt w' /\ plain_version w' /\ carried WS2 PT w w') as S3.
  { intros n x Cx Hx. destruct (step_ws2 x Cx Hx) as (y & R & Cy & Hy & K & Vy).
    destruct (S4 n y Cy Hy Vy) as (z & Rz & Cz & Hz & Vz & Kz). exists z.
    cbn [plus migrations migrate]. rewrite R. cbn [layout_eqb]. split; auto. eauto using carried_trans. }
  assert (forall n w, closed w -> laid_ws1 w -> 
    exists w', migrations (4 + n) stamp (Some WS1) w = Some (Ok w') /\ closed w' /\ laid_pt w' /\ plain_version w' /\ carried WS1 PT w w') as S2.
  { intros n x Cx Hx. destruct (step_ws1 x Cx Hx) as (y & R & Cy & Hy & K & Vy).
    destruct (S3 n y Cy Hy) as (z & Rz & Cz & Hz & Vz & Kz). exists z.
    cbn [plus migrations migrate]. rewrite R. cbn [layout_eqb]. split; auto. eauto using carried_trans. }
  assert (forall n w, closed w -> laid_xdg w -> 
    exists w', migrations (5 + n) stamp (Some XDG) w = Some (Ok w') /\ closed w' /\ laid_pt w' /\ plain_version w' /\ carried XDG PT w w') as S1.
  { intros n x Cx Hx. destruct (step_xdg x Cx Hx) as (y & R & Cy & Hy & K & Vy).
    destruct (S2 n y Cy Hy) as (z & Rz & Cz & Hz & Vz & Kz). exists z.
    cbn [plus migrations migrate]. rewrite R. cbn [layout_eqb]. split; auto. eauto using carried_trans. }
  assert (forall n w, closed w -> laid_original w -> 
    exists w', migrations (6 + n) stamp (Some Original) w = Some (Ok w') /\ closed w' /\ laid_pt w' /\ plain_version w' /\ carried Original PT w w') as S0.
  { intros n x Cx Hx. destruct (step_original x Cx Hx) as (y & R & Cy & Hy & K & Vy).
    destruct (S1 n y Cy Hy) as (z & Rz & Cz & Hz & Vz & Kz). exists z.
    cbn [plus migrations migrate]. rewrite R. cbn [layout_eqb]. split; auto. eauto using carried_trans. }
  destruct l; cbn [laid] in H.
  - apply (S0 1); auto. - apply (S1 2); auto. - apply (S2 3); auto. - apply (S3 4); auto. - apply (S4 5); auto. - apply (S5 6); auto.
Qed.

(* C41: from every such layout, startup succeeds, within the bound on the number of migrations, and ends
   with the current layout, in which everything of the user's but the histories is where it belongs and
   as it was. *)
Theorem c41_migrates_partial : forall l w version startup env pickle stamp,
  closed w -> laid l w -> ~ is_directory w version_file -> is_stamp stamp ->
  exists w', ensure_current version startup env pickle stamp w = Some (Ok w') /\
             storage_layout w' = Ok (Some PT) /\ closed w' /\ preserved l w w'.
Proof.
  intros l w version startup env pickle stamp C H V St. unfold ensure_current.
  rewrite (c41_recognised l w C H).
  destruct (chain l stamp w C H V St) as (w1 & R1 & C1 & H1 & V1 & K1). rewrite R1.
  destruct (step_version version w1 C1 H1 V1) as (w2 & R2 & C2 & S2 & L2).
  exists w2. rewrite R2. split; auto. split; auto. split; auto.
  intros i p r Hp O K E. destruct (K1 i p r Hp O K E) as (p' & Hp' & E'). exists p'. split; auto.
  rewrite <- E'. apply L2. destruct i; cbn [place] in Hp'; apply some_inj in Hp'; subst p'; discriminate.
Qed.

(* C41: with the current layout, startup changes nothing but the file of the version. *)
Theorem c41_current_unchanged : forall w version startup env pickle stamp,
  closed w -> laid PT w -> ~ is_directory w version_file ->
  exists w', ensure_current version startup env pickle stamp w = Some (Ok w') /\
             forall q, q <> version_file -> look q w' = look q w.
Proof.
  intros w version startup env pickle stamp C H V. unfold ensure_current.
  rewrite (c41_recognised PT w C H). cbn [migrations migrate].
  destruct (step_version version w C H V) as (w2 & R2 & C2 & S2 & L2).
  exists w2. rewrite R2. auto.
Qed.

(* ---- a new user ---- *)

Ltac lk := repeat match goal with
  | P : put_ ?p ?e ?w ?w' |- context [look ?q ?w'] =>
    rewrite (P q); destruct (path_dec q p) as [?E|?];
    [try discriminate; try (exfalso; congruence); try reflexivity; try (exfalso; injection E; intros; congruence)|]
  end.

Ltac fin := lk; first [congruence | exfalso; match goal with n : _ <> _ |- _ => apply n; reflexivity end].

Lemma mk : forall p n w, closed w -> look p w = Some D -> look (p ++ [n]) w = None ->
  exists w', mkdir true (p ++ [n]) w = Ok w' /\ put_ (p ++ [n]) D w w' /\ closed w'.
Proof.
  intros p n w C H N. destruct (mkdir_new true p n w H N) as (w' & R & P). exists w'. split; auto. split; auto.
  eapply closed_put; eauto. discriminate.
Qed.

Lemma wr : forall p n t w, closed w -> look p w = Some D -> look (p ++ [n]) w = None ->
  exists w', write (p ++ [n]) t w = Ok w' /\ put_ (p ++ [n]) (F t) w w' /\ closed w'.
Proof.
  intros p n t w C H N. destruct (write_ok p n t w H) as (w' & R & P); [congruence|]. exists w'. split; auto. split; auto.
  eapply closed_put; eauto. congruence.
Qed.

Lemma tc : forall p n w, closed w -> look p w = Some D -> look (p ++ [n]) w = None ->
  exists w', touch (p ++ [n]) w = Ok w' /\ put_ (p ++ [n]) (F []) w w' /\ closed w'.
Proof.
  intros p n w C H N. destruct (touch_new p n w H N) as (w' & R & P). exists w'. split; auto. split; auto.
  eapply closed_put; eauto. congruence.
Qed.

(* C41: without any files of marcel's, startup makes them, with the initial configuration; the result is
   a layout that the next startup can deal with. *)
Theorem c41_fresh : forall w version startup env pickle stamp,
  closed w -> nothing w config -> nothing w data ->
  nothing w (home ++ [".marcel.py"%string]) \/ nothing w (home ++ [".marcel_history"%string]) ->
  env <> "reservoirs"%string -> env <> "history"%string ->
  exists w', ensure_current version startup env pickle stamp w = Some (Ok w') /\ closed w' /\
    laid WS3 w' /\ ~ is_directory w' version_file /\
    look (config ++ [WS; DEF3; "startup.py"%string]) w' = Some (F startup) /\
    look version_file w' = Some (F version).
Proof.
  intros w version startup env pickle stamp C Nc Nd Nh e1 e2. unfold nothing in *.
  assert (storage_layout w = Ok None) as S.
  { unfold storage_layout. cbn [first_match matches].
    rewrite (no_default w (closed_below w config C Nc [WS])). cbn [bind].
    assert (exists_ w config = false) as -> by (apply exists_false; exact Nc). cbn [andb bind]. rewrite !sub_app.
    assert (exists_ w (home ++ [".marcel.py"%string]) && exists_ w (home ++ [".marcel_history"%string]) = false) as ->; auto.
    apply andb_false_iff. rewrite !exists_false. exact Nh. }
  unfold ensure_current. rewrite S. unfold initialize.
  assert (forall r, look (config ++ r) w = None) as Ac by (intros; apply closed_below; auto).
  assert (forall r, look (data ++ r) w = None) as Ad by (intros; apply closed_below; auto).
  change config with ([] ++ ["config"%string]) at 1.
  destruct (mk [] "config" w C eq_refl Nc) as (w1 & R1 & P1 & C1). change ([] ++ ["config"%string]) with config in *.
  rewrite R1. cbn [bind]. rewrite !sub_app. unfold default_history, version_file. rewrite !sub_app.
  destruct (mk config WS w1 C1) as (w2 & R2 & P2 & C2); [lk; congruence|lk; apply Ac|]. rewrite R2. cbn [bind].
  destruct (mk config "broken" w2 C2) as (w3 & R3 & P3 & C3); [lk; congruence|lk; apply Ac|]. rewrite R3. cbn [bind].
  change data with ([] ++ ["data"%string]) at 1.
  destruct (mk [] "data" w3 C3 eq_refl) as (w4 & R4 & P4 & C4); [lk; apply Nd|]. change ([] ++ ["data"%string]) with data in *.
  rewrite R4. cbn [bind].
  destruct (mk data WS w4 C4) as (w5 & R5 & P5 & C5); [lk; congruence|lk; apply Ad|]. rewrite R5. cbn [bind].
  destruct (mk data "broken" w5 C5) as (w6 & R6 & P6 & C6); [lk; congruence|lk; apply Ad|]. rewrite R6. cbn [bind].
  destruct (wr config "VERSION" version w6 C6) as (w7 & R7 & P7 & C7); [lk; congruence|lk; apply Ac|]. rewrite R7. cbn [bind].
  destruct (mk (config ++ [WS]) DEF3 w7 C7) as (w8 & R8 & P8 & C8); [lk; congruence|lk; apply (Ac [_;_])|]. rewrite R8. cbn [bind].
  destruct (wr ((config ++ [WS]) ++ [DEF3]) "startup.py" startup w8 C8) as (w9 & R9 & P9 & C9); [lk; congruence|lk; apply (Ac [_;_;_])|]. rewrite R9. cbn [bind].
  destruct (tc ((config ++ [WS]) ++ [DEF3]) MARKER w9 C9) as (w10 & R10 & P10 & C10); [lk; congruence|lk; apply (Ac [_;_;_])|]. rewrite R10. cbn [bind].
  destruct (mk (data ++ [WS]) DEF3 w10 C10) as (w11 & R11 & P11 & C11); [lk; congruence|lk; apply (Ad [_;_])|]. rewrite R11. cbn [bind].
  destruct (mk ((data ++ [WS]) ++ [DEF3]) "reservoirs" w11 C11) as (w12 & R12 & P12 & C12); [lk; congruence|lk; apply (Ad [_;_;_])|]. rewrite R12. cbn [bind].
  destruct (wr ((data ++ [WS]) ++ [DEF3]) env pickle w12 C12) as (w13 & R13 & P13 & C13); [lk; congruence| |].
  { lk; try apply (Ad [_;_;_]). }
  rewrite R13. cbn [bind].
  destruct (tc ((data ++ [WS]) ++ [DEF3]) "history" w13 C13) as (w14 & R14 & P14 & C14); [lk; congruence| |].
  { lk; try apply (Ad [_;_;_]). }
  rewrite R14. cbn [bind].
  assert (look config w14 = Some D) as Dc by (lk; congruence).
  assert (look (config ++ ["VERSION"%string]) w14 = Some (F version)) as Dv by (lk; congruence).
  assert (exists w15, record_version version w14 = Ok w15 /\ closed w15 /\
    forall q, look q w15 = if path_dec q (config ++ ["VERSION"%string]) then Some (F version) else look q w14) as (w15 & R15 & C15 & P15).
  { unfold record_version. rewrite mkdir_there by exact Dc. cbn [bind].
    destruct (str_lt (installed_version w14) version).
    - destruct (write_ok config "VERSION" version w14 Dc) as (w15 & R & P); [congruence|]. exists w15. split; auto. split; auto.
      eapply closed_put; [exact C14|exact Dc| |exact P]. congruence.
    - exists w14. split; auto. split; auto. intros q. destruct (path_dec q (config ++ ["VERSION"%string])); congruence. }
  exists w15. rewrite R15. split; auto. split; auto.
  fold (put_ (config ++ ["VERSION"%string]) (F version) w14 w15) in P15.
  change version_file with (config ++ ["VERSION"%string]).
  split; [|split; [|split]].
  - split; [|split; [|split]].
    + unfold is_directory. fin.
    + unfold is_directory. fin.
    + exists []. split; [|reflexivity]. fin.
    + intros n Hn Nn. exfalso. unfold is_directory in Hn. apply Nn. revert Hn.
      rewrite snoc_cons. lk; try discriminate; try (injection E; congruence).
      intros Hn. specialize (Ad [WS; n]). rewrite <- Ad in *. congruence.
  - unfold is_directory. fin.
  - fin.
  - fin.
Qed.

(* ---- where the guarantee ends ---- *)

(* With the layout of 0.28.0, the histories of all workspaces are replaced ... *)
Theorem c41_histories_deleted : forall w version startup env pickle stamp,
  closed w -> laid WS3 w -> ~ is_directory w version_file -> is_stamp stamp ->
  exists w', ensure_current version startup env pickle stamp w = Some (Ok w') /\
    forall n, is_directory w (data ++ [WS; n]) ->
              look (data ++ [WS; n; "history"%string]) w' = Some (F (notice stamp)).
Proof.
  intros w version startup env pickle stamp C H V St. unfold ensure_current.
  rewrite (c41_recognised WS3 w C H). cbn [laid] in H.
  destruct (step_ws3 stamp w C H St) as (w1 & R1 & C1 & H1 & K1 & V1 & E1).
  change (migrations 7 stamp (Some WS3) w)
    with (match migrate_ws3 stamp w with
          | Raise e w => Some (Raise e w)
          | Ok (a, w) => match a with
                         | Some a' => if layout_eqb a' WS3 then Some (Raise KillShell w) else migrations 6 stamp a w
                         | None => migrations 6 stamp a w end end).
  rewrite R1. cbn [layout_eqb migrations migrate].
  destruct (step_version version w1 C1 H1 (V1 V)) as (w2 & R2 & C2 & S2 & L2).
  exists w2. rewrite R2. split; auto. intros n Hn. rewrite L2 by discriminate. apply E1. exact Hn.
Qed.

Definition now : text := txt "# 2025-04-02 16:54:22.895547".
Definition today : text := [LF] ++ now ++ [LF] ++ txt "+ls" ++ [LF].

Lemma now_stamp : is_stamp now.
Proof.
  exists (txt "025"), (txt "04"), (txt "02"), (txt "16"), (txt "54"), (txt "22"), (txt "895547").
  repeat split; repeat constructor.
Qed.

Definition start (w : fs) : option (res fs) := ensure_current (txt "0.37.3") (txt "# startup") "7.env.pickle" [] now w.

Definition files (r : option (res fs)) : fs :=
  match r with Some (Ok w) | Some (Raise _ w) => w | None => [] end.

Definition new_user : fs := [(home, D)].

(* The files after a first start, when the user has then made a workspace and worked only there, with
   the current version *)
Definition worked_in_workspace : fs :=
  files (start new_user) ++
  [(config ++ [WS; "w"%string], D); (data ++ [WS; "w"%string], D); (data ++ [WS; "w"; "history"]%string, F today)].

(* ... also those that have the current format: as long as nothing has been entered in the default
   workspace, the layout is taken for the one of 0.28.0. *)
Theorem c41_current_history_deleted_refuted :
  history_is_current today = Some true /\
  look (data ++ [WS; "w"; "history"]%string) worked_in_workspace = Some (F today) /\
  exists w', start worked_in_workspace = Some (Ok w') /\
    look (data ++ [WS; "w"; "history"]%string) w' = Some (F (notice now)) /\ notice now <> today.
Proof.
  split; [reflexivity|]. split; [vm_compute; reflexivity|].
  eexists. split; [vm_compute; reflexivity|]. split; [vm_compute; reflexivity|].
  intros E. vm_compute in E. discriminate.
Qed.

(* A command entered at a full second is recorded by prompt_toolkit with a time that has no fraction.  If
   it is the first in the history of the default workspace, no start succeeds any more. *)
Theorem c41_full_second_refuted : forall w version startup env pickle stamp,
  has_default_ws3 w = true ->
  look default_history w = Some (F ([LF] ++ txt "# 2025-04-02 16:54:22" ++ [LF] ++ txt "+ls" ++ [LF])) ->
  ensure_current version startup env pickle stamp w = Some (Raise IndexError w).
Proof.
  intros w version startup env pickle stamp H Hh. unfold ensure_current, storage_layout. cbn [first_match matches].
  rewrite H, Hh. reflexivity.
Qed.

(* The first start may be interrupted before the default workspace has been made *)
Definition interrupted : res fs :=
  do w <- mkdir true config new_user;
  do w <- mkdir true (sub config WS) w;
  do w <- mkdir true (sub config "broken") w;
  do w <- mkdir true data w;
  do w <- mkdir true (sub data WS) w;
  do w <- mkdir true (sub data "broken") w;
  write version_file (txt "0.37.3") w.

Fixpoint starts (n : nat) (w : fs) : fs := match n with O => w | S n' => starts n' (files (start w)) end.

(* ... after which no start succeeds, however often it is tried. *)
Theorem c41_interrupted_refuted : exists w, interrupted = Ok w /\
  forall n, exists e w', start (starts n w) = Some (Raise e w').
Proof.
  destruct interrupted as [w|] eqn:E; [|vm_compute in E; discriminate]. exists w. split; auto.
  vm_compute in E. injection E as <-.
  intros n. destruct n as [|[|[|n]]].
  - vm_compute. eauto.
  - vm_compute. eauto.
  - vm_compute. eauto.
  - match goal with |- context [starts (S (S (S n))) ?w] => change (starts (S (S (S n))) w) with (starts n (starts 3 w)) end.
    match goal with |- context [starts n ?w] => set (w3 := w) end. vm_compute in w3.
    assert (exists e, start w3 = Some (Raise e w3)) as [e H3].
    { eexists. vm_compute. reflexivity. }
    assert (forall k, starts k w3 = w3) as Fix.
    { induction k; cbn [starts]; [reflexivity|]. rewrite H3. exact IHk. }
    rewrite Fix, H3. eauto.
Qed.

(* A workspace that happens to be called workspace is taken for the directory of all workspaces: the
   first start after 0.24.0 fails, and when the next has succeeded, the workspace is gone. *)
Definition named_workspace : fs :=
  [(home, D); (config, D); (data, D);
   (config ++ [DEF2], D); (config ++ [DEF2; "startup.py"%string], F []); (config ++ [DEF2; MARKER], F []);
   (data ++ [DEF2], D); (data ++ [DEF2; "history"%string], F []); (data ++ [DEF2; "reservoirs"%string], D);
   (config ++ [WS], D); (config ++ [WS; "startup.py"%string], F []); (config ++ [WS; MARKER], F []);
   (data ++ [WS], D); (data ++ [WS; "history"%string], F []); (data ++ [WS; "reservoirs"%string], D)].

Theorem c41_named_workspace_refuted :
  storage_layout named_workspace = Ok (Some WS2) /\
  exists e w1 w2, start named_workspace = Some (Raise e w1) /\ start w1 = Some (Ok w2) /\
    look (config ++ [WS; WS]) w2 = None /\ look (data ++ [WS; WS]) w2 = None.
Proof.
  split; [reflexivity|]. do 3 eexists. split; [vm_compute; reflexivity|].
  split; [vm_compute; reflexivity|]. split; vm_compute; reflexivity.
Qed.

(* Versions are compared as strings: with 0.9.0 installed, 0.37.3 is not recorded. *)
Theorem c41_version_refuted : forall w t, look config w = Some D -> look version_file w = Some (F t) ->
  line 0 t = txt "0.9.0" -> record_version (txt "0.37.3") w = Ok w.
Proof.
  intros w t Hc Hv Ht. unfold record_version. rewrite mkdir_there by exact Hc. cbn [bind].
  unfold installed_version. rewrite Hv, Ht. reflexivity.
Qed.

(* ---- concrete cases ---- *)

(* the layout of 0.24.0, with a workspace w *)
Definition user_of_0_24 : fs :=
  [(home, D); (config, D); (data, D);
   (config ++ [DEF2], D); (config ++ [DEF2; "startup.py"%string], F (txt "x = 1")); (config ++ [DEF2; MARKER], F []);
   (data ++ [DEF2], D); (data ++ [DEF2; "history"%string], F (txt "ls")); (data ++ [DEF2; "reservoirs"%string], D);
   (config ++ ["w"%string], D); (config ++ ["w"; "startup.py"]%string, F (txt "y = 2"));
   (data ++ ["w"%string], D); (data ++ ["w"; "history"]%string, F (txt "pwd"))].

Lemma closed_check : forall w, forallb (fun x => match rev (fst x) with [] => false | _ :: r => is_dir w (rev r) end) w = true -> closed w.
Proof.
  intros w H p n Hp. rewrite look_ne in Hp by apply snoc_ne. apply lookup_in in Hp. apply in_map_iff in Hp.
  destruct Hp as ([q e] & E & Hi). simpl in E. subst q. rewrite forallb_forall in H. apply H in Hi. cbn [fst] in Hi.
  rewrite rev_app_distr in Hi. simpl in Hi. rewrite rev_involutive in Hi. apply is_dir_iff. exact Hi.
Qed.

Lemma lookup_none_check : forall p w, forallb (fun x => if path_dec p (fst x) then false else true) w = true -> p <> [] -> look p w = None.
Proof.
  intros p w H N. rewrite look_ne by exact N. induction w as [|[q e] w IH]; auto. cbn [forallb fst] in H. apply andb_true_iff in H.
  destruct H as [H1 H2]. simpl. destruct (path_dec p q); [discriminate|]. auto.
Qed.

Example user_of_0_24_laid : closed user_of_0_24 /\ laid WS2 user_of_0_24 /\ ~ is_directory user_of_0_24 version_file.
Proof.
  split. { apply closed_check. vm_compute. reflexivity. }
  split.
  - cbn [laid]. repeat split; try (vm_compute; reflexivity).
    + intros [t E]. vm_compute in E. discriminate.
    + intros [t E]. vm_compute in E. discriminate.
    + exists (txt "ls"). split; vm_compute; reflexivity.
    + intros n Hn Nn. unfold is_directory in Hn.
      destruct (string_dec n "w") as [->|Nw]. { exists (txt "pwd"). reflexivity. }
      exfalso. unfold look, user_of_0_24, lookup in Hn. cbn [app data config home] in Hn.
      repeat match type of Hn with context [path_dec ?a ?b] => destruct (path_dec a b) as [E|?]; [try discriminate E; injection E; intros; congruence|] end.
      discriminate.
  - intros E. vm_compute in E. discriminate.
Qed.

Example user_of_0_24_migrates : exists w', start user_of_0_24 = Some (Ok w') /\
  look (config ++ [WS; DEF3; "startup.py"%string]) w' = Some (F (txt "x = 1")) /\
  look (config ++ [WS; "w"; "startup.py"]%string) w' = Some (F (txt "y = 2")).
Proof. eexists. split; [vm_compute; reflexivity|]. split; vm_compute; reflexivity. Qed.

Print Assumptions c41_migrates_partial.
Print Assumptions c41_fresh.
