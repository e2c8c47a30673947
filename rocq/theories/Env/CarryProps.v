(** C66: a variable has the value last assigned to it, in every process and whenever the workspace is opened. *)
From Verif.Env Require Import CarrySpec.
Local Open Scope string_scope.
Local Open Scope list_scope.

(** ** Dicts *)
Definition keys {A} (d : dict A) : list string := map fst d.

Lemma eqb_sym x y : String.eqb x y = String.eqb y x.
Proof. destruct (String.eqb_spec x y), (String.eqb_spec y x); congruence. Qed.

Lemma get_put {A} (d : dict A) x a y : get y (put x a d) = if String.eqb y x then Some a else get y d.
Proof.
  induction d as [|[z b] d IH]; cbn.
  - now destruct (String.eqb y x).
  - destruct (String.eqb_spec x z) as [->|N]; cbn.
    + now destruct (String.eqb y z).
    + destruct (String.eqb_spec y z) as [->|]; auto. destruct (String.eqb_spec z x); [congruence|auto].
Qed.

Lemma get_none {A} (d : dict A) x : ~ In x (keys d) -> get x d = None.
Proof.
  induction d as [|[z b] d IH]; cbn; auto. intros N. destruct (String.eqb_spec x z) as [->|]; [destruct N; now left|auto].
Qed.

Lemma put_new {A} (d : dict A) x a : ~ In x (keys d) -> put x a d = d ++ [(x, a)].
Proof.
  induction d as [|[z b] d IH]; cbn; auto. intros N. destruct (String.eqb_spec x z) as [->|]; [destruct N; now left|].
  rewrite IH; auto.
Qed.

Lemma keys_put_old {A} (d : dict A) x a : In x (keys d) -> keys (put x a d) = keys d.
Proof.
  induction d as [|[z b] d IH]; cbn; [contradiction|]. intros [->|I].
  - now rewrite String.eqb_refl.
  - destruct (String.eqb_spec x z) as [->|]; cbn; auto. unfold keys in *. now rewrite IH.
Qed.

Lemma put_middle {A} (d e : dict A) x a b : ~ In x (keys d) -> put x a (d ++ (x, b) :: e) = d ++ (x, a) :: e.
Proof.
  induction d as [|[z c] d IH]; cbn; intros N.
  - now rewrite String.eqb_refl.
  - destruct (String.eqb_spec x z) as [->|]; [destruct N; now left|]. now rewrite IH by auto.
Qed.

Lemma keys_put {A} (d : dict A) x a : exists e, keys (put x a d) = keys d ++ e /\ (forall y, In y e -> y = x) /\ (In x (keys d) -> e = []) /\ (~ In x (keys d) -> e = [x]).
Proof.
  destruct (in_dec string_dec x (keys d)) as [I|N].
  - exists []. rewrite app_nil_r, keys_put_old by auto. repeat split; auto; [contradiction|tauto].
  - exists [x]. rewrite put_new by auto. unfold keys. rewrite map_app. repeat split; auto; [intros y [<-|[]]; auto|tauto].
Qed.

Lemma keys_app {A} (d e : dict A) : keys (d ++ e) = keys d ++ keys e.
Proof. apply map_app. Qed.

Lemma NoDup_put {A} (d : dict A) x a : NoDup (keys d) -> NoDup (keys (put x a d)).
Proof.
  intros N. destruct (keys_put d x a) as (e & -> & _ & O & W). destruct (in_dec string_dec x (keys d)) as [I|I].
  - now rewrite (O I), app_nil_r.
  - rewrite (W I). apply NoDup_rev in N. rewrite <- rev_involutive. apply NoDup_rev. rewrite rev_app_distr. cbn. constructor; auto.
    now rewrite <- in_rev.
Qed.

(** A list that continues two ways: the part before [x] *)
Lemma before (K1 K2 A B : list string) x z : K1 ++ K2 = A ++ x :: B -> ~ In x K1 -> In z K1 -> In z A.
Proof.
  revert A. induction K1 as [|k K1 IH]; cbn; intros A E N I; [contradiction|].
  destruct A as [|a A]; cbn in E; injection E as -> E.
  - destruct N. now left.
  - destruct I as [->|I]; [now left|right]. apply IH; auto.
Qed.

Section Props.
Variable V : Type.
Variable P : python V.
Variable permanent : dict V.
Notation value := (value permanent).
Notation effects := (effects V P permanent).
Notation expected := (expected V P permanent).
Notation effect := (effect V).

(** ** The scope, as a function of the assignments *)
Definition wrapper_of (a : action V) (v : V) : wrapper V :=
  match a with
  | AssignText _ _ => Simple v
  | AssignExpression _ t =>
      match kind_of P v with
      | KBuiltin m f => Function m f
      | KModule m => Module m
      | KCallable => CompilableFunction t
      | KPipeline => CompilablePipeline t
      | KOther => Simple v
      end
  | AssignPipeline _ t => CompilablePipeline t
  | ImportAs _ m s => Import m s
  | _ => Simple v
  end.
Definition tops (l : list effect) : dict (wrapper V) :=
  fold_left (fun d e => put (name_of e) (wrapper_of (snd (fst e)) (snd e)) d) l [].

Lemma tops_snoc l e : tops (l ++ [e]) = put (name_of e) (wrapper_of (snd (fst e)) (snd e)) (tops l).
Proof. unfold tops. now rewrite fold_left_app. Qed.
Lemma value_snoc l e x : value (l ++ [e]) x = if String.eqb x (name_of e) then Some (snd e) else value l x.
Proof. unfold CarrySpec.value. now rewrite fold_left_app. Qed.
Lemma names_app (l m : list effect) : names (l ++ m) = names l ++ names m.
Proof. apply map_app. Qed.

Lemma value_app_not l m x : ~ In x (names m) -> value (l ++ m) x = value l x.
Proof.
  induction m as [|e m IH] using rev_ind; intros N; [now rewrite app_nil_r|].
  rewrite names_app in N. rewrite app_assoc, value_snoc.
  destruct (String.eqb_spec x (name_of e)) as [->|]; [destruct N; apply in_or_app; right; now left|].
  apply IH. intros I. apply N, in_or_app. now left.
Qed.
Lemma value_not l x : ~ In x (names l) -> value l x = get x permanent.
Proof. intros N. change l with ([] ++ l). now rewrite value_app_not by auto. Qed.

Lemma keys_tops l x : In x (keys (tops l)) <-> In x (names l).
Proof.
  induction l as [|e l IH] using rev_ind; [reflexivity|]. rewrite tops_snoc, names_app.
  destruct (keys_put (tops l) (name_of e) (wrapper_of (snd (fst e)) (snd e))) as (k & -> & O & I1 & I2). rewrite !in_app_iff, IH. cbn.
  split; [intros [I|I]; auto; right; left; symmetry; auto|intros [I|[<-|[]]]; auto].
  destruct (in_dec string_dec (name_of e) (keys (tops l))) as [I|I]; [left; now apply IH|right]. rewrite (I2 I). now left.
Qed.

Lemma tops_NoDup l : NoDup (keys (tops l)).
Proof. induction l as [|e l IH] using rev_ind; [constructor|]. rewrite tops_snoc. now apply NoDup_put. Qed.

Lemma tops_prefix l m : exists k, keys (tops (l ++ m)) = keys (tops l) ++ k.
Proof.
  induction m as [|e m IH] using rev_ind; [exists []; now rewrite !app_nil_r|].
  destruct IH as (k & E). rewrite app_assoc, tops_snoc.
  destruct (keys_put (tops (l ++ m)) (name_of e) (wrapper_of (snd (fst e)) (snd e))) as (k' & -> & _).
  exists (k ++ k'). now rewrite E, app_assoc.
Qed.

Lemma get_tops l x w : get x (tops l) = Some w ->
  exists l1 a v l2, l = l1 ++ (x, a, v) :: l2 /\ ~ In x (names l2) /\ w = wrapper_of a v /\ value l x = Some v.
Proof.
  induction l as [|[[y a] v] l IH] using rev_ind; [discriminate|]. rewrite tops_snoc, get_put, value_snoc. cbn.
  destruct (String.eqb_spec x y) as [->|N].
  - intros [= <-]. exists l, a, v, []. cbn. auto.
  - intros G. destruct (IH G) as (l1 & a' & v' & l2 & -> & I & -> & E). exists l1, a', v', (l2 ++ [(y, a, v)]).
    rewrite <- app_assoc. cbn. repeat split; auto. rewrite names_app. intros J. apply in_app_or in J as [J|[J|[]]]; auto.
Qed.

Lemma get_in {A} (d e : dict A) x a : NoDup (keys (d ++ (x, a) :: e)) -> get x (d ++ (x, a) :: e) = Some a.
Proof.
  induction d as [|[y b] d IH]; cbn; intros N; [now rewrite String.eqb_refl|].
  inversion N as [|? ? M N']. destruct (String.eqb_spec x y) as [->|]; auto.
  destruct M. change (In y (keys (d ++ (y, a) :: e))). rewrite keys_app. apply in_or_app. right. now left.
Qed.

(** ** The assignments of a history *)
Lemma effects_app h1 h2 l : effects (h1 ++ h2) l = effects h2 (effects h1 l).
Proof.
  revert l. induction h1 as [|[a|] h1 IH]; intros l; cbn; auto. destruct (assigned V P (value l) a) as [[x v]|]; auto.
Qed.

(** Each is what its command assigns. *)
Definition consistent (l : list effect) : Prop :=
  forall l1 x a v l2, l = l1 ++ (x, a, v) :: l2 -> assigned V P (value l1) a = Some (x, v).

Lemma split_snoc (l l1 l2 : list effect) e f : l ++ [e] = l1 ++ f :: l2 ->
  (l = l1 /\ e = f /\ l2 = []) \/ exists l2', l2 = l2' ++ [e] /\ l = l1 ++ f :: l2'.
Proof.
  destruct l2 as [|g l2 _] using rev_ind; intros E.
  - left. apply app_inj_tail in E as [-> ->]. auto.
  - right. rewrite app_comm_cons, app_assoc in E. apply app_inj_tail in E as [-> ->]. eauto.
Qed.

Lemma consistent_snoc l x a v : consistent l -> assigned V P (value l) a = Some (x, v) -> consistent (l ++ [(x, a, v)]).
Proof.
  intros C A l1 y b u l2 E. apply split_snoc in E as [(-> & [= <- <- <-] & ->)|(l2' & -> & ->)]; auto. eapply C. reflexivity.
Qed.

Lemma consistent_effects h l : consistent l -> consistent (effects h l).
Proof.
  revert l. induction h as [|[a|] h IH]; intros l C; cbn; auto. destruct (assigned V P (value l) a) as [[x v]|] eqn:E; auto.
  apply IH. now apply consistent_snoc.
Qed.
Lemma consistent_nil : consistent [].
Proof. intros [|]; discriminate. Qed.

Lemma effects_grow h l : exists m, effects h l = l ++ m.
Proof.
  revert l. induction h as [|[a|] h IH]; intros l; cbn; [exists []; now rewrite app_nil_r| |auto].
  destruct (assigned V P (value l) a) as [[x v]|]; auto. destruct (IH (l ++ [(x, a, v)])) as (m & ->). rewrite <- app_assoc. eauto.
Qed.

(** ** Restoring *)
Variable depends : string -> list string.
Hypothesis ext : respects V P depends.
Hypothesis ok : sane V P.

Lemma eval_ext t n n' : (forall x, n x = n' x) -> eval P t n = eval P t n'.
Proof. intros E. apply ext. auto. Qed.
Lemma assigned_ext n n' a : (forall x, n x = n' x) -> assigned V P n a = assigned V P n' a.
Proof. intros E. destruct a; cbn; auto. now rewrite (eval_ext s n n'). Qed.

(** Each wrapper can be unwrapped when the variables before it are there. *)
Lemma again l T1 x w T2 n : consistent l -> portable V P depends l -> tops l = T1 ++ (x, w) :: T2 ->
  (forall y, In y (keys T1) -> n y = value l y) -> (forall y, ~ In y (names l) -> n y = get y permanent) ->
  exists v, value l x = Some v /\ reconstitute V P w n = Some v.
Proof.
  intros C PO E N1 N2.
  assert (G : get x (tops l) = Some w) by (rewrite E; apply get_in; rewrite <- E; apply tops_NoDup).
  destruct (get_tops _ _ _ G) as (l1 & a & v & l2 & L & I & -> & Vx). exists v. split; auto.
  pose proof (C _ _ _ _ _ L) as A. destruct a as [y t|y t|y t|y m [t|]|y|y u]; cbn in A.
  - injection A as <- <-. reflexivity.
  - destruct (eval P t (value l1)) as [v'|] eqn:Ev; [|discriminate]. injection A as <- <-.
    specialize (PO _ _ _ _ _ _ L I). cbn. destruct (kind_of P v') eqn:K; cbn; auto.
    + destruct PO as (m & -> & S). exact S.
    + rewrite <- Ev. apply ext. intros z D. specialize (PO z D) as [Q|(ZX & Z2 & l3 & l4 & L' & Z3 & X3)].
      * rewrite N2 by auto. rewrite value_not; auto. intros J. apply Q. rewrite L, names_app. apply in_or_app. now left.
      * rewrite N1.
        -- rewrite L. change (l1 ++ (y, AssignExpression y t, v') :: l2) with (l1 ++ ((y, AssignExpression y t, v') :: l2)).
           rewrite value_app_not; auto. cbn. intros [J|J]; auto.
        -- destruct (tops_prefix l3 l4) as (k & Kp). rewrite <- L', E, keys_app in Kp. cbn in Kp.
           eapply before; [symmetry; exact Kp| |].
           ++ now rewrite keys_tops.
           ++ now rewrite keys_tops.
  - destruct (parse P t) eqn:S; cbn in A; [|discriminate]. injection A as <- <-. exact S.
  - destruct (symbol P m t) eqn:S; cbn in A; [|discriminate]. injection A as <- <-. exact S.
  - destruct (module P m) eqn:S; cbn in A; [|discriminate]. injection A as <- <-. exact S.
  - discriminate.
  - discriminate.
Qed.

Lemma restore_from l T2 : consistent l -> portable V P depends l -> forall T1 s R, tops l = T1 ++ T2 ->
  (forall y, In y (keys T1) -> lookup s y = value l y) -> (forall y, ~ In y (names l) -> lookup s y = get y permanent) ->
  top s = T1 ++ R -> (exists k, keys T2 = keys R ++ k) ->
  exists s', restore V P T2 s = Some s' /\ top s' = tops l /\ forall y, lookup s' y = value l y.
Proof.
  intros C PO. induction T2 as [|[x w] T2 IH]; intros T1 s R E N1 N2 TS (k & KR).
  - destruct R; [|discriminate]. rewrite app_nil_r in *. exists s. split; [reflexivity|]. split; [congruence|].
    intros y. destruct (in_dec string_dec y (names l)) as [I|I].
    + apply N1. rewrite <- E. now apply keys_tops.
    + rewrite N2, value_not; auto.
  - destruct (again l T1 x w T2 (lookup s)) as (v & Vx & Rx); auto.
    cbn [restore]. rewrite Rx.
    assert (Nx : ~ In x (keys T1)).
    { pose proof (tops_NoDup l) as D. rewrite E, keys_app in D. cbn in D. apply NoDup_remove_2 in D. intros J. apply D, in_or_app. now left. }
    assert (TR : exists R', top (bind V x v w s) = (T1 ++ [(x, w)]) ++ R' /\ exists k', keys T2 = keys R' ++ k').
    { cbn. rewrite TS. destruct R as [|[y u] R]; cbn in KR.
      - exists []. rewrite !app_nil_r. rewrite put_new by auto. split; auto. exists (keys T2). reflexivity.
      - injection KR as <- KR. exists R. rewrite put_middle by auto. rewrite <- app_assoc. split; auto. exists k. exact KR. }
    destruct TR as (R' & TS' & K').
    apply IH with (T1 := T1 ++ [(x, w)]) (R := R'); auto.
    + now rewrite <- app_assoc.
    + intros y I. unfold lookup, bind. cbn. rewrite get_put. destruct (String.eqb_spec y x) as [->|Y]; [now rewrite Vx|].
      apply N1. rewrite keys_app in I. apply in_app_or in I as [I|[I|[]]]; auto. cbn in I; congruence.
    + intros y I. unfold lookup, bind. cbn. rewrite get_put. destruct (String.eqb_spec y x) as [->|Y]; [|now apply N2].
      destruct I. apply keys_tops. rewrite E, keys_app. apply in_or_app. right. now left.
Qed.

(** What can be sent *)
Lemma can_send l (p : V -> bool) : consistent l -> portable V P depends l ->
  (forall v, kind_of P v = KOther -> pickles P v = true -> dills P v = true -> p v = true) ->
  forallb (fun e => sendable V p (snd e)) (tops l) = true.
Proof.
  intros C PO PP. apply forallb_forall. intros [x w] I. cbn.
  apply in_split in I as (T1 & T2 & E).
  assert (G : get x (tops l) = Some w) by (rewrite E; apply get_in; rewrite <- E; apply tops_NoDup).
  destruct (get_tops _ _ _ G) as (l1 & a & v & l2 & L & I & -> & Vx).
  pose proof (C _ _ _ _ _ L) as A. destruct a; cbn in *; auto; try discriminate.
  - injection A as <- <-. destruct (proj1 ok s) as (K & PK & DL). auto.
  - destruct (eval P s (value l1)) as [v'|] eqn:Ev; [|discriminate]. injection A as <- <-.
    specialize (PO _ _ _ _ _ _ L I). destruct (kind_of P v') eqn:K; cbn; auto. destruct PO. auto.
Qed.

(** ** Histories *)
Definition good (h : list (event V)) (s : session V) : Prop :=
  (forall x, lookup (now s) x = expected h x) /\ top (now s) = tops (effects h []) /\
  exists l m v, effects h [] = l ++ m /\ file s = Some (tops l) /\ restore V P (tops l) (mkvars permanent []) = Some v /\ top v = tops l /\
    (forall y, lookup v y = value l y).

Lemma act_bind a s l : (forall x, lookup s x = value l x) -> top s = tops l ->
  match a with Delete _ | Permanent _ _ => False | _ => True end ->
  let l' := match assigned V P (value l) a with Some (x, v) => l ++ [(x, a, v)] | None => l end in
  (forall x, lookup (act V P a s) x = value l' x) /\ top (act V P a s) = tops l'.
Proof.
  intros L T A. pose proof (assigned_ext _ _ a L) as AE. cbn zeta. rewrite <- AE. clear AE.
  assert (B : forall x v w, (forall y, lookup (bind V x v w s) y = if String.eqb y x then Some v else value l y)).
  { intros x v w y. unfold lookup, bind. cbn. rewrite get_put. destruct (String.eqb y x); auto. apply L. }
  destruct a as [x t|x t|x t|x m [t|]|x|x u]; try contradiction; cbn [act assigned].
  - unfold wrap. rewrite (proj1 (proj1 ok t)). split; [intros y; rewrite value_snoc; apply B|]. cbn. now rewrite tops_snoc, T.
  - destruct (eval P t (lookup s)) as [v|] eqn:E; cbn [option_map]; [|auto].
    assert (W : exists w, wrap V P v (Some t) = Some w /\ w = wrapper_of (AssignExpression x t) v).
    { unfold wrap, wrapper_of. destruct (kind_of P v); eauto. }
    destruct W as (w & -> & ->). split; [intros y; rewrite value_snoc; apply B|]. cbn. now rewrite tops_snoc, T.
  - destruct (parse P t) as [v|] eqn:E; cbn [option_map]; [|auto]. unfold wrap. rewrite (proj2 ok _ _ E).
    split; [intros y; rewrite value_snoc; apply B|]. cbn. now rewrite tops_snoc, T.
  - destruct (symbol P m t) as [v|] eqn:E; cbn [option_map]; [|auto]. split; [intros y; rewrite value_snoc; apply B|]. cbn. now rewrite tops_snoc, T.
  - destruct (module P m) as [v|] eqn:E; cbn [option_map]; [|auto]. split; [intros y; rewrite value_snoc; apply B|]. cbn. now rewrite tops_snoc, T.
Qed.

Lemma run_app h1 h2 s : run V P permanent (h1 ++ h2) s = match run V P permanent h1 s with Some s => run V P permanent h2 s | None => None end.
Proof. revert s. induction h1 as [|e h1 IH]; intros s; cbn; auto. destruct (step V P permanent e s); auto. Qed.

Lemma good_run h : additive V h -> (forall h1 h2, h = h1 ++ Reopen :: h2 -> portable V P depends (effects h1 [])) ->
  exists s, run V P permanent h (new_session V permanent) = Some s /\ good h s.
Proof.
  induction h as [|e h IH] using rev_ind; intros A Q.
  - exists (new_session V permanent). split; auto. split; [reflexivity|]. split; [reflexivity|].
    exists [], [], (mkvars permanent []). repeat split; auto.
  - destruct IH as (s & R & L & T & l & m & v & E & F & RS & Tv & Lv).
    { intros x I. apply A, in_or_app. now left. }
    { intros h1 h2 E. apply (Q h1 (h2 ++ [e])). rewrite E, <- app_assoc. reflexivity. }
    rewrite run_app, R. destruct e as [a|]; cbn [run step].
    + eexists. split; [reflexivity|]. unfold good. cbn [now file]. unfold CarrySpec.expected. rewrite effects_app. cbn [CarrySpec.effects].
      assert (Aa : match a with Delete _ | Permanent _ _ => False | _ => True end).
      { specialize (A (Do a)). rewrite in_app_iff in A. specialize (A (or_intror (or_introl eq_refl))). now destruct a. }
      destruct (act_bind a (now s) (effects h []) L T Aa) as [L' T'].
      destruct (assigned V P (value (effects h [])) a) as [[x u]|]; (split; [exact L'|split; [exact T'|]]); [exists l, (m ++ [(x, a, u)]), v|exists l, m, v];
        rewrite E, ?app_assoc; auto.
    + assert (PO : portable V P depends (effects h [])) by (apply (Q h []); reflexivity).
      assert (C : consistent (effects h [])) by (apply consistent_effects, consistent_nil).
      unfold reopen, close. rewrite T, can_send; auto.
      destruct (restore_from (effects h []) (tops (effects h [])) C PO [] (mkvars permanent []) []) as (s' & R' & T' & L'); auto.
      { intros y []. }
      { exists (keys (tops (effects h []))). reflexivity. }
      rewrite R'. eexists. split; [reflexivity|]. unfold good. cbn [now file]. unfold CarrySpec.expected. rewrite effects_app. cbn [CarrySpec.effects].
      split; [exact L'|]. split; [exact T'|]. exists (effects h []), [], s'. rewrite app_nil_r. auto.
Qed.

Theorem c66_shell_partial : forall h, additive V h -> carried V P permanent depends h ->
  exists s, run V P permanent h (new_session V permanent) = Some s /\ forall x, lookup (now s) x = expected h x.
Proof. intros h A [_ Q]. destruct (good_run h A Q) as (s & R & L & _). eauto. Qed.

Lemma child_started h s named owner pid ppid sent : additive V h -> carried V P permanent depends h ->
  run V P permanent h (new_session V permanent) = Some s -> may_open named owner pid ppid = true -> top sent = top (now s) ->
  exists v, child V P permanent named owner pid ppid (file s) sent = Started v /\ top v = top sent /\ forall x, lookup v x = expected h x.
Proof.
  intros A [PO Q] R M TS. destruct (good_run h A Q) as (s' & R' & L & T & l & m & v & E & F & RS & Tv & Lv).
  rewrite R in R'. injection R' as <-. rewrite <- TS in T.
  assert (C : consistent (effects h [])) by (apply consistent_effects, consistent_nil).
  unfold child. rewrite T, can_send, M by auto.
  destruct named.
  - rewrite F, RS.
    destruct (restore_from (effects h []) (tops (effects h [])) C PO [] v (tops l)) as (s' & R' & T' & L'); auto.
    + intros y [].
    + intros y I. rewrite Lv, value_not; auto. intros J. apply I. rewrite E, names_app. apply in_or_app. now left.
    + rewrite E. apply tops_prefix.
    + rewrite R'. exists s'. auto.
  - destruct (restore_from (effects h []) (tops (effects h [])) C PO [] (mkvars permanent []) []) as (s' & R' & T' & L'); auto.
    + intros y [].
    + exists (keys (tops (effects h []))). reflexivity.
    + cbn [restore]. rewrite R'. exists s'. auto.
Qed.

(** A process started by the shell, in any workspace: a job, or a worker of a script's fork. *)
Theorem c66_process_partial : forall h s named shell pid, additive V h -> carried V P permanent depends h ->
  run V P permanent h (new_session V permanent) = Some s ->
  exists v, child V P permanent named shell pid shell (file s) (now s) = Started v /\ forall x, lookup v x = expected h x.
Proof.
  intros h s named shell pid A Q R. destruct (child_started h s named shell pid shell (now s)) as (v & S & _ & L); auto.
  - unfold may_open. now rewrite Nat.eqb_refl, !orb_true_r.
  - eauto.
Qed.

(** In the default workspace, a process started by such a process (a worker of a job's fork), and so on *)
Fixpoint descendant (s : session V) (pids : list nat) (ppid : nat) (v : vars V) : started V :=
  match pids with
  | [] => Started v
  | pid :: r => match child V P permanent false 0 pid ppid (file s) v with Started v => descendant s r pid v | x => x end
  end.
Theorem c66_workers_partial : forall h s pids ppid, additive V h -> carried V P permanent depends h ->
  run V P permanent h (new_session V permanent) = Some s ->
  exists v, descendant s pids ppid (now s) = Started v /\ forall x, lookup v x = expected h x.
Proof.
  intros h s pids ppid A Q R.
  assert (G : forall v, top v = top (now s) -> (forall x, lookup v x = expected h x) ->
    exists v', descendant s pids ppid v = Started v' /\ forall x, lookup v' x = expected h x).
  { clear - A Q R ext ok. revert ppid. induction pids as [|pid r IH]; intros ppid v T L; cbn; [eauto|].
    destruct (child_started h s false 0 pid ppid v) as (v' & -> & T' & L'); auto. apply IH; auto. congruence. }
  apply G; auto. destruct Q as [_ Q]. destruct (good_run h A Q) as (s' & R' & L & _). rewrite R in R'. now injection R' as <-.
Qed.
End Props.
Print Assumptions c66_shell_partial.
Print Assumptions c66_process_partial.
Print Assumptions c66_workers_partial.
