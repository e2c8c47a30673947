(** C79: parse_args gives the variables of a script the values on its command line. *)
From Verif.Sys Require Export CliArgsFacts.
Local Open Scope string_scope.
Local Open Scope list_scope.

(** ** Dicts *)
Fixpoint look (v : string) (d : list (string * val)) : option val :=
  match d with [] => None | (w, x) :: d => if String.eqb w v then Some x else look v d end.
Lemma look_put : forall v w x d, look v (put w x d) = if String.eqb w v then Some x else look v d.
Proof.
  intros v w x. induction d as [ | [u y] d IH]; cbn; [reflexivity | ]. destruct (String.eqb_spec u w) as [-> | N]; cbn.
  - destruct (String.eqb w v); reflexivity.
  - rewrite IH. destruct (String.eqb_spec u v) as [-> | M]; [ | reflexivity]. destruct (String.eqb_spec w v); [subst; now destruct N | reflexivity].
Qed.
Lemma has_key_look : forall v d, has_key v d = match look v d with Some _ => true | None => false end.
Proof. intros v. induction d as [ | [w x] d IH]; cbn; [reflexivity | ]. destruct (String.eqb w v); [reflexivity | exact IH]. Qed.
Lemma put_keys : forall v x d w, In w (map fst (put v x d)) <-> w = v \/ In w (map fst d).
Proof.
  intros v x. induction d as [ | [u y] d IH]; intros w; cbn; [intuition | ]. destruct (String.eqb_spec u v) as [-> | N]; cbn; [intuition | ].
  rewrite IH. intuition.
Qed.
Lemma put_nodup : forall v x d, NoDup (map fst d) -> NoDup (map fst (put v x d)).
Proof.
  intros v x. induction d as [ | [u y] d IH]; intros N; cbn; [repeat constructor; intros [] | ]. cbn in N. inversion N as [ | ? ? NI N']; subst.
  destruct (String.eqb_spec u v) as [-> | M]; cbn; constructor; auto. rewrite put_keys. intros [-> | I]; [now apply M | contradiction].
Qed.
Lemma look_none : forall v d, look v d = None <-> ~ In v (map fst d).
Proof.
  intros v. induction d as [ | [w x] d IH]; cbn; [intuition | ]. destruct (String.eqb_spec w v) as [-> | N]; [split; [discriminate | intros H; destruct H; now left] | ].
  rewrite IH. intuition.
Qed.

Definition default_for (a : arg) (old : option val) : option val :=
  match a with Flag _ _ _ x r => if r then old else Some x | _ => Some (VList []) end.
Lemma defaults_other : forall v l d, ~ In v (map fst l) -> look v (defaults l d) = look v d.
Proof.
  intros v. induction l as [ | [w a] l IH]; intros d N; [reflexivity | ]. cbn in N.
  destruct a; cbn; rewrite IH by tauto; try destruct required; auto; rewrite look_put; destruct (String.eqb_spec w v); try reflexivity; subst; tauto.
Qed.
Lemma defaults_in : forall v a l d, NoDup (map fst l) -> In (v, a) l -> look v (defaults l d) = default_for a (look v d).
Proof.
  intros v a. induction l as [ | [w b] l IH]; intros d N I; [destruct I | ]. cbn in N. inversion N as [ | ? ? NI N']; subst. destruct I as [E | I].
  - injection E as -> ->. destruct a; cbn; rewrite defaults_other by assumption; try destruct required; auto; now rewrite look_put, String.eqb_refl.
  - assert (W : w <> v) by (intros ->; apply NI; apply (in_map fst) in I; exact I).
    destruct b; cbn; rewrite (IH _ N' I); try destruct required; auto; rewrite look_put; destruct (String.eqb_spec w v); congruence.
Qed.
Lemma defaults_keys : forall l d w, In w (map fst (defaults l d)) -> In w (map fst l) \/ In w (map fst d).
Proof.
  induction l as [ | [v a] l IH]; intros d w H; [now right | ]. cbn [map fst In].
  destruct a; cbn in H; apply IH in H; try destruct required; destruct H as [H | H]; auto; apply put_keys in H; intuition.
Qed.
Lemma defaults_nodup : forall l d, NoDup (map fst d) -> NoDup (map fst (defaults l d)).
Proof. induction l as [ | [v a] l IH]; intros d N; [exact N | ]. destruct a; cbn; apply IH; try destruct required; auto using put_nodup. Qed.

Definition heard (v : string) (acc : option val) (t : option string * val) : option val :=
  match t with (Some w, x) => if String.eqb w v then Some x else acc | (None, _) => acc end.
Lemma supplied_look : forall v r d anon, look v (fst (supplied r d anon)) = fold_left (heard v) r (look v d).
Proof.
  intros v. induction r as [ | [[w | ] x] r IH]; intros d anon; cbn; [reflexivity | | apply IH]. rewrite IH. now rewrite look_put.
Qed.
Lemma supplied_anon : forall r d anon, snd (supplied r d anon) = anon ++ flat_map (fun t => match t with (None, x) => [x] | _ => [] end) r.
Proof.
  induction r as [ | [[w | ] x] r IH]; intros d anon; cbn; [now rewrite app_nil_r | apply IH | ]. rewrite IH, <- app_assoc. reflexivity.
Qed.
Lemma supplied_keys : forall r d anon w, In w (map fst (fst (supplied r d anon))) -> In w (map fst d) \/ exists x, In (Some w, x) r.
Proof.
  induction r as [ | [[v | ] x] r IH]; intros d anon w H; cbn in H; [now left | | ].
  - apply IH in H. destruct H as [H | (y & H)]; [ | right; exists y; now right]. apply put_keys in H. destruct H as [-> | H]; [right; exists x; now left | now left].
  - apply IH in H. destruct H as [H | (y & H)]; [now left | right; exists y; now right].
Qed.
Lemma supplied_nodup : forall r d anon, NoDup (map fst d) -> NoDup (map fst (fst (supplied r d anon))).
Proof. induction r as [ | [[v | ] x] r IH]; intros d anon N; cbn; auto using put_nodup. Qed.

Lemma setvars_free : forall fixed d e, (forall v, In v (map fst d) -> fixed v = false) -> NoDup (map fst d) ->
  snd (setvars fixed d e) = Ok tt /\ forall v, fst (setvars fixed d e) v = match look v d with Some x => Some x | None => e v end.
Proof.
  intros fixed. induction d as [ | [w x] d IH]; intros e F N; [split; [reflexivity | intros; reflexivity] | ]. cbn in N. inversion N as [ | ? ? NI N']; subst. cbn.
  rewrite F by (now left). destruct (IH (assign w x e)) as [S R]; [intros v I; apply F; now right | exact N' | ]. split; [exact S | ].
  intros v. rewrite R. unfold assign. rewrite (String.eqb_sym v w). destruct (String.eqb_spec w v) as [-> | M]; [ | reflexivity].
  destruct (look v d) eqn:L; [ | reflexivity]. assert (X : look v d = None) by now apply look_none. congruence.
Qed.

(** ** What is found for a variable *)
Lemma in_unique : forall kw (v : string) (d d' : decl), NoDup (map fst kw) -> In (v, d) kw -> In (v, d') kw -> d = d'.
Proof.
  induction kw as [ | [w e] kw IH]; intros v d d' N I J; [destruct I | ]. cbn in N. inversion N as [ | ? ? NI N']; subst.
  destruct I as [E | I], J as [E' | J]; [congruence | | | eauto];
    (injection E as -> -> || injection E' as -> ->); destruct NI; [apply (in_map fst) in J; exact J | apply (in_map fst) in I; exact I].
Qed.

Lemma token_value : forall to_int kw l u v d, stand kw l -> well_formed kw -> proper to_int kw u -> In (v, d) kw ->
  forall acc, heard v acc (token to_int l u) = match value_in to_int d u with Some x => Some x | None => acc end.
Proof.
  intros to_int kw l u v d S W P I acc.
  assert (A : forall w d' f, In (w, d') kw -> In f (names d') -> arg_of l f = Some (w, kind_of d')) by (intros; eapply arg_of_in; eauto; apply W).
  assert (SAME : forall w d' f, In (w, d') kw -> In f (names d') -> w = v -> d' = d).
  { intros w d' f I' _ ->. eapply in_unique; eauto. apply W. }
  assert (OTHER : forall w d' f, In (w, d') kw -> In f (names d') -> w <> v -> ~ In f (names d)).
  { intros w d' f I' J' NE J. pose proof (A _ _ _ I J). pose proof (A _ _ _ I' J'). congruence. }
  destruct P as [w f1 f2 x f I' J' | w f1 f2 x r f y I' J' Y | w f1 f2 x r f y z I' J' Y Z | w N]; cbn [token].
  - rewrite (A _ _ _ I' J'). cbn [option_map fst heard]. destruct (String.eqb_spec w v) as [E | NE].
    + rewrite <- (SAME _ _ _ I' J' E). cbn [value_in]. destruct (in_dec string_dec f _) as [_ | M]; [reflexivity | now destruct M].
    + pose proof (OTHER _ _ _ I' J' NE) as M. destruct d; cbn [value_in]; auto. destruct (in_dec string_dec f _); [contradiction | reflexivity].
  - rewrite (A _ _ _ I' J'). cbn [option_map fst heard kind_of]. destruct (String.eqb_spec w v) as [E | NE].
    + rewrite <- (SAME _ _ _ I' J' E). cbn [value_in]. destruct (in_dec string_dec f _) as [_ | M]; [reflexivity | now destruct M].
    + pose proof (OTHER _ _ _ I' J' NE) as M. destruct d; cbn [value_in]; auto; (destruct (in_dec string_dec f _); [contradiction | reflexivity]).
  - rewrite (A _ _ _ I' J'). cbn [option_map fst heard kind_of]. rewrite Z. destruct (String.eqb_spec w v) as [E | NE].
    + rewrite <- (SAME _ _ _ I' J' E). cbn [value_in]. destruct (in_dec string_dec f _) as [_ | M]; [rewrite Z; reflexivity | now destruct M].
    + pose proof (OTHER _ _ _ I' J' NE) as M. destruct d; cbn [value_in]; auto; (destruct (in_dec string_dec f _); [contradiction | reflexivity]).
  - destruct d; reflexivity.
Qed.

Lemma tokens_value : forall to_int kw l us v d, stand kw l -> well_formed kw -> Forall (proper to_int kw) us -> In (v, d) kw ->
  forall acc, fold_left (heard v) (map (token to_int l) us) acc =
    fold_left (fun acc u => match value_in to_int d u with Some x => Some x | None => acc end) us acc.
Proof.
  intros to_int kw l us v d S W P I. induction P as [ | u us PU _ IH]; intros acc; [reflexivity | ]. cbn [map fold_left].
  rewrite (token_value to_int kw l u v d S W PU I). apply IH.
Qed.

Lemma fold_last : forall to_int d us acc,
  fold_left (fun acc u => match value_in to_int d u with Some x => Some x | None => acc end) us acc =
  match last_in to_int d us with Some x => Some x | None => acc end.
Proof.
  intros to_int d. unfold last_in. induction us as [ | u us IH] using rev_ind; intros acc; [reflexivity | ]. rewrite !fold_left_app. cbn.
  destruct (value_in to_int d u); [reflexivity | apply IH].
Qed.

Lemma tokens_anon : forall to_int kw l us, stand kw l -> well_formed kw -> Forall (proper to_int kw) us ->
  flat_map (fun t => match t with (None, x) => [x] | _ => [] end) (map (token to_int l) us) = map VStr (words us).
Proof.
  intros to_int kw l us S W P. induction P as [ | u us PU _ IH]; [reflexivity | ]. cbn [map flat_map words]. unfold words in *. rewrite map_app, IH. f_equal.
  destruct PU as [w f1 f2 x f I J | w f1 f2 x r f y I J Y | w f1 f2 x r f y z I J Y Z | w N]; cbn [token]; auto;
    rewrite (arg_of_in _ _ S (wf_flags _ W) _ _ _ I J); reflexivity.
Qed.

Lemma tokens_vars : forall to_int kw l us v x, stand kw l -> well_formed kw -> Forall (proper to_int kw) us ->
  In (Some v, x) (map (token to_int l) us) -> In v (map fst kw).
Proof.
  intros to_int kw l us v x S W P H. apply in_map_iff in H. destruct H as (u & T & I). rewrite Forall_forall in P. specialize (P u I).
  destruct P as [w f1 f2 y f I' J' | w f1 f2 y r f z I' J' Y | w f1 f2 y r f z n I' J' Y Z | w N]; cbn [token] in T;
    try discriminate T; rewrite (arg_of_in _ _ S (wf_flags _ W) _ _ _ I' J') in T; injection T as <- _; apply (in_map fst) in I'; exact I'.
Qed.

Lemma anon_arg_some : forall kw l, stand kw l -> forall v, anon_arg l = Some v -> In (v, DAnon) kw.
Proof.
  induction 1 as [ | [v d] [w a] kw l [E S] F IH]; intros u H; [discriminate H | ]. cbn in E, S. subst w.
  destruct d; cbn in S; [ | | | subst a; cbn in H; injection H as ->; now left | subst a; cbn in H; right; auto];
    destruct S as (s & g & -> & _); cbn in H; right; auto.
Qed.
Lemma anon_arg_none : forall kw l, stand kw l -> anon_arg l = None -> forall v, ~ In (v, DAnon) kw.
Proof.
  induction 1 as [ | [v d] [w a] kw l [E S] F IH]; intros H u; [intros [] | ]. cbn in E, S. subst w.
  destruct d; cbn in S; [ | | | subst a; cbn in H; discriminate H | subst a; cbn in H; intros [Q | I]; [discriminate Q | exact (IH H u I)]];
    destruct S as (s & g & -> & _); cbn in H; (intros [Q | I]; [discriminate Q | exact (IH H u I)]).
Qed.

Lemma required_given_spec : forall kw l, stand kw l -> forall d, required_given l d = true <-> forall v c, In (v, c) kw -> required_of c = true -> look v d <> None.
Proof.
  induction 1 as [ | [v c] [w a] kw l [E S] F IH]; intros d; [cbn; split; [intros _ ? ? [] | reflexivity] | ]. cbn in E, S. subst w.
  assert (SPLIT : (forall u b, In (u, b) ((v, c) :: kw) -> required_of b = true -> look u d <> None) <->
                  (required_of c = true -> look v d <> None) /\ (forall u b, In (u, b) kw -> required_of b = true -> look u d <> None)).
  { split.
    - intros H. split; [apply H; now left | intros u b I; apply H; now right].
    - intros [H K] u b [Q | I]; [injection Q as <- <-; exact H | now apply K]. }
  rewrite SPLIT, <- IH. clear SPLIT IH F.
  destruct c; cbn in S; [ | | | subst a; cbn; intuition discriminate | subst a; cbn; intuition discriminate]; destruct S as (s & g & -> & _); cbn [required_given required_of].
  3: intuition discriminate.
  all: destruct required; [rewrite andb_true_iff, has_key_look; destruct (look v d); intuition discriminate | intuition discriminate].
Qed.

Lemma decl_anon_dec : forall c, {c = DAnon} + {c <> DAnon}.
Proof. destruct c; (now left) || (right; discriminate). Qed.

(** ** Theorems *)
Lemma parsed : forall to_int kw us, well_formed kw -> forall prog script, ~ dashed prog -> ~ dashed script -> Forall (proper to_int kw) us ->
  exists l d, make_all kw = Ok l /\ filter (fun a => negb (String.eqb (fst a) "usage")) l = l /\ command_line l = Ok tt /\
    parse to_int l (prog :: script :: flat_map written us) = (if required_given l d then Ok d else Shell) /\
    NoDup (map fst d) /\ (forall v, In v (map fst d) -> In v (map fst kw)) /\
    (forall v c, In (v, c) kw -> look v d = meaning to_int c us) /\ stand kw l.
Proof.
  intros to_int kw us W prog script NP NS P.
  destruct (make_all_ok kw (wf_decls _ W)) as (l & M). pose proof (make_all_inv _ _ M) as S. exists l.
  set (us' := Word prog :: Word script :: us).
  assert (P' : Forall (proper to_int kw) us') by (repeat constructor; auto).
  assert (VARS : map fst l = map fst kw) by now apply stand_vars.
  set (d1 := fst (supplied (map (token to_int l) us') (defaults l []) [])).
  set (d2 := match anon_arg l with Some v => put v (VList (map VStr (words us))) d1 | None => d1 end).
  exists d2. split; [exact M | ]. split; [apply (filter_usage kw l S); intros v d I; now apply (wf_names _ W v d) | ]. split; [now apply (command_line_ok kw) | ].
  assert (PR : parse to_int l (prog :: script :: flat_map written us) = (if required_given l d2 then Ok d2 else Shell)).
  { unfold parse. change (prog :: script :: flat_map written us) with (flat_map written us'). rewrite (scan_written to_int kw l us' S W P').
    cbn [bind]. pose proof (supplied_anon (map (token to_int l) us') (defaults l []) []) as AN. rewrite (tokens_anon to_int kw l us' S W P') in AN.
    subst d2 d1. destruct (supplied (map (token to_int l) us') (defaults l []) []) as [d anon]. cbn [fst snd] in *. rewrite AN. cbn [app words us' flat_map map skipn]. reflexivity. }
  split; [exact PR | ].
  assert (N1 : NoDup (map fst d1)) by (apply supplied_nodup, defaults_nodup; constructor).
  assert (K1 : forall v, In v (map fst d1) -> In v (map fst kw)).
  { intros v I. apply supplied_keys in I. destruct I as [I | (x & I)].
    - apply defaults_keys in I. destruct I as [I | []]. now rewrite <- VARS.
    - eapply tokens_vars; eauto. }
  split; [ | split; [ | split; [ | exact S]]].
  - subst d2. destruct (anon_arg l); auto using put_nodup.
  - intros v I. subst d2. destruct (anon_arg l) as [w | ] eqn:AA; [ | auto]. apply put_keys in I. destruct I as [-> | I]; [ | auto].
    apply (anon_arg_some _ _ S) in AA. apply (in_map fst) in AA. exact AA.
  - intros v c I.
    destruct (decl_anon_dec c) as [-> | NA].
    + cbn [meaning]. subst d2. destruct (anon_arg l) as [w | ] eqn:AA; [ | destruct (anon_arg_none _ _ S AA v I)].
      apply (anon_arg_some _ _ S) in AA. rewrite (wf_anon _ W _ _ AA I). rewrite look_put, String.eqb_refl. reflexivity.
    + assert (L : look v d2 = look v d1).
      { subst d2. destruct (anon_arg l) as [w | ] eqn:AA; [ | reflexivity]. apply (anon_arg_some _ _ S) in AA. rewrite look_put.
        destruct (String.eqb_spec w v) as [-> | _]; [ | reflexivity]. destruct NA. eapply in_unique; eauto. apply W. }
      rewrite L. subst d1. rewrite supplied_look, (tokens_value to_int kw l us' v c S W P' I), fold_last.
      assert (LI : last_in to_int c us' = last_in to_int c us).
      { unfold us', last_in. cbn [fold_left]. destruct c; reflexivity. }
      rewrite LI.
      assert (AE : exists a, In (v, a) l /\ stands c a).
      { clear -S I. induction S as [ | [w e] [u b] kw l [E SD] F IH]; [destruct I | ]. cbn in E, SD. subst u. destruct I as [Q | I].
        - injection Q as -> ->. exists b. split; [now left | exact SD].
        - destruct (IH I) as (a & A & B). exists a. split; [now right | exact B]. }
      destruct AE as (a & IA & SA). rewrite (defaults_in v a l [] ltac:(rewrite VARS; apply W) IA).
      destruct (wf_decls _ W v c I) as [Q | PN]; [now destruct NA | ].
      destruct c; try destruct PN; cbn in SA; destruct SA as (s & g & -> & _); cbn [default_for look meaning]; auto.
Qed.

(** A command line made of proper uses, with all that is required: every variable has the value that is last on the command line, or its
    default; the variable for the rest has the other words, in order; nothing else changes *)
Theorem c79_values : forall to_int fixed kw prog file us e, well_formed kw -> free fixed kw -> ~ dashed prog -> ~ dashed file ->
  Forall (proper to_int kw) us -> (forall v d, In (v, d) kw -> meaning to_int d us <> None) ->
  let argv := prog :: file :: flat_map written us in
  let (e', o) := parse_args to_int fixed kw argv e in
  o = Ok tt /\
  (forall v d, In (v, d) kw -> e' v = meaning to_int d us) /\
  e' "ARGV" = Some (VList (map VStr (file :: flat_map written us))) /\
  (forall v, v <> "ARGV" -> ~ In v (map fst kw) -> e' v = e v).
Proof.
  intros to_int fixed kw prog file us e W [FA FV] NP NF P R argv.
  destruct (parsed to_int kw us W prog file NP NF P) as (l & d & M & F & C & PR & ND & K & L & S). fold argv in PR.
  assert (RG : required_given l d = true).
  { apply (required_given_spec _ _ S). intros v c I _. rewrite (L v c I). now apply (R v c). }
  unfold parse_args. rewrite M. cbn [bind]. rewrite F, C. cbn [bind]. rewrite PR, RG.
  set (d' := d ++ [("ARGV", VList (map VStr (tl argv)))]).
  assert (NA : ~ In "ARGV" (map fst d)).
  { intros I. apply K, in_map_iff in I. destruct I as ([v c] & E & I). cbn in E. destruct (wf_names _ W v c I) as [_ N]. contradiction. }
  destruct (setvars_free fixed d' e) as [SO SV].
  { intros v I. unfold d' in I. rewrite map_app, in_app_iff in I. destruct I as [I | [<- | []]]; [ | exact FA].
    apply K, in_map_iff in I. destruct I as ([w c] & E & I). cbn in E. subst w. now apply (FV v c). }
  { unfold d'. rewrite map_app. apply nodup_app. split; [exact ND | ]. split; [repeat constructor; intros [] | ]. intros x X [<- | []]. contradiction. }
  assert (LA : forall v, look v d' = match look v d with Some x => Some x | None => if String.eqb "ARGV" v then Some (VList (map VStr (tl argv))) else None end).
  { intros v. unfold d'. clear. induction d as [ | [w x] d IH]; cbn; [reflexivity | ]. destruct (String.eqb w v); [reflexivity | exact IH]. }
  destruct (setvars fixed d' e) as [e' o]. cbn [fst snd] in SO, SV. split; [exact SO | ]. split; [ | split].
  - intros v c I. rewrite SV, LA, (L v c I). specialize (R v c I). destruct (meaning to_int c us); [reflexivity | contradiction].
  - rewrite SV, LA. destruct (look "ARGV" d) eqn:Q; [exfalso; apply NA; destruct (in_dec string_dec "ARGV" (map fst d)); [assumption | ] | reflexivity].
    apply look_none in n. congruence.
  - intros v NV NI. rewrite SV, LA. assert (Q : look v d = None) by (apply look_none; intros I; apply NI, K, I). rewrite Q.
    destruct (String.eqb_spec "ARGV" v); [subst; contradiction | reflexivity].
Qed.

(** If something required is missing the script ends, with no variable set *)
Theorem c79_missing : forall to_int fixed kw prog file us e v d cs, well_formed kw -> ~ dashed prog -> ~ dashed file ->
  Forall (proper to_int kw) us -> In (v, d) kw -> meaning to_int d us = None ->
  script to_int fixed (prog :: file :: flat_map written us) (ParseArgs kw :: cs) e = (e, false).
Proof.
  intros to_int fixed kw prog file us e v d cs W NP NF P I MN.
  destruct (parsed to_int kw us W prog file NP NF P) as (l & d' & M & F & C & PR & ND & K & L & S).
  assert (RG : required_given l d' = false).
  { destruct (required_given l d') eqn:Q; [ | reflexivity]. exfalso. apply (proj1 (required_given_spec _ _ S d') Q v d I); [ | now rewrite (L v d I)].
    destruct d; cbn in MN; try discriminate MN; try (destruct (last_in _ _ _); try discriminate MN; destruct required; [reflexivity | discriminate MN]).
    - destruct (last_in _ _ _); discriminate MN.
    - destruct (wf_decls _ W _ _ I) as [Q' | []]; discriminate Q'. }
  cbn [script]. unfold parse_args. rewrite M. cbn [bind]. rewrite F, C. cbn [bind]. rewrite PR, RG. reflexivity.
Qed.

(** What is accepted is made of proper uses; and the declarations make sense *)
Theorem c79_accepted : forall to_int fixed kw argv e e', NoDup (map fst kw) -> (forall v d, In (v, d) kw -> v <> "usage" /\ v <> "ARGV") ->
  parse_args to_int fixed kw argv e = (e', Ok tt) ->
  well_formed kw /\ exists us, Forall (proper to_int kw) us /\ argv = flat_map written us.
Proof.
  intros to_int fixed kw argv e e' ND NM H. unfold parse_args in H.
  destruct (make_all kw) as [l | | | ] eqn:M; try discriminate H. cbn [bind] in H. pose proof (make_all_inv _ _ M) as S.
  rewrite (filter_usage kw l S) in H; [ | intros v d I; now apply (NM v d)].
  destruct (command_line l) as [[] | | | ] eqn:C; try discriminate H. cbn [bind] in H. pose proof (command_line_inv _ _ S C ND NM) as W. split; [exact W | ].
  destruct (parse to_int l argv) as [d | | | ] eqn:PR; try discriminate H. unfold parse in PR. apply bind_ok in PR. destruct PR as (r & R & _).
  apply (scan_inv to_int kw l S (wf_decls _ W) (length argv) argv r (le_n _) R).
Qed.

(** If it fails, and the variables can be assigned, no variable is set *)
Theorem c79_all_or_nothing : forall to_int fixed kw argv e, NoDup (map fst kw) -> (forall v d, In (v, d) kw -> v <> "usage" /\ v <> "ARGV") -> free fixed kw ->
  snd (parse_args to_int fixed kw argv e) <> Ok tt -> fst (parse_args to_int fixed kw argv e) = e.
Proof.
  intros to_int fixed kw argv e ND NM [FA FV]. unfold parse_args.
  destruct (make_all kw) as [l | | | ] eqn:M; try reflexivity. cbn [bind]. pose proof (make_all_inv _ _ M) as S.
  rewrite (filter_usage kw l S); [ | intros v d I; now apply (NM v d)].
  destruct (command_line l) as [[] | | | ] eqn:C; try reflexivity. cbn [bind]. pose proof (command_line_inv _ _ S C ND NM) as W.
  destruct (parse to_int l argv) as [d | | | ] eqn:PR; try reflexivity. intros N. exfalso. apply N.
  assert (K : forall v, In v (map fst d) -> In v (map fst kw)).
  { unfold parse in PR. apply bind_ok in PR. destruct PR as (r & R & PR). destruct (scan_inv to_int kw l S (wf_decls _ W) (length argv) argv r (le_n _) R) as (us & P & ->).
    rewrite (scan_written to_int kw l us S W P) in R. injection R as <-. intros v I.
    assert (K1 : forall v, In v (map fst (fst (supplied (map (token to_int l) us) (defaults l []) []))) -> In v (map fst kw)).
    { intros w J. apply supplied_keys in J. destruct J as [J | (x & J)]; [ | eapply tokens_vars; eauto].
      apply defaults_keys in J. destruct J as [J | []]. now rewrite <- (stand_vars _ _ S). }
    destruct (supplied (map (token to_int l) us) (defaults l []) []) as [d1 an]. cbn [fst] in K1.
    destruct (anon_arg l) as [w | ] eqn:AA; destruct (required_given l _); try discriminate PR; injection PR as <-; [ | auto].
    apply put_keys in I. destruct I as [-> | I]; [ | auto]. apply (anon_arg_some _ _ S) in AA. apply (in_map fst) in AA. exact AA. }
  assert (FR : forall v, In v (map fst (d ++ [("ARGV", VList (map VStr (tl argv)))])) -> fixed v = false).
  { intros v I. rewrite map_app, in_app_iff in I. destruct I as [I | [<- | []]]; [ | exact FA]. apply K, in_map_iff in I. destruct I as ([w c] & E & I). cbn in E. subst w. now apply (FV v c). }
  revert FR. clear. generalize (d ++ [("ARGV", VList (map VStr (tl argv)))]). clear. intros d. revert e. induction d as [ | [v x] d IH]; intros e FR; [reflexivity | ].
  cbn. rewrite FR by (now left). apply IH. intros w I. apply FR. now right.
Qed.

(** Without int flags a command line that is not accepted ends the script *)
Theorem c79_refused_partial : forall to_int fixed kw argv e cs, well_formed kw -> free fixed kw -> (forall v f1 f2 x r, ~ In (v, DInt f1 f2 x r) kw) ->
  (forall us, Forall (proper to_int kw) us -> argv <> flat_map written us) ->
  script to_int fixed argv (ParseArgs kw :: cs) e = (e, false).
Proof.
  intros to_int fixed kw argv e cs W F NI H. cbn [script].
  assert (O : snd (parse_args to_int fixed kw argv e) = Shell).
  { unfold parse_args. destruct (make_all_ok kw (wf_decls _ W)) as (l & M). pose proof (make_all_inv _ _ M) as S. rewrite M. cbn [bind].
    rewrite (filter_usage kw l S); [ | intros v d I; now apply (wf_names _ W v d)]. rewrite (command_line_ok _ _ S W). cbn [bind].
    assert (SC : forall n argv, length argv <= n -> (exists r, scan to_int l argv = Ok r) \/ scan to_int l argv = Shell).
    { induction n as [ | n IH]; intros a L; (destruct a as [ | t a]; [left; exists []; reflexivity | ]); [cbn in L; lia | ]. cbn in L. cbn [scan].
      assert (B : forall (q : list string) (k : list (option string * val) -> list (option string * val)), length q <= n ->
        (exists r, bind (scan to_int l q) (fun r => Ok (k r)) = Ok r) \/ bind (scan to_int l q) (fun r => Ok (k r)) = Shell).
      { intros q k Q. destruct (IH q Q) as [(r & ->) | ->]; cbn; eauto. }
      destruct (isflag t); [ | apply B; lia]. destruct (arg_of l t) as [[v k] | ] eqn:A; [ | now right].
      destruct (arg_of_some _ _ S _ _ _ A) as (d & I & J & KD & _).
      destruct k; [ | destruct d; try discriminate KD; destruct (NI _ _ _ _ _ I) | apply B; lia].
      destruct a as [ | x a]; [now right | ]. destruct (isflag x); [now right | ]. apply B. cbn in L. lia. }
    unfold parse. destruct (SC (length argv) argv (le_n _)) as [(r & R) | R].
    - destruct (scan_inv to_int kw l S (wf_decls _ W) (length argv) argv r (le_n _) R) as (us & P & E). destruct (H us P E).
    - rewrite R. reflexivity. }
  pose proof (c79_all_or_nothing to_int fixed kw argv e (wf_vars _ W) (wf_names _ W) F) as AN.
  destruct (parse_args to_int fixed kw argv e) as [e' o]. cbn [fst snd] in O, AN. subst o. rewrite AN by discriminate. reflexivity.
Qed.
