(** C71 *)
From Verif Require Import Env.Startup Env.StartupSpec.
Local Open Scope string_scope.
Local Open Scope list_scope.

(** The names that a statement uses, calls, binds *)
Definition uses_e (e : expr) (x : string) : Prop :=
  match e with Const _ => False | Name y => x = y | Call f args => x = f \/ In (inr x) args end.
Definition uses (c : stmt) (x : string) : Prop :=
  match c with Import_all => False | Assign y e => x = y \/ uses_e e x | Define f reads => x = f | Do e => uses_e e x end.
Definition calls (c : stmt) (x : string) : Prop :=
  match c with Assign _ (Call f _) | Do (Call f _) => x = f | _ => False end.
Definition binds (c : stmt) (x : string) : Prop := match c with Assign y _ => x = y | Define f _ => x = f | _ => False end.
Definition imports (c : stmt) : Prop := match c with Import_all => True | _ => False end.

(** It never mentions the two names of marcel's own bookkeeping; it calls functions of marcel only, under their own names; it begins by
    importing these names (as the script that marcel installs does), and does so once *)
Definition ordinary (rest : script) : Prop :=
  (forall c, In c rest -> ~ imports c) /\
  (forall c x, In c rest -> uses c x -> x <> "PROMPT" /\ x <> "STARTUP_SCRIPTS") /\
  (forall c x, In c rest -> calls c x -> In x builtin_names /\ forall c', In c' rest -> ~ binds c' x).

Lemma eqb_sym' x y : String.eqb x y = String.eqb y x.
Proof. apply String.eqb_sym. Qed.

Lemma get_set_local x y v l : get x (set_local y v l) = if String.eqb x y then Some v else get x l.
Proof.
  induction l as [|[z w] l IH]; cbn.
  - destruct (String.eqb x y); reflexivity.
  - destruct (String.eqb y z) eqn:E; cbn.
    + apply String.eqb_eq in E as <-. destruct (String.eqb x y); reflexivity.
    + rewrite IH. destruct (String.eqb x z) eqn:F; [|reflexivity].
      apply String.eqb_eq in F as ->. rewrite eqb_sym', E. reflexivity.
Qed.

Lemma value_of_cons x y v e : value_of x ((y, v) :: e) = if String.eqb x y then Some v else value_of x e.
Proof. unfold value_of; cbn. destruct (String.eqb x y); reflexivity. Qed.
Lemma value_of_app x e1 e2 : value_of x (e1 ++ e2) = match value_of x e1 with Some v => Some v | None => value_of x e2 end.
Proof. induction e1 as [|[y v] e1 IH]; [reflexivity|]. cbn [app]. rewrite !value_of_cons, IH. destruct (String.eqb x y); reflexivity. Qed.
Lemma value_of_map x (f : string -> value) l : value_of x (map (fun y => (y, f y)) l) = if mem x l then Some (f x) else None.
Proof.
  induction l as [|y l IH]; [reflexivity|]. cbn [map]. rewrite value_of_cons, IH. cbn.
  destruct (String.eqb x y) eqn:E; [|reflexivity]. apply String.eqb_eq in E as ->. reflexivity.
Qed.
Lemma mem_In x l : mem x l = true <-> In x l.
Proof.
  unfold mem. rewrite existsb_exists. split; [intros [y [I E]]|intros I; exists x].
  - apply String.eqb_eq in E as ->. exact I.
  - split; [exact I|apply String.eqb_refl].
Qed.

Lemma put_all_get l n x : NoDup (map fst l) -> put_all l n x = match get x l with Some v => Some v | None => n x end.
Proof.
  unfold put_all. revert n. induction l as [|[y v] l IH]; intros n N; [reflexivity|].
  inversion N; subst. cbn [fold_left fst snd get]. rewrite IH by assumption.
  destruct (String.eqb x y) eqn:E.
  - apply String.eqb_eq in E as ->. replace (get y l) with (@None value).
    + unfold put. now rewrite String.eqb_refl.
    + symmetry. clear -H1. induction l as [|[z w] l IH]; [reflexivity|]. cbn in *.
      destruct (String.eqb y z) eqn:E; [apply String.eqb_eq in E as ->; tauto|apply IH; tauto].
  - destruct (get x l); [reflexivity|]. unfold put. now rewrite E.
Qed.
Lemma set_local_fst x v l : map fst (set_local x v l) = if mem x (map fst l) then map fst l else map fst l ++ [x].
Proof.
  induction l as [|[y w] l IH]; [reflexivity|]. cbn. destruct (String.eqb x y) eqn:E; cbn.
  - apply String.eqb_eq in E as ->. reflexivity.
  - rewrite IH. unfold mem. destruct (existsb (String.eqb x) (map fst l)); reflexivity.
Qed.
Lemma set_local_NoDup x v l : NoDup (map fst l) -> NoDup (map fst (set_local x v l)).
Proof.
  intros N. rewrite set_local_fst. destruct (mem x (map fst l)) eqn:M; [exact N|].
  assert (K : ~ In x (map fst l)) by (intros I; apply mem_In in I; congruence).
  clear M. induction (map fst l) as [|y k IH]; cbn; [constructor; [tauto|constructor]|].
  inversion N; subst. constructor.
  - intros I. apply in_app_or in I as [I|[<-|[]]]; [tauto|]. apply K; left; reflexivity.
  - apply IH; [assumption|]. intros I; apply K; right; exact I.
Qed.
Lemma set_local_In x v l y : In y (map fst (set_local x v l)) <-> y = x \/ In y (map fst l).
Proof.
  rewrite set_local_fst. destruct (mem x (map fst l)) eqn:M.
  - apply mem_In in M. split; [tauto|]. intros [->|I]; assumption.
  - rewrite in_app_iff. cbn. split; intros H; intuition congruence.
Qed.

(** What the import puts in locals *)
Definition imported (m : module) : list (string * value) := s_locals (mkstate m
  (fold_left (fun l xv => set_local (fst xv) (snd xv) l) (filter (fun xv => negb (private (fst xv))) (builtin_dict m)) [])).
Definition public_names : list string := firstn 14 builtin_names ++ ["STARTUP_SCRIPTS"; "PROMPT"] ++ skipn 14 builtin_names.
Lemma imported_eq m : imported m =
  map (fun x => (x, Builtin x)) (firstn 14 builtin_names) ++ [("STARTUP_SCRIPTS", Startup_list); ("PROMPT", m_prompt m)]
  ++ map (fun x => (x, Builtin x)) (skipn 14 builtin_names).
Proof. destruct m; reflexivity. Qed.
Lemma get_value_of x l : get x l = value_of x l.
Proof. induction l as [|[y v] l IH]; [reflexivity|]. cbn [get]. rewrite value_of_cons, IH. reflexivity. Qed.
Lemma get_imported m x : x <> "PROMPT" -> x <> "STARTUP_SCRIPTS" ->
  get x (imported m) = if mem x builtin_names then Some (Builtin x) else None.
Proof.
  intros P S. rewrite imported_eq, get_value_of, !value_of_app, !value_of_map, !value_of_cons.
  apply String.eqb_neq in P, S. rewrite P, S. cbn [value_of List.find option_map].
  unfold mem.
  assert (existsb (String.eqb x) builtin_names =
          existsb (String.eqb x) (firstn 14 builtin_names) || existsb (String.eqb x) (skipn 14 builtin_names)) as ->
    by (rewrite <- existsb_app, firstn_skipn; reflexivity).
  destruct (existsb (String.eqb x) (firstn 14 builtin_names)), (existsb (String.eqb x) (skipn 14 builtin_names)); reflexivity.
Qed.

Lemma get_late x (l : list (string * value)) v : get x (map (fun xv => (fst xv, v)) l) = if mem x (map fst l) then Some v else None.
Proof. induction l as [|[y w] l IH]; [reflexivity|]. cbn. rewrite IH. destruct (String.eqb x y); reflexivity. Qed.
Lemma nodup_dec (l : list string) : (if existsb (fun _ => false) l then false else
  (fix go l := match l with [] => true | x :: l => negb (mem x l) && go l end) l) = true -> NoDup l.
Proof.
  intros H. assert (E : existsb (fun _ : string => false) l = false) by (clear; induction l; auto). rewrite E in H. clear E.
  induction l as [|x l IH]; [constructor|]. apply andb_prop in H as [H1 H2]. constructor; [|apply IH; exact H2].
  intros I. apply mem_In in I. rewrite I in H1. discriminate.
Qed.
Lemma late_eq m : late (builtin_dict m) = map (fun x => (x, Builtin "set_prompt")) public_names.
Proof. destruct m; reflexivity. Qed.
Lemma fst_pairs (f : string -> value) l : map fst (map (fun x => (x, f x)) l) = l.
Proof. induction l; cbn; congruence. Qed.

(** Before the script, every name of marcel.builtin has the value of the last one of them *)
Lemma permanent_spec m x : permanent m x =
  if mem x public_names then Some (Builtin "set_prompt") else if mem x initial_names then Some (Initial x) else None.
Proof.
  unfold permanent. rewrite put_all_get by (rewrite late_eq, fst_pairs; apply nodup_dec; reflexivity).
  rewrite late_eq, get_value_of, value_of_map with (f := fun _ => Builtin "set_prompt").
  destruct (mem x public_names) eqn:M; [reflexivity|].
  rewrite put_all_get by (apply nodup_dec; reflexivity).
  unfold initial. rewrite get_value_of, value_of_map with (f := Initial).
  unfold mem, initial_names in *. cbn [existsb]. cbn [existsb public_names firstn skipn builtin_names app] in M.
  repeat (apply orb_false_iff in M as [?E M]).
  repeat match goal with H : String.eqb x _ = false |- _ => rewrite ?H; clear H end. unfold no_names.
  repeat match goal with |- context [String.eqb x ?y] => destruct (String.eqb x y); cbn [orb]; try reflexivity end.
Qed.

Lemma look_start m x : x <> "PROMPT" -> x <> "STARTUP_SCRIPTS" ->
  look (permanent m) (imported m) x = value_of x (map (fun x => (x, Builtin x)) builtin_names ++ at_start).
Proof.
  intros P S. unfold look. rewrite get_imported by assumption. unfold at_start.
  rewrite !value_of_app, !value_of_map. destruct (mem x builtin_names) eqn:M; [reflexivity|].
  rewrite permanent_spec. replace (mem x public_names) with false; [reflexivity|].
  symmetry. destruct (mem x public_names) eqn:E; [|reflexivity].
  apply mem_In in E. unfold public_names in E. apply in_app_or in E as [E|[E|[E|E]]]; [|congruence|congruence|];
    (assert (I : In x builtin_names) by (rewrite <- (firstn_skipn 14 builtin_names); apply in_or_app; tauto));
    apply mem_In in I; congruence.
Qed.

Section Run.
Variables (m0 : module) (rest : script).
Let g := permanent m0.

Record agree (s : state) (w : world) : Prop := {
  a_look : forall x, x <> "PROMPT" -> x <> "STARTUP_SCRIPTS" -> look g (s_locals s) x = value_of x (w_env w);
  a_scripts : get "STARTUP_SCRIPTS" (s_locals s) = Some Startup_list;
  a_prompt : get "PROMPT" (s_locals s) = Some (m_prompt m0);
  a_mscripts : m_scripts (s_module s) = m_scripts m0 ++ w_scripts w;
  a_mprompt : m_prompt (s_module s) = match w_prompt w with Some l => Tuple l | None => m_prompt m0 end;
  a_nodup : NoDup (map fst (s_locals s)) }.

Lemma agree_bind s w x v : x <> "PROMPT" -> x <> "STARTUP_SCRIPTS" -> agree s w ->
  agree (mkstate (s_module s) (set_local x v (s_locals s))) (mkworld ((x, v) :: w_env w) (w_prompt w) (w_scripts w)).
Proof.
  intros P S [L Sc Pr Ms Mp N]; constructor; cbn [s_locals s_module w_env w_prompt w_scripts]; auto.
  - intros y Py Sy. unfold look. rewrite get_set_local, value_of_cons. destruct (String.eqb y x); [reflexivity|]. apply (L y Py Sy).
  - rewrite get_set_local. apply String.eqb_neq in S. now rewrite eqb_sym', S.
  - rewrite get_set_local. apply String.eqb_neq in P. now rewrite eqb_sym', P.
  - apply set_local_NoDup, N.
Qed.

Lemma arguments_ok s w args l : agree s w -> (forall x, In (inr x) args -> x <> "PROMPT" /\ x <> "STARTUP_SCRIPTS") ->
  Forall2 (arg_is (w_env w)) args l -> sequence (map (argument g (s_locals s)) args) = Some l.
Proof.
  intros A U F. induction F as [|a v args l H F IH]; [reflexivity|]. cbn [map].
  assert (argument g (s_locals s) a = Some v) as ->.
  { inversion H; subst; [reflexivity|]. cbn [argument]. destruct (U x (or_introl eq_refl)) as [P S]. rewrite (a_look _ _ A x P S). assumption. }
  cbn [sequence]. rewrite IH; [reflexivity|]. intros x I. apply U. right; exact I.
Qed.

Lemma eval_ok s w e v w1 : agree s w -> (forall x, uses_e e x -> x <> "PROMPT" /\ x <> "STARTUP_SCRIPTS") ->
  (forall f args, e = Call f args -> value_of f (w_env w) = Some (Builtin f)) ->
  evaluates w e v w1 -> exists m1, eval g s e = Some (m1, v) /\ agree (mkstate m1 (s_locals s)) w1.
Proof.
  intros A U C E. destruct E as [w v|w x v E|w f args l E F|w f a v E F|w f x args l E N1 N2 F|w f reads l E F]; cbn [eval].
  - eexists; split; [reflexivity|]. destruct s; exact A.
  - destruct (U x eq_refl) as [P S]. rewrite (a_look _ _ A x P S), E. eexists; split; [reflexivity|]. destruct s; exact A.
  - destruct (U f (or_introl eq_refl)) as [P S]. rewrite (a_look _ _ A f P S), E.
    rewrite (arguments_ok s w args l A); [|intros y I; apply U; right; exact I|exact F].
    eexists; split; [reflexivity|]. destruct A; constructor; auto.
  - destruct (U f (or_introl eq_refl)) as [P S]. rewrite (a_look _ _ A f P S), E.
    rewrite (arguments_ok s w [a] [v] A); [|intros x I; apply U; right; exact I|repeat constructor; exact F].
    eexists; split; [reflexivity|]. destruct A; constructor; auto.
    cbn. rewrite a_mscripts0, app_assoc. reflexivity.
  - destruct (U f (or_introl eq_refl)) as [P S]. rewrite (a_look _ _ A f P S), E.
    rewrite (arguments_ok s w args l A); [|intros y I; apply U; right; exact I|exact F].
    assert (call g (s_module s) (Builtin x) l = Some (s_module s, Made x l)) as ->.
    { unfold call. repeat match goal with |- context [match ?x with _ => _ end] => destruct x; try reflexivity end; contradiction. }
    eexists; split; [reflexivity|]. destruct s; exact A.
  - rewrite (C f [] eq_refl) in E. discriminate.
Qed.

Lemma run_ok p s w w' : (forall c, In c p -> In c rest) -> ordinary rest ->
  (forall c f, In c rest -> calls c f -> value_of f (w_env w) = Some (Builtin f)) ->
  agree s w -> runs w p w' -> exists s', exec g s p = Some s' /\ agree s' w' /\
    (forall x, In x (map fst (s_locals s')) <-> In x (map fst (s_locals s)) \/ exists c, In c p /\ binds c x).
Proof.
  intros Sub [OI [OU OC]] V A R. revert s Sub V A.
  induction R as [w|w p w' R IH|w x e v w1 p w' E R IH|w f reads p w' R IH|w e v w1 p w' E R IH]; intros s Sub V A.
  - exists s. repeat split; [apply A..|tauto|]. intros [H|[c [[] _]]]; exact H.
  - destruct (OI Import_all (Sub _ (or_introl eq_refl)) I).
  - assert (I : In (Assign x e) rest) by (apply Sub; left; reflexivity).
    destruct (OU _ x I (or_introl eq_refl)) as [P S].
    destruct (eval_ok s w e v w1 A) as [m1 [Ee A1]]; [intros y Hy; apply (OU _ y I); right; exact Hy| |exact E|].
    { intros f args ->. apply (V _ f I). reflexivity. }
    cbn [exec step]. rewrite Ee. cbn [option_map fst snd].
    destruct (IH (mkstate m1 (set_local x v (s_locals s)))) as [s' [X [A' D]]].
    + intros c Hc; apply Sub; right; exact Hc.
    + intros c f Hc Hf. cbn [w_env]. rewrite value_of_cons. destruct (String.eqb f x) eqn:Q.
      * apply String.eqb_eq in Q as ->. destruct (OC c x Hc Hf) as [_ K]. destruct (K _ I). reflexivity.
      * replace (w_env w1) with (w_env w) by (destruct E; reflexivity). eapply V; eassumption.
    + apply (agree_bind (mkstate m1 (s_locals s)) w1 x v P S A1).
    + exists s'. split; [exact X|]. split; [exact A'|]. intros y. rewrite D. cbn [s_locals]. rewrite set_local_In. split.
      * intros [[->|H]|[c [Hc Hb]]]; [right; exists (Assign x e); split; [left|]; reflexivity|tauto|right; exists c; split; [right|]; assumption].
      * intros [H|[c [[<-|Hc] Hb]]]; [tauto|left; left; exact Hb|right; exists c; tauto].
  - assert (I : In (Define f reads) rest) by (apply Sub; left; reflexivity).
    destruct (OU _ f I eq_refl) as [P S]. cbn [exec step].
    destruct (IH (mkstate (s_module s) (set_local f (Function reads) (s_locals s)))) as [s' [X [A' D]]].
    + intros c Hc; apply Sub; right; exact Hc.
    + intros c h Hc Hf. cbn [w_env]. rewrite value_of_cons. destruct (String.eqb h f) eqn:Q.
      * apply String.eqb_eq in Q as ->. destruct (OC c f Hc Hf) as [_ K]. destruct (K _ I). reflexivity.
      * eapply V; eassumption.
    + apply agree_bind; assumption.
    + exists s'. split; [exact X|]. split; [exact A'|]. intros y. rewrite D. cbn [s_locals]. rewrite set_local_In. split.
      * intros [[->|H]|[c [Hc Hb]]]; [right; exists (Define f reads); split; [left|]; reflexivity|tauto|right; exists c; split; [right|]; assumption].
      * intros [H|[c [[<-|Hc] Hb]]]; [tauto|left; left; exact Hb|right; exists c; tauto].
  - assert (I : In (Do e) rest) by (apply Sub; left; reflexivity).
    destruct (eval_ok s w e v w1 A) as [m1 [Ee A1]]; [intros y Hy; apply (OU _ y I); exact Hy| |exact E|].
    { intros f args ->. apply (V _ f I). reflexivity. }
    cbn [exec step]. rewrite Ee. cbn [option_map fst snd].
    destruct (IH (mkstate m1 (s_locals s))) as [s' [X [A' D]]].
    + intros c Hc; apply Sub; right; exact Hc.
    + intros c f Hc Hf. replace (w_env w1) with (w_env w) by (destruct E; reflexivity). eapply V; eassumption.
    + exact A1.
    + exists s'. split; [exact X|]. split; [exact A'|]. intros y. rewrite D. cbn [s_locals]. split.
      * intros [H|[c [Hc Hb]]]; [tauto|right; exists c; split; [right|]; assumption].
      * intros [H|[c [[<-|Hc] Hb]]]; [tauto|destruct Hb|right; exists c; tauto].
Qed.
End Run.

Lemma agree_start m : agree m (mkstate m (imported m)) (mkworld (map (fun x => (x, Builtin x)) builtin_names ++ at_start) None []).
Proof.
  constructor; cbn [s_locals s_module w_env w_prompt w_scripts].
  - intros x P S. apply look_start; assumption.
  - rewrite imported_eq. reflexivity.
  - rewrite imported_eq. reflexivity.
  - now rewrite app_nil_r.
  - reflexivity.
  - rewrite imported_eq, !map_app, !fst_pairs. apply nodup_dec. reflexivity.
Qed.
Lemma imported_names m x : In x (map fst (imported m)) <-> In x (builtin_names ++ ["PROMPT"; "STARTUP_SCRIPTS"]).
Proof. rewrite imported_eq, !map_app, !fst_pairs. cbn. tauto. Qed.

(** What a script defines: its own names, and those it imports *)
Definition defines (rest : script) (x : string) : Prop :=
  In x builtin_names \/ x = "PROMPT" \/ x = "STARTUP_SCRIPTS" \/ exists c, In c rest /\ binds c x.

Lemma executed m rest w : ordinary rest -> runs start (Import_all :: rest) w ->
  exists s, exec (permanent m) (mkstate m []) (Import_all :: rest) = Some s /\ agree m s w /\ forall x, In x (map fst (s_locals s)) <-> defines rest x.
Proof.
  intros O R. inversion R as [|? ? ? H0| | |]; subst. cbn [start w_env w_prompt w_scripts] in H0.
  edestruct (fun V A => run_ok m rest rest (mkstate m (imported m)) _ w (fun c H => H) O V A H0) as [s [X [A D]]].
  - intros c f Hc Hf. destruct O as [_ [_ OC]]. destruct (OC c f Hc Hf) as [I _]. cbn [w_env].
    rewrite value_of_app, value_of_map. apply mem_In in I. now rewrite I.
  - apply agree_start.
  - exists s. split; [exact X|]. split; [exact A|]. intros x. rewrite D. cbn [s_locals]. rewrite imported_names, in_app_iff. unfold defines. cbn [In].
    split; intros H; repeat (destruct H as [H|H]; auto); tauto.
Qed.

(** C71. An ordinary script that runs without error gives every name the value it has in Python; nothing else has a value; the names it
    defines cannot be changed by commands *)
Theorem c71_namespace_partial : forall m rest w,
  ordinary rest -> runs start (Import_all :: rest) w ->
  (forall x c, In x ["MARCEL_VERSION"; "HOME"; "USER"; "HOST"; "WORKSPACE"] -> In c rest -> ~ binds c x) ->
  exists m' s, open m (Import_all :: rest) [] = Open m' s /\
    (forall x, x <> "PROMPT" -> x <> "STARTUP_SCRIPTS" -> vars s x = value_of x (w_env w)) /\
    (forall x, In x (fixed s) <-> defines rest x).
Proof.
  intros m rest w O R NM. destruct (executed m rest w O R) as [s [X [A D]]]. unfold open. rewrite X.
  assert (existsb (fun x => mem x (map fst (s_locals s))) never_mutable = false) as ->.
  { apply not_true_is_false. intros H. apply existsb_exists in H as [x [I M]]. apply mem_In, D in M.
    destruct M as [M|[M|[M|[c [Hc Hb]]]]].
    - cbn in M, I. intuition subst; discriminate.
    - subst. cbn in I. intuition discriminate.
    - subst. cbn in I. intuition discriminate.
    - exact (NM x c I Hc Hb). }
  do 2 eexists. split; [reflexivity|]. cbn [vars fixed]. split; [|exact D].
  intros x P S. unfold put_all at 1; cbn [fold_left]. rewrite put_all_get by apply (a_nodup _ _ _ A).
  exact (a_look _ _ _ A x P S).
Qed.

(** A script that assigns one of the five names that must not change is refused *)
Theorem c71_never_mutable : forall m rest w x c,
  ordinary rest -> runs start (Import_all :: rest) w ->
  In x ["MARCEL_VERSION"; "HOME"; "USER"; "HOST"; "WORKSPACE"] -> In c rest -> binds c x ->
  exists m', open m (Import_all :: rest) [] = Refused m'.
Proof.
  intros m rest w x c O R I Hc Hb. destruct (executed m rest w O R) as [s [X [A D]]]. unfold open. rewrite X.
  assert (existsb (fun x => mem x (map fst (s_locals s))) never_mutable = true) as ->; [|eexists; reflexivity].
  apply existsb_exists. exists x. split; [exact I|]. apply mem_In, D. right; right; right. exists c; split; assumption.
Qed.

(** The commands run at the start of the first session of a process: those that its script registers, in order, each once *)
Theorem c71_commands_partial : forall rest w m' s scripts,
  ordinary rest -> runs start (Import_all :: rest) w -> w_scripts w = map Text scripts ->
  open loaded (Import_all :: rest) [] = Open m' s -> startup_commands m' s = (scripts, Fine).
Proof.
  intros rest w m' s scripts O R W H. destruct (executed loaded rest w O R) as [st [X [A D]]]. unfold open in H. rewrite X in H.
  destruct (existsb _ _); [discriminate|]. injection H as <- <-. unfold startup_commands. cbn [vars].
  unfold put_all at 1; cbn [fold_left]. rewrite put_all_get by apply (a_nodup _ _ _ A). rewrite (a_scripts _ _ _ A).
  rewrite (a_mscripts _ _ _ A), W. cbn [loaded m_scripts app].
  clear. induction scripts as [|t l IH]; [reflexivity|]. cbn [map run_scripts]. now rewrite IH.
Qed.

(** In a later session, those of the earlier ones are run again, first *)
Theorem c71_commands_refuted : forall m rest w m' s old scripts,
  ordinary rest -> runs start (Import_all :: rest) w -> w_scripts w = map Text scripts -> m_scripts m = map Text old ->
  open m (Import_all :: rest) [] = Open m' s ->
  startup_commands m' s = (old ++ scripts, Fine) /\ m_scripts m' = map Text (old ++ scripts).
Proof.
  intros m rest w m' s old scripts O R W M H. destruct (executed m rest w O R) as [st [X [A D]]]. unfold open in H. rewrite X in H.
  destruct (existsb _ _); [discriminate|]. injection H as <- <-. unfold startup_commands. cbn [vars].
  unfold put_all at 1; cbn [fold_left]. rewrite put_all_get by apply (a_nodup _ _ _ A). rewrite (a_scripts _ _ _ A).
  rewrite (a_mscripts _ _ _ A), W, M, <- map_app. split; [|reflexivity].
  clear. induction (old ++ scripts) as [|t l IH]; [reflexivity|]. cbn [map run_scripts]. now rewrite IH.
Qed.

(** Something that is not a string: the commands before it are run, those after it are not *)
Theorem c71_bad_command : forall rest w m' s before bad after,
  ordinary rest -> runs start (Import_all :: rest) w -> w_scripts w = map Text before ++ bad :: after -> (forall t, bad <> Text t) ->
  open loaded (Import_all :: rest) [] = Open m' s -> startup_commands m' s = (before, Not_a_script).
Proof.
  intros rest w m' s before bad after O R W B H. destruct (executed loaded rest w O R) as [st [X [A D]]]. unfold open in H. rewrite X in H.
  destruct (existsb _ _); [discriminate|]. injection H as <- <-. unfold startup_commands. cbn [vars].
  unfold put_all at 1; cbn [fold_left]. rewrite put_all_get by apply (a_nodup _ _ _ A). rewrite (a_scripts _ _ _ A).
  rewrite (a_mscripts _ _ _ A), W. cbn [loaded m_scripts app].
  clear - B. induction before as [|t l IH].
  - cbn [map app]. destruct bad; try reflexivity. destruct (B s eq_refl).
  - cbn [map app run_scripts]. now rewrite IH.
Qed.

(** set_prompt does not change the prompt of the session that calls it, but that of the next one: the prompt is what the previous session's
    script asked for *)
Theorem c71_prompt_refuted : forall m rest w m' s,
  ordinary rest -> runs start (Import_all :: rest) w -> open m (Import_all :: rest) [] = Open m' s ->
  vars s "PROMPT" = Some (m_prompt m) /\ forall l, w_prompt w = Some l -> m_prompt m' = Tuple l.
Proof.
  intros m rest w m' s O R H. destruct (executed m rest w O R) as [st [X [A D]]]. unfold open in H. rewrite X in H.
  destruct (existsb _ _); [discriminate|]. injection H as <- <-. cbn [vars].
  unfold put_all at 1; cbn [fold_left]. rewrite put_all_get by apply (a_nodup _ _ _ A). rewrite (a_prompt _ _ _ A).
  split; [reflexivity|]. intros l E. rewrite (a_mprompt _ _ _ A), E. reflexivity.
Qed.

(** Without the import, every function of marcel is set_prompt, and the session does not start *)
Theorem c71_no_import_refuted : forall m x, In x (builtin_names ++ ["STARTUP_SCRIPTS"; "PROMPT"]) ->
  exists s, open m [] [] = Open m s /\ vars s x = Some (Builtin "set_prompt") /\ startup_commands m s = ([], Crash).
Proof.
  intros m x I. eexists. split; [reflexivity|]. cbn [vars]. unfold put_all; cbn [fold_left s_locals]. split.
  - rewrite permanent_spec. replace (mem x public_names) with true; [reflexivity|]. symmetry. apply mem_In.
    cbn in I |- *. tauto.
  - unfold startup_commands. cbn [vars]. rewrite permanent_spec. reflexivity.
Qed.
(** Color(0, 0, 5) in such a script sets the prompt instead *)
Theorem c71_color_refuted : forall m l, exists m' s,
  open m [Assign "blue" (Call "Color" (map inl l))] [] = Open m' s /\ m_prompt m' = Tuple l /\ vars s "blue" = Some Nothing.
Proof.
  intros m l. unfold open. cbn [exec step eval]. unfold look; cbn [get s_locals]. rewrite permanent_spec.
  assert (sequence (map (argument (permanent m) []) (map inl l)) = Some l) as Q by (induction l as [|v l IH]; [reflexivity|cbn [map sequence argument]; now rewrite IH]).
  cbn [mem existsb public_names builtin_names firstn skipn app]. cbn [String.eqb Ascii.eqb Bool.eqb orb]. rewrite Q. cbn.
  do 2 eexists. repeat split.
Qed.

(** A function defined in the script cannot be used in it if it needs another name that the script defines *)
Theorem c71_function_refuted : forall m,
  (exists w, runs start [Import_all; Assign "x" (Const (Object 1)); Define "f" ["x"]; Assign "y" (Call "f" [])] w /\
             value_of "y" (w_env w) = Some (Tuple [Object 1])) /\
  open m [Import_all; Assign "x" (Const (Object 1)); Define "f" ["x"]; Assign "y" (Call "f" [])] [] = Script_error.
Proof.
  intros m. split.
  - eexists. split.
    + apply R_import. eapply R_assign; [apply E_const|]. apply R_define. eapply R_assign; [|apply R_end].
      eapply E_function; [reflexivity|]. repeat constructor.
    + reflexivity.
  - unfold open. cbn -[permanent]. rewrite permanent_spec. reflexivity.
Qed.

(** A variable saved by the workspace hides the one that the script defines; and it cannot be changed *)
Theorem c71_saved_refuted : forall m v old, exists s,
  open m [Assign "x" (Const v)] [("x", old)] = Open m s /\ vars s "x" = Some old /\ In "x" (fixed s).
Proof. intros. eexists. split; [reflexivity|]. split; [reflexivity|]. left; reflexivity. Qed.

(** A script that uses most of this *)
Definition example_script : script :=
  [Assign "blue" (Call "Color" [inl (Object 0); inl (Object 0); inl (Object 5); inr "BOLD"]);
   Define "ago" ["now"; "days"];
   Do (Call "set_prompt" [inr "blue"; inr "USER"; inl (Text "$ ")]);
   Do (Call "run_on_startup" [inl (Text "ext = (| e: select (f: f.suffix == '.' + e) |)")])].
Theorem c71_example : ordinary example_script /\ exists w, runs start (Import_all :: example_script) w /\
  value_of "blue" (w_env w) = Some (Made "Color" [Object 0; Object 0; Object 5; Initial "BOLD"]) /\
  w_prompt w = Some [Made "Color" [Object 0; Object 0; Object 5; Initial "BOLD"]; Initial "USER"; Text "$ "] /\
  w_scripts w = [Text "ext = (| e: select (f: f.suffix == '.' + e) |)"].
Proof.
  split.
  - split; [|split].
    + intros c H. cbn in H. intuition subst; cbn; tauto.
    + intros c x H U. cbn in H. intuition subst; cbn in *; intuition (try discriminate); subst; try discriminate; congruence.
    + intros c x H U. cbn in H. intuition subst; cbn in *; try contradiction; subst; intuition; subst; cbn in *; congruence.
  - eexists. split.
    + apply R_import. eapply R_assign. { eapply E_builtin; [reflexivity|discriminate|discriminate|]. repeat constructor. }
      apply R_define. eapply R_do. { eapply E_prompt; [reflexivity|]. repeat constructor. }
      eapply R_do. { eapply E_startup; [reflexivity|]. constructor. } apply R_end.
    + repeat split.
Qed.
