(** C66: where it fails, and an example where it holds. *)
From Verif.Env Require Import CarrySpec CarryProps.
Local Open Scope string_scope.
Local Open Scope list_scope.

Section Refuted.
Variable V : Type.
Variable P : python V.
Variable permanent : dict V.
Notation child := (child V P permanent).
Notation after := (fun a s => act V P a s).

Lemma in_put {A} (d : dict A) x a : In (x, a) (put x a d).
Proof.
  induction d as [|[y b] d IH]; cbn; auto. destruct (String.eqb_spec x y) as [->|]; cbn; auto.
Qed.

Lemma restore_fails x f T : In (x, Function None f) T -> forall s, restore V P T s = None.
Proof.
  induction T as [|[y w] T IH]; [contradiction|]. intros [E|I] s.
  - injection E as -> ->. reflexivity.
  - cbn. destruct (reconstitute V P w (lookup s)); auto.
Qed.

Lemma child_sends named shell pid ppid f s v : child named shell pid ppid f s = Started v ->
  forallb (fun e => sendable V (pickles P) (snd e)) (top s) = true /\ exists u, restore V P (top s) u = Some v.
Proof.
  unfold Carry.child. destruct (forallb _ (top s)); [|discriminate]. destruct (may_open named shell pid ppid); [|discriminate].
  destruct (if named then f else Some []) as [d|]; [|discriminate]. destruct (restore V P d _) as [u|]; [|discriminate].
  destruct (restore V P (top s) u) as [u'|] eqn:R; [|discriminate]. intros E. injection E as <-. eauto.
Qed.

(** [r = (random.random)]: a built-in function whose __module__ is None, a method of an object. After that no process can be
    started, and the workspace cannot be opened again; deleting the variable does not help. *)
Theorem c66_builtin_refuted : forall s fl x t v f, eval P t (lookup s) = Some v -> kind_of P v = KBuiltin None f ->
  let s1 := act V P (AssignExpression x t) s in
  let s2 := act V P (Delete x) s1 in
  lookup s1 x = Some v /\
  forall s', s' = s1 \/ s' = s2 ->
    (forall named shell pid ppid u, child named shell pid ppid fl s' <> Started u) /\ reopen V P permanent (mksession s' fl) = None.
Proof.
  intros s fl x t v f E K s1 s2.
  assert (S : s1 = bind V x v (Function None f) s) by (unfold s1; cbn; rewrite E; unfold wrap; now rewrite K).
  split; [rewrite S; unfold lookup, bind; cbn; rewrite get_put, String.eqb_refl; reflexivity|].
  intros s' T. assert (I : In (x, Function None f) (top s')).
  { assert (T1 : top s' = top s1) by (destruct T as [-> | ->]; reflexivity). rewrite T1, S. apply in_put. }
  split.
  - intros named shell pid ppid u C. apply child_sends in C as (_ & w & R). now rewrite (restore_fails _ _ _ I) in R.
  - unfold reopen, close. cbn. destruct (forallb _ (top s')); auto. now rewrite (restore_fails _ _ _ I).
Qed.

(** [x = (\[lambda: 1\])]: a value that pickle rejects. No process can be started after that: each attempt is an exception in the shell. And if
    dill rejects it too, [x = (i for i in l)], closing the workspace leaves a file that cannot be read: all variables are lost. *)
Theorem c66_data_refuted : forall s fl x t v, eval P t (lookup s) = Some v -> kind_of P v = KOther ->
  forall s', s' = act V P (AssignExpression x t) s \/ s' = act V P (Delete x) (act V P (AssignExpression x t) s) ->
  (pickles P v = false -> forall named shell pid ppid, child named shell pid ppid fl s' = NotSent) /\
  (dills P v = false -> close V P (mksession s' fl) = None).
Proof.
  intros s fl x t v E K s' T.
  assert (I : In (x, Simple v) (top s')).
  { assert (T1 : top s' = top (act V P (AssignExpression x t) s)) by (destruct T as [-> | ->]; reflexivity).
    rewrite T1. cbn. rewrite E. unfold wrap. rewrite K. apply in_put. }
  assert (F : forall p : V -> bool, p v = false -> forallb (fun e => sendable V p (snd e)) (top s') = false).
  { intros p Q. apply not_true_is_false. intros A. rewrite forallb_forall in A. specialize (A _ I). cbn in A. congruence. }
  split; intros Q.
  - intros. unfold Carry.child. now rewrite F.
  - unfold close. cbn. now rewrite F.
Qed.

(** The parameters of a pipeline do not reach the processes started by it (fork inside a pipeline with parameters); and a pipeline cannot be
    passed as an argument. *)
Theorem c66_parameters_refuted : forall b s s', enter V P b s = Some s' ->
  (forall x, In x (map fst b) -> lookup s' x <> None) /\
  forall named shell pid ppid fl, child named shell pid ppid fl s' = child named shell pid ppid fl s.
Proof.
  intros b s s' E.
  assert (G : top s' = top s /\ (forall x, lookup s x <> None \/ In x (map fst b) -> lookup s' x <> None)).
  { revert s E. induction b as [|[x v] b IH]; intros s E; cbn in E.
    - injection E as <-. split; auto. now intros x [H|[]].
    - destruct (wrap V P v None); [|discriminate]. destruct (IH _ E) as [T L]. split; [exact T|].
      intros y [H|[<-|H]].
      + apply L. left. unfold lookup. cbn. rewrite get_put. destruct (String.eqb y x); congruence || exact H.
      + apply L. left. unfold lookup. cbn. rewrite get_put, String.eqb_refl. discriminate.
      + apply L. now right. }
  destruct G as [T L]. split; [intros; apply L; auto|]. intros. unfold Carry.child. now rewrite T.
Qed.
Theorem c66_pipeline_parameter_refuted : forall b s x v, In (x, v) b -> kind_of P v = KPipeline -> enter V P b s = None.
Proof.
  intros b s x v I K. revert s. induction b as [|[y u] b IH]; intros s; [contradiction|]. cbn. destruct I as [[= -> ->]|I].
  - unfold wrap. now rewrite K.
  - destruct (wrap V P u None); auto.
Qed.

(** At the prompt, in a named workspace, fork and the operators that use it have no workers: the worker's parent is the job, not the shell
    that has the workspace open. *)
Theorem c66_named_worker_refuted : forall shell job worker fl s v, job <> shell -> worker <> shell ->
  child true shell worker job fl s <> Started v.
Proof.
  intros shell job worker fl s v J W. unfold Carry.child. destruct (forallb _ (top s)); [|discriminate].
  unfold may_open. cbn. apply Nat.eqb_neq in J, W. rewrite Nat.eqb_sym in J. rewrite Nat.eqb_sym in W. rewrite J, W. discriminate.
Qed.

(** A deleted variable is still there in every process started later. *)
Lemma restore_has T s v x : restore V P T s = Some v -> (lookup s x <> None \/ In x (map fst T)) -> lookup v x <> None.
Proof.
  revert s. induction T as [|[y w] T IH]; cbn; intros s R H.
  - injection R as <-. now destruct H.
  - destruct (reconstitute V P w (lookup s)) as [u|]; [|discriminate]. apply (IH _ R).
    destruct (String.eqb_spec x y) as [->|N].
    + left. unfold lookup. cbn. rewrite get_put, String.eqb_refl. discriminate.
    + destruct H as [H|[H|H]]; [left|congruence|now right]. unfold lookup. cbn. rewrite get_put. now destruct (String.eqb_spec x y).
Qed.
Theorem c66_deleted_refuted : forall s x t named shell pid ppid fl v, kind_of P (str P t) = KOther ->
  child named shell pid ppid fl (act V P (Delete x) (act V P (AssignText x t) s)) = Started v -> lookup v x <> None.
Proof.
  intros s x t named shell pid ppid fl v K C. apply child_sends in C as (_ & u & R). apply (restore_has _ _ _ _ R). right.
  cbn. unfold wrap. rewrite K. cbn. apply in_map_iff. eexists. split; [|apply in_put]. reflexivity.
Qed.
End Refuted.
Print Assumptions c66_builtin_refuted.
Print Assumptions c66_data_refuted.
Print Assumptions c66_parameters_refuted.
Print Assumptions c66_pipeline_parameter_refuted.
Print Assumptions c66_named_worker_refuted.
Print Assumptions c66_deleted_refuted.

(** ** A small Python *)
Inductive pv : Type :=
| Str (s : string) | Num (n : nat) | Dirs (l : list string) | Fun (text : string) (given : list pv)
| Blt (m : option string) (f : string) | Mdl (m : string) | Pip (t : string).
Definition small : python pv := mkpython pv
  (fun v => match v with Fun _ _ => KCallable | Blt m f => KBuiltin m f | Mdl m => KModule m | Pip _ => KPipeline | _ => KOther end)
  Str
  (fun t n =>
     if String.eqb t "1" then Some (Num 1) else if String.eqb t "2" then Some (Num 2)
     else if String.eqb t "lambda x: x + n" then Some (Fun t [])
     else if String.eqb t "math.sqrt" then Some (Blt (Some "math") "sqrt")
     else if String.eqb t "partial(max, n)" then match n "n" with Some v => Some (Fun "max" [v]) | None => None end
     else None)
  (fun t => Some (Pip t))
  (fun m => if String.eqb m "math" then Some (Mdl m) else None)
  (fun m f => if String.eqb m "math" then Some (Blt (Some m) f) else if String.eqb m "functools" then Some (Fun f []) else None)
  (fun _ => true) (fun _ => true).
Definition uses (t : string) : list string := if String.eqb t "partial(max, n)" then ["n"] else [].
Definition start_vars : dict pv := [("USER", Str "me"); ("DIRS", Dirs ["/home"])].

Lemma small_respects : respects pv small uses.
Proof.
  intros t n n' E. cbn. unfold uses in E. repeat (destruct (String.eqb t _); auto). rewrite (E "n"); auto. now left.
Qed.
Lemma small_sane : sane pv small.
Proof. split; [intros s; auto|]. intros t v [= <-]. reflexivity. Qed.

(** [n = (1)] [inc = (x: x + n)] [root = (math.sqrt)] [import functools partial] [big = (partial(max, n))] [p = (| ls |)], the workspace
    closed and opened, [s = text]: everything is as it was, in the shell, in a job, and in a worker. *)
Definition ex_h : list (event pv) :=
  [Do (AssignExpression "n" "1"); Do (AssignExpression "inc" "lambda x: x + n"); Do (AssignExpression "root" "math.sqrt");
   Do (ImportAs "partial" "functools" (Some "partial")); Do (AssignExpression "big" "partial(max, n)"); Do (AssignPipeline "p" "ls"); Reopen;
   Do (AssignText "s" "text")].

Local Notation AE := (@AssignExpression pv).
Lemma ex_portable : forall k, k = 6 \/ k = 8 -> portable pv small uses (effects pv small start_vars (firstn k ex_h) []).
Proof.
  intros k K. assert (G : forall l1 x y t v l2, effects pv small start_vars (firstn k ex_h) [] = l1 ++ (x, AE y t, v) :: l2 ->
    In (x, AE y t, v) [("n", AE "n" "1", Num 1); ("inc", AE "inc" "lambda x: x + n", Fun "lambda x: x + n" []);
      ("root", AE "root" "math.sqrt", Blt (Some "math") "sqrt")] \/
    (x, AE y t, v) = ("big", AE "big" "partial(max, n)", Fun "max" [Num 1]) /\
     ~ In "n" (names l2) /\ exists l1', l1 = ("n", AE "n" "1", Num 1) :: l1' /\ ~ In "big" (names l1)).
  { intros l1 x y t v l2 E.
    destruct K as [-> | ->]; cbn in E;
    (destruct l1 as [|e1 l1]; cbn in E; [injection E as <- <- <- <- <-; left; cbn; auto|injection E as <- E];
     destruct l1 as [|e2 l1]; cbn in E; [injection E as <- <- <- <- <-; left; cbn; auto|injection E as <- E];
     destruct l1 as [|e3 l1]; cbn in E; [injection E as <- <- <- <- <-; left; cbn; auto|injection E as <- E];
     destruct l1 as [|e4 l1]; cbn in E; [discriminate E|injection E as <- E];
     destruct l1 as [|e5 l1]; cbn in E; [injection E as <- <- <- <- <-; right; split; [reflexivity|]; split; [|eexists; split; [reflexivity|]]; cbn; intuition discriminate|injection E as <- E];
     destruct l1 as [|e6 l1]; cbn in E; [discriminate E|injection E as <- E];
     destruct l1 as [|e7 l1]; cbn in E; try discriminate E; injection E as <- E; destruct l1; discriminate E). }
  intros l1 x y t v l2 E NI. destruct (G _ _ _ _ _ _ E) as [I|(I & N & l1' & L & B)].
  - destruct I as [[= <- <- <- <-]|[[= <- <- <- <-]|[[= <- <- <- <-]|[]]]]; cbn; eauto.
  - injection I as -> -> -> ->. cbn. intros z [<-|[]]. right. split; [discriminate|]. split; [exact N|].
    exists l1, (("big", AE "big" "partial(max, n)", Fun "max" [Num 1]) :: l2). split; [exact E|]. split; [|exact B]. rewrite L. now left.
Qed.

Theorem c66_example :
  respects pv small uses /\ sane pv small /\ additive pv ex_h /\ carried pv small start_vars uses ex_h /\
  map (expected pv small start_vars ex_h) ["n"; "inc"; "root"; "big"; "partial"; "p"; "s"; "USER"] =
    [Some (Num 1); Some (Fun "lambda x: x + n" []); Some (Blt (Some "math") "sqrt"); Some (Fun "max" [Num 1]); Some (Fun "partial" []);
     Some (Pip "ls"); Some (Str "text"); Some (Str "me")] /\
  exists s v, run pv small start_vars ex_h (new_session pv start_vars) = Some s /\
    child pv small start_vars true 7 8 7 (file s) (now s) = Started v /\ lookup v "big" = Some (Fun "max" [Num 1]).
Proof.
  split; [apply small_respects|]. split; [apply small_sane|]. split.
  { intros e I. repeat (destruct I as [<-|I]; [exact Logic.I|]). contradiction. }
  split.
  { split; [apply (ex_portable 8); auto|]. intros h1 h2 E.
    assert (H : h1 = firstn 6 ex_h).
    { unfold ex_h in E. do 6 (destruct h1 as [|? h1]; cbn in E; [discriminate E|injection E as <- E]).
      destruct h1 as [|? h1]; [reflexivity|]. cbn in E. injection E as <- E. destruct h1 as [|? h1]; [discriminate E|]. cbn in E. injection E as <- E.
      destruct h1; discriminate E. }
    rewrite H. apply (ex_portable 6). auto. }
  split; [reflexivity|]. eexists. eexists. split; [reflexivity|]. split; [reflexivity|]. reflexivity.
Qed.
Print Assumptions c66_example.

(** [f = x] [n = (1)] [f = (partial(max, n))]: the function is made again before n is there, an exception: no job can be started, and
    the workspace cannot be opened again. *)
Theorem c66_order_refuted :
  let h := [Do (AssignText "f" "x"); Do (AssignExpression "n" "1"); Do (AssignExpression "f" "partial(max, n)")] in
  exists s, run pv small start_vars h (new_session pv start_vars) = Some s /\
    lookup (now s) "f" = Some (Fun "max" [Num 1]) /\ expected pv small start_vars h "f" = Some (Fun "max" [Num 1]) /\
    child pv small start_vars false 7 8 7 (file s) (now s) = Fails /\ reopen pv small start_vars s = None.
Proof. eexists. split; [reflexivity|]. repeat split. Qed.

(** [n = (1)] [f = (partial(max, n))] [n = (2)]: f is another function in jobs, and when the workspace is opened again. *)
Theorem c66_captured_refuted :
  let h := [Do (AssignExpression "n" "1"); Do (AssignExpression "f" "partial(max, n)"); Do (AssignExpression "n" "2")] in
  exists s v s', run pv small start_vars h (new_session pv start_vars) = Some s /\
    lookup (now s) "f" = Some (Fun "max" [Num 1]) /\
    child pv small start_vars false 7 8 7 (file s) (now s) = Started v /\ lookup v "f" = Some (Fun "max" [Num 2]) /\
    reopen pv small start_vars s = Some s' /\ lookup (now s') "f" = Some (Fun "max" [Num 2]).
Proof. do 3 eexists. split; [reflexivity|]. repeat split. Qed.

(** [pushd /tmp]: in a job, DIRS is what it was when the shell started. (PWD comes from the current directory of the process.) *)
Theorem c66_dirs_refuted :
  let h := [Do (Permanent "DIRS" (Dirs ["/home"; "/tmp"]))] in
  exists s v, run pv small start_vars h (new_session pv start_vars) = Some s /\ lookup (now s) "DIRS" = Some (Dirs ["/home"; "/tmp"]) /\
    child pv small start_vars false 7 8 7 (file s) (now s) = Started v /\ lookup v "DIRS" = Some (Dirs ["/home"]).
Proof. do 2 eexists. split; [reflexivity|]. repeat split. Qed.
Print Assumptions c66_order_refuted.
Print Assumptions c66_captured_refuted.
Print Assumptions c66_dirs_refuted.
