(** C60: a function written in a command can be called wherever the command is executed: false of the code, and exactly where
    it is true. *)
From Coq Require Import List Bool Arith Lia.
From Verif.Sys Require Import Funcs FuncsSpec FuncsFacts FuncsInv FuncsJob.
Import ListNotations.

Definition works_in (exec : list op -> use -> Prop) (ops : list op) : Prop := forall u, exec ops u -> works u = true.

(** In a script: all the functions that the command uses are there if and only if each is used in a place where it can be. *)
Theorem c60_script : forall ops, Forall parsed ops -> (works_in in_script ops <-> all_usable Script ops).
Proof.
  intros ops P. apply running_ok; [discriminate|]. rewrite Forall_forall in *. intros o I. apply parsed_inv. auto.
Qed.

(** In a job. Missing: a case inside a remote (see c60_remote_case). *)
Lemma job_ok : forall ops, Forall parsed ops -> Forall remotes_caseless ops -> (works_in in_job ops <-> all_usable Prompt ops).
Proof.
  intros ops P R. set (l := pickle ops).
  assert (F : Forall (inv Process false) l).
  { rewrite Forall_forall in *. intros o I. apply in_map_iff in I. destruct I as (o0 & <- & I). apply parsed_inv. auto. }
  assert (Sl : Forall2 same ops l) by apply pickles_same.
  assert (Rl : Forall remotes_caseless l).
  { rewrite Forall_forall in *. intros o I. destruct (Forall2_in_r _ _ _ _ _ _ Sl I) as (o0 & I0 & S0). eapply same_remotes; eauto. }
  assert (OK : forall ops', snd (compile (depths l) l) = Some ops' -> Forall (inv Prompt false) ops').
  { intros ops' E. pose proof E as E'. rewrite compile_unfold in E'. apply each_some in E'. rewrite Forall_forall in *. intros o' I.
    destruct (Forall2_in_r _ _ _ _ _ _ E' I) as (o & Io & Eo). apply (compile_ok (depths l) o o' false); auto. eapply depths_in; eauto. }
  assert (SS : forall ops', snd (compile (depths l) l) = Some ops' -> Forall2 same ops ops').
  { intros ops' E. eapply sames_trans; [exact Sl|]. eapply compiles_same; eauto. }
  split.
  - intros H path k f i Wr X. destruct (usable_dec (along Prompt path) k f) as [Y|N]; auto. exfalso.
    destruct (snd (compile (depths l) l)) as [ops'|] eqn:E.
    + apply N. refine (proj1 (running_ok ops' Prompt ltac:(discriminate) (OK _ eq_refl)) _ path k f i _ X).
      * intros u Ru. apply H. right. exists ops'. auto.
      * eapply same_written; eauto. now apply sames_sym, SS.
    + destruct (compiles_none _ _ Rl (le_n _) E) as (u & I & W). rewrite H in W; [discriminate|]. now left.
  - intros H u U. destruct U as [I|(ops' & E & Ru)].
    + fold l in I. destruct (works u) eqn:W; auto. exfalso. rewrite compile_unfold in I. apply each_in in I. destruct I as (o & Io & I).
      rewrite Forall_forall in F, Rl.
      destruct (compile_bad (depths l) o u false) as (path & k & f & Wr & X & V); auto; [eapply depths_in; eauto|].
      apply V. apply (H path k f (used u)); [|now apply evaluated_app]. eapply same_written; [|exact Sl]. now apply written_in with o.
    + fold l in E. apply (proj2 (running_ok ops' Prompt ltac:(discriminate) (OK _ E))); auto.
      intros path k f i Wr X. apply (H path k f i); auto. eapply same_written; eauto.
Qed.
Theorem c60_job_partial : forall ops, Forall parsed ops -> Forall remotes_caseless ops ->
  (works_in in_job ops <-> all_usable Prompt ops).
Proof. exact job_ok. Qed.

(** At the prompt: the first operator decides which it is. *)
Theorem c60_prompt_partial : forall k args subs ops, Forall parsed (Op k args subs :: ops) ->
  Forall remotes_caseless (Op k args subs :: ops) ->
  (works_in at_prompt (Op k args subs :: ops) <->
   all_usable (if existsb (fun m => if kind_eq k m then true else false) [KMap; KCd; KPushd; KHistory; KMainOther] then Script else Prompt)
     (Op k args subs :: ops)).
Proof.
  intros k args subs ops P R. assert (E : existsb (fun m => if kind_eq k m then true else false) [KMap; KCd; KPushd; KHistory; KMainOther] = in_main k)
    by now destruct k.
  rewrite E. unfold works_in, at_prompt. destruct (in_main k); [now apply c60_script|now apply job_ok].
Qed.

(** ** What follows. *)

(** In a script, all is well without fork, remote and sudo. *)
Lemma along_script : forall path, (forall k d, In (k, d) path -> k <> KFork /\ k <> KRemote /\ k <> KSudo) -> along Script path = Script.
Proof.
  induction path as [|[k d] path IH]; intros H; [reflexivity|]. cbn [along fold_left]. rewrite enter_script.
  - apply IH. intros k' d' I. eapply H. right. eauto.
  - destruct (H k d (or_introl eq_refl)) as (A & B & C). destruct k; cbn; congruence.
Qed.
Theorem c60_script_all : forall ops, Forall parsed ops ->
  (forall path k f i kk d, written ops path k f i -> In (kk, d) path -> kk <> KFork /\ kk <> KRemote /\ kk <> KSudo) ->
  works_in in_script ops.
Proof.
  intros ops P H. apply c60_script; auto. intros path k f i Wr _. rewrite along_script; [now right|]. intros kk d I. eapply H; eauto.
Qed.

(** The functions applied to tuples by map, select, sort, red, squish and window work in a script, in a job and at the prompt, at
    any depth. *)
Theorem c60_everywhere_partial : forall ops, Forall parsed ops -> Forall remotes_caseless ops ->
  (forall path k f i, written ops path k f i ->
     (k = KMap \/ k = KSelect \/ k = KRed \/ k = KSquish) /\ f = FFunction \/ k = KSort /\ f = FKey \/ k = KWindow /\ f = FPredicate) ->
  works_in in_script ops /\ works_in in_job ops /\ works_in at_prompt ops.
Proof.
  intros ops P R H.
  assert (A : forall pl, all_usable pl ops).
  { intros pl path k f i Wr _. left. apply inb_in. destruct (H _ _ _ _ Wr) as [([|[|[|]]] & ->)|[(-> & ->)|(-> & ->)]]; subst; reflexivity. }
  assert (S : works_in in_script ops) by now apply c60_script. assert (J : works_in in_job ops) by now apply job_ok.
  split; [auto|]. split; [auto|]. intros u U. destruct ops as [|[k args subs] ops]; [easy|]. cbn in U. destruct (in_main k); auto.
Qed.

(** A pipeline variable is a way out: a function inside the value of a variable works even in a fork, where the same function
    written in place would not. *)
Theorem c60_stored : forall pl path d, along pl (path ++ [(KRunPipeline, d)]) = Script.
Proof. intros pl path d. unfold along. rewrite fold_left_app. reflexivity. Qed.

(** ** The property is false. In the comments: the command. *)
Local Notation f1 := (Fun 1 true).
Local Notation pipe_of l := (false, l).
Fixpoint parsedb (o : op) : bool :=
  match o with
  | Op k args subs =>
    forallb (fun fa => match snd fa with Fun _ r => r | Const => true end) args &&
    (negb (if kind_eq k KCase then true else false) || (length subs =? length args) || (length subs =? S (length args))) &&
    forallb (fun p => negb (fst p) && forallb parsedb (snd p)) subs
  end.
Lemma parsedb_ok : forall o, parsedb o = true -> parsed o.
Proof.
  induction o as [k args subs IH] using op_ind2. intros H. cbn in H. apply andb_true_iff in H. destruct H as (H & H3).
  apply andb_true_iff in H. destruct H as (H1 & H2). rewrite forallb_forall in H1, H3. constructor.
  - intros f i r I. exact (H1 _ I).
  - intros ->. cbn in H2. apply orb_true_iff in H2. destruct H2 as [E|E]; apply Nat.eqb_eq in E; auto.
  - intros st sub I. specialize (H3 _ I). apply andb_true_iff in H3. destruct H3 as (E & _). cbn in E. now destruct st.
  - intros st sub o I Io. specialize (H3 _ I). apply andb_true_iff in H3. destruct H3 as (_ & E). rewrite forallb_forall in E. cbn in E. eauto.
Qed.
Lemma parsedbs_ok : forall ops, forallb parsedb ops = true -> Forall parsed ops.
Proof. intros ops H. rewrite forallb_forall in H. apply Forall_forall. intros o I. apply parsedb_ok. auto. Qed.
Ltac parsed_tac := apply parsedbs_ok; reflexivity.
(** No remote at all. *)
Fixpoint remoteless (o : op) : bool :=
  match o with
  | Op k args subs => negb (if kind_eq k KRemote then true else false) && forallb (fun p => forallb remoteless (snd p)) subs
  end.
Lemma remoteless_ok : forall o, remoteless o = true -> remotes_caseless o.
Proof.
  induction o as [k args subs IH] using op_ind2. intros H. cbn in H. apply andb_true_iff in H. destruct H as (H & H3). rewrite forallb_forall in H3.
  constructor.
  - intros st sub o I Io. specialize (H3 _ I). rewrite forallb_forall in H3. cbn in H3. eauto.
  - intros ->. discriminate.
Qed.

(** gen -p (2) 3 *)
Definition gen_pad := [Op KGen [(FPad, f1); (FCount, Const); (FStart, Const)] []].
(** gen 3 | expand (0) *)
Definition expand_position := [Op KGen [(FCount, Const)] []; Op KExpand [(FPosition, f1)] []].
(** p (1+2), with p the pipeline variable (| n: gen 3 |) *)
Definition pipeline_arg := [Op KRunPipeline [(FArgs, f1)] [pipe_of [Op KGen [(FCount, Const)] []]]].
(** gen 3 | write (f) *)
Definition write_file := [Op KGen [(FCount, Const)] []; Op KWrite [(FFilename, f1)] []].
(** bash (x) *)
Definition bash_arg := [Op KBash [(FArgs, f1)] []].
(** fork (n) (| gen 3 |) *)
Definition fork_count := [Op KFork [(FForkgen, f1)] [pipe_of [Op KGen [(FCount, Const)] []]]].
(** fork 3 (| gen (n) |) *)
Definition fork_inside := [Op KFork [(FForkgen, Const)] [pipe_of [Op KGen [(FCount, f1)] []]]].
(** fork 3 (| gen 3 | case (x: x > 1) (| map (x: x) |) |) *)
Definition fork_case := [Op KFork [(FForkgen, Const)]
  [pipe_of [Op KGen [(FCount, Const)] []; Op KCase [(FPredicate, f1)] [pipe_of [Op KMap [(FFunction, Fun 2 true)] []]]]]].
(** gen 3 | case (x: x > 1) (| head (n) |) *)
Definition case_branch := [Op KGen [(FCount, Const)] []; Op KCase [(FPredicate, f1)] [pipe_of [Op KHead [(FN, Fun 2 true)] []]]].

Lemma not_all : forall (exec : list op -> use -> Prop) ops u, exec ops u -> works u = false -> ~ works_in exec ops.
Proof. intros exec ops u H W A. rewrite (A u H) in W. discriminate. Qed.

Ltac fails n := apply not_all with (mkuse n false); [|reflexivity].
Theorem c60_false :
  (~ works_in at_prompt gen_pad /\ works_in in_script gen_pad) /\
  (~ works_in at_prompt expand_position /\ works_in in_script expand_position) /\
  (~ works_in at_prompt pipeline_arg /\ works_in in_script pipeline_arg) /\
  (~ works_in at_prompt write_file /\ works_in in_script write_file) /\
  (~ works_in at_prompt bash_arg /\ works_in in_script bash_arg) /\
  (~ works_in at_prompt fork_count /\ works_in in_script fork_count) /\
  (~ works_in at_prompt case_branch /\ works_in in_script case_branch) /\
  (~ works_in at_prompt fork_inside /\ ~ works_in in_script fork_inside) /\
  (~ works_in at_prompt fork_case /\ ~ works_in in_script fork_case).
Proof.
  assert (NF : forall ops, Forall parsed ops -> (forall path k f i kk d, written ops path k f i -> In (kk, d) path -> kk <> KFork /\ kk <> KRemote /\ kk <> KSudo) ->
               works_in in_script ops) by exact c60_script_all.
  assert (S1 : forall k args k2 args2 , Forall parsed [Op k args []; Op k2 args2 []] -> works_in in_script [Op k args []; Op k2 args2 []]).
  { intros k args k2 args2 P. apply NF; auto. intros path k' f i kk d W I. inversion W as [|? ? ? ? n ? ? ? ? ? ? Io N]; subst; [easy|].
    destruct Io as [E|[E|[]]]; inversion E; subst; destruct n; discriminate. }
  assert (S0 : forall k args, Forall parsed [Op k args []] -> works_in in_script [Op k args []]).
  { intros k args P. apply NF; auto. intros path k' f i kk d W I. inversion W as [|? ? ? ? n ? ? ? ? ? ? Io N]; subst; [easy|].
    destruct Io as [E|[]]; inversion E; subst; destruct n; discriminate. }
  repeat match goal with |- _ /\ _ => split end.
  - fails 1. right. eexists. split; [reflexivity|]. left. now left.
  - apply S0. parsed_tac.
  - fails 1. right. eexists. split; [reflexivity|]. left. now left.
  - apply S1. parsed_tac.
  - fails 1. right. eexists. split; [reflexivity|]. left. now left.
  - apply NF; [parsed_tac|]. intros path k f i kk d W I. inversion W as [|? ? ? ? n ? ? p ? ? ? Io N W2]; subst; [easy|].
    destruct Io as [E|[]]; inversion E; subst. destruct n as [|[|n]]; cbn in N; try easy. inversion N; subst. inversion W2 as [|? ? ? ? n ? ? ? ? ? ? Io2 N2]; subst.
    + destruct I as [I|[]]. inversion I; subst. easy.
    + destruct Io2 as [E2|[]]; inversion E2; subst; destruct n; discriminate.
  - fails 1. right. eexists. split; [reflexivity|]. left. now left.
  - apply S1. parsed_tac.
  - fails 1. right. eexists. split; [reflexivity|]. left. now left.
  - apply S0. parsed_tac.
  - fails 1. right. eexists. split; [reflexivity|]. left. now left.
  - apply c60_script; [parsed_tac|]. intros path k f i W I.
    inversion W as [? ? ? ? ? ? ? Io Ia|? ? ? ? n ? ? p ? ? ? Io N W2]; subst; [now right|].
    destruct Io as [E|[]]; inversion E; subst. destruct n as [|[|n]]; cbn in N; try easy. inversion N; subst.
    inversion W2 as [? ? ? ? ? ? ? Io2 Ia2|? ? ? ? n ? ? ? ? ? ? Io2 N2]; subst.
    + destruct Io2 as [E2|[]]; inversion E2; subst. cbn in Ia2. destruct Ia2 as [Q|[]]; discriminate.
    + destruct Io2 as [E2|[]]; inversion E2; subst; destruct n; discriminate.
  - fails 2. left. now left.
  - apply NF; [parsed_tac|]. intros path k f i kk d W I. inversion W as [|? ? ? ? n ? ? p ? ? ? Io N W2]; subst; [easy|].
    destruct Io as [E|[E|[]]]; inversion E; subst; destruct n as [|[|n]]; cbn in N; try easy. inversion N; subst. inversion W2 as [|? ? ? ? n ? ? ? ? ? ? Io2 N2]; subst.
    + destruct I as [I|[]]. inversion I; subst. easy.
    + destruct Io2 as [E2|[]]; inversion E2; subst; destruct n; discriminate.
  - fails 1. right. eexists. split; [reflexivity|]. right. eexists. split; [reflexivity|].
    eapply happens_elsewhere_setup; [now left|reflexivity|now left|now left].
  - fails 1. right. eexists. split; [reflexivity|].
    eapply happens_elsewhere_setup; [now left|reflexivity|now left|now left].
  - fails 1. right. eexists. split; [reflexivity|]. right. eexists. split; [reflexivity|].
    eapply happens_elsewhere; [now left|reflexivity|now left|reflexivity|]. eapply happens_call; [right; now left|now left|reflexivity].
  - fails 1. right. eexists. split; [reflexivity|].
    eapply happens_elsewhere; [now left|reflexivity|now left|reflexivity|]. eapply happens_call; [right; now left|now left|reflexivity].
Qed.

(** What c60_job_partial leaves out: a case inside a remote. It is set up by the job, before it is sent, and not again at the
    other end, where its functions are missing. @host (| gen 3 | case (x: x > 1) (| map (x: x) |) |): even the function of
    map fails; in a script, only the predicate does. *)
Definition remote_case := [Op KRemote []
  [pipe_of [Op KGen [(FCount, Const)] []; Op KCase [(FPredicate, f1)] [pipe_of [Op KMap [(FFunction, Fun 2 true)] []]]]]].
Theorem c60_remote_case :
  at_prompt remote_case (mkuse 2 false) /\ (forall u, in_script remote_case u -> used u = 2 -> works u = true).
Proof.
  split.
  - right. eexists. split; [reflexivity|]. right. eexists. split; [reflexivity|].
    eapply happens_elsewhere; [now left|reflexivity|now left|reflexivity|].
    eapply happens_set_up; [right; now left|reflexivity|now left|]. eapply happens_call; [now left|now left|reflexivity].
  - intros u [I|(ops' & E & H)] U; [easy|]. cbn in E. inversion E; subst; clear E.
    destruct (works u) eqn:W; auto. exfalso.
    assert (P : Forall (inv Process true) [Op KCase [(FPredicate, Fun 1 false)] [(true, [Op KMap [(FFunction, Fun 2 true)] []])]]).
    { constructor; [|constructor]. constructor.
      - intros f i r [Q|[]]. now inversion Q; subst.
      - intros f i r [Q|[]]. now inversion Q; subst.
      - now left.
      - intros st sub [Q|[]]. now inversion Q; subst.
      - intros _ n st sub o N Io. destruct n as [|[|n]]; try easy. cbn in N. inversion N; subst. destruct Io as [<-|[]].
        constructor.
        + intros f i r [Q|[]]. now inversion Q; subst.
        + intros f i r [Q|[]]. now inversion Q; subst.
        + discriminate.
        + intros st sub [].
        + intros _ n' st sub o N'. destruct n'; discriminate.
        + discriminate.
      - discriminate. }
    inversion H as [? ? ? ? ? ? ? Io Ia X|? ? ? ? ? ? ? Io X|? ? ? ? ? ? Io X|? ? ? ? ? ? ? ? Io X|? ? ? ? ? ? ? Io X Is Iu|? ? ? ? ? ? ? ? Io X Is Ep Hp]; subst;
      try (destruct Io as [E|[]]; inversion E; subst); try easy.
    + destruct Is as [Q|[]]. inversion Q; subst. easy.
    + destruct Is as [Q|[]]. inversion Q; subst. cbn in Ep. inversion Ep; subst.
      destruct (happens_bad _ _ Hp W Process) as (path & k & f & Wr & Y & V).
      { constructor; [|exact P]. constructor.
        - intros f i r [Q'|[]]. inversion Q'.
        - intros f i r [Q'|[]]. inversion Q'.
        - discriminate.
        - intros st sub [].
        - intros _ n' st0 sub0 o N'. destruct n'; discriminate.
        - discriminate. }
      rewrite U in Wr. inversion Wr as [? ? ? ? ? ? ? I2 Ia2|? ? ? ? n ? ? ? ? ? ? I2 N2 W2]; subst.
      * destruct I2 as [E2|[E2|[]]]; inversion E2; subst; cbn in Ia2; destruct Ia2 as [Q2|[]]; inversion Q2.
      * destruct I2 as [E2|[E2|[]]]; inversion E2; subst; destruct n as [|[|n]]; cbn in N2; try easy. inversion N2; subst.
        inversion W2 as [? ? ? ? ? ? ? I3 Ia3|? ? ? ? n ? ? ? ? ? ? I3 N3]; subst.
        { destruct I3 as [E3|[]]; inversion E3; subst. cbn in Ia3. destruct Ia3 as [Q3|[]]; inversion Q3; subst. apply V. left. now left. }
        { destruct I3 as [E3|[]]; inversion E3; subst; destruct n; discriminate. }
Qed.

(** ** A command that meets the hypotheses of the theorems, with the two sides of c60_prompt_partial true.
    gen (n) | select (x: x > 1) | join (| gen (m) | map (x: (x, x)) |) | fork 3 (| map (x: x) |) | case (x: x) (| red + |) (| filter -k (x: x) (| gen 2 |) |) *)
Definition example_ok :=
  [Op KGen [(FPad, Const); (FCount, Fun 1 true)] [];
   Op KSelect [(FFunction, Fun 2 true)] [];
   Op KJoin [] [pipe_of [Op KGen [(FCount, Fun 3 true)] []; Op KMap [(FFunction, Fun 4 true)] []]];
   Op KFork [(FForkgen, Const)] [pipe_of [Op KMap [(FFunction, Fun 5 true)] []]];
   Op KCase [(FPredicate, Fun 6 true)] [pipe_of [Op KRed [(FFunction, Const)] []];
                                        pipe_of [Op KFilter [(FCompare, Fun 7 true)] [pipe_of [Op KGen [(FCount, Const)] []]]]]].
Fixpoint all_usableb (pl : place) (o : op) : bool :=
  match o with
  | Op k args subs =>
    forallb (fun fa => match snd fa with Fun _ _ => negb (run_calls k (fst fa) || setup_evaluates k (fst fa)) || usableb pl k (fst fa) | Const => true end) args &&
    (fix go (n : nat) (l : list (bool * list op)) : bool :=
       match l with
       | [] => true
       | p :: l => forallb (all_usableb (enter pl (k, is_default k args n))) (snd p) && go (S n) l
       end) 0 subs
  end.
Lemma all_usableb_ok : forall pl ops, forallb (all_usableb pl) ops = true -> all_usable pl ops.
Proof.
  intros pl ops H path k f i Wr. revert pl H. induction Wr as [ops k args subs f i r Io Ia|ops k args subs n st sub path k' f i Io N Wr IH]; intros pl H X.
  - rewrite forallb_forall in H. specialize (H _ Io). cbn in H. apply andb_true_iff in H. destruct H as (H & _). rewrite forallb_forall in H.
    specialize (H _ Ia). cbn in H. apply usableb_ok. apply app_cases in X. destruct X as [X|X]; rewrite X in H; [|rewrite orb_true_r in H]; exact H.
  - rewrite forallb_forall in H. specialize (H _ Io). cbn in H. apply andb_true_iff in H. destruct H as (_ & H).
    cbn [along fold_left]. apply IH; auto. clear - H N.
    assert (G : forall m, (fix go (n : nat) (l : list (bool * list op)) : bool :=
       match l with
       | [] => true
       | p :: l => forallb (all_usableb (enter pl (k, is_default k args n))) (snd p) && go (S n) l
       end) m subs = true -> forallb (all_usableb (enter pl (k, is_default k args (m + n)))) sub = true).
    { clear H. revert n N. induction subs as [|p subs IH]; intros n N m H; [destruct n; discriminate|]. apply andb_true_iff in H. destruct H as (H1 & H2).
      destruct n as [|n]; cbn in N; [inversion N; subst; now rewrite Nat.add_0_r|]. rewrite Nat.add_succ_r. apply (IH n N (S m) H2). }
    exact (G 0 H).
Qed.
Theorem c60_example : Forall parsed example_ok /\ Forall remotes_caseless example_ok /\ works_in at_prompt example_ok /\
  at_prompt example_ok (mkuse 5 true) /\ at_prompt example_ok (mkuse 3 true) /\ at_prompt example_ok (mkuse 7 true).
Proof.
  assert (P : Forall parsed example_ok) by parsed_tac.
  assert (R : Forall remotes_caseless example_ok).
  { apply Forall_forall. intros o I. apply remoteless_ok. cbn in I. intuition (subst; reflexivity). }
  split; [auto|]. split; [auto|]. split; [apply c60_prompt_partial; auto; apply all_usableb_ok; reflexivity|].
  split; [|split]; (right; eexists; split; [reflexivity|]; right; eexists; split; [reflexivity|]).
  - eapply happens_elsewhere; [do 3 right; now left|reflexivity|now left|reflexivity|]. eapply happens_call; [now left|now left|reflexivity].
  - eapply happens_here_setup; [do 2 right; now left|reflexivity|now left|]. now left.
  - eapply happens_set_up; [do 4 right; now left|reflexivity|right; now left|]. eapply happens_call; [now left|now left|reflexivity].
Qed.
