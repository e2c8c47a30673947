(** C81: what is false of the code, and cases that meet the hypotheses of the theorems. *)
From Coq Require Import ZArith.
From Verif.Ops Require Export ApiFunCase.
Local Open Scope list_scope.

(** gen(n), or gen(n) that cannot be set up; an operator that adds [k]; red + *)
Definition gen (n : nat) : behaviour := mkb (map (fun k => VInt (Z.of_nat k)) (seq 0 n)) (fun _ _ => []) (fun _ => []) false.
Definition bad_gen : behaviour := mkb [] (fun _ _ => []) (fun _ => []) true.
Definition number (v : val) : Z := match v with VInt z => z | _ => 0%Z end.
Definition add (k : Z) : behaviour := mkb [] (fun _ x => [VInt (number x + k)]) (fun _ => []) false.
Definition sum : behaviour := mkb [] (fun _ _ => []) (fun h => match h with [] => [] | _ => [VInt (fold_left (fun a x => (a + number x)%Z) h 0%Z)] end) false.
Definition i (z : Z) : val := VInt z.

(** args(lambda n: gen(n) | add(n) | sum()), run twice *)
Definition f1 : fn := mkf 1 0 (fun args => New (gen (Z.to_nat (number (hd VNone args)))) [add (number (hd VNone args)); sum]).
Example c81_args_case : fresh_function f1 2 /\ Forall2 (groups 1) [[i 2; i 3]; [i 4]] [[[i 2]; [i 3]]; [[i 4]]] /\
  map (fun gs => (concat (map (call_alone f1) gs), Normal)) [[[i 2]; [i 3]]; [[i 4]]] = [([i 5; i 12], Normal); ([i 22], Normal)] /\
  args_runs 5 false (mkp f1 [] None) no_mem [[i 2; i 3]; [i 4]] = [([i 5; i 12], Normal); ([i 22], Normal)].
Proof.
  split; [constructor; cbn; auto; intros args _; do 2 eexists; split; [reflexivity | cbn; auto] | ]. split; [ | now split].
  constructor; [ | constructor; [ | constructor]].
  - apply (g_full 1 [i 2] [i 3]); [reflexivity | ]. apply (g_full 1 [i 3] []); [reflexivity | constructor].
  - apply (g_full 1 [i 4] []); [reflexivity | constructor].
Qed.
(** args(lambda x, y: ...): the missing argument is None; with all=True *)
Definition f2 : fn := mkf 2 0 (fun args => New (mkb args (fun _ _ => []) (fun _ => []) false) []).
Example c81_groups_case : fresh_function f2 0 /\ groups 2 [i 1; i 2; i 3] [[i 1; i 2]; [i 3; VNone]] /\
  args_runs 3 false (mkp f2 [] None) no_mem [[i 1; i 2; i 3]] = [([i 1; i 2; i 3; VNone], Normal)].
Proof.
  split; [constructor; cbn; auto; intros args _; do 2 eexists; split; [reflexivity | cbn; auto] | ]. split; [ | reflexivity].
  apply (g_full 2 [i 1; i 2] [i 3]); [reflexivity | ]. apply (g_last 2 [i 3]). cbn. lia.
Qed.
Example c81_all_case : args_runs 5 true (mkp f1 [] None) no_mem [[i 2; i 3]; []] = [(call_alone f1 [VList [i 2; i 3]], Normal); ([], Normal)].
Proof. reflexivity. Qed.
(** case with branches of one operator *)
Definition b1 : list branch := [((fun x => Z.even (number x)), (add 100, [])); ((fun _ => true), (sum, []))].
Example c81_case_case : single b1 /\ case_run 2 b1 [i 1; i 2; i 3] = Some [i 102; i 4] /\ case_answers b1 [] [i 1; i 2; i 3] ++ case_end b1 [i 1; i 2; i 3] = [i 102; i 4].
Proof. split; [ | now split]. intros q b l [E | [E | []]]; injection E as <- <- <-; reflexivity. Qed.
(** case with a branch of two: all is lost *)
Definition b2 : list branch := [((fun _ => true), (add 1, [add 1]))].
Example c81_long_case : long b2 /\ case_run 9 b2 [i 1; i 2; i 3] = Some [].
Proof. split; [ | reflexivity]. intros q b l [E | []]; injection E as <- <- <-; discriminate. Qed.

(** ** p = gen(1); gather(xs | args(lambda x: p)): the second group of arguments ends in a RecursionError, whatever the depth of the stack *)
Lemma flush_loop : forall n m j, kinds m j = Redirect -> receiver m j = Some j -> flush n m j = None.
Proof. induction n as [ | n IH]; intros m j K R; [reflexivity | ]. cbn. rewrite K, R. now apply IH. Qed.
Definition shared : mem := mkm 1 (fun _ => Plain (gen 1)) (fun _ => None) (fun _ => []) [[0]] [].
Theorem c81_shared_refuted : forall limit x y, 3 <= limit ->
  args_runs limit false (mkp (mkf 1 0 (fun _ => Old 0)) [] None) shared [[x]] = [([i 0], Normal)] /\
  exists o, args_runs limit false (mkp (mkf 1 0 (fun _ => Old 0)) [] None) shared [[x; y]] = [(o, RecursionError)].
Proof.
  intros limit x y L. destruct limit as [ | [ | [ | n]]]; try lia. split; [reflexivity | ].
  cbn. match goal with |- context [flush n ?m 1] => rewrite (flush_loop n m 1) by reflexivity end. eexists. reflexivity.
Qed.

(** ** After a call whose pipeline cannot be set up, the pipeline is of no use any more *)
Definition f3 : fn := mkf 1 0 (fun args => New (if (number (hd VNone args) <? 0)%Z then bad_gen else gen (Z.to_nat (number (hd VNone args)))) []).
Theorem c81_after_failure_refuted : forall limit, 2 <= limit ->
  args_runs limit false (mkp f3 [] None) no_mem [[i 2]] = [([i 0; i 1], Normal)] /\
  args_runs limit false (mkp f3 [] None) no_mem [[i (-1)]; [i 2]] = [([], Killed); ([], Killed)].
Proof. intros limit L. destruct limit as [ | [ | n]]; try lia. split; reflexivity. Qed.

(** ** A function with a local variable, def f(x): y = x + 1; return gen(y), cannot be used *)
Theorem c81_locals_refuted : forall f limit m xs, 0 < f_locals f -> xs <> [] -> args_runs limit false (mkp f [] None) m [xs] = [([], TypeError)].
Proof.
  intros f limit m xs FL NE. cbn [args_runs]. unfold args_run.
  assert (OK : args_ok false (mkp f [] None) = true) by (unfold args_ok, n_parameters; cbn; destruct (f_params f + f_locals f) eqn:E; [lia | reflexivity]). rewrite OK.
  cbn [customize new_op exe custom function app]. set (p := mkp f [next m] None). set (m1 := mkm _ _ _ _ _ _).
  assert (RP : forall m args, length args = n_parameters f -> run_pipeline limit p m args = (m, p, TypeError)).
  { intros m0 args L. unfold run_pipeline, create. cbn. unfold n_parameters in L. destruct (Nat.eqb_spec (length args) (f_params f)); [lia | reflexivity]. }
  assert (Q : forall xs pending, length pending < n_parameters f -> pending ++ xs <> [] ->
    (exists pend, args_receive limit false p m1 pending xs = (m1, p, pend, TypeError)) \/
    (exists pend, args_receive limit false p m1 pending xs = (m1, p, pend, Normal) /\ pend <> [] /\ length pend < n_parameters f)).
  { induction xs0 as [ | x xs0 IH]; intros pending L NN; cbn [args_receive].
    - right. exists pending. rewrite app_nil_r in NN. auto.
    - cbn [negb andb function p]. destruct (Nat.eqb_spec (length (pending ++ [x])) (n_parameters f)) as [E | E].
      + left. rewrite RP by exact E. eauto.
      + apply IH; [rewrite app_length in *; cbn in *; lia | ]. now destruct pending. }
  assert (NP : 0 < n_parameters f) by (unfold n_parameters; lia).
  destruct (Q xs [] NP NE) as [(pend & ->) | (pend & -> & N & L)].
  - cbn [out m1]. now rewrite skipn_all.
  - unfold args_flush. destruct pend as [ | y pend]; [contradiction | ]. rewrite RP by (rewrite app_length, repeat_length; cbn [function p]; lia). cbn [out m1]. now rewrite skipn_all.
Qed.
Example c81_locals_case : args_runs 9 false (mkp (mkf 1 1 (fun _ => New (gen 3) [])) [] None) no_mem [[i 1; i 2; i 3]] = [([], TypeError)].
Proof. reflexivity. Qed.

Print Assumptions c81_args.
Print Assumptions c81_args_all.
Print Assumptions c81_case_partial.
Print Assumptions c81_case_refuted.
Print Assumptions c81_shared_refuted.
Print Assumptions c81_after_failure_refuted.
Print Assumptions c81_locals_refuted.
