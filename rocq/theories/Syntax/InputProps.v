(** C86: the commands that marcel runs are those it is given. [script] (ScriptsSpec.v, C30) says what the commands of a text are. *)
From Verif.Syntax Require Import Input ScriptsSpec ScriptsProps.
Local Open Scope char_scope.
Local Open Scope list_scope.

(** The commands of a script, [t]: those of its nonblank lines, continued lines put together. (Blank commands, which only continued lines can make, do nothing.) *)
Definition commands_of (t : text) (cmds : list text) : Prop :=
  exists ls all, lines_of t ls /\ script (filter nonblank ls) all /\ cmds = filter nonblank all.

Lemma commands_of_script t : commands_of t (filter nonblank (commands_in_script t)).
Proof. exists (split_lines t), (commands_in_script t). split; [apply split_spec|]. split; [apply (c30_commands t _ _ (split_spec t)); reflexivity|reflexivity]. Qed.
Theorem c86_determined t c c' : commands_of t c -> commands_of t c' -> c = c'.
Proof.
  intros (ls & a & L & S & ->) (ls' & a' & L' & S' & ->). rewrite (join_inj t ls' ls L' L) in S'.
  apply (c30_commands t ls a L) in S. apply (c30_commands t ls a' L) in S'. congruence.
Qed.

(** marcel SCRIPT runs the commands of the script, whatever its arguments, unless standard input is a pipe. *)
Theorem c86_script_partial files i path args t : (forall p, i <> Pipe p) -> files path = Some t ->
  exists cmds, main files i (path :: args) = Runs cmds /\ commands_of t cmds.
Proof.
  intros N F. exists (filter nonblank (commands_in_script t)). split; [|apply commands_of_script].
  destruct i as [|p|p]; [|destruct (N p eq_refl)|]; unfold main; cbn [input_source hd]; rewrite F; reflexivity.
Qed.
Theorem c86_missing files i path args : (forall p, i <> Pipe p) -> files path = None -> main files i (path :: args) = Not_found path.
Proof. intros N F. destruct i as [|p|p]; [|destruct (N p eq_refl)|]; unfold main; cbn [input_source hd]; rewrite F; reflexivity. Qed.
(** If it is, as in cat DATA | marcel SCRIPT, the script is not even looked for: the data is run, as if there were no script. *)
Theorem c86_script_refuted files files' args args' data : main files (Pipe data) args = main files' (Pipe data) args'.
Proof. reflexivity. Qed.
(** Without a script, at a terminal, marcel prompts, and only then. *)
Theorem c86_prompts files i args : main files i args = Prompts <-> i = Terminal /\ args = [].
Proof.
  destruct i as [|p|p], args as [|a args]; cbn; split; try (intros [? ?]; discriminate); try discriminate; try (split; reflexivity); try reflexivity.
  - destruct (files a); discriminate.
  - destruct (files a); discriminate.
Qed.

Lemma strip_blank l : nonblank l = false -> strip l = [].
Proof.
  intros B. assert (D : drop_ws l = []); [|unfold strip; now rewrite D].
  induction l as [|c l IH]; [reflexivity|]. cbn in B |- *. destruct (isspace c); cbn in B; [exact (IH B)|discriminate B].
Qed.
Lemma drop_ws_some l : nonblank l = true -> nonblank (drop_ws l) = true.
Proof. induction l as [|c l IH]; [discriminate|]. cbn. destruct (isspace c) eqn:E; cbn; [exact IH|]. rewrite E. reflexivity. Qed.
Lemma nonblank_rev l : nonblank (rev l) = nonblank l.
Proof.
  unfold nonblank. induction l as [|c l IH]; [reflexivity|]. cbn. rewrite existsb_app, IH. cbn. now rewrite orb_false_r, orb_comm.
Qed.
Lemma strip_some l : nonblank l = true -> strip l <> [].
Proof.
  intros B H. apply drop_ws_some in B. rewrite <- nonblank_rev in B. apply drop_ws_some in B. rewrite <- nonblank_rev in B.
  unfold strip in H. rewrite H in B. discriminate B.
Qed.
Lemma heredoc_app a b : Forall (fun l => nonblank l = true) a -> heredoc_lines (a ++ b) = map strip a ++ heredoc_lines b.
Proof.
  induction 1 as [|l a B _ IH]; [reflexivity|]. cbn [app heredoc_lines map].
  destruct (strip l) eqn:E; [destruct (strip_some l B E)|]. rewrite IH. reflexivity.
Qed.
Lemma lines_split t ls : lines_of t ls -> split_lines t = ls.
Proof. intros L. exact (join_inj t _ _ (split_spec t) L). Qed.
Lemma join_ended ls : ls <> [] -> (forall l, In l ls -> ~ In newline l) -> lines_of (join_lines ls) ls.
Proof. intros N H. split; [exact N|split; [reflexivity|exact H]]. Qed.

(** A text that comes through a pipe, without blank lines but perhaps one at its end, and without spaces at the ends of its lines:
    all of its commands are run; *)
Definition trimmed (l : text) : Prop := strip l = l.
Lemma filter_all ls : Forall (fun l => nonblank l = true) ls -> filter nonblank ls = ls.
Proof. induction 1 as [|l ls B _ IH]; [reflexivity|]. cbn. now rewrite B, IH. Qed.
Lemma strip_all ls : Forall trimmed ls -> map strip ls = ls.
Proof. induction 1 as [|l ls B _ IH]; [reflexivity|]. cbn. now rewrite B, IH. Qed.
Theorem c86_pipe_partial files args ls end_ : Forall (fun l => nonblank l = true /\ trimmed l /\ ~ In newline l) ls -> ls <> [] -> (end_ = [] \/ end_ = [[]]) ->
  exists cmds, main files (Pipe (join_lines (ls ++ end_))) args = Runs cmds /\ commands_of (join_lines (ls ++ end_)) cmds.
Proof.
  intros F N D. eexists. split; [reflexivity|].
  assert (F1 : Forall (fun l => nonblank l = true) ls) by (eapply Forall_impl; [|exact F]; cbn; tauto).
  assert (F2 : Forall trimmed ls) by (eapply Forall_impl; [|exact F]; cbn; tauto).
  assert (F3 : forall l, In l ls -> ~ In newline l) by (intros l I; rewrite Forall_forall in F; apply (F l I)).
  assert (L : lines_of (join_lines (ls ++ end_)) (ls ++ end_)).
  { apply join_ended; [destruct ls; [contradiction|discriminate]|]. intros l I. apply in_app_or in I as [I|I]; [exact (F3 l I)|].
    destruct D as [->|D]; [destruct I|]. rewrite D in I. destruct I as [<-|[]]. intros []. }
  assert (L' : lines_of (join_lines ls) ls) by (apply join_ended; assumption).
  unfold read_heredoc. rewrite (lines_split _ _ L), (heredoc_app ls end_ F1), (strip_all ls F2).
  replace (heredoc_lines end_) with (@nil text) by (destruct D as [->|D]; [reflexivity|rewrite D; reflexivity]).
  rewrite app_nil_r. exists (ls ++ end_), (commands_in_script (join_lines ls)). split; [exact L|]. split; [|reflexivity].
  replace (filter nonblank (ls ++ end_)) with (filter nonblank ls).
  - apply (c30_commands _ _ _ L'). reflexivity.
  - rewrite filter_app. destruct D as [->|D]; [now rewrite app_nil_r|]. rewrite D. cbn. now rewrite app_nil_r.
Qed.
(** but whatever follows a blank line is not run; *)
Theorem c86_pipe_blank_refuted files args ls blank rest : Forall (fun l => nonblank l = true /\ ~ In newline l) ls -> ls <> [] ->
  nonblank blank = false -> ~ In newline blank -> (forall l, In l rest -> ~ In newline l) ->
  main files (Pipe (join_lines (ls ++ blank :: rest))) args = main files (Pipe (join_lines ls)) args.
Proof.
  intros F N B NB R.
  assert (F1 : Forall (fun l => nonblank l = true) ls) by (eapply Forall_impl; [|exact F]; cbn; tauto).
  assert (F3 : forall l, In l ls -> ~ In newline l) by (intros l I; rewrite Forall_forall in F; apply (F l I)).
  unfold main. cbn [input_source]. unfold read_heredoc.
  rewrite (lines_split _ (ls ++ blank :: rest)).
  2: { apply join_ended; [destruct ls; discriminate|]. intros l I. apply in_app_or in I as [I|[<-|I]]; [exact (F3 l I)|exact NB|exact (R l I)]. }
  rewrite (lines_split _ ls) by (apply join_ended; assumption).
  rewrite (heredoc_app ls _ F1). rewrite <- (app_nil_r ls) at 2. rewrite (heredoc_app ls [] F1). cbn [heredoc_lines]. rewrite (strip_blank blank B). reflexivity.
Qed.
(** and a line that ends in a backslash and a space, which is a command of its own in a script, is continued. *)
Theorem c86_pipe_space_refuted : exists t, let script := txt "script" in
  main (fun _ => Some t) Terminal [script] = Runs [txt "echo \ "; txt "b"] /\ main (fun _ => Some t) (Pipe t) [] = Runs [txt "echo b"].
Proof. exists (txt "echo \ " ++ newline :: txt "b"). split; reflexivity. Qed.

(** marcel < FILE runs the commands of the file if none of its lines is continued; *)
Lemma gather_plain ls : Forall (fun l => ends_bslash l = false) ls -> gather_commands [] ls = filter nonblank ls.
Proof. induction 1 as [|l ls E _ IH]; [reflexivity|]. cbn. destruct (nonblank l); [rewrite E, IH; reflexivity|exact IH]. Qed.
Lemma filter_idem ls : filter nonblank (filter nonblank ls) = filter nonblank ls.
Proof. induction ls as [|l ls IH]; [reflexivity|]. cbn. destruct (nonblank l) eqn:E; [cbn; now rewrite E, IH|exact IH]. Qed.
Lemma input_lines_nonblank t : filter nonblank (input_lines t) = filter nonblank (split_lines t).
Proof.
  unfold input_lines. destruct (exists_last (split_nonempty t)) as (r & x & A). rewrite A, last_last, removelast_last.
  destruct x; [|reflexivity]. rewrite filter_app. cbn. now rewrite app_nil_r.
Qed.
Theorem c86_redirected_partial files t ls : lines_of t ls -> Forall (fun l => forall b, ~ continued l b) ls ->
  exists cmds, main files (Else t) [] = Runs cmds /\ commands_of t cmds.
Proof.
  intros L F. eexists. split; [reflexivity|]. rewrite input_lines_nonblank, (lines_split t ls L).
  exists ls, (filter nonblank ls). split; [exact L|]. split; [|symmetry; apply filter_idem].
  apply (c30_commands t ls _ L). unfold commands_in_script. rewrite (lines_split t ls L). apply gather_plain.
  eapply Forall_impl; [|exact F]. cbn. intros l H. destruct (ends_bslash l) eqn:E; [|reflexivity]. destruct (H _ (ends_spec l E)).
Qed.
(** otherwise its lines are run as they are, one by one. *)
Theorem c86_redirected_lines files t ls : lines_of t ls -> main files (Else t) [] = Runs (filter nonblank ls).
Proof. intros L. cbn. rewrite input_lines_nonblank, (lines_split t ls L). reflexivity. Qed.
Theorem c86_redirected_refuted : exists t, let script := txt "script" in
  main (fun _ => Some t) Terminal [script] = Runs [txt "echo b"] /\ main (fun _ => Some t) (Else t) [] = Runs [txt "echo \"; txt "b"].
Proof. exists (txt "echo \" ++ newline :: txt "b"). split; reflexivity. Qed.

(** Example: the same four lines as a script, through a pipe, and redirected. *)
Theorem c86_example : let t := txt "ls" ++ newline :: txt "ps | head 3" ++ newline :: txt "pwd" ++ [newline] in
  let cmds := [txt "ls"; txt "ps | head 3"; txt "pwd"] in
  main (fun _ => Some t) Terminal [txt "script"; txt "-v"] = Runs cmds /\ main (fun _ => None) (Pipe t) [] = Runs cmds /\
  main (fun _ => None) (Else t) [] = Runs cmds /\ commands_of t cmds /\ main (fun _ => None) (Else t) [txt "script"] = Not_found (txt "script").
Proof.
  repeat split; try reflexivity. exact (commands_of_script (txt "ls" ++ newline :: txt "ps | head 3" ++ newline :: txt "pwd" ++ [newline])).
Qed.

Print Assumptions c86_determined. Print Assumptions c86_script_partial. Print Assumptions c86_missing. Print Assumptions c86_script_refuted.
Print Assumptions c86_prompts. Print Assumptions c86_pipe_partial. Print Assumptions c86_pipe_blank_refuted. Print Assumptions c86_pipe_space_refuted.
Print Assumptions c86_redirected_partial. Print Assumptions c86_redirected_lines. Print Assumptions c86_redirected_refuted. Print Assumptions c86_example.
