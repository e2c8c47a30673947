(** C69: proofs. *)
From Verif.Env Require Import EnvOpSpec.
Local Open Scope string_scope.
Local Open Scope list_scope.

Lemma leq_before a b : leq a b = true <-> before a b.
Proof.
  revert b. induction a as [|c a IH]; intros b.
  - split; [intros _; left; now exists b|reflexivity].
  - destruct b as [|d b]; cbn.
    + split; [discriminate|]. intros [[r E]|(p & x & y & r & s & E & E' & _)]; [discriminate|]. destruct p; discriminate.
    + destruct (N.ltb_spec (N_of_ascii c) (N_of_ascii d)) as [L|G].
      * split; [|reflexivity]. intros _. right. exists "", c, d, a, b. auto.
      * destruct (N.ltb_spec (N_of_ascii d) (N_of_ascii c)) as [L|G'].
        -- split; [discriminate|]. intros [[r E]|(p & x & y & r & s & E & E' & Lt)].
           ++ injection E as -> _. lia.
           ++ destruct p as [|z p]; cbn in E, E'; inversion E; inversion E'; subst; lia.
        -- assert (C : c = d) by (rewrite <- (ascii_N_embedding c), <- (ascii_N_embedding d); f_equal; lia). subst d. rewrite IH. split.
           ++ intros [[r ->]|(p & x & y & r & s & -> & -> & Lt)]; [left; now exists r|right]. exists (String c p), x, y, r, s. auto.
           ++ intros [[r E]|(p & x & y & r & s & E & E' & Lt)].
              ** injection E as E. left. now exists r.
              ** destruct p as [|z p]; cbn in E, E'; inversion E; inversion E'; subst; [lia|]. right. exists p, x, y, r, s. auto.
Qed.
Lemma leq_total a b : leq a b = true \/ leq b a = true.
Proof.
  revert b. induction a as [|c a IH]; intros [|d b]; cbn; auto.
  destruct (N.ltb_spec (N_of_ascii c) (N_of_ascii d)); auto. destruct (N.ltb_spec (N_of_ascii d) (N_of_ascii c)); auto.
Qed.
Lemma leq_trans a b c : leq a b = true -> leq b c = true -> leq a c = true.
Proof.
  revert b c. induction a as [|x a IH]; intros [|y b] [|z c]; cbn; try discriminate; auto.
  destruct (N.ltb_spec (N_of_ascii x) (N_of_ascii y)), (N.ltb_spec (N_of_ascii y) (N_of_ascii x)), (N.ltb_spec (N_of_ascii y) (N_of_ascii z)),
    (N.ltb_spec (N_of_ascii z) (N_of_ascii y)), (N.ltb_spec (N_of_ascii x) (N_of_ascii z)), (N.ltb_spec (N_of_ascii z) (N_of_ascii x));
    intros; try discriminate; try lia; auto. eauto.
Qed.

Lemma prefix_app p s : String.prefix p s = true <-> exists b, s = (p ++ b)%string.
Proof.
  revert s. induction p as [|c p IH]; intros s; [split; [intros _; now exists s|destruct s; reflexivity]|].
  destruct s as [|d s]; [split; [discriminate|intros [b E]; discriminate]|]. cbn [String.prefix append]. destruct (ascii_dec c d) as [->|N].
  - rewrite IH. split; intros [b E]; exists b; [now rewrite E|now injection E].
  - split; [discriminate|intros [b E]; injection E; congruence].
Qed.
Lemma contains_part p s : contains p s = true <-> part_of p s.
Proof.
  induction s as [|c s IH]; cbn [contains].
  - rewrite orb_false_r, prefix_app. split.
    + intros [b E]. exists "", b. exact E.
    + intros (a & b & E). destruct a; [|discriminate]. now exists b.
  - rewrite orb_true_iff, prefix_app, IH. split.
    + intros [[b E]|(a & b & E)]; [exists "", b; exact E|exists (String c a), b; cbn; now rewrite E].
    + intros (a & b & E). destruct a as [|d a]; [left; now exists b|right]. injection E as -> E. now exists a, b.
Qed.

Section Proofs.
Variable V : Type.
Notation dict := (dict V).

Lemma insert_perm (e : string * V) l : Permutation (insert V e l) (e :: l).
Proof. induction l as [|f l IH]; cbn; [auto|]. destruct (leq _ _); [auto|]. rewrite IH. apply perm_swap. Qed.
Lemma sorted_perm (l : dict) : Permutation (sorted l) l.
Proof. induction l as [|e l IH]; cbn; [auto|]. fold (sorted l). now rewrite insert_perm, IH. Qed.
Definition by_name (e f : string * V) : Prop := leq (fst e) (fst f) = true.
Lemma insert_sorted e l : StronglySorted by_name l -> StronglySorted by_name (insert V e l).
Proof.
  induction 1 as [|f l S IH F]; cbn; [repeat constructor|]. destruct (leq (fst e) (fst f)) eqn:L.
  - constructor; [now constructor|]. constructor; [exact L|]. eapply Forall_impl; [|exact F]. intros g G. now apply (leq_trans _ (fst f)).
  - constructor; [exact IH|]. apply Forall_forall. intros g G. apply (Permutation_in g (insert_perm e l)) in G. destruct G as [<-|G].
    + destruct (leq_total (fst e) (fst f)); [congruence|assumption].
    + rewrite Forall_forall in F. auto.
Qed.
Lemma sorted_sorted (l : dict) : StronglySorted by_name (sorted l).
Proof. induction l as [|e l IH]; cbn; [constructor|]. now apply insert_sorted. Qed.
Lemma filter_sorted p (l : dict) : StronglySorted by_name l -> StronglySorted by_name (filter p l).
Proof.
  induction 1 as [|f l S IH F]; cbn; [constructor|]. destruct (p f); [|exact IH]. constructor; [exact IH|].
  apply Forall_forall. intros g G. apply filter_In in G. rewrite Forall_forall in F. now apply F.
Qed.
Lemma names_sorted (l : dict) : StronglySorted by_name l -> StronglySorted before (map fst l).
Proof.
  induction 1 as [|f l S IH F]; cbn; constructor; auto. apply Forall_forall. intros x I. apply in_map_iff in I as (g & <- & I).
  rewrite Forall_forall in F. apply leq_before. now apply F.
Qed.
Lemma filter_nodup p (l : dict) : NoDup (map fst l) -> NoDup (map fst (filter p l)).
Proof.
  induction l as [|e l IH]; cbn; [auto|]. intros N. inversion_clear N as [|? ? N1 N2]. destruct (p e); [|auto]. cbn. constructor; [|auto].
  intros I. apply N1. apply in_map_iff in I as (f & E & I). apply filter_In in I as [I _]. apply in_map_iff. eauto.
Qed.
Lemma shows_from (l : dict) d P : proper d -> (forall x v, In (x, v) l <-> In (x, v) d /\ P x) -> StronglySorted by_name l -> NoDup (map fst l) -> shows V l d P.
Proof. intros N E S D. split; [exact E|]. split; [exact D|]. now apply names_sorted. Qed.
Lemma sorted_nodup (l : dict) : proper l -> NoDup (map fst (sorted l)).
Proof. intros N. eapply Permutation_NoDup; [|exact N]. apply Permutation_map. symmetry. apply sorted_perm. Qed.
Lemma in_sorted (l : dict) e : In e (sorted l) <-> In e l.
Proof. split; apply Permutation_in; [|symmetry]; apply sorted_perm. Qed.
Lemma get_pop (d : dict) x y : proper d -> get y (pop x d) = if String.eqb y x then None else get y d.
Proof.
  unfold proper. induction d as [|[z v] d IH]; cbn; intros N; [now destruct (String.eqb y x)|]. inversion_clear N as [|? ? N1 N2].
  destruct (String.eqb_spec x z) as [->|NE].
  - clear IH. destruct (String.eqb y z) eqn:E; [|reflexivity]. apply String.eqb_eq in E. rewrite E. destruct (get z d) eqn:G; [|reflexivity]. elim N1.
    clear - G. induction d as [|[w u] d IH]; cbn in *; [discriminate|]. destruct (String.eqb_spec z w); auto.
  - cbn. rewrite IH by exact N2. destruct (String.eqb_spec y z), (String.eqb_spec y x); subst; congruence || reflexivity.
Qed.
Lemma get_value x (d : dict) : get x d = value x d.
Proof. unfold value. induction d as [|[y v] d IH]; cbn; [reflexivity|]. now destruct (String.eqb x y). Qed.
Lemma include_visible a x (v : V) : a_os a = false -> include V a (x, v) = true <-> visible a x.
Proof.
  intros O. unfold include, visible. rewrite orb_true_iff, negb_true_iff, String.eqb_neq, O. cbn. intuition discriminate.
Qed.

(** For all variables, and all requests but an empty name; a variable that is None counts as undefined. *)
Theorem c69_env_partial : forall (is_none : V -> bool) immutable a (host d : dict), proper host -> proper d -> accepted a ->
  a_var a <> Some "" -> a_delete a <> Some "" ->
  (forall x v, a_var a = Some x -> a_os a = false -> value x d = Some v -> is_none v = false) ->
  answers immutable a host d (run V is_none immutable a host d).
Proof.
  intros is_none immutable a host d PH PD (A1 & A2 & A3 & A4) NV ND NN. unfold answers, asked, run, source.
  assert (TR : forall o, o <> Some "" -> truthy o = o) by (intros [[|]|]; cbn; congruence).
  rewrite (TR _ NV), (TR _ ND). destruct (a_var a) as [x|] eqn:EV.
  - destruct (a_os a) eqn:O.
    + unfold os_one_var. rewrite get_value. destruct (value x host); cbn; auto.
    + unfold marcel_one_var. rewrite get_value. destruct (value x d) eqn:G; cbn; auto. rewrite (NN x v) by auto. cbn. auto.
  - destruct (a_delete a) as [x|] eqn:ED.
    + unfold marcel_delete_var. destruct (immutable x); cbn; [auto|]. rewrite get_value. destruct (value x d) eqn:G; cbn.
      * split; [intros y N; rewrite <- !get_value, get_pop by exact PD; now destruct (String.eqb_spec y x)|].
        rewrite <- get_value, get_pop by exact PD. now rewrite String.eqb_refl.
      * auto.
    + assert (ALL : shows V (sent (if a_os a then os_all_vars V host d else marcel_all_vars V a d)) (if a_os a then host else d) (visible a) /\
        after (if a_os a then os_all_vars V host d else marcel_all_vars V a d) = d /\ ending (if a_os a then os_all_vars V host d else marcel_all_vars V a d) = Done).
      { destruct (a_os a) eqn:O; cbn; (split; [|auto]); apply shows_from; auto.
        - intros x v. rewrite in_sorted. unfold visible. rewrite O. intuition auto.
        - apply sorted_sorted.
        - now apply sorted_nodup.
        - intros x v. rewrite filter_In, in_sorted, (include_visible a x v O). reflexivity.
        - apply filter_sorted, sorted_sorted.
        - now apply filter_nodup, sorted_nodup. }
      destruct (a_pattern a) as [[|c p]|] eqn:EP; [|set (p' := String c p)|exact ALL].
      * cbn [truthy]. destruct ALL as [(E & D & S) AL]. split; [|exact AL]. split; [|auto]. intros x v. rewrite E. split; [|tauto].
        intros [I W]. repeat split; auto. exists "", x. reflexivity.
      * change (truthy (Some p')) with (Some p'). destruct (a_os a) eqn:O; cbn [sent after ending os_matching_vars marcel_matching_vars]; (split; [|auto]); apply shows_from; auto.
        -- intros x v. rewrite filter_In, in_sorted. cbn [fst]. rewrite contains_part. unfold visible. rewrite O. intuition auto.
        -- apply filter_sorted, sorted_sorted.
        -- now apply filter_nodup, sorted_nodup.
        -- intros x v. rewrite in_sorted, !filter_In. cbn [fst]. rewrite contains_part, (include_visible a x v O). tauto.
        -- apply sorted_sorted.
        -- apply sorted_nodup. now apply filter_nodup, filter_nodup.
Qed.

(** A variable whose value is None is reported as undefined, though env lists it. *)
Theorem c69_none_refuted : forall (is_none : V -> bool) immutable x v (host d : dict), x <> "" -> x <> "__builtins__" -> value x d = Some v -> is_none v = true ->
  ending (run V is_none immutable (mkarguments (Some x) None None false false) host d) = Killed /\
  In (x, v) (sent (run V is_none immutable (mkarguments None None None false false) host d)).
Proof.
  intros is_none immutable x v host d NX NB G N. rewrite <- get_value in G. split.
  - unfold run. cbn. destruct x; [congruence|]. unfold marcel_one_var. now rewrite G, N.
  - unfold run. cbn. apply filter_In. split.
    + apply in_sorted. clear - G. induction d as [|[y u] d IH]; cbn in *; [discriminate|].
      destruct (String.eqb_spec x y) as [->|]; [left; congruence|right; auto].
    + unfold include. cbn. now destruct (String.eqb_spec x "__builtins__").
Qed.
(** An empty name is ignored: all variables are listed. *)
Theorem c69_empty_refuted : forall (is_none : V -> bool) immutable a (host d : dict), accepted a -> a_var a = Some "" \/ a_delete a = Some "" ->
  run V is_none immutable a host d = run V is_none immutable (mkarguments None None None (a_os a) (a_builtins a)) host d.
Proof.
  intros is_none immutable a host d (A1 & A2 & A3 & _) [E|E]; unfold run; rewrite E in *; cbn.
  - destruct A1 as [|A1]; [discriminate|]. destruct A2 as [|A2]; [discriminate|]. rewrite A1, A2. reflexivity.
  - destruct A1 as [A1|]; [|discriminate]. destruct A3 as [|A3]; [discriminate|]. rewrite A1, A3. reflexivity.
Qed.
End Proofs.
Print Assumptions c69_env_partial.
Print Assumptions c69_none_refuted.
Print Assumptions c69_empty_refuted.

Definition ex_d : list (string * nat) := [("USER", 7); ("__builtins__", 1); ("HOME", 2); ("x", 5); ("HOST", 4)].
Theorem c69_example :
  proper ex_d /\ accepted (mkarguments None None (Some "HO") false false) /\
  sent (run nat (fun _ => false) (fun _ => false) (mkarguments None None None false false) [] ex_d) = [("HOME", 2); ("HOST", 4); ("USER", 7); ("x", 5)] /\
  sent (run nat (fun _ => false) (fun _ => false) (mkarguments None None None false true) [] ex_d) = [("HOME", 2); ("HOST", 4); ("USER", 7); ("__builtins__", 1); ("x", 5)] /\
  sent (run nat (fun _ => false) (fun _ => false) (mkarguments None None (Some "HO") false false) [] ex_d) = [("HOME", 2); ("HOST", 4)] /\
  run nat (fun _ => false) (fun _ => false) (mkarguments None (Some "HOME") None false false) [] ex_d =
    mkresult [("HOME", 2)] [("USER", 7); ("__builtins__", 1); ("x", 5); ("HOST", 4)] Done.
Proof.
  split; [repeat constructor; cbn; intuition discriminate|]. split; [repeat split; cbn; auto; discriminate|]. repeat split.
Qed.
Print Assumptions c69_example.
