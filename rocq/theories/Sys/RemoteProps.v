(** Proofs of C62. *)
From Verif.Sys Require Export RemoteSpec.
From Verif.Sys Require Import ForkProps.

Section Proofs.
Context {V : Type}.
Implicit Types (cs pre rest all : list (cell V)) (acts : list (act V)) (m : remember V).

Lemma first_in_app : forall o cs rest, first_in o (cs ++ rest) = match first_in o cs with Some v => Some v | None => first_in o rest end.
Proof.
  induction cs as [|[v|p v] cs IH]; intros rest; cbn; auto. destruct (Nat.eqb o p); auto.
Qed.

(** The value of a component, given all the components there are *)
Definition value_in all (c : cell V) : V :=
  match c with Value v => v | Object o v => match first_in o all with Some w => w | None => v end end.
Definition inv pre (memo : list nat) m : Prop :=
  forall o, recall o m = first_in o pre /\ existsb (Nat.eqb o) memo = match first_in o pre with Some _ => true | None => false end.

Lemma load_dump : forall cs pre rest memo m, inv pre memo m ->
  let '(memo', ps) := dump_cells memo cs in
  exists m', load_cells m ps = Some (m', map (value_in (pre ++ cs ++ rest)) cs) /\ inv (pre ++ cs) memo' m'.
Proof.
  induction cs as [|[v|o v] cs IH]; intros pre rest memo m I; cbn [dump_cells].
  - exists m. cbn. rewrite app_nil_r. auto.
  - specialize (IH (pre ++ [Value v]) rest memo m). destruct (dump_cells memo cs) as [memo' ps]. destruct IH as (m' & E & I').
    { intros o. rewrite first_in_app. cbn. destruct (I o) as (A & B). rewrite A, B. now destruct (first_in o pre). }
    exists m'. rewrite <- !app_assoc in *. cbn [app] in *. split; [|exact I']. cbn. now rewrite E.
  - destruct (I o) as (A & B). destruct (existsb (Nat.eqb o) memo).
    + destruct (first_in o pre) as [w|] eqn:F; [|discriminate].
      specialize (IH (pre ++ [Object o v]) rest memo m). destruct (dump_cells memo cs) as [memo' ps]. destruct IH as (m' & E & I').
      { intros p. destruct (I p) as (A' & B'). rewrite first_in_app, A', B'. cbn. destruct (first_in p pre) eqn:G; auto.
        destruct (Nat.eqb_spec p o); [congruence|auto]. }
      exists m'. rewrite <- !app_assoc in *. cbn [app] in *. split; [|exact I']. cbn. rewrite A, E, first_in_app, F. reflexivity.
    + destruct (first_in o pre) as [w|] eqn:F; [discriminate|].
      specialize (IH (pre ++ [Object o v]) rest (o :: memo) ((o, v) :: m)). destruct (dump_cells (o :: memo) cs) as [memo' ps]. destruct IH as (m' & E & I').
      { intros p. destruct (I p) as (A' & B'). rewrite first_in_app. cbn. rewrite A', B'. destruct (Nat.eqb_spec p o) as [->|N].
        - now rewrite F.
        - cbn. now destruct (first_in p pre). }
      exists m'. rewrite <- !app_assoc in *. cbn [app] in *. split; [|exact I']. cbn. rewrite E, first_in_app, F. cbn. now rewrite Nat.eqb_refl.
Qed.

(** What is loaded of the output of [acts], given all the components there are. *)
Fixpoint loads all acts (raised : option V) : list (loaded V) :=
  match acts with
  | [] => match raised with Some e => [LErr e] | None => [] end
  | Row b cs :: acts => LRow b (map (value_in all) cs) :: loads all acts raised
  | Err e :: acts => LErr e :: loads all acts raised
  | Print :: _ => []
  | Unpicklable e :: _ => [LErr e]
  end.
Definition end_with (e raised : option V) : list (item V) :=
  match e with Some x => [PErr x] | None => match raised with Some x => [PErr x] | None => [] end end.

Lemma load_output : forall acts pre memo m raised, inv pre memo m ->
  let '(is, e) := output memo acts in
  load m (is ++ end_with e raised) = (loads (pre ++ all_cells acts) acts raised, negb (existsb (fun a => match a with Print => true | _ => false end)
    (firstn (length is) acts))).
Proof.
  induction acts as [|a acts IH]; intros pre memo m raised I.
  - cbn. destruct raised; reflexivity.
  - destruct a as [b cs|e| |e].
    + cbn [output]. pose proof (load_dump cs pre (all_cells acts) memo m I) as L. destruct (dump_cells memo cs) as [memo' ps].
      destruct L as (m' & E & I'). specialize (IH (pre ++ cs) memo' m' raised I'). destruct (output memo' acts) as [is e].
      cbn [app load]. rewrite E, IH. cbn. now rewrite <- app_assoc.
    + cbn [output]. specialize (IH pre memo m raised I). destruct (output memo acts) as [is e']. cbn [app load]. rewrite IH. reflexivity.
    + cbn [output]. specialize (IH pre memo m raised I). destruct (output memo acts) as [is e']. reflexivity.
    + reflexivity.
Qed.
Lemma loaded_all : forall acts raised, fst (load [] (all_output acts raised)) = loads (all_cells acts) acts raised.
Proof.
  intros acts raised. unfold all_output. pose proof (load_output acts [] [] [] raised) as L. destruct (output [] acts) as [is e].
  change (match e with Some x => [PErr x] | None => match raised with Some y => [PErr y] | None => [] end end) with (end_with e raised).
  rewrite L; [reflexivity|]. intros o. split; reflexivity.
Qed.
Lemma output_length : forall acts memo, (length (fst (output memo acts)) <= length acts)%nat.
Proof.
  induction acts as [|[b cs|e| |e] acts IH]; intros memo; cbn; try lia.
  - destruct (dump_cells memo cs) as [m ps]. specialize (IH m). destruct (output m acts). cbn in *. lia.
  - specialize (IH memo). destruct (output memo acts). cbn in *. lia.
  - specialize (IH memo). destruct (output memo acts). cbn in *. lia.
Qed.

(** ** What arrives from one host *)

Lemma loads_arrive : forall all (pf : list (component V)) label f acts raised,
  (forall b vs, f (LRow b vs) = Received b (pf ++ map (@Content V) vs)) ->
  (forall e, f (LErr e) = in_a_tuple (ReceivedError label e)) -> quiet acts ->
  map f (loads all acts raised) = map in_a_tuple (arrives pf label
    (map (fun a => match a with Row b cs => Row b (map (fun c => Value (value_in all c)) cs) | a => a end) acts) raised).
Proof.
  intros all pf label f acts raised H1 H2. induction acts as [|[b cs|e| |e] acts IH]; intros Q.
  - destruct raised; cbn; [|reflexivity]. now rewrite H2.
  - cbn [loads map arrives in_a_tuple]. rewrite H1, IH by (intros X; apply Q; now right). repeat f_equal.
    rewrite !map_map. reflexivity.
  - cbn [loads map arrives]. rewrite H2, IH by (intros X; apply Q; now right). reflexivity.
  - exfalso. apply Q. now left.
  - cbn. now rewrite H2.
Qed.
Lemma arrives_content : forall (pf : list (component V)) label acts acts' raised,
  Forall2 (fun a b => match a, b with Row x cs, Row y ds => x = y /\ map content cs = map content ds | _, _ => a = b end) acts acts' ->
  arrives pf label acts raised = arrives pf label acts' raised.
Proof.
  intros pf label acts acts' raised H. induction H as [|a b l l' E F IH]; auto. destruct a as [x cs|e| |e]; destruct b as [y ds|e'| |e']; try discriminate; try contradiction.
  - destruct E as (-> & E). cbn. rewrite IH. do 3 f_equal. apply (f_equal (map (@Content V))) in E. now rewrite !map_map in E.
  - injection E as ->. cbn. now rewrite IH.
  - cbn. now rewrite IH.
  - injection E as ->. reflexivity.
Qed.
Lemma value_at_first : forall acts c, value_in (all_cells acts) c = content (at_first acts c).
Proof. intros acts [v|o v]; cbn; auto. now destruct (first_in o (all_cells acts)). Qed.

Lemma remote_general : forall (pf : list (component V)) label f acts raised,
  (forall b vs, f (LRow b vs) = Received b (pf ++ map (@Content V) vs)) ->
  (forall e, f (LErr e) = in_a_tuple (ReceivedError label e)) -> quiet acts ->
  map f (fst (load [] (all_output acts raised))) = map in_a_tuple (arrives pf label (as_first_output acts) raised).
Proof.
  intros pf label f acts raised H1 H2 Q. rewrite loaded_all, (loads_arrive _ pf label) by auto. f_equal.
  apply arrives_content. unfold as_first_output. generalize (value_at_first acts). generalize (all_cells acts) (at_first acts). intros all g E.
  induction acts as [|a acts IH]; constructor; auto.
  - destruct a as [b cs|e| |e]; auto. split; auto. rewrite !map_map. apply map_ext. intros c. cbn. apply E.
  - apply IH. intros X. apply Q. now right.
Qed.
(** If no object is changed, each is as it was first. *)
Lemma first_in_in : forall o cs w, first_in o cs = Some w -> In (Object o w) cs.
Proof.
  induction cs as [|[v|p v] cs IH]; cbn; intros w E; [discriminate|auto|]. destruct (Nat.eqb_spec o p) as [->|N]; auto. injection E as ->. now left.
Qed.
Lemma in_all_cells : forall acts o v, In (Object o v) (all_cells acts) <-> outputs_object acts o v.
Proof.
  intros acts o v. unfold all_cells, outputs_object. rewrite in_flat_map. split.
  - intros ([b cs|e| |e] & I & J); try contradiction. eauto.
  - intros (b & cs & I & J). eauto.
Qed.
Lemma unchanged_first : forall acts, unchanged acts -> as_first_output acts = acts.
Proof.
  intros acts U. unfold as_first_output. transitivity (map (fun a => a) acts); [|apply map_id]. apply map_ext_in. intros [b cs|e| |e] Ia; auto. f_equal.
  transitivity (map (fun c => c) cs); [|apply map_id]. apply map_ext_in. intros [v|o v] Ic; auto. cbn.
  destruct (first_in o (all_cells acts)) as [w|] eqn:F; auto. f_equal. apply (U o).
  - apply in_all_cells. now apply first_in_in.
  - exists b, cs. auto.
Qed.

(** From each host: every tuple arrives, in order, with the host before it; if objects are changed while the pipeline runs,
    each arrives as it was when first output. *)
Theorem c62_from_host_partial : forall h acts raised, quiet acts ->
  map consume (run_remote h acts raised None) = map in_a_tuple (meant h (as_first_output acts) raised).
Proof.
  intros h acts raised Q. unfold run_remote. rewrite map_map. apply remote_general; auto.
Qed.
Theorem c62_host_partial : forall h acts raised, quiet acts -> unchanged acts ->
  map consume (run_remote h acts raised None) = map in_a_tuple (meant h acts raised).
Proof. intros h acts raised Q U. rewrite c62_from_host_partial by auto. now rewrite unchanged_first. Qed.

Lemma rows_in_a_tuple : forall h acts raised, rows (map in_a_tuple (meant h acts raised)) = rows (meant h acts raised).
Proof.
  intros h acts raised. unfold rows, meant. induction acts as [|[b cs|e| |e] acts IH]; cbn; auto.
  - now destruct raised.
  - rewrite IH. reflexivity.
Qed.

(** ** A lost connection: what arrives is the beginning of what would have. *)
Lemma load_firstn : forall (is : list (item V)) m k (tl : list (item V)), tl = [] \/ tl = [Piece] ->
  prefix (fst (load m (firstn k is ++ tl))) (fst (load m is)).
Proof.
  induction is as [|i is IH]; intros m k tl T.
  - rewrite firstn_nil. cbn [app]. destruct T as [->| ->]; now exists [].
  - destruct k as [|k].
    + cbn [firstn app]. destruct T as [->| ->]; cbn [load fst]; eexists; reflexivity.
    + cbn [firstn app load]. destruct i as [l ps|e| |]; try (now exists []).
      * destruct (load_cells m ps) as [[m' vs]|]; [|now exists []]. specialize (IH m' k tl T).
        destruct (load m' (firstn k is ++ tl)), (load m' is). destruct IH as (c & E). exists c. cbn in *. now rewrite E.
      * specialize (IH m k tl T). destruct (load m (firstn k is ++ tl)), (load m is). destruct IH as (c & E). exists c. cbn in *. now rewrite E.
Qed.
Lemma load_cut : forall acts raised c, prefix (fst (load [] (farcel acts raised c))) (fst (load [] (all_output acts raised))).
Proof.
  intros acts raised [[k middle]|]; unfold farcel; [|now exists []; rewrite app_nil_r]. apply load_firstn. destruct middle; auto.
Qed.
Lemma prefix_map : forall (A B : Type) (f : A -> B) a b, prefix a b -> prefix (map f a) (map f b).
Proof. intros A B f a b (c & ->). exists (map f c). apply map_app. Qed.
Lemma prefix_trans : forall (A : Type) (a b c : list A), prefix a b -> prefix b c -> prefix a c.
Proof. intros A a b c (x & ->) (y & ->). exists (x ++ y). now rewrite app_assoc. Qed.
Lemma prefix_filter : forall (A : Type) (p : A -> bool) a b, prefix a b -> prefix (filter p a) (filter p b).
Proof. intros A p a b (c & ->). exists (filter p c). apply filter_app. Qed.

Theorem c62_cut : forall h acts raised c, quiet acts -> unchanged acts ->
  prefix (map consume (run_remote h acts raised c)) (map in_a_tuple (meant h acts raised)).
Proof.
  intros h acts raised c Q U. rewrite <- c62_host_partial by auto. unfold run_remote. apply prefix_map, prefix_map. apply load_cut.
Qed.

(** ** All the hosts, in every schedule *)
(** What the hosts do, [n] of them *)
Definition outcome := (list (act V) * option V * cut)%type.
Definition runs_on (hosts : nat -> outcome) (w : nat) : list (message V) := let '(acts, raised, c) := hosts w in run_remote w acts raised c.
Definition acts_of (o : outcome) : list (act V) := fst (fst o).
Definition raised_of (o : outcome) : option V := snd (fst o).
Definition cut_of (o : outcome) : cut := snd o.
(** What the operator after remote receives from worker [w], in a run of Fork *)
Definition received_from (w : nat) (t : list (obs (message V))) : list (received V) := map consume (output_of w t).

Theorem c62_every_schedule_partial : forall sm cap n hosts t s, n > 0 ->
  runs sm cap n (start (runs_on hosts) n) t s ->
  forall w, quiet (acts_of (hosts w)) -> unchanged (acts_of (hosts w)) ->
    prefix (received_from w t) (map in_a_tuple (meant w (acts_of (hosts w)) (raised_of (hosts w)))) /\
    prefix (rows (received_from w t)) (rows (meant w (acts_of (hosts w)) (raised_of (hosts w)))).
Proof.
  intros sm cap n hosts t s N R w Q U.
  assert (P : prefix (received_from w t) (map in_a_tuple (meant w (acts_of (hosts w)) (raised_of (hosts w))))).
  { eapply prefix_trans; [apply prefix_map; exact (c36_prefix _ _ _ _ _ _ N R w)|]. unfold runs_on, acts_of, raised_of in *.
    destruct (hosts w) as [[acts raised] c]. now apply c62_cut. }
  split; [exact P|]. rewrite <- rows_in_a_tuple. now apply prefix_filter.
Qed.
(** Each tuple received has the host it comes from as its first component, or is an Error with that label. *)
Theorem c62_labels : forall sm cap n hosts t s, n > 0 -> runs sm cap n (start (runs_on hosts) n) t s ->
  forall w r, In r (received_from w t) -> (exists b l, r = Received b (Host w :: l)) \/ exists e, r = Received false [AnError (Some w) e].
Proof.
  intros sm cap n hosts t s N R w r I. unfold received_from in I. apply in_map_iff in I. destruct I as (x & <- & I).
  destruct (c36_prefix _ _ _ _ _ _ N R w) as (c & E).
  assert (J : In x (runs_on hosts w)) by (rewrite E; apply in_or_app; now left).
  unfold runs_on in J. destruct (hosts w) as [[acts raised] k]. unfold run_remote in J. apply in_map_iff in J. destruct J as ([b vs|e] & <- & _); cbn; eauto.
Qed.
(** A host whose end has been noticed, and whose connection was not lost, has been heard out; so if there is only one host, everything
    has been received when remote has ended. *)
Theorem c62_heard_out_partial : forall sm cap n hosts t s w, n > 0 -> runs sm cap n (start (runs_on hosts) n) t s ->
  In w (ends t) -> quiet (acts_of (hosts w)) -> unchanged (acts_of (hosts w)) -> cut_of (hosts w) = None ->
  received_from w t = map in_a_tuple (meant w (acts_of (hosts w)) (raised_of (hosts w))).
Proof.
  intros sm cap n hosts t s w N R I Q U C. unfold received_from. rewrite (c36_ended_worker _ _ _ _ _ _ w N R I). unfold runs_on, acts_of, raised_of, cut_of in *.
  destruct (hosts w) as [[acts raised] c]. cbn in *. subst c. now apply c62_host_partial.
Qed.
Theorem c62_one_host_partial : forall sm cap hosts t s, runs sm cap 1 (start (runs_on hosts) 1) t s -> finished s ->
  quiet (acts_of (hosts 0)) -> unchanged (acts_of (hosts 0)) -> cut_of (hosts 0) = None ->
  rows (received_from 0 t) = rows (meant 0 (acts_of (hosts 0)) (raised_of (hosts 0))).
Proof.
  intros sm cap hosts t s R F Q U C. unfold received_from. rewrite (c36_one_worker _ _ _ _ _ R F). unfold runs_on, acts_of, raised_of, cut_of in *.
  destruct (hosts 0) as [[acts raised] c]. cbn in *. subst c. rewrite c62_host_partial by auto. apply rows_in_a_tuple.
Qed.

(** ** What is wrong *)
(** Anything printed on the host: all the output after it is lost. *)
Theorem c62_printed : forall h (a b : list (act V)) raised, map consume (run_remote h (a ++ Print :: b) raised None) = 
  map consume (run_remote h (a ++ [Print]) raised None) /\ (quiet a -> unchanged a -> Forall (fun x => match x with Unpicklable _ => False | _ => True end) a ->
  map consume (run_remote h (a ++ Print :: b) raised None) = map in_a_tuple (meant h a None)).
Proof.
  intros h a b raised.
  assert (G : forall b, loads (all_cells (a ++ Print :: b)) (a ++ Print :: b) raised = loads (all_cells a) (a ++ [Print]) raised).
  { clear b. intros b. unfold all_cells. rewrite flat_map_app. cbn [flat_map app]. fold (all_cells a) (all_cells b).
    assert (K : forall x, (forall o v, In (Object o v) (all_cells x) -> first_in o (all_cells a) <> None) ->
      loads (all_cells a ++ all_cells b) (x ++ Print :: b) raised = loads (all_cells a) (x ++ [Print]) raised).
    { induction x as [|y x IH]; intros H; auto.
      assert (IHx : loads (all_cells a ++ all_cells b) (x ++ Print :: b) raised = loads (all_cells a) (x ++ [Print]) raised).
      { apply IH. intros o v I. apply (H o v). cbn. apply in_or_app. now right. }
      destruct y as [bb cs|e| |e]; cbn [app loads]; auto; rewrite IHx; auto. f_equal. f_equal. apply map_ext_in. intros [v|o v] I; cbn; auto.
      rewrite first_in_app. specialize (H o v). destruct (first_in o (all_cells a)); auto. exfalso. apply H; auto. cbn. apply in_or_app. now left. }
    apply K. intros o v I. clear K. revert I. induction (all_cells a) as [|[u|p u] l IH]; cbn; intros I; [contradiction| |].
    - destruct I as [I|I]; [discriminate|auto].
    - destruct (Nat.eqb_spec o p) as [->|Ne]; [discriminate|]. destruct I as [I|I]; [injection I as -> ->; congruence|auto]. }
  assert (L : forall x, map consume (run_remote h x raised None) = map (fun l => consume (label h l)) (loads (all_cells x) x raised)).
  { intros x. unfold run_remote, farcel. rewrite loaded_all. apply map_map. }
  split.
  - rewrite !L, (G b), (G []). reflexivity.
  - intros Q U P. rewrite L, G. rewrite <- (c62_host_partial h a None Q U). unfold run_remote, farcel. rewrite loaded_all, map_map.
    f_equal. clear - Q P. revert Q P. generalize (all_cells a) as all. intros all Q P. induction P as [|x l Hx Hl IH]; cbn; auto.
    destruct x as [bb cs|e| |e]; try contradiction; auto; cbn; try (rewrite IH; auto; intros X; apply Q; now right).
Qed.

(** ** sudo *)
Theorem c62_sudo_partial : forall acts raised, quiet acts -> unchanged acts ->
  sudo_run acts raised None = (map in_a_tuple (meant_sudo acts raised), true).
Proof.
  intros acts raised Q U. unfold sudo_run, farcel. destruct (load [] (all_output acts raised)) as [ls b] eqn:E. f_equal.
  - change ls with (fst (ls, b)). rewrite <- E. rewrite (remote_general [] None) by auto. now rewrite unchanged_first.
  - revert E. unfold all_output. pose proof (load_output acts [] [] [] raised) as L. pose proof (output_length acts []) as Le. destruct (output [] acts) as [is e].
    change (match e with Some x => [PErr x] | None => match raised with Some y => [PErr y] | None => [] end end) with (end_with e raised).
    rewrite L by (intros o; split; reflexivity). intros [= _ <-]. apply negb_true_iff. apply not_true_iff_false. intros X. apply existsb_exists in X.
    destruct X as ([bb cs|x| |x] & I & T); try discriminate. apply Q. rewrite <- (firstn_skipn (length is) acts). apply in_or_app. now left.
Qed.
Theorem c62_sudo_cut : forall acts raised c, quiet acts -> unchanged acts -> prefix (fst (sudo_run acts raised c)) (map in_a_tuple (meant_sudo acts raised)).
Proof.
  intros acts raised c Q U. pose proof (c62_sudo_partial acts raised Q U) as S. unfold sudo_run in *. unfold farcel at 1 in S.
  pose proof (load_cut acts raised c) as P. destruct (load [] (all_output acts raised)) as [ls b], (load [] (farcel acts raised c)) as [ls' b'].
  injection S as <- _. cbn in *. now apply prefix_map.
Qed.
End Proofs.

(** A sudo command can be run once: when it is run again (in a pipeline that is called twice, or for each group of args), it fails. *)
Lemma sudo_flags : forall P n (fs : list nat), sudo_times n (map (@Flag P) fs) = repeat None n.
Proof.
  intros P n. induction n as [|n IH]; intros fs; auto. cbn [sudo_times repeat]. unfold sudo_setup.
  rewrite <- map_rev. destruct (rev fs) as [|f r]; cbn; [exact (f_equal (cons None) (IH []))|]. rewrite <- map_rev. now rewrite IH.
Qed.
Theorem c62_sudo_once : forall P (p : P) flags n,
  sudo_times (S n) (map Flag flags ++ [Pipe p]) = Some (p, map Flag flags) :: repeat None n.
Proof.
  intros P p flags n. cbn [sudo_times]. unfold sudo_setup. rewrite rev_app_distr. cbn. rewrite rev_involutive. f_equal. apply sudo_flags.
Qed.

(** ** Cases *)
(** (| gen 2 |), an error, and a list; then an exception *)
Definition sample : list (act nat) := [Row false [Value 0]; Row false [Value 1; Object 7 5]; Err 9; Row true [Object 7 5]].
Example sample_quiet : quiet sample /\ unchanged sample.
Proof.
  split.
  - intros [E|[E|[E|[E|[]]]]]; discriminate.
  - intros o v v' (b & cs & I & J) (b' & cs' & I' & J').
    assert (G : forall b cs w, In (Row b cs) sample -> In (Object o w) cs -> w = 5).
    { clear. intros b cs w I J. cbn in I. repeat (destruct I as [I|I]; [try discriminate I; injection I as <- <-; cbn in J;
        repeat (destruct J as [J|J]; [try discriminate J; injection J as _ <-; reflexivity|]); contradiction|]). contradiction. }
    rewrite (G _ _ _ I J). symmetry. eapply G; eauto.
Qed.
Theorem c62_example : map consume (run_remote 3 sample (Some 4) None) =
  [Received false [Host 3; Content 0]; Received false [Host 3; Content 1; Content 5]; Received false [AnError (Some 3) 9];
   Received true [Host 3; Content 5]; Received false [AnError (Some 3) 4]] /\
  map consume (run_remote 3 sample (Some 4) (Some (2, true))) = [Received false [Host 3; Content 0]; Received false [Host 3; Content 1; Content 5]].
Proof. split; reflexivity. Qed.
(** An Error does not arrive as an Error. *)
Theorem c62_error_refuted : exists acts : list (act nat), quiet acts /\ unchanged acts /\
  map consume (run_remote 3 acts None None) = [Received false [AnError (Some 3) 9]] /\ meant 3 acts None = [ReceivedError (Some 3) 9] /\
  fst (sudo_run acts None None) = [Received false [AnError None 9]] /\ meant_sudo acts None = [ReceivedError None 9].
Proof.
  exists [Err 9]. split; [intros [E|[]]; discriminate|]. split; [|repeat split]. intros o v v' (b & cs & [E|[]] & _). discriminate.
Qed.
(** An object that is changed arrives as it was first: for example a list that grows from each tuple to the next. *)
Theorem c62_changed_refuted : exists acts : list (act nat), quiet acts /\
  map consume (run_remote 3 acts None None) = [Received false [Host 3; Content 1]; Received false [Host 3; Content 1]] /\
  meant 3 acts None = [Received false [Host 3; Content 1]; Received false [Host 3; Content 2]].
Proof.
  exists [Row false [Object 0 1]; Row false [Object 0 2]]. split; [|split; reflexivity]. intros [E|[E|[]]]; discriminate.
Qed.
(** Printing *)
Theorem c62_printed_refuted : exists acts : list (act nat), unchanged acts /\
  map consume (run_remote 3 acts None None) = [] /\ meant 3 acts None = [Received false [Host 3; Content 1]] /\ sudo_run acts None None = ([], false).
Proof.
  exists [Print; Row false [Value 1]]. split; [|repeat split].
  intros o v v' (b & cs & [E|[E|[]]] & I); [discriminate|]. injection E as <- <-. destruct I as [I|[]]. discriminate.
Qed.
(** Two hosts, one of which cannot be reached: of the three tuples from the other, one arrives. *)
Definition one_down (w : nat) : outcome := if w =? 0 then ([], None, Some (0, false)) else ([Row false [Value 1]; Row false [Value 2]; Row false [Value 3]], None, None).
Theorem c62_lost_refuted : forall sm, exists t s, runs sm 10 2 (start (runs_on one_down) 2) t s /\ finished s /\
  received_from 1 t = [Received false [Host 1; Content 1]] /\
  meant 1 (acts_of (one_down 1)) (raised_of (one_down 1)) = [Received false [Host 1; Content 1]; Received false [Host 1; Content 2]; Received false [Host 1; Content 3]].
Proof.
  intros sm. destruct (exec sm 10 2 (start (runs_on one_down) 2) sched_lost) as [[t s]|] eqn:E.
  - exists t, s. split; [eapply exec_runs; exact E|]. destruct sm; vm_compute in E; injection E as <- <-; repeat split.
  - destruct sm; vm_compute in E; discriminate.
Qed.
