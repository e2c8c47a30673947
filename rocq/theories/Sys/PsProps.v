(** C65: ps reports the processes asked for. *)
From Verif.Sys Require Import Ps.
From Verif.Syntax Require Import ArgsFacts.
Local Open Scope list_scope.

(** ** Specification *)

(** What can be asked for: everything, the processes of a user or group (the current one, or one named or numbered), a process
    number, a part of the command. *)
Inductive request := All | OwnUser | OwnGroup | UserIs (s : text) | GroupIs (s : text) | PidIs (s : text) | CommandHas (s : text).

(** The command line for it: at most one flag (C29) *)
Definition command_line (r : request) : psop :=
  match r with
  | All => mkpsop PNone PNone PNone PNone
  | OwnUser => mkpsop PTrue PNone PNone PNone
  | OwnGroup => mkpsop PNone PTrue PNone PNone
  | UserIs s => mkpsop (PStr s) PNone PNone PNone
  | GroupIs s => mkpsop PNone (PStr s) PNone PNone
  | PidIs s => mkpsop PNone PNone (PStr s) PNone
  | CommandHas s => mkpsop PNone PNone PNone (PStr s)
  end.

Definition part_of (s t : text) : Prop := exists a b, t = a ++ s ++ b.

Section Spec.
Variable int_of : text -> option Z.
Variable users groups : list (text * Z).
Variable my_uid my_gid : Z.

(** A name, if there is one, otherwise a number *)
Definition designates (db : list (text * Z)) (s : text) (id : Z) : Prop :=
  (exists before after, db = before ++ (s, id) :: after /\ ~ In s (map fst before)) \/
  (~ In s (map fst db) /\ int_of s = Some id).

Definition belongs (id : Z) (ids : option (list Z)) : Prop := exists l, ids = Some l /\ In id l.

Definition asked_for (r : request) (p : process) : Prop :=
  match r with
  | All => True
  | OwnUser => belongs my_uid (pr_uids p)
  | OwnGroup => belongs my_gid (pr_gids p)
  | UserIs s => exists id, designates users s id /\ belongs id (pr_uids p)
  | GroupIs s => exists id, designates groups s id /\ belongs id (pr_gids p)
  | PidIs s => int_of s = Some (pr_pid p)
  | CommandHas s => (exists t, pr_name p = Some t /\ part_of s t) \/ (exists t, pr_exe p = Some t /\ part_of s t) \/
                    (exists ts t, pr_cmdline p = Some ts /\ In t ts /\ part_of s t)
  end.

(** The request makes sense: there is such a user, ... *)
Definition sensible (r : request) : Prop :=
  match r with
  | UserIs s => exists id, designates users s id
  | GroupIs s => exists id, designates groups s id
  | PidIs s => s <> [] /\ exists n, int_of s = Some n
  | _ => True
  end.
(** What the request depends on can be read. *)
Definition readable (r : request) (p : process) : Prop :=
  match r with
  | OwnUser | UserIs _ => pr_uids p <> None
  | OwnGroup | GroupIs _ => pr_gids p <> None
  | CommandHas s => s <> [] \/ pr_name p <> None   (* every name contains the empty string *)
  | _ => True
  end.

(** ** Proofs *)
Lemma starts_spec : forall s t, starts s t = true <-> exists b, t = s ++ b.
Proof.
  induction s as [|a s IH]; intros t; cbn. { split; eauto. }
  destruct t as [|b t]. { split; [discriminate|]. intros (b & E). discriminate. }
  rewrite andb_true_iff, IH. unfold Csv.is. destruct (Ascii.eqb_spec a b) as [->|N].
  - split; [intros [_ (c & ->)]; eauto|intros (c & E); injection E as ->; split; eauto].
  - split; [intros [E _]; discriminate|intros (c & E); injection E as <- _; easy].
Qed.
Lemma contains_spec : forall s t, contains s t = true <-> part_of s t.
Proof.
  intros s. induction t as [|c t IH]; cbn [contains]; rewrite orb_true_iff, starts_spec; unfold part_of.
  - split.
    + intros [(b & E)|E]; [|discriminate]. exists [], b. auto.
    + intros (a & b & E). left. exists []. symmetry in E. apply app_eq_nil in E as [_ E]. apply app_eq_nil in E as [-> _]. reflexivity.
  - rewrite IH. unfold part_of. split.
    + intros [(b & E)|(a & b & ->)]; [exists [], b|exists (c :: a), b]; auto.
    + intros (a & b & E). destruct a as [|x a]; [left; eauto|]. injection E as -> ->. right. eauto.
Qed.

Lemma lookup_spec : forall db s id, lookup db (PStr s) = Some id <->
  exists before after, db = before ++ (s, id) :: after /\ ~ In s (map fst before).
Proof.
  induction db as [|[n i] db IH]; intros s id; cbn [lookup].
  - split; [discriminate|]. intros ([|] & after & E & _); discriminate.
  - destruct (teqb n s) eqn:Q.
    + apply teqb_eq in Q. subst n. split.
      * intros E. injection E as ->. exists [], db. auto.
      * intros ([|[m j] before] & after & E & N); injection E as E1 E2; subst; auto. exfalso. apply N. now left.
    + rewrite IH. assert (NQ : n <> s) by (intros ->; rewrite teqb_refl in Q; discriminate). split.
      * intros (before & after & -> & N). exists ((n, i) :: before), after. split; auto. cbn. intuition.
      * intros ([|[m j] before] & after & E & N); injection E as E1 E2; subst; [easy|]. exists before, after. split; auto. intro. apply N. now right.
Qed.
Lemma lookup_none : forall db s, lookup db (PStr s) = None <-> ~ In s (map fst db).
Proof.
  induction db as [|[n i] db IH]; intros s; cbn [lookup map fst].
  - split; auto.
  - destruct (teqb n s) eqn:Q.
    + apply teqb_eq in Q. subst n. split; [discriminate|]. intros N. exfalso. apply N. now left.
    + rewrite IH. assert (NQ : n <> s) by (intros ->; rewrite teqb_refl in Q; discriminate). cbn. intuition.
Qed.
Lemma convert_spec : forall db s id, convert_to_id int_of db (PStr s) = Good id <-> designates db s id.
Proof.
  intros db s id. unfold convert_to_id, designates. rewrite <- lookup_spec. rewrite <- lookup_none. cbn [to_int].
  destruct (lookup db (PStr s)) as [i|]; [|destruct (int_of s)]; split.
  - intros E. injection E as ->. auto.
  - intros [E|[E _]]; [|discriminate]. injection E as ->. auto.
  - intros E. injection E as ->. auto.
  - intros [E|[_ E]]; [discriminate|]. injection E as ->. auto.
  - discriminate.
  - intros [E|[_ E]]; discriminate.
Qed.
Lemma convert_kill : forall db s, convert_to_id int_of db (PStr s) = Kill <-> ~ exists id, designates db s id.
Proof.
  intros db s. split.
  - intros E (id & D). apply convert_spec in D. congruence.
  - intros N. destruct (convert_to_id int_of db (PStr s)) as [id| |] eqn:E; auto.
    + exfalso. apply N. exists id. now apply convert_spec.
    + unfold convert_to_id in E. destruct (lookup db (PStr s)); [discriminate|]. cbn in E. now destruct (int_of s).
Qed.

Definition accepts (f : filter_) (p : process) : bool := match apply f p with Good b => b | _ => false end.

Lemma report_all : forall f ps, (forall p, In p ps -> exists b, apply f p = Good b) -> report f ps = (filter (accepts f) ps, true).
Proof.
  intros f. induction ps as [|p ps IH]; intros H; auto. cbn [report filter].
  destruct (H p ltac:(now left)) as (b & E). unfold accepts at 1. rewrite E, IH by (intros q I; apply H; now right). now destruct b.
Qed.

Lemma member : forall id ids, existsb (Z.eqb id) ids = true <-> In id ids.
Proof. intros. rewrite existsb_exists. split; [intros (x & I & E); apply Z.eqb_eq in E; now subst|intros I; exists id; split; auto; apply Z.eqb_refl]. Qed.

Lemma any_spec : forall s ts, exists b, any_inside (PStr s) ts = Good b /\ (b = true <-> exists t, In t ts /\ part_of s t).
Proof.
  intros s. induction ts as [|t ts (b & E & B)]; cbn.
  - exists false. split; auto. split; [discriminate|]. intros (t & [] & _).
  - rewrite E. exists (contains s t || b). split; auto. rewrite orb_true_iff, contains_spec, B. split.
    + intros [H|(u & I & H)]; eauto.
    + intros (u & [<-|I] & H); eauto.
Qed.

(** The command that the filter looks for *)
Lemma command_spec : forall s p, exists b, apply (FCommand (PStr s)) p = Good b /\ (b = true <-> asked_for (CommandHas s) p).
Proof.
  intros s p. cbn [apply asked_for]. unfold when_some.
  assert (X : forall x : option text, exists b, match x with Some a => inside (PStr s) a | None => Good false end = Good b /\
                       (b = true <-> exists t, x = Some t /\ part_of s t)).
  { intros [t|]; cbn.
    - exists (contains s t). split; auto. rewrite contains_spec. split; [eauto|]. intros (u & E & H). now injection E as ->.
    - exists false. split; auto. split; [discriminate|]. intros (u & E & _). discriminate. }
  destruct (X (pr_name p)) as (b1 & -> & B1), (X (pr_exe p)) as (b2 & -> & B2).
  assert (Y : exists b, match pr_cmdline p with Some a => any_inside (PStr s) a | None => Good false end = Good b /\
                        (b = true <-> exists ts t, pr_cmdline p = Some ts /\ In t ts /\ part_of s t)).
  { destruct (pr_cmdline p) as [ts|].
    - destruct (any_spec s ts) as (b & E & B). exists b. split; auto. rewrite B. split.
      + intros (t & I & H). eauto.
      + intros (us & t & E' & I & H). injection E' as <-. eauto.
    - exists false. split; auto. split; [discriminate|]. intros (u & t & E & _). discriminate. }
  destruct Y as (b3 & -> & B3). destruct b1; cbn; [exists true; split; auto; split; auto; intros _; left; now apply B1|].
  destruct b2; cbn; [exists true; split; auto; split; auto; intros _; right; left; now apply B2|].
  exists b3. split; auto. rewrite <- B1, <- B2, <- B3. split; [auto|]. intros [H|[H|H]]; easy.
Qed.

Definition empty_command (r : request) : bool := match r with CommandHas [] => true | _ => false end.

(** Everything asked for, in order, and nothing else *)
Theorem c65_reported_partial : forall r ps, sensible r -> (forall p, In p ps -> readable r p) ->
  exists op' keep, run_ps int_of users groups my_uid my_gid (command_line r) ps = (op', filter keep ps, Normally) /\
    forall p, In p ps -> (keep p = true <-> asked_for r p).
Proof.
  intros r ps S R.
  assert (G : forall op' f, setup int_of users groups my_uid my_gid (command_line r) = Good (op', f) ->
              (forall p, In p ps -> exists b, apply f p = Good b /\ (b = true <-> asked_for r p)) ->
              exists op' keep, run_ps int_of users groups my_uid my_gid (command_line r) ps = (op', filter keep ps, Normally) /\
                forall p, In p ps -> (keep p = true <-> asked_for r p)).
  { intros op' f E H. exists op', (accepts f). unfold run_ps. rewrite E, report_all.
    - split; auto. intros p I. destruct (H p I) as (b & A & B). unfold accepts. now rewrite A.
    - intros p I. destruct (H p I) as (b & A & _). eauto. }
  destruct r; cbn [sensible] in S.
  - eapply G; [reflexivity|]. intros p I. exists true. cbn. intuition.
  - eapply G; [reflexivity|]. intros p I. apply R in I. cbn [readable] in I. cbn [ptrue apply asked_for]. unfold belongs. destruct (pr_uids p) as [l|]; [|easy].
    eexists. split; [reflexivity|]. rewrite member. split; [eauto|]. intros (l' & E & J). now injection E as ->.
  - eapply G; [reflexivity|]. intros p I. apply R in I. cbn [readable] in I. cbn [ptrue apply asked_for]. unfold belongs. destruct (pr_gids p) as [l|]; [|easy].
    eexists. split; [reflexivity|]. rewrite member. split; [eauto|]. intros (l' & E & J). now injection E as ->.
  - destruct S as (id & D). pose proof D as D'. apply convert_spec in D'. eapply G; [unfold setup, command_line; cbn [p_none]; rewrite D'; reflexivity|].
    intros p I. apply R in I. cbn [readable] in I. cbn [ptrue apply asked_for]. unfold belongs. destruct (pr_uids p) as [l|]; [|easy].
    eexists. split; [reflexivity|]. rewrite member. split; [eauto 6|]. intros (id' & D2 & l' & E & J). injection E as ->. apply convert_spec in D2. congruence.
  - destruct S as (id & D). pose proof D as D'. apply convert_spec in D'. eapply G; [unfold setup, command_line; cbn [p_none]; rewrite D'; reflexivity|].
    intros p I. apply R in I. cbn [readable] in I. cbn [ptrue apply asked_for]. unfold belongs. destruct (pr_gids p) as [l|]; [|easy].
    eexists. split; [reflexivity|]. rewrite member. split; [eauto 6|]. intros (id' & D2 & l' & E & J). injection E as ->. apply convert_spec in D2. congruence.
  - destruct S as (NE & n & E). destruct s as [|c s]; [easy|]. eapply G.
    { unfold setup, command_line. cbn [p_none ptrue to_int]. rewrite E. reflexivity. }
    intros p I. eexists. split; [reflexivity|]. cbn [asked_for]. rewrite Z.eqb_eq, E. split; congruence.
  - destruct s as [|c s].
    + eapply G; [reflexivity|]. intros p I. apply R in I. cbn [readable] in I. destruct I as [I|I]; [easy|]. exists true. split; auto.
      split; auto. intros _. left. destruct (pr_name p) as [t|]; [|easy]. exists t. split; auto. exists [], t. reflexivity.
    + eapply G; [reflexivity|]. intros p I. apply command_spec.
Qed.

(** A user or group that is neither a name nor a number, or a process number that is none: nothing is reported, and the command ends
    with an error message. *)
Theorem c65_unknown : forall r ps,
  match r with UserIs _ | GroupIs _ => ~ sensible r | PidIs s => s <> [] /\ int_of s = None | _ => False end ->
  run_ps int_of users groups my_uid my_gid (command_line r) ps = (command_line r, [], Killed).
Proof.
  intros r ps H. destruct r; try easy; unfold run_ps, setup, command_line; cbn [p_none ptrue].
  - cbn in H. rewrite <- (convert_kill users s) in H. now rewrite H.
  - cbn in H. rewrite <- (convert_kill groups s) in H. now rewrite H.
  - destruct H as [N E]. destruct s as [|c s]; [easy|]. cbn [to_int]. now rewrite E.
Qed.

(** Running the operator again *)
Theorem c65_again_partial : forall r ps ps' op' sent, (forall s, r = PidIs s -> int_of s <> Some 0%Z) ->
  run_ps int_of users groups my_uid my_gid (command_line r) ps = (op', sent, Normally) ->
  forall sent' e, (exists op2, run_ps int_of users groups my_uid my_gid (command_line r) ps' = (op2, sent', e)) ->
  run_ps int_of users groups my_uid my_gid op' ps' = (op', sent', e).
Proof.
  intros r ps ps' op' sent NZ E sent' e (op2 & E2).
  assert (S : forall f, setup int_of users groups my_uid my_gid (command_line r) = Good (op', f) ->
              setup int_of users groups my_uid my_gid op' = Good (op', f) ->
              run_ps int_of users groups my_uid my_gid op' ps' = (op', sent', e)).
  { intros f A B. unfold run_ps in *. rewrite B. rewrite A in E2. destruct (report f ps') as [s k]. injection E2 as <- <- <-. reflexivity. }
  unfold run_ps in E. destruct (setup int_of users groups my_uid my_gid (command_line r)) as [[op3 f]| |] eqn:SE; try discriminate.
  destruct (report f ps) as [s k]. injection E as -> <- _. apply (S f); auto. clear S E2.
  assert (L : forall db n, lookup db (PInt n) = None) by (intros [|[m i] db] n; reflexivity).
  destruct r; cbn in SE; unfold convert_to_id in *; try (injection SE as <- <-; cbn; unfold convert_to_id; rewrite ?L; reflexivity).
  - destruct (lookup users (PStr s0)); [|cbn in SE; destruct (int_of s0); try discriminate]; injection SE as <- <-; cbn; unfold convert_to_id; now rewrite L.
  - destruct (lookup groups (PStr s0)); [|cbn in SE; destruct (int_of s0); try discriminate]; injection SE as <- <-; cbn; unfold convert_to_id; now rewrite L.
  - destruct s0 as [|c s0]; [injection SE as <- <-; reflexivity|]. destruct (int_of (c :: s0)) as [n|] eqn:I; [|discriminate].
    injection SE as <- <-. cbn. destruct (Z.eqb_spec n 0) as [->|NE]; [|reflexivity]. exfalso. now apply (NZ (c :: s0)).
Qed.
End Spec.
Print Assumptions c65_reported_partial.
Print Assumptions c65_unknown.
Print Assumptions c65_again_partial.

(** ** What fails *)
Section Refuted.
Variable int_of : text -> option Z.
Variable users groups : list (text * Z).
Variable my_uid my_gid : Z.
Notation run := (run_ps int_of users groups my_uid my_gid).

(** The API function: unless user, group and pid are all given (be it as None), it always raises a TypeError. *)
Theorem c65_api_refuted : forall user group pid command ps, (user = None \/ group = None \/ pid = None) ->
  (forall v, user = Some v -> v = PNone) -> (forall v, group = Some v -> v = PNone) ->
  exists op', run (api_ps user group pid command) ps = (op', [], Raised).
Proof.
  intros user group pid command ps H U G.
  assert (L : forall db, lookup db PUninit = None) by (intros [|[m i] db]; reflexivity).
  unfold run_ps, api_ps, setup. destruct user as [u|].
  - rewrite (U u eq_refl). cbn [p_none]. destruct group as [g|].
    + rewrite (G g eq_refl). cbn [p_none]. destruct H as [H|[H| ->]]; try discriminate. cbn. eauto.
    + cbn [p_none]. unfold convert_to_id. rewrite L. cbn. eauto.
  - cbn [p_none]. unfold convert_to_id. rewrite L. cbn. eauto.
Qed.
(** In particular ps() does. *)
Theorem c65_api_all_refuted : forall ps, exists op', run (api_ps None None None None) ps = (op', [], Raised).
Proof. intros ps. apply c65_api_refuted; auto; intros v E; discriminate. Qed.

(** A process whose owner cannot be read: it and the processes after it are not reported, and the command ends with a TypeError. *)
Theorem c65_hidden_refuted : forall before p after, pr_uids p = None -> Forall (fun q => pr_uids q <> None) before ->
  exists op', run (command_line OwnUser) (before ++ p :: after) =
    (op', filter (fun q => match pr_uids q with Some l => existsb (Z.eqb my_uid) l | None => false end) before, Raised).
Proof.
  intros before p after N F. exists (mkpsop (PInt my_uid) PNone PNone PNone). unfold run_ps. cbn [setup command_line p_none ptrue].
  assert (E : report (FUser my_uid) (before ++ p :: after) =
              (filter (fun q => match pr_uids q with Some l => existsb (Z.eqb my_uid) l | None => false end) before, false)).
  { induction F as [|q before Q F IH]; cbn [report app filter apply].
    - now rewrite N.
    - destruct (pr_uids q) as [l|]; [|easy]. rewrite IH. now destruct (existsb (Z.eqb my_uid) l). }
  rewrite E. reflexivity.
Qed.

(** An empty process number selects all processes; so does 0 the second time. *)
Theorem c65_pid_refuted : forall ps, 
  (exists op', run (command_line (PidIs [])) ps = (op', ps, Normally)) /\
  (forall c s, int_of (c :: s) = Some 0%Z ->
   exists op', run (command_line (PidIs (c :: s))) ps = (op', filter (fun p => Z.eqb 0 (pr_pid p)) ps, Normally) /\ run op' ps = (op', ps, Normally)).
Proof.
  assert (A : forall f ps, (forall p, apply f p = Good true) -> report f ps = (ps, true)).
  { intros f. induction ps as [|p ps IH]; intros H; auto. cbn. now rewrite H, IH. }
  intros ps. split.
  - eexists. unfold run_ps. cbn [setup command_line p_none ptrue]. now rewrite A by reflexivity.
  - intros c s E. exists (mkpsop PNone PNone (PInt 0) PNone). unfold run_ps. cbn [setup command_line p_none ptrue to_int]. rewrite E. split.
    + rewrite report_all by (intros p _; eexists; reflexivity). reflexivity.
    + cbn. now rewrite A by reflexivity.
Qed.
End Refuted.
Print Assumptions c65_api_refuted.
Print Assumptions c65_api_all_refuted.
Print Assumptions c65_hidden_refuted.
Print Assumptions c65_pid_refuted.

(** A user whose name is a number, one whose name is not; the hypotheses are met. *)
Definition some_users : list (text * Z) := [(txt "root", 0%Z); (txt "7", 1000%Z)].
Definition digit (t : text) : option Z := if teqb t (txt "7") then Some 7%Z else None.
Definition p1 := mkprocess 1 (Some [0; 0; 0]%Z) (Some [0; 0; 0]%Z) (Some (txt "init")) None (Some [txt "/sbin/init"]).
Definition p2 := mkprocess 7 (Some [1000; 0; 0]%Z) (Some [1000; 1000; 1000]%Z) (Some (txt "sh")) (Some (txt "/bin/sh")) (Some [txt "sh"; txt "-c"; txt "init 3"]).
Theorem c65_example :
  let run r := run_ps digit some_users [] 0 0 (command_line r) [p1; p2] in
  (sensible digit some_users [] (UserIs (txt "7")) /\ Forall (readable (UserIs (txt "7"))) [p1; p2]) /\
  snd (fst (run (UserIs (txt "7")))) = [p2] /\ snd (fst (run (GroupIs (txt "7")))) = [] /\ snd (fst (run OwnUser)) = [p1; p2] /\
  snd (fst (run (PidIs (txt "7")))) = [p2] /\ snd (fst (run (CommandHas (txt "init")))) = [p1; p2] /\
  run (UserIs (txt "joe")) = (command_line (UserIs (txt "joe")), [], Killed).
Proof.
  intros run. repeat split; try reflexivity.
  - exists 1000%Z. left. exists [(txt "root", 0%Z)], []. split; auto. intros [E|[]]. discriminate.
  - repeat constructor; discriminate.
Qed.
Print Assumptions c65_example.
