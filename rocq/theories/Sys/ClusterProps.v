(** What the configuration of a cluster means, and the commands that reach its hosts (C63). *)
From Verif.Sys Require Export Cluster ScpSpec.
From Verif.Py Require Import Dec.
From Verif.Sys Require Import ScpProps.
Local Open Scope char_scope.
Local Open Scope list_scope.

(** cluster.py:82-94: a host is given by its name (or address), or by that and a port number. *)
Definition denotes (g : given) (name : text) (port : option nat) : Prop :=
  match port with None => g = GStr name | Some p => g = GSeq [GStr name; GInt p] end.
Definition valid_host (g : given) : Prop := exists name port, denotes g name port.
Definition valid_cluster (host hosts identity : given) : Prop :=
  identity <> GNone /\
  ((hosts = GNone /\ valid_host host) \/ (host = GNone /\ exists l, hosts = GSeq l /\ Forall valid_host l)).
Definition specs (host hosts : given) : list given := match hosts with GSeq l => l | _ => [host] end.

(** A valid configuration is accepted, and its hosts are the ones given, *)
Theorem c63_accepted : forall host hosts identity, valid_cluster host hosts identity ->
  make_cluster host hosts identity = Made (map new_host (specs host hosts)).
Proof.
  intros host hosts identity (NI & [(-> & name & port & D)|(-> & l & -> & F)]).
  - unfold denotes in D. destruct port as [p|]; subst host; unfold make_cluster; cbn; destruct identity; try congruence; reflexivity.
  - unfold make_cluster; cbn. destruct identity; try congruence; reflexivity.
Qed.
(** each with its name, its address, and its port. *)
Theorem c63_host : forall resolve g name port a, denotes g name port -> resolve name = Some a ->
  exists h, ensure_initialized resolve (new_host g) = Some h /\ name_ h = Some name /\ addr_ h = Some a /\ port_ h = option_map GInt port.
Proof.
  intros resolve g name port a D R. unfold denotes in D. destruct port as [p|]; subst g; unfold ensure_initialized, new_host, split_port; cbn; rewrite R;
    eexists; (split; [reflexivity|]); cbn; auto.
Qed.
(** A host that can be used at all has been given by a string, or a string and something else. *)
Theorem c63_used_partial : forall resolve g h, ensure_initialized resolve (new_host g) = Some h ->
  exists name a, resolve name = Some a /\ addr_ h = Some a /\ ((g = GStr name /\ port_ h = None) \/ exists p, g = GSeq [GStr name; p] /\ port_ h = Some p).
Proof.
  intros resolve g h. unfold ensure_initialized, new_host, split_port. cbn.
  assert (S : forall s, match resolve s with Some a => Some (mkhostobj (GStr s) (Some a) (Some s) None) | None => None end = Some h -> 
    exists a, resolve s = Some a /\ addr_ h = Some a /\ port_ h = None).
  { intros s. destruct (resolve s); [|discriminate]. intros [= <-]. eauto. }
  destruct g as [|s|n|[|x [|y [|z l]]]|]; cbn; try discriminate.
  - intros E. destruct (S s E) as (a & R & A & P). exists s, a. auto.
  - destruct x as [|s|n|l|]; cbn; try discriminate. destruct (resolve s) as [a|] eqn:R; [|discriminate]. intros [= <-]. exists s, a.
    cbn. split; auto. split; auto. right. eauto.
Qed.
(** A cluster that is accepted has a key file, and either a host or hosts, in a tuple or list; a host that is a tuple or list begins with a
    string. *)
Theorem c63_rejected_partial : forall host hosts identity hs, make_cluster host hosts identity = Made hs ->
  hs = map new_host (specs host hosts) /\ identity <> GNone /\
  ((host <> GNone /\ hosts = GNone /\ forall l, host = GSeq l -> exists n p r, l = GStr n :: p :: r) \/
   (host = GNone /\ exists l, hosts = GSeq l)).
Proof.
  intros host hosts identity hs. unfold make_cluster, specs.
  destruct host as [|s|n|[|[|s|n|l|] [|y z]]|]; destruct hosts as [|t|k|r|]; cbn; try discriminate; destruct identity; cbn; try discriminate; intros [= <-];
    (split; [reflexivity|]); (split; [discriminate|]); try (right; split; [reflexivity|eauto]; fail); left; (split; [discriminate|]); (split; [reflexivity|]);
    intros l0 [= <-]; eauto.
Qed.
(** But what is not valid is not always rejected: a pair of hosts given for one host, a number for a host. *)
Theorem c63_rejected_refuted :
  (exists host, ~ valid_cluster host GNone (GStr (txt "id")) /\ host = GSeq [GStr (txt "a"); GStr (txt "b")] /\
     make_cluster host GNone (GStr (txt "id")) = Made [new_host host]) /\
  ~ valid_cluster GNone (GSeq [GStr (txt "localhost"); GInt 22]) (GStr (txt "id")) /\
  make_cluster GNone (GSeq [GStr (txt "localhost"); GInt 22]) (GStr (txt "id")) = Made [new_host (GStr (txt "localhost")); new_host (GInt 22)].
Proof.
  split; [|split].
  - exists (GSeq [GStr (txt "a"); GStr (txt "b")]). split; [|split; reflexivity].
    intros (_ & [(_ & name & port & D)|(E & _)]); [|discriminate]. unfold denotes in D. destruct port; discriminate.
  - intros (_ & [(E & _)|(_ & l & E & F)]); [discriminate|]. injection E as <-. inversion F as [|? ? _ F2]; subst. inversion F2 as [|? ? (name & port & D) _]; subst.
    unfold denotes in D. destruct port; discriminate.
  - reflexivity.
Qed.

(** ** Labels: the hosts that remote, upload and download put before their output; they have been used. *)
(** Two labels are equal when the hosts have the same name, *)
Theorem c63_labels : forall resolve g1 n1 p1 h1 g2 n2 p2 h2,
  denotes g1 n1 p1 -> denotes g2 n2 p2 -> ensure_initialized resolve (new_host g1) = Some h1 -> ensure_initialized resolve (new_host g2) = Some h2 ->
  host_eq h1 h2 = true <-> n1 = n2.
Proof.
  assert (R : forall resolve g n p h, denotes g n p -> ensure_initialized resolve (new_host g) = Some h -> host_ h = GStr n).
  { intros resolve g n p h D. unfold denotes in D. destruct p; subst g; unfold ensure_initialized, new_host, split_port; cbn; destruct (resolve n); try discriminate;
      intros [= <-]; reflexivity. }
  intros resolve g1 n1 p1 h1 g2 n2 p2 h2 D1 D2 E1 E2. unfold host_eq. rewrite (R _ _ _ _ _ D1 E1), (R _ _ _ _ _ D2 E2). cbn.
  destruct (list_eq_dec ascii_dec n1 n2); split; congruence.
Qed.
(** even if they are different hosts (ports to different machines, or containers, behind one name): *)
Theorem c63_labels_refuted : forall resolve n a, resolve n = Some a -> exists g1 g2 h1 h2,
  g1 = GSeq [GStr n; GInt 2201] /\ g2 = GSeq [GStr n; GInt 2202] /\
  ensure_initialized resolve (new_host g1) = Some h1 /\ ensure_initialized resolve (new_host g2) = Some h2 /\
  host_eq h1 h2 = true /\ port_ h1 <> port_ h2 /\ host_eq (new_host g1) (new_host g2) = false.
Proof.
  intros resolve n a R. exists (GSeq [GStr n; GInt 2201]), (GSeq [GStr n; GInt 2202]). eexists. eexists. do 2 (split; [reflexivity|]).
  unfold ensure_initialized, new_host, split_port. cbn [addr_ host_ name_ port_]. rewrite R. do 2 (split; [reflexivity|]). unfold host_eq. cbn [host_ same port_].
  assert (L : forall A (x y : A), (if list_eq_dec ascii_dec n n then x else y) = x) by (intros; destruct (list_eq_dec ascii_dec n n); congruence).
  rewrite !L. cbn. repeat split. discriminate.
Qed.
(** A label is equal to the host of the cluster that it comes from if and only if that has no port (or has been used). *)
Theorem c63_label_is_host : forall resolve g n p h, denotes g n p -> ensure_initialized resolve (new_host g) = Some h ->
  host_eq (new_host g) h = true <-> p = None.
Proof.
  intros resolve g n p h D. unfold denotes in D. destruct p; subst g; unfold ensure_initialized, new_host, split_port; cbn; destruct (resolve n); try discriminate;
      intros [= <-]; unfold host_eq; cbn.
  - split; discriminate.
  - destruct (list_eq_dec ascii_dec n n); [tauto|congruence].
Qed.

(** ** The commands *)
Definition ssh_port (p : option nat) : list text := match p with Some p => [txt "-p"; txt (dec (Z.of_nat p))] | None => [] end.
Definition farcel_word (p : platform) : text := match p with Linux => txt "farcel.py" | MacOS => txt "zsh -l -c farcel.py" end.

Lemma ordinary_txt : forall s, forallb ordinaryb (txt s) = true -> ordinary_text (txt s).
Proof. intros s F. apply Forall_forall. rewrite forallb_forall in F. intros. apply ordinaryb_iff. auto. Qed.
(** remote runs ssh with the key, port, user and address of the host. Missing: names with other characters than the ordinary ones. *)
Theorem c63_ssh_partial : forall pl u i a n p, ordinary_text u -> ordinary_text i -> i <> [] -> ordinary_text a ->
  command (ssh_command pl (mkhost u i a n p)) ([txt "ssh"; txt "-i"; i] ++ ssh_port p ++ [u ++ "@" :: a; farcel_word pl]).
Proof.
  intros pl u i a n p U I NI A. unfold ssh_command. cbn [identity user addr port]. destruct i as [|ic ir]; [congruence|]. set (i := ic :: ir) in *.
  change ([txt "ssh"] ++ [txt "-i"; i] ++ ?x) with ([txt "ssh"; txt "-i"; i] ++ x).
  assert (N : u ++ "@" :: a <> []) by (intros X; apply app_eq_nil in X; destruct X; discriminate).
  destruct (ordinary_number (match p with Some n => n | None => 0 end)) as [O M]. unfold str_of_nat in *.
  assert (W : stands_for (farcel_invocation pl) (farcel_word pl) /\ farcel_invocation pl <> []).
  { destruct pl; cbn [farcel_invocation farcel_word].
    - split; [apply sf_ordinary, ordinary_txt; reflexivity|discriminate].
    - split; [|discriminate]. rewrite <- (app_nil_r (txt "zsh -l -c farcel.py")) at 2. apply sf_single; [|constructor].
      intros X. cbn in X. repeat (destruct X as [X|X]; [discriminate|]). exact X. }
  destruct W as (W & NW). apply command_join.
  - discriminate.
  - destruct p; cbn; repeat constructor; auto; discriminate.
  - apply Forall2_app; [|apply Forall2_app].
    + apply ordinary_sf_list. repeat (apply Forall_cons; [first [assumption|apply ordinary_txt; reflexivity]|]). constructor.
    + apply ordinary_sf_list. destruct p; cbn [ssh_port]; repeat (apply Forall_cons; [first [assumption|apply ordinary_txt; reflexivity]|]); constructor.
    + constructor; [apply sf_ordinary; now apply ordinary_login|]. constructor; [exact W|constructor].
Qed.
(** sudo runs the system's sudo with the flags given. *)
Theorem c63_sudo_partial : forall flags, Forall ordinary_text flags -> Forall (fun f => f <> []) flags ->
  command (sudo_command flags) (txt "sudo" :: flags ++ [txt "farcel.py"]).
Proof.
  intros flags F N. apply command_join.
  - discriminate.
  - constructor; [discriminate|]. apply Forall_app. split; [exact N|]. constructor; [discriminate|constructor].
  - constructor; [apply sf_ordinary, ordinary_txt; reflexivity|]. apply Forall2_app; [now apply ordinary_sf_list|].
    constructor; [apply sf_ordinary, ordinary_txt; reflexivity|constructor].
Qed.
(** Other characters: sudo -p 'Your password' (| ... |), and a key file in a directory with a blank in its name *)
Theorem c63_command_refuted :
  command (sudo_command [txt "-p"; txt "Your password"]) (map txt ["sudo"; "-p"; "Your"; "password"; "farcel.py"]%string) /\
  ~ command (sudo_command [txt "-p"; txt "Your password"]) (map txt ["sudo"; "-p"; "Your password"; "farcel.py"]%string) /\
  command (ssh_command Linux (mkhost (txt "u") (txt "/my keys/id") (txt "10.0.0.7") (txt "h") None))
    (map txt ["ssh"; "-i"; "/my"; "keys/id"; "u@10.0.0.7"; "farcel.py"]%string).
Proof.
  assert (O : forall l, l <> [] -> forallb (fun w => negb (match txt w with [] => true | _ => false end) && forallb ordinaryb (txt w)) l = true ->
    command (join_blank (map txt l)) (map txt l)).
  { intros l NL H. rewrite forallb_forall in H. apply command_join.
    - destruct l; [congruence|discriminate].
    - apply Forall_forall. intros w X. apply in_map_iff in X. destruct X as (s & <- & X). apply H in X. destruct (txt s); [discriminate|discriminate].
    - apply ordinary_sf_list. apply Forall_forall. intros w X. apply in_map_iff in X. destruct X as (s & <- & X). apply H in X.
      apply andb_true_iff in X. apply ordinary_txt. tauto. }
  assert (S : command (sudo_command [txt "-p"; txt "Your password"]) (map txt ["sudo"; "-p"; "Your"; "password"; "farcel.py"]%string)).
  { apply (O ["sudo"; "-p"; "Your"; "password"; "farcel.py"]%string); [discriminate|reflexivity]. }
  split; [exact S|]. split.
  - intros X. pose proof (c55_one_reading _ _ _ S X) as Y. discriminate Y.
  - apply (O ["ssh"; "-i"; "/my"; "keys/id"; "u@10.0.0.7"; "farcel.py"]%string); [discriminate|reflexivity].
Qed.
(** A configuration that meets the hypotheses *)
Theorem c63_example : valid_cluster GNone (GSeq [GStr (txt "n1"); GSeq [GStr (txt "n2"); GInt 2222]]) (GStr (txt "/id")) /\
  ssh_command Linux (mkhost (txt "jao") (txt "/id") (txt "10.0.0.2") (txt "n2") (Some 2222)) = txt "ssh -i /id -p 2222 jao@10.0.0.2 farcel.py".
Proof.
  split; [|reflexivity]. split; [discriminate|]. right. split; auto. eexists. split; [reflexivity|].
  constructor; [|constructor; [|constructor]]; eexists; [exists None|exists (Some 2222)]; reflexivity.
Qed.
