(* Invariants of the job control when signals are handled while the main process is
   blocked *)
From Coq Require Import List Bool Arith Lia.
From Verif.Sys Require Import Jobs JobsSpec JobsFacts.
Import ListNotations.

Definition L w j := lab (rec w j).
Definition P w j := ps (rec w j).
Definition alive (p : pstate) := p = PRun \/ p = PStop.

Inductive base := BPrompt | BJoin (j : nat).
Definition bstk b := match b with BPrompt => [] | BJoin j => [CJoined j] end.
Definition okb w b :=
  match b with
  | BPrompt => forall i, L w i <> FOREGROUND
  | BJoin j => forall i, L w i = FOREGROUND -> i = j
  end.

(* What is temporarily allowed, by job: reaped but not yet labelled dead;
   stopped but labelled running; running but labelled paused; labelled dead but
   not killed yet; not listed yet *)
Record allow := mkA { aR : nat -> Prop; aZ : nat -> Prop; aT : nat -> Prop; aK : nat -> Prop; aA : nat -> Prop }.
Definition no : nat -> Prop := fun _ => False.
Definition any : nat -> Prop := fun _ => True.
Definition only (j : nat) : nat -> Prop := fun i => i = j.
Definition calm := mkA no no no no no.

Definition tail := [CCmdEnd; CWait].

(* what is below the instructions of kill(j) *)
Inductive kctx (w : W) (j : nat) : list cmd -> Prop :=
| kc_base : forall b, okb w b -> kctx w j (bstk b)
| kc_exit : forall l, (forall x, In x (order w) -> In x l \/ L w x = DEAD \/ x = j) -> incl l (order w) ->
    kctx w j (CKillAll l :: CHalt :: tail).

(* what is below foreground() *)
Inductive sctx (w : W) : kont -> list cmd -> Prop :=
| sc_wait : sctx w KWait []
| sc_c : forall b, okb w b -> sctx w KCtrlC (bstk b)
| sc_z : forall b, okb w b -> sctx w KCtrlZ (bstk b).

(* the loop of foreground() has not met a job of the foreground before l *)
Definition scanned w (l : list nat) := exists a, order w = a ++ l /\ forall x, In x a -> L w x <> FOREGROUND.

Definition zof k := match k with KCtrlZ => any | KWait | KCtrlC => no end.
Definition rof k (l : list nat) : nat -> Prop := match k with KWait => fun j => In j l | _ => no end.

Inductive shape (w : W) : list cmd -> allow -> Prop :=
| s_prompt : (forall i, L w i <> FOREGROUND) -> shape w [] calm
| s_create : shape w (CCreate :: tail) calm
| s_append : forall j, ~ In j (order w) -> j < nxt w -> L w j = FOREGROUND -> shape w (CAppend j :: tail) (mkA any no no no (only j))
| s_remove : forall k l acc pre, order w = pre ++ l -> NoDup acc -> incl acc pre ->
    (forall x, In x pre -> ~ In x acc -> L w x = DEAD \/ ended (P w x)) ->
    shape w (CRemove k l acc :: tail) (mkA (fun x => In x pre /\ ~ In x acc) no no no no)
| s_pick : forall n o, shape w (CPick n o :: tail) calm
| s_op : forall o j, In j (order w) -> (forall i, L w i <> FOREGROUND) -> shape w (COp o j :: tail) calm
| s_bgset : forall j, In j (order w) -> L w j = PAUSED \/ L w j = BACKGROUND -> shape w (CBgSet j :: tail) calm
| s_fgset : forall j (r : bool), In j (order w) -> L w j = (if r then PAUSED else BACKGROUND) -> shape w (CFgSet j r :: tail) calm
| s_cont : forall j, In j (order w) -> L w j <> DEAD -> L w j <> PAUSED -> shape w (CSig j CONT :: tail) (mkA no (only j) no no no)
| s_end : shape w tail (mkA any no no no no)
| s_wait : shape w [CWait] (mkA any no no no no)
| s_killall : forall l, (forall x, In x (order w) -> In x l \/ L w x = DEAD) -> incl l (order w) ->
    shape w (CKillAll l :: CHalt :: tail) calm
| s_halt : (forall x, In x (order w) -> L w x = DEAD) -> shape w (CHalt :: tail) calm
| s_scan : forall l k r, sctx w k r -> scanned w l -> shape w (CScan l k :: r) (mkA (rof k l) (zof k) no no no)
| s_check : forall i l k r, sctx w k r -> scanned w (i :: l) ->
    shape w (CCheck i :: CTestFg i l k :: r) (mkA (rof k (i :: l)) (zof k) no no no)
| s_setdead : forall i l k r, sctx w k r -> scanned w (i :: l) -> L w i = DEAD \/ ended (P w i) ->
    shape w (CSetDead i :: CClearProc i :: CTestFg i l k :: r) (mkA (fun j => j = i \/ rof k l j) (zof k) no no no)
| s_clear : forall i l k r, sctx w k r -> scanned w (i :: l) -> L w i = DEAD ->
    shape w (CClearProc i :: CTestFg i l k :: r) (mkA (rof k l) (zof k) no no no)
| s_testfg : forall i l k r, sctx w k r -> scanned w (i :: l) ->
    shape w (CTestFg i l k :: r) (mkA (rof k l) (zof k) no no no)
| s_waittest : forall j, L w j = FOREGROUND -> shape w [CWaitTest j] calm
| s_waitjoin : forall j, L w j = FOREGROUND -> shape w [CWaitJoin j] calm
| s_joined : forall j, (forall i, L w i = FOREGROUND -> i = j) -> shape w [CJoined j] calm
| s_kill : forall j r, kctx w j r -> (L w j = FOREGROUND \/ exists l, r = CKillAll l :: CHalt :: tail) -> In j (order w) ->
    shape w (CKill j :: r) calm
| s_killset : forall j r, kctx w j r -> L w j <> DEAD -> (L w j = FOREGROUND \/ exists l, r = CKillAll l :: CHalt :: tail) -> In j (order w) ->
    shape w (CKillSet j :: r) calm
| s_killterm : forall j r, kctx w j r -> L w j = DEAD -> hasp (rec w j) = true ->
    shape w (CKillTerm j :: CTryEnd :: r) (mkA no no no (only j) no)
| s_killjoin : forall j r, kctx w j r -> L w j = DEAD -> hasp (rec w j) = true ->
    shape w (CKillJoin j :: CTryEnd :: r) (mkA no no no (only j) no)
| s_killtest : forall j r, kctx w j r -> L w j = DEAD -> hasp (rec w j) = true ->
    shape w (CKillTest j :: CTryEnd :: r) (mkA no no no (only j) no)
| s_killkill : forall j r, kctx w j r -> L w j = DEAD -> hasp (rec w j) = true ->
    shape w (CKillKill j :: CTryEnd :: r) (mkA no no no (only j) no)
| s_killjoin2 : forall j r, kctx w j r -> L w j = DEAD -> hasp (rec w j) = true ->
    shape w (CKillJoin2 j :: CTryEnd :: r) calm
| s_killtest2 : forall j r, kctx w j r -> L w j = DEAD -> hasp (rec w j) = true ->
    shape w (CKillTest2 j :: CTryEnd :: r) calm
| s_killclear : forall j r, kctx w j r -> L w j = DEAD ->
    shape w (CKillClear j :: CTryEnd :: r) calm
| s_tryend : forall j r, kctx w j r -> L w j = DEAD -> shape w (CTryEnd :: r) calm
| s_pause : forall j b, okb w b -> L w j = FOREGROUND -> In j (order w) ->
    shape w (CPause j :: CZStart :: bstk b) (mkA no any no no no)
| s_pauseset : forall j b, okb w b -> L w j = FOREGROUND -> In j (order w) ->
    shape w (CPauseSet j :: CZStart :: bstk b) (mkA no any no no no)
| s_tstp : forall j b, okb w b -> L w j = PAUSED -> In j (order w) -> (forall i, L w i <> FOREGROUND) ->
    shape w (CSig j TSTP :: CZStart :: bstk b) (mkA no any (only j) no no)
| s_zstart : forall b, okb w b -> (forall i, L w i <> FOREGROUND) ->
    shape w (CZStart :: bstk b) (mkA no any no no no)
| s_zloop : forall l b, okb w b -> (forall i, L w i <> FOREGROUND) -> incl l (order w) ->
    shape w (CZLoop l :: bstk b) (mkA no (fun j => In j l) no no no)
| s_zop : forall j l b, okb w b -> (forall i, L w i <> FOREGROUND) -> incl (j :: l) (order w) -> L w j = BACKGROUND ->
    shape w (COp OpBg j :: CZLoop l :: bstk b) (mkA no (fun i => i = j \/ In i l) no no no)
| s_zset : forall j l b, okb w b -> (forall i, L w i <> FOREGROUND) -> incl (j :: l) (order w) -> L w j = BACKGROUND ->
    shape w (CBgSet j :: CZLoop l :: bstk b) (mkA no (fun i => i = j \/ In i l) no no no)
| s_zcont : forall j l b, okb w b -> (forall i, L w i <> FOREGROUND) -> incl (j :: l) (order w) -> L w j = BACKGROUND ->
    shape w (CSig j CONT :: CZLoop l :: bstk b) (mkA no (fun i => i = j \/ In i l) no no no).

Record G (w : W) (al : allow) : Prop := {
  g_has : forall j, L w j <> DEAD -> hasp (rec w j) = true /\ j < nxt w;
  g_listed : forall j, L w j <> DEAD -> ~ ended (P w j) -> In j (order w) \/ aA al j;
  g_nodup : NoDup (order w);
  g_lt : forall j, In j (order w) -> j < nxt w;
  g_reaped : forall j, In j (order w) -> L w j <> DEAD -> P w j = PReaped -> aR al j;
  g_tail : forall a i b, order w = a ++ i :: b -> L w i = FOREGROUND ->
     forall j, In j b -> L w j <> DEAD -> P w j <> PReaped;
  g_run : forall j, L w j = FOREGROUND \/ L w j = BACKGROUND -> P w j = PStop -> pendz w = true \/ aZ al j;
  g_pause : forall j, L w j = PAUSED -> P w j = PRun -> aT al j;
  g_dead : forall j, L w j = DEAD -> alive (P w j) -> aK al j
}.

Definition QInv (w : W) : Prop :=
  match stat w with
  | Running => exists al, shape w (stk w) al /\ G w al
  | Halted => forall j, ~ alive (P w j)
  | Crashed => False
  end.

Definition mono (al al' : allow) : Prop :=
  (forall j, aR al j -> aR al' j) /\ (forall j, aZ al j -> aZ al' j) /\ (forall j, aT al j -> aT al' j) /\
  (forall j, aK al j -> aK al' j) /\ (forall j, aA al j -> aA al' j).

Ltac up := unfold L, P in *; simpl in *; unfold upd in *;
  repeat match goal with
  | H : context [Nat.eqb ?a ?b] |- _ => destruct (Nat.eqb_spec a b); subst; simpl in *
  | |- context [Nat.eqb ?a ?b] => destruct (Nat.eqb_spec a b); subst; simpl in *
  end.

Lemma G_weak : forall w w' al al',
  G w al -> rec w' = rec w -> nxt w' = nxt w -> order w' = order w -> pendz w' = pendz w ->
  (forall j, aR al j -> In j (order w) -> L w j <> DEAD -> P w j = PReaped -> aR al' j) ->
  (forall j, aZ al j -> L w j = FOREGROUND \/ L w j = BACKGROUND -> P w j = PStop -> pendz w = true \/ aZ al' j) ->
  (forall j, aT al j -> L w j = PAUSED -> P w j = PRun -> aT al' j) ->
  (forall j, aK al j -> L w j = DEAD -> alive (P w j) -> aK al' j) ->
  (forall j, aA al j -> In j (order w) \/ aA al' j) -> G w' al'.
Proof.
  intros w w' al al' H E1 E2 E3 E4 A1 A2 A3 A4 A5. destruct H.
  constructor; unfold L, P in *; rewrite ?E1, ?E2, ?E3, ?E4; intros; eauto.
  - destruct (g_listed0 j); auto.
  - destruct (g_run0 j); auto.
Qed.

Lemma ended_reap : forall p, ended (reap_ps p) <-> ended p.
Proof. unfold ended; destruct p; simpl; intuition congruence. Qed.
Lemma alive_reap : forall p, alive (reap_ps p) <-> alive p.
Proof. unfold alive; destruct p; simpl; intuition congruence. Qed.

Lemma G_poll : forall w al i, G w al ->
  (In i (order w) -> L w i <> DEAD -> P w i = PZombie ->
     aR al i /\ (forall a f b, order w = a ++ f :: b -> L w f = FOREGROUND -> ~ In i b)) ->
  G (poll w i) al.
Proof.
  intros w al i H A. destruct H.
  constructor; unfold poll in *; up; intros; up; eauto.
  - apply g_listed0; auto. rewrite ended_reap in H0; auto.
  - destruct (ps (rec w i)) eqn:E; try discriminate; auto. apply A; auto.
  - destruct (ps (rec w i)) eqn:E; simpl; try discriminate; auto.
    + intros _. destruct (A) as [_ B]; auto. rewrite H. apply in_or_app; simpl; auto. eapply B; eauto.
    + exfalso; exact (g_tail0 _ _ _ H H0 _ H1 H2 E).
  - destruct (ps (rec w i)) eqn:E; simpl; try discriminate; auto.
    + intros _. destruct (A) as [_ B]; auto. rewrite H. apply in_or_app; simpl; auto. eapply B; eauto.
    + exfalso; exact (g_tail0 _ _ _ H H0 _ H1 H2 E).
  - apply g_run0; auto. destruct (ps (rec w i)); simpl in *; congruence.
  - apply g_pause0; auto. destruct (ps (rec w i)); simpl in *; congruence.
  - apply g_dead0; auto. apply alive_reap; auto.
Qed.

Lemma G_exit : forall w al i, G w al -> i < nxt w -> P w i <> PReaped -> G (setps w i PZombie) al.
Proof.
  intros w al i H A B. destruct H.
  constructor; up; intros; up; eauto; try discriminate.
  - exfalso; apply H0; left; auto.
  - destruct H0; discriminate.
Qed.

Lemma G_ztyped : forall w al, G w al -> G (setpend (stop_all w) true) al.
Proof.
  intros w al H. destruct H.
  constructor; up; intros; up; eauto.
  - apply g_listed0; auto. intros X; apply H0. destruct X as [->| ->]; [left|right]; auto.
  - apply g_reaped0; auto. destruct (ps (rec w j)); simpl in *; congruence.
  - specialize (g_tail0 _ _ _ H H0 _ H1 H2). destruct (ps (rec w j)); simpl in *; congruence.
  - destruct (ps (rec w j)); simpl in *; congruence.
  - apply g_dead0; auto. destruct (ps (rec w j)); simpl in *; auto; destruct H0; try discriminate; left; auto.
Qed.

Lemma G_sethas : forall w al i, G w al -> L w i = DEAD -> G (sethas w i false) al.
Proof.
  intros w al i H A. destruct H.
  constructor; up; intros; up; eauto; try congruence.
Qed.

(* A label changes *)
Lemma G_dead : forall w al i, G w al -> G (setlab w i DEAD) (mkA (aR al) (aZ al) (aT al) (fun j => j = i \/ aK al j) (aA al)).
Proof.
  intros w al i H. destruct H.
  constructor; up; intros; up; eauto; try congruence.
  all: try (destruct H; discriminate).
Qed.
Lemma G_paused : forall w al i, G w al -> L w i = FOREGROUND ->
  G (setlab w i PAUSED) (mkA (aR al) (aZ al) (fun j => j = i \/ aT al j) (aK al) (aA al)).
Proof.
  intros w al i H A. destruct H.
  assert (B : lab (rec w i) <> DEAD) by (unfold L in A; congruence).
  constructor; up; intros; up; eauto; try congruence.
  all: try (destruct H; discriminate).
Qed.
Lemma G_bg : forall w al i, G w al -> L w i = BACKGROUND \/ L w i = PAUSED ->
  G (setlab w i BACKGROUND) (mkA (aR al) (fun j => j = i \/ aZ al j) (aT al) (aK al) (aA al)).
Proof.
  intros w al i H A. destruct H.
  assert (B : lab (rec w i) <> DEAD) by (unfold L in A; destruct A; congruence).
  constructor; up; intros; up; eauto; try congruence.
  all: destruct (g_run0 j); auto.
Qed.
Lemma G_fg : forall w al i, G w al -> L w i = BACKGROUND \/ L w i = PAUSED ->
  (forall j, In j (order w) -> L w j <> DEAD -> P w j <> PReaped) ->
  G (setlab w i FOREGROUND)
    (mkA (aR al) (fun j => (j = i /\ L w i = PAUSED) \/ aZ al j) (aT al) (aK al) (aA al)).
Proof.
  intros w al i H A N. destruct H.
  assert (B : lab (rec w i) <> DEAD) by (unfold L in A; destruct A; congruence).
  assert (I : forall a f b j, order w = a ++ f :: b -> In j b -> In j (order w))
    by (intros a f b j -> X; apply in_or_app; simpl; auto).
  constructor; up; intros; up; eauto; try congruence.
  - destruct A as [A|A]; auto. destruct (g_run0 i); auto.
  - destruct (g_run0 j); auto.
Qed.

Lemma QI : forall w al, stat w = Running -> shape w (stk w) al -> G w al -> QInv w.
Proof. intros w al R S H. unfold QInv. rewrite R. eauto. Qed.

Lemma G_stk : forall w s al, G w al -> G (setstk w s) al.
Proof. intros. eapply G_weak; eauto. Qed.

Lemma calm_weak : forall w al, G w calm -> G w al.
Proof. intros. eapply G_weak; eauto; simpl; unfold no; tauto. Qed.

Lemma scanned_cons : forall w i l, scanned w (i :: l) -> L w i <> FOREGROUND -> scanned w l.
Proof.
  intros w i l (a & E & N) F. exists (a ++ [i]). rewrite <- app_assoc. split; auto.
  intros x X. apply in_app_or in X. destruct X as [X|[<-|[]]]; auto.
Qed.
Lemma scanned_in : forall w i l, scanned w (i :: l) -> In i (order w).
Proof. intros w i l (a & -> & _). apply in_or_app; simpl; auto. Qed.

(* the position of a job in a list without duplicates *)
Lemma NoDup_pos : forall (o a b a' b' : list nat) i f, NoDup o -> o = a ++ i :: b -> o = a' ++ f :: b' ->
  In i b' -> In f a.
Proof.
  intros o a b a' b' i f N E1 E2 I. apply in_split in I. destruct I as (x & y & ->).
  rewrite E2 in N.
  assert (Q : a = a' ++ f :: x).
  { assert (N2 : NoDup ((a' ++ f :: x) ++ i :: y)) by (rewrite <- app_assoc; simpl; exact N).
    assert (E : a ++ i :: b = (a' ++ f :: x) ++ i :: y) by (rewrite <- app_assoc; simpl; congruence).
    rewrite <- E in N2.
    clear - N2 E. revert a E N2. generalize (a' ++ f :: x) as c.
    induction c as [|h c IH]; intros [|h' a] E N; simpl in *; auto.
    - inv E. inv N. exfalso. apply H1. apply in_or_app; simpl; auto.
    - inv E. inv N. exfalso. apply H1. apply in_or_app; simpl; auto.
    - inv E. inv N. f_equal. auto. }
  rewrite Q. apply in_or_app; simpl; auto.
Qed.

Lemma scanned_tail : forall w i l, NoDup (order w) -> scanned w (i :: l) ->
  forall a f b, order w = a ++ f :: b -> L w f = FOREGROUND -> ~ In i b.
Proof.
  intros w i l N (a0 & E & H) a f b E2 F I.
  apply (H f); auto. eapply NoDup_pos; eauto.
Qed.

Lemma okb_same : forall w w' b, (forall j, L w' j = FOREGROUND -> L w j = FOREGROUND) -> okb w b -> okb w' b.
Proof. intros w w0 b E. destruct b; simpl; intros H i X; apply E in X; [exact (H i X)|auto]. Qed.
Lemma kctx_same : forall w w' j r, (forall i, L w' i = L w i) -> order w' = order w -> kctx w j r -> kctx w' j r.
Proof.
  intros w w' j r E1 E2 H. inv H.
  - constructor. apply (okb_same w); auto. intros i X; rewrite E1 in X; auto.
  - constructor; rewrite E2; auto. intros x X. rewrite E1. auto.
Qed.
Lemma sctx_same : forall w w' k r, (forall i, L w' i = FOREGROUND -> L w i = FOREGROUND) -> sctx w k r -> sctx w' k r.
Proof. intros w w' k r E H. inv H; constructor; apply (okb_same w); auto. Qed.
Lemma scanned_same : forall w w' l, (forall i, L w' i = FOREGROUND -> L w i = FOREGROUND) -> order w' = order w ->
  scanned w l -> scanned w' l.
Proof. intros w w' l E1 E2 (a & E & N). exists a. rewrite E2. split; auto. intros x X Y. apply (N x X); auto. Qed.

Lemma poll_L : forall w i j, L (poll w i) j = L w j.
Proof. intros; unfold poll; up; auto. Qed.
Lemma setps_L : forall w i p j, L (setps w i p) j = L w j.
Proof. intros; up; auto. Qed.
Lemma sethas_L : forall w i p j, L (sethas w i p) j = L w j.
Proof. intros; up; auto. Qed.

(* the shape depends on little *)
Lemma shape_same : forall w w' s al,
  (forall j, L w' j = L w j) -> (forall j, hasp (rec w' j) = hasp (rec w j)) -> nxt w' = nxt w -> order w' = order w ->
  (forall j, ended (P w j) -> ended (P w' j)) -> shape w s al -> shape w' s al.
Proof.
  intros w w' s al E1 E2 E3 E4 E5 S.
  assert (F : forall i, L w' i = FOREGROUND -> L w i = FOREGROUND) by (intros i; rewrite E1; auto).
  assert (OB : forall b, okb w b -> okb w' b) by (intros; apply (okb_same w); auto).
  assert (KC : forall j r, kctx w j r -> kctx w' j r) by (intros; eapply kctx_same; eauto).
  assert (SC : forall k r, sctx w k r -> sctx w' k r) by (intros; eapply sctx_same; eauto).
  assert (SN : forall l, scanned w l -> scanned w' l) by (intros; eapply scanned_same; eauto).
  inv S; try solve [econstructor; rewrite ?E1, ?E2, ?E3, ?E4; eauto].
  all: try solve [econstructor; rewrite ?E1, ?E4; eauto; intros x; rewrite ?E1, ?E4; eauto].
  - eapply s_remove; rewrite ?E4; eauto. intros x A B. rewrite E1. destruct (H2 x A B); auto.
  - constructor; auto. rewrite E1. destruct H1; auto.
Qed.

Lemma no_reaped : forall w al j, G w al -> (forall i, aR al i -> i <> j) -> In j (order w) -> L w j <> DEAD -> P w j <> PReaped.
Proof. intros w al j H N I D E. exact (N j (@g_reaped _ _ H j I D E) eq_refl). Qed.

Lemma os_kill_ok : forall w j s k, hasp (rec w j) = true -> P w j <> PReaped ->
  os_kill w j s k = k (setps w j (deliver s (P w j))).
Proof. intros w j s k H N. unfold os_kill, P in *. rewrite H. destruct (ps (rec w j)); congruence. Qed.

Lemma deliver_ended : forall s p, ended (deliver s p) <-> ended p.
Proof. unfold ended; destruct s, p; simpl; intuition congruence. Qed.

(* a signal to a job that is not dead *)
Lemma G_cont : forall w al j, G w al -> L w j = FOREGROUND \/ L w j = BACKGROUND ->
  G (setps w j (deliver CONT (P w j))) (mkA (aR al) (fun i => i <> j /\ aZ al i) (aT al) (aK al) (aA al)).
Proof.
  intros w al j H A. destruct H. assert (B : lab (rec w j) <> DEAD) by (unfold L in A; destruct A; congruence).
  constructor; up; intros; up; eauto; try congruence.
  - apply g_listed0; auto. intros X; apply H0. destruct (ps (rec w j)); simpl; destruct X; try discriminate; unfold ended; auto.
  - apply g_reaped0; auto. destruct (ps (rec w j)); simpl in *; congruence.
  - specialize (g_tail0 _ _ _ H H0 _ H1 H2). destruct (ps (rec w j)); simpl in *; congruence.
  - specialize (g_tail0 _ _ _ H H0 _ H1 H2). destruct (ps (rec w j)); simpl in *; congruence.
  - destruct (ps (rec w j)); simpl in *; congruence.
  - destruct (g_run0 j0); auto.
  - destruct A; congruence.
Qed.
Lemma G_tstp : forall w al j, G w al -> L w j = PAUSED ->
  G (setps w j (deliver TSTP (P w j))) (mkA (aR al) (aZ al) (fun i => i <> j /\ aT al i) (aK al) (aA al)).
Proof.
  intros w al j H A. destruct H. assert (B : lab (rec w j) <> DEAD) by (unfold L in A; congruence).
  constructor; up; intros; up; eauto; try congruence.
  - apply g_listed0; auto. intros X; apply H0. destruct (ps (rec w j)); simpl; destruct X; try discriminate; unfold ended; auto.
  - apply g_reaped0; auto. destruct (ps (rec w j)); simpl in *; congruence.
  - specialize (g_tail0 _ _ _ H H0 _ H1 H2). destruct (ps (rec w j)); simpl in *; congruence.
  - destruct H; congruence.
  - destruct (ps (rec w j)); simpl in *; congruence.
Qed.
(* a signal to a dead job *)
Lemma G_sigdead : forall w al j s, G w al -> L w j = DEAD -> s = TERM \/ s = KILL -> 
  G (setps w j (deliver s (P w j)))
    (mkA (aR al) (aZ al) (aT al) (fun i => (i <> j \/ s = TERM) /\ aK al i) (aA al)).
Proof.
  intros w al j s H A Hs. destruct H.
  constructor; up; intros; up; eauto; try congruence.
  - destruct H; congruence.
  - split.
    + destruct Hs; subst; auto. right. destruct (ps (rec w j)); simpl in *; destruct H0; discriminate.
    + apply g_dead0; auto. destruct Hs; subst; destruct (ps (rec w j)); simpl in *; auto; destruct H0; discriminate.
Qed.

Ltac nosame := intros; unfold poll in *; up; auto; try congruence.

Lemma base_shape : forall w b, okb w b -> shape w (bstk b) calm.
Proof. intros w b H. destruct b; simpl in *; constructor; auto. Qed.
Lemma kctx_done : forall w j r, kctx w j r -> L w j = DEAD -> shape w r calm.
Proof.
  intros w j r K D. inv K.
  - apply base_shape; auto.
  - apply s_killall; auto. intros x X. destruct (H x X) as [|[|]]; auto. subst; auto.
Qed.
Ltac ctx := first [eapply sctx_same; [|eassumption]; auto; fail | eapply kctx_same; [| |eassumption]; auto; fail].
Ltac gs := repeat (first [eassumption | apply G_stk]).

Lemma exec_QInv : forall w c r al, stat w = Running -> 
  (forall i j, L w i = FOREGROUND -> L w j = FOREGROUND -> i = j) ->
  (creator c = true -> forall j, L w j <> FOREGROUND) ->
  (forall j, L w j = FOREGROUND -> In j (order w) \/ In (CAppend j) (c :: r)) ->
  shape w (c :: r) al -> G w al -> QInv (exec c (setstk w r)).
Proof.
  intros w c r al R U C O S H.
  inversion S; subst; clear S; simpl.
  - (* create *)
    specialize (C eq_refl).
    eapply QI; [exact R|simpl; apply s_append|]; simpl.
    + intros I. apply (g_lt _ _ H) in I. lia.
    + lia.
    + up; congruence.
    + destruct H. constructor; up; intros; up; auto; try congruence; try discriminate;
        try (unfold any; exact I).
      * destruct (g_has0 j H); auto.
      * right; reflexivity.
      * left. destruct (g_listed0 j); auto; [|contradiction]. intros X; apply H0. apply ended_reap; auto.
      * specialize (g_lt0 j H). lia.
      * exfalso. assert (Q : In (nxt w) (order w)) by (match goal with X : order w = _ |- _ => rewrite X end; apply in_or_app; simpl; auto). specialize (g_lt0 _ Q). lia.
      * destruct (ps (rec w j)) eqn:E; simpl in *; try discriminate. apply g_run0; auto.
      * destruct (ps (rec w j)) eqn:E; simpl in *; try discriminate. eapply g_pause0; eauto.
      * apply (g_dead0 j); auto. apply alive_reap; auto.
  - (* append *)
    eapply QI; [exact R|simpl; apply s_end|].
    destruct H. constructor; up; intros; up; auto; unfold any; auto.
    + destruct (g_listed0 j0); auto.
      * left; apply in_or_app; auto.
      * left; apply in_or_app; simpl; auto.
    + apply NoDup_rev in g_nodup0. rewrite <- (rev_involutive (order w ++ [j])). apply NoDup_rev.
      rewrite rev_app_distr. simpl. constructor; auto. rewrite <- in_rev. auto.
    + apply in_app_or in H. destruct H as [H|[<-|[]]]; auto.
    + destruct b as [|b0 b1] eqn:Eb; [contradiction|].
      destruct (exists_last (l := b0 :: b1)) as (b2 & y & E2); [discriminate|].
      rewrite E2 in H. replace (a ++ i :: b2 ++ [y]) with ((a ++ i :: b2) ++ [y]) in H by (rewrite <- app_assoc; auto).
      apply app_inj_tail in H. destruct H as [Ho <-].
      assert (i = j) by (apply U; auto). subst. exfalso. apply H2. rewrite Ho. apply in_or_app; simpl; auto.
  - (* remove *)
    specialize (C eq_refl).
    destruct l as [|j l].
    + rewrite app_nil_r in H2.
      assert (GG : G (setorder (setstk w tail) acc) calm).
      { destruct H. constructor; up; intros; up; auto.
        - left. destruct (g_listed0 j); auto; [|contradiction].
          destruct (in_dec Nat.eq_dec j acc); auto. rewrite H2 in H1. destruct (H6 j H1 n); contradiction.
        - apply g_lt0. rewrite H2. auto.
        - destruct (g_reaped0 j) as [_ X]; auto; [rewrite H2; auto|contradiction].
        - exfalso. match goal with X : lab (rec w ?i) = FOREGROUND |- _ => exact (C i X) end. }
      destruct k; simpl.
      * eapply QI; [exact R|simpl; apply s_end|]. apply calm_weak. repeat apply G_stk; exact GG.
      * eapply QI; [exact R|simpl; apply s_pick|]. repeat apply G_stk; exact GG.
    + assert (Nj : ~ In j acc).
      { intros X. pose proof (g_nodup _ _ H) as N. rewrite H2 in N. apply NoDup_remove_2 in N.
        apply N. apply in_or_app; auto. }
      assert (Nj2 : ~ In j pre).
      { intros X. pose proof (g_nodup _ _ H) as N. rewrite H2 in N. apply NoDup_remove_2 in N.
        apply N. apply in_or_app; auto. }
      destruct (hasp (rec w j)) eqn:Hj.
      * eapply QI; [exact R|simpl; apply s_remove with (pre := pre ++ [j])|].
        -- simpl. rewrite H2, <- app_assoc. reflexivity.
        -- destruct (gone _); auto. 
           rewrite <- (rev_involutive (acc ++ [j])). apply NoDup_rev.
           rewrite rev_app_distr. simpl. constructor; [rewrite <- in_rev; auto|apply NoDup_rev; auto].
        -- destruct (gone _); intros x X.
           ++ apply in_or_app; auto.
           ++ apply in_app_or in X. apply in_or_app. destruct X as [X|[<-|[]]]; simpl; auto.
        -- intros x X Y. apply in_app_or in X. destruct X as [X|[<-|[]]].
           ++ assert (Q : L w x = DEAD \/ ended (P w x)).
              { apply H6; auto. intros Z. apply Y. destruct (gone _); auto. apply in_or_app; auto. }
              destruct Q as [Q|Q]; [left|right]; unfold poll; up; auto. apply ended_reap; auto.
           ++ right. destruct (ps (rec w j)) eqn:Q; simpl in Y;
                try (exfalso; apply Y; apply in_or_app; simpl; auto; fail);
                unfold poll; up; rewrite Q; unfold ended; simpl; auto; congruence.
        -- apply G_stk. apply (G_poll (setstk w tail)).
           ++ eapply G_weak; [exact H|auto..|]; simpl; unfold no; try tauto.
              intros x [X1 X2] X3 X4 X5. split; [apply in_or_app; auto|].
              destruct (gone _); auto. intros X. apply in_app_or in X. destruct X as [X|[<-|[]]]; auto.
           ++ simpl. intros _ _ Z. split.
              ** split; [apply in_or_app; simpl; auto|]. unfold P in Z. simpl in Z. rewrite Z. simpl. auto.
              ** intros a f b _ F. exfalso. exact (C f F).
      * assert (D : L w j = DEAD).
        { destruct (L w j) eqn:D; auto; destruct (g_has _ _ H j); congruence. }
        eapply QI; [exact R|simpl; apply s_remove with (pre := pre ++ [j])|].
        -- simpl. rewrite H2, <- app_assoc. reflexivity.
        -- auto.
        -- intros x X; apply in_or_app; auto.
        -- intros x X Y. apply in_app_or in X. destruct X as [X|[<-|[]]]; auto. apply H6; auto.
        -- eapply G_weak; [exact H|auto..|]; simpl; unfold no; try tauto.
           intros x [X1 X2] X3 X4 X5. split; auto. apply in_or_app; auto.
  - (* pick *)
    specialize (C eq_refl).
    destruct (nth_error (order w) n) eqn:Q.
    + eapply QI; [exact R|simpl; apply s_op|]; auto. apply nth_error_In in Q; auto. apply G_stk, G_stk; auto.
    + eapply QI; [exact R|simpl; apply s_wait|]. apply calm_weak, G_stk, G_stk; auto.
  - (* op *)
    assert (GE : forall s, G (setstk w s) calm) by (intros; gs).
    destruct o; simpl; fold (L w j).
    + destruct (L w j) eqn:Q; simpl;
        try (eapply QI; [exact R|simpl; apply s_bgset|]; auto; gs).
      * exfalso; eapply H4; eauto.
      * eapply QI; [exact R|simpl; apply s_end|]. apply calm_weak; auto.
    + destruct (L w j) eqn:Q; simpl;
        try (eapply QI; [exact R|simpl; apply s_fgset|]; auto; gs).
      * exfalso; eapply H4; eauto.
      * unfold raise_kill; simpl. eapply QI; [exact R|simpl; apply s_wait|]. apply calm_weak, G_stk; auto.
  - (* bgset *)
    eapply QI; [exact R|simpl; apply s_cont|]; simpl; auto.
    + up; congruence.
    + up; congruence.
    + apply G_stk. eapply G_weak; [apply (G_bg (setstk w tail)); [gs|destruct H4; auto]|auto..|];
        simpl; unfold no, only, any; intuition.
  - (* fgset *)
    assert (NR : forall i, In i (order w) -> L w i <> DEAD -> P w i <> PReaped).
    { intros. eapply no_reaped; eauto; try (simpl; unfold no; tauto). }
    pose proof (G_fg (setstk w tail) calm j (G_stk w tail calm H)) as GF.
    destruct r0; simpl in *.
    + eapply QI; [exact R|simpl; apply s_cont|]; simpl; auto; try (up; congruence).
      apply G_stk. eapply G_weak; [apply GF; auto|auto..|]; simpl; unfold no, only, any; intuition.
    + eapply QI; [exact R|simpl; apply s_end|]; simpl; auto.
      apply G_stk. eapply G_weak; [apply GF; auto|auto..|]; simpl; unfold no, only, any; try tauto.
      intros i [[_ X]|[]]. change (L w j = PAUSED) in X. congruence.
  - (* cont *)
    assert (HP : hasp (rec w j) = true) by (apply (g_has _ _ H j); auto).
    assert (NR : P w j <> PReaped) by (eapply no_reaped; eauto; simpl; unfold no; tauto).
    rewrite os_kill_ok; auto.
    eapply QI; [exact R|simpl; apply s_end|].
    eapply G_weak; [apply (G_cont (setstk w tail)); [gs|]|auto..|]; simpl; unfold no, only, any; try tauto.
    change (L w j = FOREGROUND \/ L w j = BACKGROUND). destruct (L w j); auto; congruence.
  - (* end *)
    eapply QI; [exact R|simpl; apply s_wait|]. gs.
  - (* wait *)
    eapply QI; [exact R|simpl; apply s_scan; [apply sc_wait|exists []; split; auto; intros x []]|].
    eapply G_weak; [exact H|auto..|]; simpl; unfold no; try tauto.
  - (* killall *)
    destruct l as [|j l].
    + eapply QI; [exact R|simpl; apply s_halt|].
      * intros x X. destruct (H2 x X); auto. contradiction.
      * gs.
    + eapply QI; [exact R|simpl; apply s_kill|].
      * constructor; [|intros x X; apply H4; simpl; auto].
        intros x X. destruct (H2 x X) as [[->|Q]|Q]; auto.
      * right; eauto.
      * apply H4; simpl; auto.
      * gs.
  - (* halt *)
    unfold QInv; simpl. intros j A. change (alive (P w j)) in A.
    assert (D : L w j = DEAD \/ L w j <> DEAD) by (destruct (L w j); auto; right; discriminate).
    destruct D as [D|D]; [exact (g_dead _ _ H j D A)|].
    destruct (g_listed _ _ H j D) as [X|[]].
    + unfold ended. destruct A as [-> | ->]; intuition discriminate.
    + apply D. auto.
  - (* scan *)
    destruct l as [|i l].
    + assert (NFG : forall i, L w i <> FOREGROUND).
      { intros i F. destruct H4 as (a & E & N). rewrite app_nil_r in E. subst a.
        destruct (O i F) as [X|X]; [exact (N i X F)|].
        destruct X as [X|X]; [discriminate|]. inv H2; try destruct b; simpl in X; intuition discriminate. }
      inv H2; simpl.
      * eapply QI; [exact R|simpl; apply s_prompt; auto|]. apply G_stk. eapply G_weak; [exact H|auto..]; simpl; unfold no; tauto.
      * eapply QI; [exact R|simpl; apply base_shape; auto|]. gs.
      * eapply QI; [exact R|simpl; apply s_zstart; auto|]. gs.
    + eapply QI; [exact R|simpl; apply s_check; auto; try ctx|]. gs.
  - (* check *)
    assert (ND := g_nodup _ _ H).
    destruct (hasp (rec w i)) eqn:Hi.
    + assert (GP : forall s al', (forall j, aR (mkA (rof k (i :: l)) (zof k) no no no) j -> L w j <> DEAD -> P w j = PReaped -> aR al' j) ->
         aZ al' = zof k -> aT al' = no -> aK al' = no -> aA al' = no -> aR al' i \/ P w i <> PZombie ->
         G (setstk (poll (setstk w (CTestFg i l k :: r0)) i) s) al').
      { intros s al' A1 A2 A3 A4 A5 A6. apply G_stk. apply (G_poll (setstk w (CTestFg i l k :: r0))).
        - eapply G_weak; [exact H|auto..]; rewrite ?A2, ?A3, ?A4, ?A5; simpl; auto.
        - intros _ _ Z. split; [destruct A6; auto; contradiction|].
          intros a f b E F. eapply (scanned_tail w); eauto. }
      destruct (gone (ps (rec w i))) eqn:Gi.
      * eapply QI; [exact R|simpl; apply s_setdead|].
        -- eapply sctx_same; [|eassumption]. intros x; nosame.
        -- eapply scanned_same; [| |eassumption]; auto. intros x; nosame.
        -- right. unfold poll; up; try congruence. apply ended_reap. unfold ended. destruct (ps (rec w i)); auto; discriminate.
        -- apply GP; auto. simpl. destruct k; simpl; auto. intros j [->|X]; auto. simpl; auto.
      * eapply QI; [exact R|simpl; apply s_testfg|].
        -- eapply sctx_same; [|eassumption]. intros x; nosame.
        -- eapply scanned_same; [| |eassumption]; auto. intros x; nosame.
        -- apply GP; auto.
           ++ simpl. destruct k; simpl; auto. intros j [->|X] _ Y; auto. unfold P in Y. rewrite Y in Gi. discriminate.
           ++ right. unfold P. intros Y. rewrite Y in Gi. discriminate.
    + assert (D : L w i = DEAD).
      { destruct (L w i) eqn:D; auto; destruct (g_has _ _ H i); congruence. }
      eapply QI; [exact R|simpl; apply s_setdead; auto; try ctx|].
      apply G_stk. eapply G_weak; [exact H|auto..]. simpl. destruct k; simpl; auto. intros j [->|X]; auto.
  - (* setdead *)
    set (w1 := setlab (setstk w (CClearProc i :: CTestFg i l k :: r0)) i DEAD).
    assert (F : forall x, L w1 x = FOREGROUND -> L w x = FOREGROUND) by (intros x; unfold w1; up; congruence).
    eapply QI; [exact R|simpl; apply s_clear|].
    + eapply sctx_same; [|eassumption]; exact F.
    + eapply scanned_same; [exact F|reflexivity|eassumption].
    + unfold w1; up; congruence.
    + eapply G_weak; [apply (G_dead (setstk w (CClearProc i :: CTestFg i l k :: r0))); gs|auto..|];
        simpl; auto; unfold no.
      * intros j [->|X]; auto. unfold w1; up; congruence.
      * intros j [->|[]] _ A.
        assert (Q : alive (P w i)) by (revert A; unfold P, w1, alive; simpl; unfold upd; rewrite Nat.eqb_refl; auto).
        destruct H5 as [D|D].
        -- exact (g_dead _ _ H i D Q).
        -- unfold ended, alive in *. intuition congruence.
  - (* clear *)
    eapply QI; [exact R|simpl; apply s_testfg|].
    + eapply sctx_same; [|eassumption]. intros x; nosame.
    + eapply scanned_same; [| |eassumption]; auto. intros x; nosame.
    + eapply G_sethas; [gs|auto].
  - (* testfg *)
    assert (SN : L w i <> FOREGROUND -> scanned w l) by (apply scanned_cons; auto).
    fold (L w i). destruct (L w i) eqn:D; simpl;
      try (eapply QI; [exact R|simpl; apply s_scan; [ctx|apply SN; discriminate]|gs]).
    assert (IO : In i (order w)) by (eapply scanned_in; eauto).
    inv H2; simpl.
    + eapply QI; [exact R|simpl; apply s_waittest; auto|].
      apply G_stk. eapply G_weak; [exact H|auto..|]; simpl; auto.
      intros j X _ Y Z. destruct H4 as (a & E & _). exact (g_tail _ _ H a i l E D j X Y Z).
    + eapply QI; [exact R|simpl; apply s_kill; auto; try ctx; constructor; auto|]. gs.
    + eapply QI; [exact R|simpl; apply s_pause; auto|]. gs.
  - (* waittest *)
    fold (L w j). rewrite H3. simpl. eapply QI; [exact R|simpl; apply s_waitjoin; auto|]. gs.
  - (* waitjoin *)
    assert (HP : hasp (rec w j) = true) by (apply (g_has _ _ H j); congruence).
    rewrite HP. eapply QI; [exact R|simpl; apply s_joined|].
    + intros i F. apply U; auto.
    + gs.
  - (* joined *)
    eapply QI; [exact R|simpl; apply s_wait|]. apply G_stk.
    apply (G_poll (setstk w [])); [apply calm_weak, G_stk; exact H|].
    intros _ _ _. split; [exact I|]. intros a f b E F X. apply H3 in F. subst f.
    pose proof (g_nodup _ _ H) as N. simpl in E. rewrite E in N. apply NoDup_remove_2 in N.
    apply N. apply in_or_app; auto.
  - (* kill *)
    fold (L w j). destruct (is_dead (L w j)) eqn:D.
    + eapply QI; [exact R|simpl; eapply kctx_done; [ctx|]|].
      * change (L w j = DEAD). destruct (L w j); try discriminate; auto.
      * gs.
    + eapply QI; [exact R|simpl; apply s_killset; [ctx| |exact H3|exact H5]|].
      * change (L w j <> DEAD). intros X; rewrite X in D; discriminate.
      * gs.
  - (* killset *)
    set (w1 := setlab (setstk w r) j DEAD).
    eapply QI; [exact R|simpl; apply s_killterm|].
    + inv H2.
      * constructor. eapply (okb_same w); auto. intros x; up; congruence.
      * constructor; auto. intros x X. match goal with Q : forall x, In x (order w) -> _ |- _ => destruct (Q x X) as [|[|]]; auto end. right; left. up; auto.
    + up; congruence.
    + up; try congruence. apply (g_has _ _ H j); auto.
    + apply G_stk. eapply G_weak; [apply (G_dead (setstk w r)); gs|auto..|]; simpl; unfold no, only, any; intuition.
  - (* killterm *)
    unfold os_kill. simpl. rewrite H5.
    destruct (ps (rec w j)) eqn:Q; simpl;
      try (eapply QI; [exact R|simpl; apply s_killjoin|];
           [eapply kctx_same; [| |eassumption]; nosame|nosame|up; congruence|];
           apply G_stk; eapply G_weak;
           [pose proof (G_sigdead (setstk w (CTryEnd :: r0)) _ j TERM (G_stk _ _ _ H) H3 (or_introl eq_refl)) as X;
            unfold P in X; simpl in X; rewrite Q in X; simpl in X; exact X|auto..|]; simpl; unfold no, only; intuition).
    unfold raise_lookup; simpl.
    eapply QI; [exact R|simpl; eapply kctx_done; [ctx|auto]|]. apply G_stk, G_stk.
    eapply G_weak; [exact H|auto..|]; simpl; unfold no, only; try tauto.
    intros i -> _ A. unfold P, alive in A. rewrite Q in A. intuition discriminate.
  - (* killjoin *)
    rewrite H5. eapply QI; [exact R|simpl; apply s_killtest|].
    + eapply kctx_same; [| |eassumption]; nosame.
    + nosame.
    + unfold poll; up; congruence.
    + apply G_stk. apply G_poll; [gs|]. intros _ X. contradiction (X H3).
  - (* killtest *)
    rewrite H5.
    assert (KC : kctx (poll (setstk w (CTryEnd :: r0)) j) j r0) by (eapply kctx_same; [| |eassumption]; nosame).
    assert (GP : G (poll (setstk w (CTryEnd :: r0)) j) (mkA no no no (only j) no)).
    { apply G_poll; [gs|]. intros _ X. contradiction (X H3). }
    destruct (gone (ps (rec w j))) eqn:Gj.
    + eapply QI; [exact R|simpl; eapply s_tryend; [eapply kctx_same; [| |exact KC]; auto|nosame]|].
      apply G_stk. eapply G_weak; [exact GP|auto..|]; simpl; unfold no, only; try tauto.
      intros i -> _ A. revert A. unfold poll, P, alive; simpl; unfold upd; rewrite Nat.eqb_refl; simpl.
      destruct (ps (rec w j)); simpl in *; intuition discriminate.
    + eapply QI; [exact R|simpl; apply s_killkill; [eapply kctx_same; [| |exact KC]; auto|nosame|unfold poll; up; congruence]|].
      repeat apply G_stk; exact GP.
  - (* killkill *)
    unfold os_kill. simpl. rewrite H5.
    destruct (ps (rec w j)) eqn:Q; simpl;
      try (eapply QI; [exact R|simpl; apply s_killjoin2|];
           [eapply kctx_same; [| |eassumption]; nosame|nosame|up; congruence|];
           apply G_stk; eapply G_weak;
           [pose proof (G_sigdead (setstk w (CTryEnd :: r0)) _ j KILL (G_stk _ _ _ H) H3 (or_intror eq_refl)) as X;
            unfold P in X; simpl in X; rewrite Q in X; simpl in X; exact X|auto..|]; simpl; unfold no, only; intuition congruence).
    unfold raise_lookup; simpl.
    eapply QI; [exact R|simpl; eapply kctx_done; [ctx|auto]|]. apply G_stk, G_stk.
    eapply G_weak; [exact H|auto..|]; simpl; unfold no, only; try tauto.
    intros i -> _ A. unfold P, alive in A. rewrite Q in A. intuition discriminate.
  - (* killjoin2 *)
    rewrite H5. eapply QI; [exact R|simpl; apply s_killtest2|].
    + eapply kctx_same; [| |eassumption]; nosame.
    + nosame.
    + unfold poll; up; congruence.
    + apply G_stk. apply G_poll; [gs|]. intros _ X. contradiction (X H3).
  - (* killtest2 *)
    rewrite H5.
    assert (KC : kctx (poll (setstk w (CTryEnd :: r0)) j) j r0) by (eapply kctx_same; [| |eassumption]; nosame).
    assert (GP : G (poll (setstk w (CTryEnd :: r0)) j) calm).
    { apply G_poll; [gs|]. intros _ X. contradiction (X H3). }
    destruct (gone (ps (rec w j))) eqn:Gj.
    + eapply QI; [exact R|simpl; eapply s_killclear; [eapply kctx_same; [| |exact KC]; auto|nosame]|].
      repeat apply G_stk; exact GP.
    + eapply QI; [exact R|simpl; eapply s_tryend; [eapply kctx_same; [| |exact KC]; auto|nosame]|].
      repeat apply G_stk; exact GP.
  - (* killclear *)
    eapply QI; [exact R|simpl; eapply s_tryend|].
    + eapply kctx_same; [| |eassumption]; nosame.
    + nosame.
    + apply G_sethas; [gs|auto].
  - (* tryend *)
    eapply QI; [exact R|simpl; eapply kctx_done; [ctx|auto]|]. gs.
  - (* pause *)
    fold (L w j). rewrite H3.
    assert (HP : hasp (rec w j) = true) by (apply (g_has _ _ H j); congruence).
    rewrite HP. eapply QI; [exact R|simpl; apply s_pauseset; auto|]. gs.
  - (* pauseset *)
    set (w1 := setlab (setstk w (CZStart :: bstk b)) j PAUSED).
    eapply QI; [exact R|simpl; apply s_tstp|].
    + apply (okb_same w); auto. intros x; up; congruence.
    + up; congruence.
    + auto.
    + intros i. up; try congruence. intros X. apply n. apply U; auto.
    + apply G_stk. eapply G_weak; [apply (G_paused (setstk w (CZStart :: bstk b))); [gs|exact H3]|auto..|];
        simpl; unfold no, only, any; intuition.
  - (* tstp *)
    assert (HP : hasp (rec w j) = true) by (apply (g_has _ _ H j); congruence).
    assert (NR : P w j <> PReaped) by (apply (no_reaped w _ j H); [simpl; unfold no; tauto|auto|congruence]).
    rewrite os_kill_ok; auto.
    eapply QI; [exact R|simpl; apply s_zstart|].
    + apply (okb_same w); auto. intros x; nosame.
    + intros i; nosame.
    + eapply G_weak; [apply (G_tstp (setstk w (CZStart :: bstk b))); [gs|exact H3]|auto..|];
        simpl; unfold no, only, any; intuition.
  - (* zstart *)
    eapply QI; [exact R|simpl; apply s_zloop; auto; apply incl_refl|].
    apply G_stk. eapply G_weak; [exact H|auto..|]; simpl; auto; unfold no; try tauto.
    intros j _ D E. right. destruct (g_listed _ _ H j) as [X|[]]; auto.
    + destruct D; congruence.
    + unfold ended; rewrite E; intuition discriminate.
  - (* zloop *)
    destruct l as [|j l].
    + eapply QI; [exact R|simpl; apply base_shape; auto|].
      apply G_stk. eapply G_weak; [exact H|auto..|]; simpl; auto; unfold no; try tauto.
    + fold (L w j). destruct (L w j) eqn:D; simpl;
        try (eapply QI; [exact R|simpl; apply s_zloop; auto; intros x X; apply H5; simpl; auto|];
             apply G_stk; eapply G_weak; [exact H|auto..|]; simpl; auto; unfold no;
             intros i [->|X] Y; auto; destruct Y; congruence).
      eapply QI; [exact R|simpl; apply s_zop; auto|]. apply G_stk.
      eapply G_weak; [exact H|auto..|]; simpl; auto; intuition.
  - (* zop *)
    fold (L w j). rewrite H6. simpl. eapply QI; [exact R|simpl; apply s_zset; auto|]. gs.
  - (* zset *)
    eapply QI; [exact R|simpl; apply s_zcont|].
    + apply (okb_same w); auto. intros x; up; congruence.
    + intros i; up; [congruence|auto].
    + auto.
    + up; congruence.
    + apply G_stk. eapply G_weak; [apply (G_bg (setstk w (CZLoop l :: bstk b))); [gs|left; exact H6]|auto..|];
        simpl; unfold no, only, any; intuition.
  - (* zcont *)
    assert (HP : hasp (rec w j) = true) by (apply (g_has _ _ H j); congruence).
    assert (NR : P w j <> PReaped).
    { apply (no_reaped w _ j H); [simpl; unfold no; tauto|apply H4; simpl; auto|congruence]. }
    rewrite os_kill_ok; auto.
    eapply QI; [exact R|simpl; apply s_zloop|].
    + apply (okb_same w); auto. intros x; nosame.
    + intros i; nosame.
    + intros x X; apply H4; simpl; auto.
    + eapply G_weak; [apply (G_cont (setstk w (CZLoop l :: bstk b))); [gs|right; exact H6]|auto..|];
        simpl; unfold no, only, any; intuition.
Qed.
