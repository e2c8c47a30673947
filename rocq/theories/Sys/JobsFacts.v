(* Invariants of the job control, for every schedule *)
From Coq Require Import List Bool Arith Lia.
From Verif.Sys Require Import Jobs JobsSpec.
Import ListNotations.

Ltac inv H := inversion H; subst; clear H.

Lemma upd_same : forall f j r, upd f j r j = r.
Proof. intros; unfold upd; rewrite Nat.eqb_refl; auto. Qed.
Lemma upd_other : forall f j r i, i <> j -> upd f j r i = f i.
Proof. intros; unfold upd. destruct (Nat.eqb_spec i j); congruence. Qed.

Definition is_fgj (w : W) j := lab (rec w j) = FOREGROUND.

(* Commands that need the foreground to be empty *)
Definition creator (c : cmd) : bool :=
  match c with
  | CCreate | CRemove _ _ _ | CPick _ _ | COp OpFg _ | CFgSet _ _ => true
  | _ => false
  end.
Definition maincmd (c : cmd) : bool :=
  creator c || match c with CAppend _ => true | _ => false end.

Definition covers (c : cmd) (j : nat) : Prop :=
  match c with
  | CWait | CJoined _ | CWaitJoin _ => True
  | CScan l KWait => In j l
  | CTestFg i l KWait => j = i \/ In j l
  | CWaitTest i => j = i
  | _ => False
  end.

Definition Mshape (s : list cmd) : Prop :=
  forall p c r, s = p ++ c :: r -> maincmd c = true -> r = [CCmdEnd; CWait].

Definition Inv (w : W) : Prop :=
  stat w = Running ->
  Mshape (stk w) /\
  (forall i j, is_fgj w i -> is_fgj w j -> i = j) /\
  (forall c j, In c (stk w) -> creator c = true -> ~ is_fgj w j) /\
  (forall j, is_fgj w j -> covers (last (stk w) CHalt) j) /\
  (forall j, is_fgj w j -> In j (order w) \/ In (CAppend j) (stk w)) /\
  (forall j, In (COp OpFg j) (stk w) \/ (exists b, In (CFgSet j b) (stk w)) -> In j (order w)).

Lemma unwind_try_suffix : forall s r, unwind_try s = Some r -> exists p, s = p ++ CTryEnd :: r.
Proof.
  induction s as [|c s IH]; simpl; intros r H; [discriminate|].
  assert (D : (c = CTryEnd /\ s = r) \/ unwind_try s = Some r).
  { destruct c; auto. inv H; auto. }
  destruct D as [[-> ->]|D].
  - exists []; auto.
  - destruct (IH _ D) as [p ->]. exists (c :: p); auto.
Qed.
Lemma unwind_cmd_suffix : forall s r, unwind_cmd s = Some r -> exists p, s = p ++ CCmdEnd :: r.
Proof.
  induction s as [|c s IH]; simpl; intros r H; [discriminate|].
  assert (D : (c = CCmdEnd /\ s = r) \/ unwind_cmd s = Some r).
  { destruct c; auto. inv H; auto. }
  destruct D as [[-> ->]|D].
  - exists []; auto.
  - destruct (IH _ D) as [p ->]. exists (c :: p); auto.
Qed.

(* The stack after one instruction: something pushed on the rest, or a suffix
   of the rest *)
Definition pushed (c : cmd) (w : W) (cs : list cmd) : Prop :=
  stk (exec c w) = cs ++ stk w.

Lemma Mshape_tail : forall c s, Mshape (c :: s) -> Mshape s.
Proof. intros c s H p x r E. apply (H (c :: p) x r). simpl; congruence. Qed.
Lemma Mshape_suffix : forall p s, Mshape (p ++ s) -> Mshape s.
Proof. induction p; simpl; intros; auto. apply Mshape_tail in H; auto. Qed.
Lemma Mshape_push : forall cs s, Mshape s ->
  (forall c, In c cs -> maincmd c = false) -> Mshape (cs ++ s).
Proof.
  induction cs as [|c cs IH]; simpl; intros s M N; auto.
  intros p x r E Hx. destruct p as [|y p]; simpl in E; inv E.
  - rewrite N in Hx by auto. discriminate.
  - apply (IH s M (fun c H => N c (or_intror H)) p x r); auto.
Qed.
Lemma Mshape_one : forall c s, Mshape s -> s = [CCmdEnd; CWait] -> Mshape (c :: s).
Proof.
  intros c s M -> p x r E Hx. destruct p; simpl in E; inv E; auto.
  apply (M p x r); auto.
Qed.

Lemma last_app_ne : forall A (p s : list A) d, s <> [] -> last (p ++ s) d = last s d.
Proof.
  induction p; simpl; intros; auto.
  destruct (p ++ s) eqn:E.
  - apply app_eq_nil in E; intuition congruence.
  - rewrite <- E; auto.
Qed.
Lemma last_cons_ne : forall A (a : A) s d, s <> [] -> last (a :: s) d = last s d.
Proof. intros. apply (last_app_ne A [a] s d H). Qed.

Opaque last.

(* Labels: only CCreate and CFgSet put a job in the foreground *)
Lemma exec_fg : forall c w j, is_fgj (exec c w) j ->
  is_fgj w j \/ (c = CCreate /\ j = nxt w) \/ (exists r, c = CFgSet j r).
Proof.
  assert (U : forall f i r j, lab r <> FOREGROUND \/ r = f i \/ lab r = lab (f i) ->
     lab (upd f i r j) = FOREGROUND -> lab (f j) = FOREGROUND).
  { intros f i r j H. unfold upd. destruct (Nat.eqb_spec j i); auto. subst.
    intuition congruence. }
  assert (RL : forall w, rec (raise_lookup w) = rec w).
  { intros w; unfold raise_lookup; destruct (unwind_try (stk w)); auto. }
  assert (RK : forall w, rec (raise_kill w) = rec w).
  { intros w; unfold raise_kill; destruct (unwind_cmd (stk w)); auto. }
  assert (OK : forall w i s k j, (forall w', rec (k w') = rec w') ->
     lab (rec (os_kill w i s k) j) = lab (rec w j)).
  { intros w i s k j K. unfold os_kill. destruct (hasp (rec w i)); auto.
    assert (Q : lab (rec (k (setps w i (deliver s (ps (rec w i))))) j) = lab (rec w j)).
    { rewrite K. simpl. unfold upd. destruct (Nat.eqb_spec j i); subst; auto. }
    destruct (ps (rec w i)) eqn:E; rewrite ?RL, ?E in *; auto. }
  unfold is_fgj. intros c w j H.
  destruct c; simpl in H;
  repeat match type of H with
  | context [match ?x with _ => _ end] =>
      match x with
      | lab _ => destruct x eqn:?
      | hasp _ => destruct x eqn:?
      | gone _ => destruct x eqn:?
      | is_dead _ => destruct x eqn:?
      | is_fg _ => destruct x eqn:?
      | is_bg _ => destruct x eqn:?
      | nth_error _ _ => destruct x eqn:?
      | ?v => is_var v; destruct v
      end
  end; simpl in H;
  rewrite ?RK in H; try (rewrite OK in H by reflexivity);
  try solve [auto];
  try solve [left; revert H; apply U; simpl; auto; try (left; discriminate)].
  - unfold upd in H. destruct (Nat.eqb_spec j (nxt w)); auto.
  - unfold upd in H. destruct (Nat.eqb_spec j j0); subst; eauto.
Qed.

Definition setsfg (c : cmd) : bool := match c with CCreate | CFgSet _ _ => true | _ => false end.

Lemma os_kill_stk : forall w j s k, (forall w', exists cs, stk (k w') = cs ++ stk w' /\ forall x, In x cs -> maincmd x = false) ->
  stat (os_kill w j s k) = Running ->
  (exists cs, stk (os_kill w j s k) = cs ++ stk w /\ forall x, In x cs -> maincmd x = false) \/
  (exists p, stk w = p ++ CTryEnd :: stk (os_kill w j s k)).
Proof.
  intros w j s k K. unfold os_kill, crash, raise_lookup. destruct (hasp (rec w j)); [|discriminate].
  destruct (K (setps w j (deliver s (ps (rec w j))))) as [cs [E N]].
  destruct (ps (rec w j)); simpl in E; eauto.
  destruct (unwind_try (stk w)) eqn:U; [|discriminate].
  intros _. right. simpl. apply unwind_try_suffix in U. auto.
Qed.

(* The stack after one instruction *)
Lemma exec_stk : forall c w, stat (exec c w) = Running ->
  (exists cs, stk (exec c w) = cs ++ stk w /\
     forall x, In x cs -> maincmd x = true -> cs = [x] /\ creator c = true /\
        (creator x = true -> setsfg c = false)) \/
  (exists p, stk w = p ++ CTryEnd :: stk (exec c w)) \/
  (creator c = true /\ exists p, stk w = p ++ CCmdEnd :: stk (exec c w)).
Proof.
  intros c w R.
  assert (OK : forall j s k, (forall w', exists cs, stk (k w') = cs ++ stk w' /\ forall x, In x cs -> maincmd x = false) ->
    stat (os_kill w j s k) = Running ->
    (exists cs, stk (os_kill w j s k) = cs ++ stk w /\
     forall x, In x cs -> maincmd x = true -> cs = [x] /\ creator c = true /\
        (creator x = true -> setsfg c = false)) \/
    (exists p, stk w = p ++ CTryEnd :: stk (os_kill w j s k)) \/
    (creator c = true /\ exists p, stk w = p ++ CCmdEnd :: stk (os_kill w j s k))).
  { intros j s k K Q. destruct (os_kill_stk w j s k K Q) as [[cs [E N]]|[p E]]; eauto.
    left. exists cs. split; auto. intros x I M. rewrite N in M by auto. discriminate. }
  assert (RK : creator c = true -> stat (raise_kill w) = Running ->
    (exists p, stk w = p ++ CCmdEnd :: stk (raise_kill w))).
  { intros _. unfold raise_kill, crash. destruct (unwind_cmd (stk w)) eqn:U; [|discriminate].
    intros _. apply unwind_cmd_suffix in U. auto. }
  destruct c; simpl in R |- *;
  repeat match goal with
  | |- context [match ?x with _ => _ end] =>
      match x with
      | lab _ => destruct x eqn:?
      | hasp _ => destruct x eqn:?
      | gone _ => destruct x eqn:?
      | is_dead _ => destruct x eqn:?
      | is_fg _ => destruct x eqn:?
      | is_bg _ => destruct x eqn:?
      | nth_error _ _ => destruct x eqn:?
      | ?v => is_var v; destruct v
      end
  end; simpl in R |- *; try discriminate R;
  try (apply OK; [|exact R]; intros; eexists; split; [reflexivity|]; simpl; intuition (subst; auto));
  try (exists (@nil cmd); split; [reflexivity|simpl; tauto]);
  try (right; right; split; [reflexivity|apply RK; [reflexivity|exact R]]);
  try (left;
    lazymatch goal with |- exists cs, ?s = cs ++ _ =>
       idtac | _ => idtac end;
    match goal with
    | |- exists cs, ?s = cs ++ stk w /\ _ =>
       let s' := eval simpl in s in
       first [ exists (@nil cmd); split; [reflexivity|simpl; tauto]
             | match s' with ?a :: stk w => exists [a] end; split; [reflexivity|];
                 simpl; intros x [<-|[]]; simpl; intros; try discriminate; auto
             | match s' with ?a :: ?b :: stk w => exists [a;b] end; split; [reflexivity|];
                 simpl; intros x [<-|[<-|[]]]; simpl; intros; try discriminate; auto ]
    end).
  apply OK; [|exact R]. intros; exists (@nil cmd); split; [reflexivity|simpl; tauto].
Qed.

Lemma exec_order : forall c w j, In j (order w) -> (forall k l acc, c <> CRemove k l acc) ->
  In j (order (exec c w)).
Proof.
  intros c w j I N.
  assert (OK : forall i s k, (forall w', order (k w') = order w') -> order (os_kill w i s k) = order w).
  { intros i s k K. unfold os_kill, raise_lookup, crash. destruct (hasp (rec w i)); auto.
    destruct (ps (rec w i)); rewrite ?K; auto. destruct (unwind_try (stk w)); auto. }
  assert (RK : order (raise_kill w) = order w).
  { unfold raise_kill, crash. destruct (unwind_cmd (stk w)); auto. }
  destruct c; simpl;
  repeat match goal with
  | |- context [match ?x with _ => _ end] =>
      match x with
      | lab _ => destruct x eqn:?
      | hasp _ => destruct x eqn:?
      | gone _ => destruct x eqn:?
      | is_dead _ => destruct x eqn:?
      | is_fg _ => destruct x eqn:?
      | is_bg _ => destruct x eqn:?
      | nth_error _ _ => destruct x eqn:?
      | ?v => is_var v; destruct v
      end
  end; simpl; rewrite ?RK; try rewrite OK by reflexivity; auto.
  all: try solve [exfalso; eapply N; eauto].
  apply in_or_app; auto.
Qed.

Transparent last.
Lemma exec_covers_empty : forall c w j, stk w = [] -> stat (exec c w) = Running ->
  (forall i, is_fgj w i -> is_fgj w j -> i = j) ->
  is_fgj w j -> setsfg c = false -> covers c j ->
  In j (order w) -> covers (last (stk (exec c w)) CHalt) j.
Proof.
  intros c w j E R U F S C O. unfold is_fgj in *.
  destruct c; simpl in C; try tauto.
  - destruct k; try tauto. destruct l as [|i l]; simpl in C; [tauto|]. simpl. rewrite E; simpl. intuition.
  - destruct k; try tauto. simpl. destruct (lab (rec w j0)) eqn:L; simpl; rewrite E; simpl;
      try solve [destruct C; auto; subst; congruence].
    symmetry; auto.
  - simpl; rewrite E; auto.
  - subst. simpl. rewrite F; simpl; rewrite E; simpl; auto.
  - simpl in R |- *. destruct (hasp (rec w j0)); simpl in R |- *; [rewrite E; simpl; auto|discriminate].
  - simpl; rewrite E; simpl; auto.
Qed.
Opaque last.

Lemma Mshape_main : forall c s, Mshape (c :: s) -> maincmd c = true -> s = [CCmdEnd; CWait].
Proof. intros c s M H. apply (M [] c s); auto. Qed.
Lemma Mshape_in : forall c x s, Mshape (c :: s) -> maincmd c = true -> In x s -> maincmd x = false.
Proof.
  intros c x s M H I. rewrite (Mshape_main c s M H) in I. simpl in I. intuition (subst; auto).
Qed.
Lemma creator_main : forall c, creator c = true -> maincmd c = true.
Proof. intros c H; unfold maincmd; rewrite H; auto. Qed.
Lemma setsfg_creator : forall c, setsfg c = true -> creator c = true.
Proof. destruct c; simpl; auto; discriminate. Qed.

Lemma exec_fgjob : forall c w x j, creator c = true ->
  x = COp OpFg j \/ (exists b, x = CFgSet j b) ->
  stk (exec c w) = [x] ++ stk w ->
  (c = COp OpFg j -> In j (order w)) -> In j (order (exec c w)).
Proof.
  intros c w x j Kc Hx S G.
  assert (RK : stk (raise_kill w) = [x] ++ stk w -> False).
  { unfold raise_kill. destruct (unwind_cmd (stk w)) eqn:Q; simpl; [|discriminate].
    apply unwind_cmd_suffix in Q. destruct Q as [p Q]. rewrite Q. intros Z.
    apply (f_equal (@length cmd)) in Z. simpl in Z. rewrite app_length in Z; simpl in Z. lia. }
  destruct c; simpl in Kc; try discriminate; simpl in S |- *.
  - injection S as <-. destruct Hx as [|[? ?]]; discriminate.
  - destruct l; [destruct k|destruct (hasp (rec w n))]; simpl in S;
      try (injection S as <-; destruct Hx as [|[? ?]]; discriminate).
    apply (f_equal (@length cmd)) in S; simpl in S; lia.
  - destruct (nth_error (order w) n) eqn:Q; [|contradiction (RK S)].
    simpl in S |- *. injection S as <-. apply nth_error_In in Q.
    destruct Hx as [X|[b X]]; inv X. assumption.
  - destruct o; [discriminate|].
    destruct (lab (rec w j0)); simpl in S |- *;
      try (injection S as <-; destruct Hx as [X|[b X]]; inv X; apply G; reflexivity);
      try contradiction (RK S).
    apply (f_equal (@length cmd)) in S; simpl in S; lia.
  - exfalso. destruct resume; simpl in S.
    + injection S as <-. destruct Hx as [|[? ?]]; discriminate.
    + apply (f_equal (@length cmd)) in S; simpl in S; lia.
Qed.

Lemma step_main_Inv : forall w c r, Inv w -> stat w = Running -> stk w = c :: r ->
  Inv (exec c (setstk w r)).
Proof.
  intros w c r I R E. destruct (I R) as (M & U & C & L & O & G). clear I.
  rewrite E in *. set (w0 := setstk w r) in *.
  assert (Ew : forall j, is_fgj w0 j <-> is_fgj w j) by (intros; reflexivity).
  assert (Er : stk w0 = r) by reflexivity.
  assert (Eo : order w0 = order w) by reflexivity.
  intros R'.
  assert (SC : stk (exec c w0) = r \/ stk (exec c w0) <> r) by
    (destruct (list_eq_dec (fun a b : cmd => ltac:(repeat decide equality)) (stk (exec c w0)) r); auto).
  clear SC.
  assert (NF : forall j, is_fgj (exec c w0) j -> ~ is_fgj w j -> setsfg c = true /\
     (forall i, is_fgj (exec c w0) i -> i = j)).
  { intros j F N. assert (creator c = true /\ setsfg c = true /\ ((c = CCreate /\ j = nxt w0) \/ exists b, c = CFgSet j b)) as (K & K1 & K2).
    { destruct (exec_fg _ _ _ F) as [F'|[[-> ->]|[b ->]]]; simpl; eauto. apply Ew in F'; tauto. }
    split; auto. intros i F'.
    destruct (exec_fg _ _ _ F') as [F2|[[Q1 ->]|[b' Q1]]].
    - exfalso. apply (C c i); simpl; auto.
    - destruct K2 as [[_ ->]|[b K2]]; auto. congruence.
    - destruct K2 as [[K2 ->]|[b K2]]; congruence. }
  assert (FGD : forall j, is_fgj w j \/ ~ is_fgj w j).
  { intros j; unfold is_fgj; destruct (lab (rec w j)); auto; right; discriminate. }
  split; [|split; [|split; [|split; [|split]]]].
  - (* shape *)
    assert (Mr := Mshape_tail _ _ M).
    destruct (exec_stk c w0 R') as [[cs [S N]]|[[p S]|[K [p S]]]]; rewrite Er in *.
    + rewrite S. destruct (existsb maincmd cs) eqn:X.
      * apply existsb_exists in X. destruct X as [x [Ix Mx]].
        destruct (N x Ix Mx) as (-> & K & _). simpl. apply Mshape_one; auto.
        apply (Mshape_main c); auto. apply creator_main; auto.
      * apply Mshape_push; auto. intros x Ix. destruct (maincmd x) eqn:Q; auto.
        assert (existsb maincmd cs = true) by (apply existsb_exists; eauto). congruence.
    + rewrite S in Mr. apply Mshape_suffix in Mr. apply Mshape_tail in Mr. auto.
    + rewrite S in Mr. apply Mshape_suffix in Mr. apply Mshape_tail in Mr. auto.
  - (* at most one *)
    intros i j Fi Fj.
    destruct (FGD i) as [Gi|Gi]; [|symmetry; apply (proj2 (NF i Fi Gi)); auto].
    destruct (FGD j) as [Gj|Gj]; [|apply (proj2 (NF j Fj Gj)); auto]. auto.
  - (* creators *)
    intros x j Ix Kx Fj.
    assert (InR : In x r -> False).
    { intros Ir. destruct (FGD j) as [Gj|Gj]; [apply (C x j); simpl; auto|].
      destruct (NF j Fj Gj) as [K _].
      apply setsfg_creator in K. apply creator_main in K.
      apply creator_main in Kx.
      rewrite (Mshape_in c x r M K Ir) in Kx. discriminate. }
    destruct (exec_stk c w0 R') as [[cs [S N]]|[[p S]|[K [p S]]]]; rewrite Er in *.
    + rewrite S in Ix. apply in_app_or in Ix. destruct Ix as [Ix|Ix]; auto.
      destruct (N x Ix (creator_main _ Kx)) as (-> & Kc & Kn). specialize (Kn Kx).
      destruct (FGD j) as [Gj|Gj]; [apply (C c j); simpl; auto|].
      destruct (NF j Fj Gj). congruence.
    + apply InR. rewrite S. apply in_or_app; simpl; auto.
    + apply InR. rewrite S. apply in_or_app; simpl; auto.
  - (* covered *)
    intros j Fj.
    assert (CW : setsfg c = true -> r = [CCmdEnd; CWait]).
    { intros K. apply (Mshape_main c); auto. apply creator_main, setsfg_creator; auto. }
    assert (LR : r <> [] -> covers (last r CHalt) j).
    { intros Nr. destruct (FGD j) as [Gj|Gj].
      - specialize (L j Gj). rewrite last_cons_ne in L; auto.
      - destruct (NF j Fj Gj) as [K _]. rewrite (CW K). exact Logic.I. }
    destruct (exec_stk c w0 R') as [[cs [S N]]|[[p S]|[K [p S]]]]; rewrite Er in *.
    + destruct r as [|c1 r1] eqn:Qr.
      * destruct (FGD j) as [Gj|Gj]; [|destruct (NF j Fj Gj) as [K _]; specialize (CW K); discriminate].
        assert (setsfg c = false) by (destruct (setsfg c) eqn:Q; auto; specialize (CW eq_refl); discriminate).
        assert (Lc : covers c j) by (specialize (L j Gj); exact L).
        apply exec_covers_empty; auto.
        destruct (O j Gj) as [|[X|[]]]; auto. subst. contradiction Lc.
      * rewrite S. rewrite last_app_ne by discriminate. apply LR; discriminate.
    + destruct (stk (exec c w0)) as [|c1 r1] eqn:Qs.
      * exfalso. assert (Nr : r <> []) by (rewrite S; intros X; symmetry in X; apply app_cons_not_nil in X; auto).
        specialize (LR Nr). rewrite S in LR. rewrite last_app_ne in LR by discriminate. exact LR.
      * rewrite S in LR. rewrite last_app_ne in LR by discriminate.
        rewrite last_cons_ne in LR by discriminate. apply LR.
        intros X; symmetry in X; apply app_cons_not_nil in X; auto.
    + exfalso. destruct (FGD j) as [Gj|Gj]; [apply (C c j); simpl; auto|].
      destruct (NF j Fj Gj) as [K1 _]. specialize (CW K1).
      destruct c; try discriminate K1; simpl in *.
      * rewrite CW in S. apply (f_equal (@length cmd)) in S. rewrite app_length in S. simpl in S. lia.
      * unfold push, setstk in S; simpl in S. rewrite CW in S.
        apply (f_equal (@length cmd)) in S. rewrite app_length in S. simpl in S. rewrite app_length in S. simpl in S. lia.
  - (* listed *)
    intros j Fj. destruct (FGD j) as [Gj|Gj].
    + destruct (O j Gj) as [Io|Ia].
      * assert (D : (forall k l acc, c <> CRemove k l acc) \/ creator c = true)
          by (destruct c; simpl; auto; left; discriminate).
        destruct D as [D|D]; [left; apply exec_order; auto|].
        exfalso; apply (C c j); simpl; auto.
      * destruct Ia as [->|Ia].
        -- left. simpl. apply in_or_app; simpl; auto.
        -- destruct (exec_stk c w0 R') as [[cs [S N]]|[[p S]|[K [p S]]]]; rewrite Er in *.
           ++ right. rewrite S. apply in_or_app; auto.
           ++ right. rewrite S in Ia, M. apply in_app_or in Ia. destruct Ia as [Ia|[X|Ia]]; auto; try discriminate.
              exfalso. apply in_split in Ia. destruct Ia as (p1 & p2 & ->).
              specialize (M (c :: p1) (CAppend j) (p2 ++ CTryEnd :: stk (exec c w0))).
              simpl in M. rewrite <- app_assoc in M. specialize (M eq_refl eq_refl).
              assert (X : In CTryEnd [CCmdEnd; CWait]) by (rewrite <- M; apply in_or_app; simpl; auto).
              simpl in X. intuition discriminate.
           ++ exfalso; apply (C c j); simpl; auto.
    + destruct (NF j Fj Gj) as [K _]. destruct (exec_fg _ _ _ Fj) as [F'|[[-> ->]|[b ->]]].
      * exfalso. apply Gj; auto.
      * right. simpl. auto.
      * left. simpl. apply G. simpl. right. exists b; auto.
  - (* the job of fg is listed *)
    intros j D.
    assert (Dr : (In (COp OpFg j) r \/ (exists b, In (CFgSet j b) r)) -> In j (order (exec c w0))).
    { intros D2. apply exec_order.
      - apply G. simpl. destruct D2 as [D2|[b D2]]; eauto.
      - intros k l acc ->. assert (X : maincmd (COp OpFg j) = false \/ exists b, maincmd (CFgSet j b) = false).
        { destruct D2 as [D2|[b D2]]; [left|right; exists b]; eapply Mshape_in; eauto. }
        destruct X as [X|[b X]]; discriminate. }
    destruct (exec_stk c w0 R') as [[cs [S N]]|[[p S]|[K [p S]]]]; rewrite Er in *.
    + rewrite S in D.
      assert (D' : (In (COp OpFg j) r \/ (exists b, In (CFgSet j b) r)) \/ (In (COp OpFg j) cs \/ (exists b, In (CFgSet j b) cs))).
      { destruct D as [D|[b D]]; apply in_app_or in D; intuition eauto. }
      destruct D' as [D'|D']; auto.
      assert (exists x, In x cs /\ (x = COp OpFg j \/ exists b, x = CFgSet j b)) as (x & Ix & Hx).
      { destruct D' as [D'|[b D']]; eauto 6. }
      assert (Kx : creator x = true) by (destruct Hx as [->|[b ->]]; auto).
      destruct (N x Ix (creator_main _ Kx)) as (-> & Kc & _). clear N D D' Ix.
      apply (exec_fgjob c w0 x j Kc Hx S). intros ->. apply G; simpl; auto.
    + apply Dr. rewrite S. destruct D as [D|[b D]]; [left|right; exists b]; apply in_or_app; simpl; auto.
    + apply Dr. rewrite S. destruct D as [D|[b D]]; [left|right; exists b]; apply in_or_app; simpl; auto.
Qed.

Lemma handler_Inv : forall w k b, k <> KWait -> Inv w -> stat w = Running ->
  Inv (push [CScan (order w) k] (setpend w b)).
Proof.
  intros w k b K I R. destruct (I R) as (M & U & C & L & O & G). intros _. simpl.
  repeat match goal with |- _ /\ _ => split end; auto.
  - apply (Mshape_push [CScan (order w) k]); auto. intros c [<-|[]]; auto.
  - intros c j [<-|Ic] Kc; [discriminate|]. apply (C c j); auto.
  - intros j F. specialize (L j F). destruct (stk w).
    + contradiction L.
    + rewrite last_cons_ne by discriminate; auto.
  - intros j F. destruct (O j F); auto.
  - intros j [[D|D]|[x [D|D]]]; try discriminate; eauto.
Qed.

Lemma Inv_labels : forall w w', Inv w -> stat w = Running ->
  (forall j, lab (rec w' j) = lab (rec w j)) -> stk w' = stk w -> order w' = order w -> Inv w'.
Proof.
  intros w w' I R E1 E2 E3. destruct (I R) as (M & U & C & L & O & G). intros _.
  unfold is_fgj in *. rewrite E2, E3.
  repeat match goal with |- _ /\ _ => split end; auto.
  - intros i j. rewrite !E1. auto.
  - intros c j. rewrite E1. apply C.
  - intros j. rewrite E1. auto.
  - intros j. rewrite E1. auto.
Qed.

Lemma setps_lab : forall w i p j, lab (rec (setps w i p) j) = lab (rec w j).
Proof. intros; simpl; unfold upd; destruct (Nat.eqb_spec j i); subst; auto. Qed.

Lemma step_Inv : forall w e w', Inv w -> step w e = Some w' -> Inv w'.
Proof.
  intros w e w' I S. unfold step in S. destruct (stat w) eqn:R; try discriminate.
  destruct e.
  - destruct (stk w) eqn:E; inv S. apply step_main_Inv; auto.
  - destruct (gone (ps (rec w j))); [discriminate|]. destruct (j <? nxt w); inv S.
    apply (Inv_labels w); auto. intros; apply setps_lab.
  - inv S. apply (Inv_labels w); auto.
  - destruct (pendz w); inv S. apply handler_Inv; auto. discriminate.
  - inv S. replace w with (setpend w (pendz w)) at 2 by (destruct w; auto). apply handler_Inv; auto. discriminate.
  - destruct (stk w) eqn:E; inv S. destruct (I R) as (M & U & C & L & O & G). rewrite E in *.
    assert (N : forall j, ~ is_fgj w j) by (intros j F; exact (L j F)).
    intros _. unfold is_fgj in *; simpl.
    repeat match goal with |- _ /\ _ => split end; auto.
    + destruct i; simpl; try (apply (Mshape_one _ [CCmdEnd; CWait]); auto);
        try (apply (Mshape_push [CKillAll (order w); CHalt]); [|intros c [<-|[<-|[]]]; auto]);
        try (apply (Mshape_push [CCmdEnd; CWait] []); [|intros c [<-|[<-|[]]]; auto]);
        intros p c r X; destruct p; discriminate.
    + intros j F. contradiction (N j F).
    + intros j F. contradiction (N j F).
    + intros j D. exfalso. destruct i; simpl in D; destruct D as [D|[b D]]; intuition discriminate.
Qed.

Lemma boot_Inv : Inv (boot 0).
Proof.
  intros _. unfold is_fgj; simpl. repeat match goal with |- _ /\ _ => split end.
  - intros p c r X; destruct p; discriminate.
  - discriminate.
  - intros c j [].
  - discriminate.
  - discriminate.
  - intros j [[]|[b []]].
Qed.

Lemma reach_Inv : forall ok w, reach ok (boot 0) w -> Inv w.
Proof. induction 1; [apply boot_Inv|eapply step_Inv; eauto]. Qed.
