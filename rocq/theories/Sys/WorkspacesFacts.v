(** The file system and programs of Workspaces.v. *)
From Verif.Sys Require Export Workspaces.
Local Open Scope string_scope.
Local Open Scope list_scope.

(** * Paths *)
Lemma after_some : forall p q r, after p q = Some r <-> q = p ++ r.
Proof.
  induction p as [ | a p IH]; intros q r; cbn [after app]; [split; congruence | ].
  destruct q as [ | b q]; [split; [discriminate | intros E; discriminate E] | ].
  destruct (name_dec a b) as [<- | N]; [rewrite IH; split; congruence | ]. split; [discriminate | ]. intros E. injection E as E _. congruence.
Qed.
Lemma after_app : forall p r, after p (p ++ r) = Some r.
Proof. intros. now apply after_some. Qed.
Lemma after_none : forall p q, after p q = None -> forall r, q <> p ++ r.
Proof. intros p q H r E. apply after_some in E. congruence. Qed.

(** * look *)
Lemma look_remove : forall p q w, look q (remove p w) = if path_dec p q then None else look q w.
Proof.
  intros p q w. induction w as [ | [x e] w IH]; cbn [remove filter look fst]; [now destruct (path_dec p q) | ].
  fold (remove p w). destruct (path_dec p x) as [E | N].
  - subst x. rewrite IH. destruct (path_dec p q) as [ | N']; [reflexivity | ]. destruct (path_dec q p); congruence.
  - cbn [look]. rewrite IH. destruct (path_dec q x) as [-> | ]; [ | reflexivity]. destruct (path_dec p x); congruence.
Qed.
Lemma look_set : forall p e q w, look q (set p e w) = if path_dec p q then Some e else look q w.
Proof.
  intros p e q w. unfold set. cbn [look]. rewrite look_remove. destruct (path_dec q p), (path_dec p q); congruence.
Qed.
Lemma look_in : forall p w, look p w <> None <-> In p (map fst w).
Proof.
  intros p w. induction w as [ | [x e] w IH]; cbn [look map In fst]; [split; [congruence | intros []] | ].
  destruct (path_dec p x) as [-> | N]; [split; [auto | discriminate] | ]. rewrite IH. split; [auto | intros [ | ]; congruence].
Qed.

(** Nothing at or below [q] *)
Definition free (q : path) (w : fs) : Prop := forall r, look (q ++ r) w = None.

Lemma look_move : forall p q w x, free q w -> (forall r, q <> p ++ r) ->
  look x (move p q w) = match after q x with
                        | Some r => look (p ++ r) w
                        | None => match after p x with Some _ => None | None => look x w end
                        end.
Proof.
  intros p q w x F N. induction w as [ | [y e] w IH]; cbn [move map look fst snd].
  - destruct (after q x); [reflexivity | ]. now destruct (after p x).
  - assert (F' : free q w).
    { intros r. specialize (F r). cbn [look] in F. destruct (path_dec (q ++ r) y); [discriminate | exact F]. }
    assert (Y : forall r, y <> q ++ r).
    { intros r ->. specialize (F r). cbn [look] in F. destruct (path_dec (q ++ r) (q ++ r)); congruence. }
    fold (move p q w). destruct (after p y) as [r | ] eqn:A; cbn [look].
    + apply after_some in A. subst y. destruct (path_dec x (q ++ r)) as [-> | Nx].
      * rewrite after_app. destruct (path_dec (p ++ r) (p ++ r)); congruence.
      * rewrite IH by assumption. destruct (after q x) as [r' | ] eqn:A'.
        -- apply after_some in A'. subst x. destruct (path_dec (p ++ r') (p ++ r)) as [E | ]; [ | reflexivity].
           apply app_inv_head in E. congruence.
        -- destruct (after p x) as [r' | ] eqn:A2; [reflexivity | ]. destruct (path_dec x (p ++ r)) as [-> | ]; [ | reflexivity].
           rewrite after_app in A2. discriminate.
    + destruct (path_dec x y) as [-> | Nx].
      * destruct (after q y) as [r | ] eqn:A'; [apply after_some in A'; destruct (Y _ A') | ]. rewrite A. reflexivity.
      * rewrite IH by assumption. destruct (after q x) as [r | ]; [ | destruct (after p x); [reflexivity | ]]; [ | destruct (path_dec x y); congruence].
        destruct (path_dec (p ++ r) y) as [E | ]; [ | reflexivity]. subst y. rewrite after_app in A. discriminate.
Qed.

(** * children *)
Lemma in_children : forall p w n, In n (children p w) <-> look (p ++ [n]) w <> None.
Proof.
  intros p w n. unfold children. rewrite nodup_In, in_flat_map, look_in. split.
  - intros ([x e] & I & H). cbn [fst] in H. destruct (after p x) as [[ | m [ | ]] | ] eqn:A; try destruct H as [].
    + subst m. apply after_some in A. subst x. apply in_map_iff. exists (p ++ [n], e). auto.
    + destruct H.
  - intros I. apply in_map_iff in I. destruct I as ([x e] & E & I). cbn in E. subst x. exists (p ++ [n], e). split; [assumption | ].
    cbn [fst]. rewrite after_app. left. reflexivity.
Qed.
Lemma children_nodup : forall p w, NoDup (children p w).
Proof. intros. apply NoDup_nodup. Qed.
Lemma children_length : forall p w w', (forall n, look (p ++ [n]) w = None <-> look (p ++ [n]) w' = None) ->
  List.length (children p w) = List.length (children p w').
Proof.
  intros p w w' H. apply Nat.le_antisymm; apply NoDup_incl_length; try apply children_nodup;
    intros n I; apply in_children in I; apply in_children; intros X; apply I; now apply H.
Qed.
Lemma children_nil : forall p w, (forall n, look (p ++ [n]) w = None) -> children p w = [].
Proof. intros p w H. destruct (children p w) as [ | n l] eqn:E; [reflexivity | ]. assert (I : In n (children p w)) by (rewrite E; left; reflexivity). apply in_children in I. congruence. Qed.
Lemma singleton : forall (A : Type) (l : list A) a, NoDup l -> (forall x, In x l <-> x = a) -> l = [a].
Proof.
  intros A l a N H. destruct l as [ | x l]; [destruct (proj2 (H a) eq_refl) | ].
  assert (x = a) by (apply H; left; reflexivity). subst x. f_equal. destruct l as [ | y l]; [reflexivity | ].
  inversion N; subst. assert (y = a) by (apply H; right; left; reflexivity). subst. destruct H2. left. reflexivity.
Qed.

(** * Programs *)

(** [wp P Q E p w]: from [w], the program goes through states in [P] only, and ends in [Q] or, with an exception, in [E]. *)
Fixpoint wp {A} (P : fs -> Prop) (Q : A -> fs -> Prop) (E : exn -> fs -> Prop) (p : prog A) (w : fs) : Prop :=
  P w /\ match p with
         | Ret a => Q a w
         | Fail e => E e w
         | Do x k => wp P Q E k (apply x w)
         | Read k => wp P Q E (k w) w
         end.

Lemma wp_now : forall A P Q E (p : prog A) w, wp P Q E p w -> P w.
Proof. intros A P Q E p w H. destruct p; apply H. Qed.

Lemma wp_bind : forall A B P Q E (p : prog A) (f : A -> prog B) w,
  wp P (fun a w => wp P Q E (f a) w) E p w -> wp P Q E (bind p f) w.
Proof.
  intros A B P Q E p f. induction p as [a | e | x k IH | k IH]; intros w [H H']; cbn [bind].
  - exact H'.
  - split; assumption.
  - split; [assumption | ]. now apply IH.
  - split; [assumption | ]. now apply IH.
Qed.
Lemma wp_catch : forall A P Q E (p : prog A) h w,
  wp P Q (fun e w => wp P Q E (h e) w) p w -> wp P Q E (catch p h) w.
Proof.
  intros A P Q E p h. induction p as [a | e | x k IH | k IH]; intros w [H H']; cbn [catch].
  - split; assumption.
  - exact H'.
  - split; [assumption | ]. now apply IH.
  - split; [assumption | ]. now apply IH.
Qed.
Lemma wp_weaken : forall A (P P' : fs -> Prop) (Q Q' : A -> fs -> Prop) (E E' : exn -> fs -> Prop) (p : prog A) w, wp P Q E p w ->
  (forall w, P w -> P' w) -> (forall a w, P w -> Q a w -> Q' a w) -> (forall e w, P w -> E e w -> E' e w) -> wp P' Q' E' p w.
Proof.
  intros A P P' Q Q' E E' p. induction p as [a | e | x k IH | k IH]; intros w [H H'] HP HQ HE; (split; [now apply HP | ]).
  - now apply HQ.
  - now apply HE.
  - now apply IH.
  - now apply IH.
Qed.

Lemma wp_states : forall A P Q E (p : prog A) w, wp P Q E p w -> forall w', In w' (states p w) -> P w'.
Proof.
  intros A P Q E p. induction p as [a | e | x k IH | k IH]; intros w [H H'] w' I; cbn [states] in I.
  - destruct I as [<- | []]. exact H.
  - destruct I as [<- | []]. exact H.
  - destruct I as [<- | I]; [exact H | ]. now apply (IH (apply x w)).
  - now apply (IH w w).
Qed.
Lemma wp_run : forall A P Q E (p : prog A) w, wp P Q E p w ->
  match run p w with (Ok a, w') => P w' /\ Q a w' | (Raise e, w') => P w' /\ E e w' end.
Proof.
  intros A P Q E p. induction p as [a | e | x k IH | k IH]; intros w [H H']; cbn [run].
  - auto.
  - auto.
  - now apply IH.
  - now apply IH.
Qed.
Lemma last_state : forall A (p : prog A) w, In (snd (run p w)) (states p w).
Proof.
  intros A p. induction p as [a | e | x k IH | k IH]; intros w; cbn [run states snd]; [left; reflexivity | left; reflexivity | right; apply IH | apply IH].
Qed.
