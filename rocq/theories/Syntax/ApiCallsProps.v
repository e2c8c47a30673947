(** C64: the functions of the API. *)
From Verif.Syntax Require Import ArgsFacts ArgsFacts2 ArgsFacts3 ArgsFacts4 ArgsProps ApiCallsSpec.
Local Open Scope char_scope.
Local Open Scope list_scope.

Section Generic.
Variable conv : text -> obj -> option obj.
Variable d : decl.
Hypothesis V : validate d = true.
Hypothesis T : NoDup (targets d).

(** ** One list of words has one reading *)
Lemma symbol_dash : forall f x, In f (d_flags d) -> In x (symbols f) -> dash_word (OStr x).
Proof.
  intros f x I S. unfold validate in V. rewrite !andb_true_iff in V. destruct V as [[_ G] _].
  rewrite forallb_forall in G. apply G in I. unfold good_flag in I. rewrite !andb_true_iff in I. destruct I as [[[_ A] B] _].
  unfold symbols in S. apply in_app_iff in S as [S|S].
  - destruct (f_short f) as [s|]; [|easy]. destruct S as [<-|[]]. destruct s as [|a [|b [|c s]]]; try discriminate A. cbn in A.
    apply andb_true_iff in A as [A _]. apply Ascii.eqb_eq in A as ->. red. eauto.
  - destruct (f_long f) as [s|]; [|easy]. destruct S as [<-|[]]. destruct s as [|a [|b [|c s]]]; try discriminate B. cbn in B.
    apply andb_true_iff in B as [B _]. apply andb_true_iff in B as [B _]. apply Ascii.eqb_eq in B as ->. red. eauto.
Qed.

Lemma symbol_one : forall f f' x, In f (d_flags d) -> In f' (d_flags d) -> In x (symbols f) -> In x (symbols f') -> f = f'.
Proof.
  intros f f' x I I' S S'. unfold validate in V. rewrite !andb_true_iff in V. destruct V as [[[[[D _] _] _] _] _].
  apply distinct_NoDup in D. revert I I' D. generalize (d_flags d). induction l as [|g l IH]; intros I I' D; [easy|].
  cbn in D. apply NoDup_app_inv in D as (D1 & D2 & D3). destruct I as [->|I], I' as [->|I']; auto.
  - exfalso. apply (D3 x); auto. apply in_flat_map. eauto.
  - exfalso. apply (D3 x); auto. apply in_flat_map. eauto.
Qed.

Definition taken (us : list use) (pos : list obj) : Prop :=
  forall us' u, us = us' ++ [u] -> u_val u = None -> f_value (u_flag u) <> VNone -> pos = [].

Lemma taken_tail : forall u us pos, taken (u :: us) pos -> taken us pos.
Proof. intros u us pos H us' v E. apply (H (u :: us') v). now rewrite E. Qed.

Lemma one_reading : forall us us' pos pos', flat_map written us ++ pos = flat_map written us' ++ pos' ->
  Forall (use_ok d) us -> Forall (use_ok d) us' -> taken us pos -> taken us' pos' ->
  (forall o, In o pos -> ~ known d o) -> (forall o, In o pos' -> ~ known d o) -> us = us' /\ pos = pos'.
Proof.
  assert (K : forall u, use_ok d u -> known d (OStr (u_sym u))).
  { intros u (A & B & _). red. eauto. }
  induction us as [|u us IH]; intros us' pos pos' E U U' TK TK' P P'.
  - destruct us' as [|u' us']; [auto|]. exfalso. inversion U' as [|? ? O ?]; subst. cbn in E. apply (P (OStr (u_sym u'))); auto. rewrite E. now left.
  - inversion U as [|? ? O O2]; subst. destruct us' as [|u' us'].
    { exfalso. cbn in E. apply (P' (OStr (u_sym u))); auto. rewrite <- E. now left. }
    inversion U' as [|? ? O' O2']; subst. cbn in E. injection E as ES E.
    assert (EF : u_flag u = u_flag u').
    { destruct O as (A & B & _), O' as (A' & B' & _). rewrite <- ES in B'. eapply symbol_one; eauto. }
    assert (X : forall v (u1 : use) us1 pos1 rest, use_ok d u1 -> u_val u1 = None -> Forall (use_ok d) us1 -> taken (u1 :: us1) pos1 ->
                ~ dash_word v -> f_value (u_flag u1) <> VNone -> v :: rest = flat_map written us1 ++ pos1 -> False).
    { intros v u1 us1 pos1 rest O1 N F1 TK1 D FV Q. destruct us1 as [|u2 us1].
      - assert (pos1 = []) by (apply (TK1 [] u1); auto). subst pos1. discriminate.
      - inversion F1 as [|? ? O3 _]; subst. cbn in Q. injection Q as -> _. apply D. destruct O3 as (A & B & _). eapply symbol_dash; eauto. }
    assert (EV : u_val u = u_val u').
    { destruct (u_val u) as [v|] eqn:W, (u_val u') as [v'|] eqn:W'; cbn in E; auto.
      - injection E as <- _. reflexivity.
      - exfalso. eapply (X v u' us' pos'); eauto.
        + destruct O as (_ & _ & _ & N). now apply N.
        + destruct O as (_ & _ & C & _). rewrite W, EF in C. intros Q. now rewrite Q in C.
      - exfalso. eapply (X v' u us pos); eauto.
        + destruct O' as (_ & _ & _ & N). now apply N.
        + destruct O' as (_ & _ & C & _). rewrite W', <- EF in C. intros Q. now rewrite Q in C. }
    assert (EU : u = u') by (destruct u, u'; cbn in *; congruence). subst u'.
    rewrite <- !app_assoc in E. apply app_inv_head in E.
    destruct (IH us' pos pos') as [-> ->]; auto; eapply taken_tail; eauto.
Qed.

(** ** Named arguments as flags *)
Definition rep (a : text * obj) (u : use) : Prop :=
  In (u_flag u) (d_flags d) /\ In (u_sym u) (symbols (u_flag u)) /\ f_name (u_flag u) = fst a /\
  u_val u = match f_value (u_flag u) with VNone => None | _ => Some (snd a) end.

Lemma symbol_no_cluster : forall f x cs, In f (d_flags d) -> In x (symbols f) -> ~ cluster d (OStr x) cs.
Proof.
  intros f x cs I S (E & L & H & _). injection E as ->. unfold validate in V. rewrite !andb_true_iff in V. destruct V as [[_ G] _].
  rewrite forallb_forall in G. apply G in I. unfold good_flag in I. rewrite !andb_true_iff in I. destruct I as [[[_ A] B] _].
  unfold symbols in S. apply in_app_iff in S as [S|S].
  - destruct (f_short f) as [s|]; [|easy]. destruct S as [->|[]]. destruct cs as [|a [|b cs]]; cbn in L; try lia. discriminate A.
  - destruct (f_long f) as [s|]; [|easy]. destruct S as [->|[]]. destruct cs as [|b [|c s]]; try discriminate B. cbn in B, H.
    apply andb_true_iff in B as [B _]. apply Ascii.eqb_eq in B as ->. now apply H.
Qed.

Lemma stand_alone : forall args tss, (forall o, In o args -> forall cs, ~ cluster d o cs) ->
  (Forall2 (stands_for d) args tss <-> tss = map (fun o => [o]) args).
Proof.
  induction args as [|o args IH]; intros tss N; split.
  - intros F. now inversion F.
  - intros ->. constructor.
  - intros F. inversion F as [|? ts ? tss' S F']; subst. cbn. f_equal.
    + inversion S as [? C|? cs C]; subst; auto. exfalso. eapply N; eauto. now left.
    + apply IH; auto. intros x I. apply N. now right.
  - intros ->. cbn. constructor.
    + constructor. apply N. now left.
    + apply IH; auto. intros x I. apply N. now right.
Qed.

Lemma concat_alone : forall (l : list obj), concat (map (fun o => [o]) l) = l.
Proof. induction l; cbn; congruence. Qed.

Lemma default_true : forall f, In f (d_flags d) -> f_value f <> VOptional -> f_default f = OTrue.
Proof.
  intros f I N. unfold validate in V. rewrite !andb_true_iff in V. destruct V as [[_ G] _].
  rewrite forallb_forall in G. apply G in I. unfold good_flag in I. rewrite !andb_true_iff in I. destruct I as [_ D].
  destruct (f_value f); try easy; now destruct (f_default f).
Qed.

Lemma rep_names : forall named us, Forall2 rep named us -> map (fun u => f_name (u_flag u)) us = map fst named.
Proof. induction 1 as [|a u named us R F IH]; cbn; auto. f_equal; auto. apply R. Qed.

Lemma rep_ok : forall named us, Forall2 rep named us -> (forall n v, In (n, v) named -> ~ dash_word v) -> Forall (use_ok d) us.
Proof.
  induction 1 as [|[n v] u named us (A & B & C & D) F IH]; intros N; constructor.
  - repeat split; auto.
    + rewrite D. destruct (f_value (u_flag u)); auto.
    + rewrite D. intros w E. destruct (f_value (u_flag u)); try discriminate; injection E as <-; apply (N n); now left.
  - apply IH. intros m w I. apply (N m). now right.
Qed.

Lemma rep_words : forall named us, Forall2 rep named us -> (forall n v, In (n, v) named -> ~ dash_word v) ->
  forall o, In o (flat_map written us) -> forall cs, ~ cluster d o cs.
Proof.
  induction 1 as [|[n v] u named us (A & B & C & D) F IH]; intros N o I cs; [easy|]. cbn in I. destruct I as [<-|I].
  - eapply symbol_no_cluster; eauto.
  - apply in_app_iff in I as [I|I].
    + rewrite D in I. assert (o = v) as -> by (destruct (f_value (u_flag u)); cbn in I; intuition).
      intros (E & L & _). apply (N n v); [now left|]. destruct cs as [|c cs]; [cbn in L; lia|]. red. eauto.
    + eapply IH; eauto. intros m w J. apply (N m). now right.
Qed.

Lemma rep_once : forall named us, Forall2 rep named us -> NoDup (map fst named) -> NoDup (map u_flag us).
Proof.
  intros named us F N. rewrite <- (rep_names _ _ F) in N. rewrite <- map_map in N. now apply NoDup_map_inv in N.
Qed.

Lemma rep_taken : forall named us pos, Forall2 rep named us -> taken us pos.
Proof.
  intros named us pos F us' u -> N O. exfalso. apply Forall2_app_inv_r in F as (n1 & n2 & _ & F & _).
  inversion F as [|a ? ? ? (_ & _ & _ & E) _]; subst. rewrite N in E. now destruct (f_value (u_flag u)).
Qed.

(** What the flags get *)
Lemma rep_values : forall named us, Forall2 rep named us -> forall ftvs,
  (Forall2 (flag_gets conv d) named ftvs <->
   exists fvs, Forall2 (use_value conv) us fvs /\ ftvs = combine (map (fun u => f_target (u_flag u)) us) fvs).
Proof.
  assert (FN : forall f f', In f (d_flags d) -> In f' (d_flags d) -> f_name f = f_name f' -> f = f').
  { pose proof (v_flag_names d V) as N. revert N. generalize (d_flags d). induction l as [|g l IH]; intros N f f' I I' E; [easy|].
    cbn in N. inversion N; subst. destruct I as [->|I], I' as [->|I']; auto.
    - exfalso. apply H1. rewrite E. now apply in_map.
    - exfalso. apply H1. rewrite <- E. now apply in_map. }
  induction 1 as [|[n v] u named us (A & B & C & D) F IH]; intros ftvs.
  - split.
    + intros G. inversion G; subst. exists []. auto.
    + intros (fvs & G & ->). inversion G; subst. constructor.
  - cbn in C. assert (ONE : forall t w, flag_gets conv d (n, v) (t, w) <-> t = f_target (u_flag u) /\ use_value conv u w).
    { intros t w. unfold flag_gets, use_value. cbn. rewrite D. split.
      - intros (f & I & E & -> & X). assert (f = u_flag u) as -> by (apply FN; congruence). split; auto.
        pose proof (default_true (u_flag u) A). destruct (f_value (u_flag u)) eqn:Q; rewrite ?C; auto; split; auto; try easy.
        rewrite X. symmetry. now apply H.
      - intros (-> & X & Y). exists (u_flag u). repeat split; auto. pose proof (default_true (u_flag u) A).
        destruct (f_value (u_flag u)) eqn:Q; rewrite ?C in X; auto. rewrite X. now apply H. }
    split.
    + intros G. inversion G as [|? [t w] ? ftvs' G1 G2]; subst. apply ONE in G1 as (-> & G1). apply IH in G2 as (fvs & G2 & ->).
      exists (w :: fvs). split; auto.
    + intros (fvs & G & ->). inversion G as [|? w ? fvs' G1 G2]; subst. cbn. constructor.
      * apply ONE. auto.
      * apply IH. eauto.
Qed.

Lemma call_granted : forall named us pos attrs, Forall2 rep named us -> NoDup (map fst named) -> no_flags d named pos ->
  (parse conv d (flat_map written us ++ pos) = Some attrs <-> granted conv d named pos attrs).
Proof.
  intros named us pos attrs F N (NV & N1 & NP).
  assert (AL : forall o, In o (flat_map written us ++ pos) -> forall cs, ~ cluster d o cs).
  { intros o I. apply in_app_iff in I as [I|I]; [eapply rep_words; eauto|now apply NP]. }
  assert (G : forall attrs, granted conv d named pos attrs <-> reading conv d (flat_map written us ++ pos) us pos attrs).
  { intros at'. unfold granted. rewrite <- (rep_names _ _ F). split.
    - intros (AM & EX & ftvs & avs & rest & FG & FL & L). apply (rep_values _ _ F) in FG as (fvs & FG & ->).
      constructor; auto.
      + eapply rep_ok; eauto.
      + eapply rep_once; eauto.
      + eapply rep_taken; eauto.
      + intros o I. now apply NP.
      + exists fvs, avs, rest. auto.
    - intros R. destruct R as [W U O TK PO FI AM EX (fvs & avs & rest & UV & FL & AT)]. split; [|split]; auto.
      exists (combine (map (fun u => f_target (u_flag u)) us) fvs), avs, rest. split; [|split]; auto.
      apply (rep_values _ _ F). eauto. }
  rewrite G, c29_operator_arguments by auto. split.
  - intros (tss & us' & pos' & S & R). apply stand_alone in S as ->; auto. rewrite concat_alone in R.
    assert (us = us' /\ pos = pos') as [-> ->]; auto.
    destruct R. eapply one_reading; eauto.
    + eapply rep_ok; eauto.
    + eapply rep_taken; eauto.
    + intros o I. now apply NP.
  - intros R. exists (map (fun o => [o]) (flat_map written us ++ pos)), us, pos. split; [now apply stand_alone|].
    now rewrite concat_alone.
Qed.
End Generic.

(** ** The flags that the functions use *)
Definition long (f : flag) : text := match f_long f, f_short f with Some s, _ => s | None, Some s => s | None, None => [] end.
Definition short (f : flag) : text := match f_short f with Some s => s | None => [] end.
Definition symbol (c : call) (f : flag) : text :=
  match c with
  | CEnv _ _ _ _ _ => if is_vnone (f_value f) then long f else short f
  | _ => long f
  end.
Definition a_use (c : call) (a : text * obj) : use :=
  match find (fun f => teqb (f_name f) (fst a)) (d_flags (operator c)) with
  | Some f => mkuse (symbol c f) f (match f_value f with VNone => None | _ => Some (snd a) end)
  | None => mkuse [] (mkflag [] None None VNone OTrue []) None
  end.
Definition has_flag (c : call) (n : text) : bool :=
  match find (fun f => teqb (f_name f) n) (d_flags (operator c)) with
  | Some f => existsb (teqb (symbol c f)) (symbols f)
  | None => false
  end.

Lemma with_value_if : forall n v, with_value n v = if is_none v then [] else [(n, v)].
Proof. intros n v. now destruct v. Qed.
Lemma if_given_if : forall v, if_given v = if is_none v then [] else [v].
Proof. intros v. now destruct v. Qed.
Lemma truthy_given : forall v, given_or_none v -> truthy v = negb (is_none v).
Proof. intros v [->|H]; auto. rewrite H. destruct v; auto; discriminate. Qed.

Lemma flags_there : forall c, plain_values c -> forallb (has_flag c) (map fst (by_name c)) = true /\ distinct (map fst (by_name c)) = true.
Proof.
  intros c P. destruct c; cbn [by_name]; rewrite ?with_value_if;
  repeat match goal with |- context [is_none ?v] => destruct (is_none v) end;
  repeat match goal with |- context [on _ ?b] => match b with true => fail 1 | false => fail 1 | _ => destruct b end end;
  cbn [plain_values] in P; 
  try match goal with H : _ = _ \/ _ = _ \/ _ = _ |- _ => destruct H as [->|[->| ->]] end; split; vm_compute; reflexivity.
Qed.

Lemma reps : forall c, plain_values c -> Forall2 (rep (operator c)) (by_name c) (map (a_use c) (by_name c)).
Proof.
  intros c P. apply flags_there in P as [P _]. revert P. generalize (by_name c) as l. induction l as [|[n v] l IH]; intros P; cbn; constructor.
  - cbn in P. apply andb_true_iff in P as [P _]. unfold has_flag in P. unfold a_use, rep. cbn [fst snd].
    destruct (find (fun f => teqb (f_name f) n) (d_flags (operator c))) as [f|] eqn:F; [|discriminate].
    apply find_some in F as [I E]. apply teqb_eq in E. cbn. repeat split; auto. now apply existsb_teqb.
  - apply IH. cbn in P. now apply andb_true_iff in P.
Qed.

Section Calls.
Variable oplist callable str_or_reservoir : obj -> bool.
Variable r_group : obj.

(** Piece by piece *)
Definition named_as (c : call) (n : text) : option (text * bool) :=
  match find (fun f => teqb (f_name f) n) (d_flags (operator c)) with
  | Some f => Some (symbol c f, is_vnone (f_value f))
  | None => None
  end.
Lemma piece_on : forall c n b s, named_as c n = Some (s, true) -> flat_map written (map (a_use c) (on n b)) = add b s.
Proof.
  intros c n [] s E; auto. unfold named_as in E. cbn. unfold a_use. cbn [fst].
  destruct (find (fun f => teqb (f_name f) n) (d_flags (operator c))) as [f|]; [|discriminate].
  injection E as <- E. unfold written. cbn. destruct (f_value f); auto; discriminate.
Qed.
Lemma piece_value : forall c n v s, named_as c n = Some (s, false) -> flat_map written (map (a_use c) (with_value n v)) = add2 (negb (is_none v)) s v.
Proof.
  intros c n v s E. rewrite with_value_if. destruct (is_none v); auto. unfold named_as in E. cbn. unfold a_use. cbn [fst].
  destruct (find (fun f => teqb (f_name f) n) (d_flags (operator c))) as [f|]; [|discriminate].
  injection E as <- E. unfold written. cbn. destruct (f_value f); auto; discriminate.
Qed.

Lemma piece_position : forall v, if_given v = add1 (negb (is_none v)) v.
Proof. intros v. now destruct v. Qed.

Lemma argument_lists : forall c, right_kinds oplist callable str_or_reservoir c -> plain_values c ->
  arglist oplist callable str_or_reservoir r_group c = Some (flat_map written (map (a_use c) (by_name c)) ++ by_position r_group c).
Proof.
  intros c K P. destruct c; cbn [right_kinds plain_values] in K, P; cbn [arglist by_name by_position];
  repeat match goal with H : _ /\ _ |- _ => destruct H | H : given_or_none _ |- _ => apply truthy_given in H; rewrite H; clear H end;
  rewrite ?K, ?map_app, ?flat_map_app, ?piece_position, <- ?app_assoc;
  repeat (erewrite piece_on by reflexivity); repeat (erewrite piece_value by reflexivity); rewrite ?app_nil_r; try reflexivity.
  - destruct clear as [[]|]; auto. now destruct P.
  - destruct K as [->| ->]; auto. now rewrite orb_true_r.
  - destruct P as [->|[->| ->]]; reflexivity.
  - destruct P as [->|[->| ->]]; reflexivity.
  - do 2 f_equal. apply map_ext. intros f. now destruct f.
  - destruct args; [now destruct K|reflexivity].
  - rewrite (proj2 (forallb_forall _ _) K). reflexivity.
Qed.

(** C64, for all calls of the API: the operator gets what the call asks for, or the call is refused; and it is refused exactly if what
    it asks for cannot be granted. *)
Theorem c64_call_partial : forall conv c attrs,
  right_kinds oplist callable str_or_reservoir c -> plain_values c -> no_flags (declared c) (by_name c) (by_position r_group c) ->
  (generate_op oplist callable str_or_reservoir r_group conv c = Some attrs <->
   granted conv (declared c) (by_name c) (by_position r_group c) attrs).
Proof.
  assert (D : forall c, declared c = operator c) by (intros c; destruct c; reflexivity).
  intros conv c attrs K P N. rewrite D in *. unfold generate_op. rewrite argument_lists by auto.
  assert (I : validate (operator c) && distinct (targets (operator c)) = true) by (destruct c; vm_compute; reflexivity).
  apply andb_true_iff in I as [V T]. apply distinct_NoDup in T. apply call_granted; auto.
  - now apply reps.
  - apply distinct_NoDup. now apply flags_there.
Qed.
End Calls.
Print Assumptions c64_call_partial.

(** [write('out.csv', csv=True, append=True)], and [read('a', '-', '-x', csv=True, headings=True)], meet the hypotheses. *)
Definition no_kind (_ : obj) : bool := false.
Definition grouping : obj := OOther 0.
Definition call_op (c : call) : option (list (text * obj)) := generate_op no_kind no_kind no_kind grouping as_given c.

Theorem c64_example :
  (let c := CWrite (OStr (txt "out.csv")) true false false ONone true in
   right_kinds no_kind no_kind no_kind c /\ plain_values c /\ no_flags (declared c) (by_name c) (by_position grouping c) /\
   call_op c = Some [(txt "csv", OTrue); (txt "append", OTrue); (txt "filename_arg", OStr (txt "out.csv"))]) /\
  (let c := CRead [OStr (txt "a"); OStr (txt "-"); OStr (txt "-x")] ONone false true false true false false false false in
   right_kinds no_kind no_kind no_kind c /\ plain_values c /\ no_flags (declared c) (by_name c) (by_position grouping c) /\
   call_op c = Some [(txt "csv", OTrue); (txt "headings", OTrue);
                     (txt "filenames_arg", OList [OStr (txt "a"); OStr (txt "-"); OStr (txt "-x")])]).
Proof.
  split.
  - intros c. split; [exact I|]. split; [split; [right; reflexivity|left; reflexivity]|]. split; [|vm_compute; reflexivity].
    repeat split.
    + cbn. intros n v [E|[E|[]]]; injection E as <- <-; intros (b & r & Q); discriminate.
    + intros v r E _ (b & s & Q). cbn in E. injection E as <- <-. discriminate.
    + intros (x & f & E & J & S). cbn in H. destruct H as [<-|[]]. injection E as <-. destruct (symbol_dash op_write eq_refl f (txt "out.csv")) as (b & r & Q); auto; discriminate.
    + intros cs (E & _). cbn in H. destruct H as [<-|[]]. discriminate.
  - intros c. split; [exact I|]. split; [now left|]. split; [|vm_compute; reflexivity].
    repeat split.
    + cbn. intros n v [E|[E|[]]]; injection E as <- <-; intros (b & r & Q); discriminate.
    + intros v r E _ (b & s & Q). cbn in E. injection E as <- <-. discriminate.
    + intros (x & f & E & J & S). assert (X : forall w, In w [txt "a"; txt "-"; txt "-x"] -> existsb (is_symbol w) (d_flags op_read) = false).
      { intros w W. cbn in W. decompose [or] W; subst; try easy; vm_compute; reflexivity. }
      assert (W : In x [txt "a"; txt "-"; txt "-x"]).
      { cbn in H. decompose [or] H; subst; try easy; match goal with Q : OStr _ = OStr _ |- _ => injection Q as Q; subst; cbn; tauto end. }
      apply X in W. assert (Y : existsb (is_symbol x) (d_flags op_read) = true).
      { apply existsb_exists. exists f. split; auto. now apply existsb_teqb. }
      congruence.
    + intros cs (E & L & _). cbn in H. decompose [or] H; subst; try easy; cbn in *; try discriminate;
      match goal with Q : OStr _ = OStr _ |- _ => injection Q as <- end; cbn in L; lia.
Qed.
Print Assumptions c64_example.

(** ** What does not get through *)

(** A file name that starts with a dash: [write] never writes to it, whatever the other parameters are. *)
Theorem c64_dash_refuted : forall oplist callable str_or_reservoir r_group conv b r csv tsv pickle format append attrs v,
  generate_op oplist callable str_or_reservoir r_group conv (CWrite (OStr ("-" :: b :: r)) csv tsv pickle format append) = Some attrs ->
  In (txt "filename_arg", v) attrs -> v = ONone.
Proof.
  intros oplist callable str_or_reservoir r_group conv b r csv tsv pickle format append attrs v G I.
  unfold generate_op in G. cbn [arglist operator] in G. change (add1 (truthy (OStr ("-" :: b :: r))) (OStr ("-" :: b :: r))) with [OStr ("-" :: b :: r)] in G.
  rewrite !app_assoc in G. set (ws := ((((add csv (txt "--csv") ++ add tsv (txt "--tsv")) ++ add pickle (txt "--pickle")) ++
    add2 (truthy format) (txt "--format") format) ++ add append (txt "--append"))%list) in G. clearbody ws.
  apply c29_operator_arguments in G; [|reflexivity|apply distinct_NoDup; reflexivity].
  destruct G as (tss & us & pos & S & R). apply Forall2_app_inv_l in S as (t1 & t2 & S1 & S2 & ->).
  inversion S2 as [|? ts ? ? ST S3]; subst. inversion S3; subst. clear S2 S3.
  assert (L : exists l d0 rest, ts = l ++ [OStr ("-" :: d0 :: rest)]).
  { inversion ST as [? C|? cs (E & LN & _)]; subst.
    - exists [], b, r. reflexivity.
    - destruct cs as [|c0 cs] using rev_ind; [cbn in LN; lia|]. rewrite map_app. eexists. exists c0, []. reflexivity. }
  destruct L as (l & d0 & rest & ->). rewrite concat_app in R. cbn [concat] in R. rewrite app_nil_r, app_assoc in R.
  destruct R as [W U O TK PO FI AM EX (fvs & avs & rest' & UV & FL & -> & ->)].
  assert (P0 : pos = []).
  { destruct pos as [|p pos]; auto. exfalso. cbn [d_anons op_write] in FL. inversion FL as [|? ? ? ? ? ? ? C F|]; subst. inversion F; subst.
    apply app_inj_tail in W as [_ <-]. eapply FI; eauto; [discriminate|]. red. eauto. }
  subst pos. cbn [d_anons op_write] in FL. inversion FL as [| |? ? ? ? ? D F]; subst. cbn in D. injection D as <-. inversion F; subst.
  apply in_app_iff in I as [I|I].
  - exfalso. apply in_combine_l in I. apply in_map_iff in I as (u & E & J). rewrite Forall_forall in U. apply U in J as (J & _).
    cbn in J. decompose [or] J; try easy; match goal with Q : _ = u_flag u |- _ => rewrite <- Q in E; discriminate E end.
  - cbn in I. destruct I as [E|[]]. congruence.
Qed.
Print Assumptions c64_dash_refuted.

(** [write('-c')] writes CSV to stdout; [ls('-f', 'a')] lists the plain files only; [bash('ls', '-i')] and [env(pattern='-x')] are refused. *)
Theorem c64_flags_refuted :
  call_op (CWrite (OStr (txt "-c")) false false false ONone false) = Some [(txt "csv", OTrue); (txt "filename_arg", ONone)] /\
  call_op (CLs [OStr (txt "-f"); OStr (txt "a")] ONone false false false false) = Some [(txt "file", OTrue); (txt "filenames_arg", OList [OStr (txt "a")])] /\
  call_op (CBash [OStr (txt "ls"); OStr (txt "-i")] false) = None /\
  call_op (CBash [OStr (txt "ls"); OStr (txt "-l")] false) = Some [(txt "args_arg", OList [OStr (txt "ls"); OStr (txt "-l")])] /\
  call_op (CEnv ONone ONone (OStr (txt "-x")) false false) = None.
Proof. repeat split; vm_compute; reflexivity. Qed.
Print Assumptions c64_flags_refuted.

(** Values that are ignored: [gen(3, 1, pad=0)]; an empty file name (written to stdout); any depth but 0 and 1; [dirs(clear=False)]
    clears the directory stack. *)
Theorem c64_values_refuted : forall oplist callable str_or_reservoir r_group conv,
  let op := generate_op oplist callable str_or_reservoir r_group conv in
  (forall count start, op (CGen count start (OInt 0)) = op (CGen count start ONone)) /\
  (forall csv tsv pickle append, op (CWrite (OStr []) csv tsv pickle (OStr []) append) = op (CWrite ONone csv tsv pickle ONone append)) /\
  (forall paths n recursive file dir symlink, (1 < n)%Z ->
     op (CLs paths (OInt n) recursive file dir symlink) = op (CLs paths ONone recursive file dir symlink)) /\
  op (CDirs (Some false)) = op (CDirs (Some true)).
Proof.
  intros oplist callable str_or_reservoir r_group conv op. repeat split; auto.
  intros paths n recursive file dir symlink L. unfold op, generate_op. cbn [arglist operator equals].
  destruct (Z.eqb_spec n 0); [lia|]. destruct (Z.eqb_spec n 1); [lia|]. reflexivity.
Qed.
Print Assumptions c64_values_refuted.
