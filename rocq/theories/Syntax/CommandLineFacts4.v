(** A parsed command does what its words say (C74). *)
From Verif.Syntax Require Export CommandLineFacts3.
Local Open Scope char_scope.
Local Open Scope list_scope.

Section Meant.
Variable compile : text -> option func.
Variable named : text -> option func.
Variable is_var : text -> bool.
Hypothesis no_var : forall n x, In (n, x) operators -> is_var (txt n) = false.

Notation argument_value := (argument_value compile named is_var).
Notation create_op := (create_op compile named is_var).
Notation create_all := (create_all compile named is_var).
Notation create := (create compile named is_var).
Notation run_ops := (run_ops compile named is_var).
Notation values := (values compile named is_var).
Notation operator := (operator compile named).
Notation int_val := (int_val compile).
Notation fun_val := (fun_val compile named).

Definition conv_of (convs : list (string * conversion)) (a : text) : obj -> option obj :=
  convert named (match by_name a convs with Some c => c | None => As_is end).
Lemma create_known : forall n d convs vs, In (n, (d, convs)) operators ->
  by_name (txt n) (map (fun x => (fst x, x)) operators) = Some (n, (d, convs)) ->
  create (txt n) vs = match Args.parse (conv_of convs) d (as_objects 0 vs) with
                      | None => None
                      | Some attrs => operator n (fun x => dget (txt x) attrs) (pipe_at vs)
                      end.
Proof. intros n d convs vs I B. unfold create, CommandLine.create. rewrite (no_var _ _ I), B. reflexivity. Qed.

Lemma call_create : forall w is c, stands_op (Word w :: is) c -> 
  exists l, Forall2 stands is l /\ create_op c = match values l with Some vs => create w vs | None => None end.
Proof. intros w is c H. inversion H; subst. exists as_. split; auto. Qed.

Ltac known := match goal with |- context [create (txt ?n) ?vs] =>
  erewrite (create_known n); [|cbn; intuition reflexivity|reflexivity] end.
Ltac items := repeat match goal with
  | H : Forall2 stands (_ :: _) _ |- _ => inversion H; clear H; subst
  | H : Forall2 stands [] _ |- _ => inversion H; clear H; subst
  end.

Lemma one_int : forall n d convs nm tg i z c (k : option Z -> machine), In (n, (d, convs)) operators -> 
  by_name (txt n) (map (fun x => (fst x, x)) operators) = Some (n, (d, convs)) ->
  d_flags d = [] -> (exists df, d_anons d = [mkanon nm df (txt tg)]) -> d_list d = None -> d_at_most d = [] -> d_exactly d = [] ->
  conv_of convs nm = str_to_int ->
  (forall attr p, operator n attr p = with_int (int_attr compile (attr tg)) k) ->
  is_int compile i z -> stands_op (Word (txt n) :: [i]) c -> create_op c = Some (B_op (k (Some z))).
Proof.
  intros n d convs nm tg i z c k I B F (df & A) L M E CV OP Z ST. apply call_create in ST as (l & S & ->). items.
  destruct (value_int compile named is_var i z y Z H1) as (o & v & AV & (V & IA & _) & _). cbn [CommandLineFacts2.values]. rewrite AV.
  rewrite (create_known n d convs) by auto. cbn [as_objects].
  rewrite parse_simple with (a := mkanon nm df (txt tg)) (v := v); auto; [|cbn [a_name]; now rewrite CV].
  rewrite OP. cbn [a_target]. assert (D : dget (txt tg) [(txt tg, v)] = Some v).
  { cbn [dget]. unfold teqb. destruct (list_eq_dec Ascii.ascii_dec (txt tg) (txt tg)); [reflexivity|easy]. }
  rewrite D, IA. reflexivity.
Qed.
Lemma one_fun : forall n d convs nm i f c (k : func -> machine), In (n, (d, convs)) operators -> 
  by_name (txt n) (map (fun x => (fst x, x)) operators) = Some (n, (d, convs)) ->
  d_flags d = [] -> (exists df, d_anons d = [mkanon (txt nm) df (txt nm)]) -> d_list d = None -> d_at_most d = [] -> d_exactly d = [] ->
  conv_of convs (txt nm) = to_function named ->
  (forall attr p v, (exists s, v = OFun s) \/ (exists w, v = OStr w) -> attr nm = Some v -> operator n attr p = option_map (fun f => B_op (k f)) (fun_attr compile named (Some v))) ->
  is_fn compile named i f -> stands_op (Word (txt n) :: [i]) c -> create_op c = Some (B_op (k f)).
Proof.
  intros n d convs nm i f c k I B F (df & A) L M E CV OP Z ST. apply call_create in ST as (l & S & ->). items.
  destruct (value_fn compile named is_var i f y Z H1) as (o & v & AV & (V & FA & K) & _). cbn [CommandLineFacts2.values]. rewrite AV.
  rewrite (create_known n d convs) by auto. cbn [as_objects].
  rewrite parse_simple with (a := mkanon (txt nm) df (txt nm)) (v := v); auto; [|cbn [a_name]; now rewrite CV].
  cbn [a_target]. assert (D : dget (txt nm) [(txt nm, v)] = Some v).
  { cbn [dget]. unfold teqb. destruct (list_eq_dec Ascii.ascii_dec (txt nm) (txt nm)); [reflexivity|easy]. }
  rewrite (OP _ _ v K D), FA. reflexivity.
Qed.

Ltac in_table := unfold operators; repeat (try (left; reflexivity); right).

Ltac table_done L F ST := apply L; [in_table|reflexivity|reflexivity|eexists; reflexivity|reflexivity|reflexivity|reflexivity|reflexivity| |exact F|exact ST].

Ltac nested IH := repeat match goal with H : stands (Word _) _ |- _ => apply (value_word compile named is_var) in H as [-> _]
                           | H : stands (Nest _) _ |- _ => apply (value_nest compile named is_var) with (1 := IH) in H; rewrite H; clear H end.
Lemma pipes_values : forall srcs : list source, exists os, as_objects 0 (map inr srcs) = os /\ Forall plain_obj os /\
  Forall2 (fun o v => conv_of [("pipelines"%string, Pipes)] (txt "pipelines") o = Some v) os os /\
  all_some (map (fun o => match Some o with Some (OOther i) => pipe_at (map inr srcs) i | _ => None end) os) = Some srcs.
Proof.
  intros srcs. eexists; split; [reflexivity|].
  assert (G : forall l p, srcs = p ++ l -> let os := as_objects (length p) (map inr l) in Forall plain_obj os /\
    Forall2 (fun o v => conv_of [("pipelines"%string, Pipes)] (txt "pipelines") o = Some v) os os /\
    all_some (map (fun o => match Some o with Some (OOther i) => pipe_at (map inr srcs) i | _ => None end) os) = Some l).
  { induction l as [|s l IH]; intros p E; cbn [map as_objects]; [repeat split; constructor|].
    destruct (IH (p ++ [s])) as (P & C & A); [now rewrite <- app_assoc|]. rewrite app_length in *. cbn [length] in *. rewrite Nat.add_1_r in *.
    repeat split; try (constructor; auto); [reflexivity|]. cbn [map all_some]. 
    assert (N : pipe_at (map inr srcs) (length p) = Some s).
    { unfold pipe_at. rewrite E, map_app, nth_error_app2; rewrite map_length; [|lia]. rewrite Nat.sub_diag. reflexivity. }
    now rewrite N, A. }
  exact (G srcs [] eq_refl).
Qed.

Lemma meant :
  (forall is m, does compile named is m -> forall c, stands_op is c -> create_op c = Some (B_op m)) /\
  (forall l src, sends compile named l src -> forall cs, Forall2 stands_op l cs -> run_ops cs = Some src) /\
  (forall os ms, does_all compile named os ms -> forall cs, Forall2 stands_op os cs -> create_all cs = Some (map B_op ms)) /\
  (forall ls srcs, sends_all compile named ls srcs -> forall l, Forall2 stands (map Nest ls) l -> values l = Some (map inr srcs)).
Proof.
  apply meaning_ind.
  - (* an expression *) intros s f C c ST. inversion ST; subst.
    unfold CommandLineFacts2.values. rewrite create_op_eq. cbn [name_text CommandLineFacts2.values]. rewrite (value_expr compile named is_var s f) by (auto; constructor).
    known. cbn [as_objects]. rewrite parse_simple with (a := mkanon (txt "function") None (txt "function")) (v := OFun s); auto.
    cbn. now rewrite C.
  - (* map *) intros i f F c ST. table_done (one_fun "map" op_map [("function"%string, Fun)] "function" i f c Basic.map_op) F ST.
    intros attr p v K E. unfold CommandLine.operator. cbv iota. now rewrite E.
  - (* select *) intros i f F c ST. table_done (one_fun "select" op_select [("function"%string, Fun)] "function" i f c Basic.select_op) F ST.
    intros attr p v K E. unfold CommandLine.operator. cbv iota. now rewrite E.
  - (* squish *) intros i f F c ST. table_done (one_fun "squish" op_squish [("function"%string, Fun)] "function" i f c Basic.squish_op) F ST.
    intros attr p v K E. unfold CommandLine.operator. cbv iota. rewrite E. now destruct K as [(s & ->)|(w & ->)].
  - (* squish, adding *) intros f N c ST. apply call_create in ST as (l & S & ->). items. cbn [CommandLineFacts2.values]. known.
    change (Args.parse _ op_squish _) with (Some [(txt "function", ONone)]). unfold CommandLine.operator.
    change (dget (txt "function") _) with (Some ONone). cbv iota. now rewrite N.
  - (* head *) intros i n Z c ST. table_done (one_int "head" op_head [("n"%string, Int)] (txt "n") "n_arg" i n c
      (fun n => match n with Some n => Basic.head_op n | None => Basic.fail_setup end)) Z ST. reflexivity.
  - (* tail *) intros i n Z c ST. table_done (one_int "tail" op_tail [("n"%string, Int)] (txt "n") "n_arg" i n c
      (fun n => match n with Some n => Basic.tail_op n | None => Basic.fail_setup end)) Z ST. reflexivity.
  - (* reverse *) intros c ST. apply call_create in ST as (l & S & ->). items. cbn [CommandLineFacts2.values]. known. reflexivity.
  - (* sort *) intros is key O c ST. destruct O as [|i f F].
    + apply call_create in ST as (l & S & ->). items. cbn [CommandLineFacts2.values]. known. reflexivity.
    + table_done (one_fun "sort" op_sort [("key"%string, Fun)] "key" i f c (fun f => Basic.sort_op (Some f))) F ST.
      intros attr p v K E. unfold CommandLine.operator. cbv iota. rewrite E. now destruct K as [(s & ->)|(w & ->)].
  - (* unique *) intros is b F c ST. apply call_create in ST as (l & S & ->). destruct F; items; cbn [CommandLineFacts2.values];
      repeat match goal with H : stands (Word _) _ |- _ => apply (value_word compile named is_var) in H as [-> _] end; known; reflexivity.
  - (* window *) intros i f F N c ST. apply call_create in ST as (l & S & ->). items.
    destruct (value_fn compile named is_var i f y F H1) as (o & v & AV & (V & FA & K) & P). cbn [CommandLineFacts2.values]. rewrite AV. known.
    cbn [as_objects]. rewrite parse_window_at with (v := v); auto.
    assert (OP : operator "window" (fun x => dget (txt x) [(txt "predicate", v)]) (pipe_at [inl o]) = 
                 option_map (fun f => B_op (Group.window_op (Some f) None None)) (fun_attr compile named (Some v))).
    { destruct K as [(s & ->)|(w & ->)]; reflexivity. }
    rewrite OP, FA. reflexivity.
  - (* window -o *) intros is n O c ST. apply call_create in ST as (l & S & ->). 
    assert (X : exists w i, (w = txt "-o" \/ w = txt "--overlap") /\ is = [Word w; i] /\ is_unsigned compile i n) by (inversion O; subst; eauto 8).
    destruct X as (w & i & W & -> & U). items. apply (value_word compile named is_var) in H1 as [AW _].
    destruct (value_unsigned compile named is_var i n y0 U H2) as (o & v & AV & (V & IA & T & _) & P). cbn [CommandLineFacts2.values]. rewrite AW, AV. known.
    cbn [as_objects]. rewrite parse_window_by with (g := mkflag (txt "overlap") (Some (txt "-o")) (Some (txt "--overlap")) VOne (OTrue) (txt "overlap_arg")) (v := v);
      auto; [|now left|now destruct W as [-> | ->]].
    unfold CommandLine.operator. cbn [f_target]. change (dget (txt "overlap_arg") _) with (Some v). rewrite IA. reflexivity.
  - (* window -d *) intros is n O c ST. apply call_create in ST as (l & S & ->). 
    assert (X : exists w i, (w = txt "-d" \/ w = txt "--disjoint") /\ is = [Word w; i] /\ is_unsigned compile i n) by (inversion O; subst; eauto 8).
    destruct X as (w & i & W & -> & U). items. apply (value_word compile named is_var) in H1 as [AW _].
    destruct (value_unsigned compile named is_var i n y0 U H2) as (o & v & AV & (V & IA & T & _) & P). cbn [CommandLineFacts2.values]. rewrite AW, AV. known.
    cbn [as_objects]. rewrite parse_window_by with (g := mkflag (txt "disjoint") (Some (txt "-d")) (Some (txt "--disjoint")) VOne (OTrue) (txt "disjoint_arg")) (v := v);
      auto; [|now right; left|now destruct W as [-> | ->]].
    unfold CommandLine.operator. cbn [f_target]. change (dget (txt "disjoint_arg") _) with (Some v). rewrite IA. reflexivity.
  - (* expand *) intros is n O c ST. destruct O as [|i z Z].
    + apply call_create in ST as (l & S & ->). items. cbn [CommandLineFacts2.values]. known. reflexivity.
    + table_done (one_int "expand" op_expand [("position"%string, Int)] (txt "position") "position_arg" i z c Group.expand_op) Z ST. reflexivity.
  - (* red *) intros fl inc is rs F NE NF R c ST. apply call_create in ST as (l & S & ->).
    apply Forall2_app_inv_l in S as (l1 & l2 & S1 & S2 & ->).
    assert (X : exists os vs, values l2 = Some (map inl os) /\ Forall plain_obj os /\
                Forall2 (fun o v => conv_of [("functions"%string, Fun)] (txt "functions") o = Some v) os vs /\ all_some (map (reducer_of compile named) vs) = Some rs).
    { clear - S2 NF R. revert l2 S2 NF. induction R as [|i r is rs H R IH]; intros l2 S2 NF.
      - inversion S2; subst. exists [], []. repeat split; constructor.
      - inversion S2; subst. inversion NF; subst. destruct (IH _ H4 H5) as (os & vs & V & P & C & A).
        assert (Y : exists o v, argument_value y = Some (inl o) /\ plain_obj o /\ to_function named o = Some v /\ reducer_of compile named v = Some r).
        { assert (G : forall w f, named w = Some f -> stands (Word w) y -> no_flag (Word w) ->
            argument_value y = Some (inl (OStr w)) /\ plain_obj (OStr w) /\ to_function named (OStr w) = Some (OStr w)).
          { intros w f N ST NW. apply (value_word compile named is_var) in ST as [-> O]. repeat split.
            - cbn. destruct w as [|c0 [|? ?]]; auto. now apply Ascii.eqb_neq.
            - cbn. now rewrite unescape_ordinary, N. }
          destruct H as [s f E|f E|f E|w f N1 N2 E].
          - exists (OFun s), (OFun s). rewrite (value_expr compile named is_var s f) by auto. repeat split. cbn. now rewrite E.
          - exists (OStr (txt ".")), (OStr (txt ".")). destruct (G _ _ E H2 H3) as (? & ? & ?). repeat split; auto. unfold reducer_of. rewrite E. reflexivity.
          - exists (OStr (txt "count")), (OStr (txt "count")). destruct (G _ _ E H2 H3) as (? & ? & ?). repeat split; auto. unfold reducer_of. rewrite E. reflexivity.
          - exists (OStr w), (OStr w). destruct (G _ _ E H2 H3) as (? & ? & ?). repeat split; auto. unfold reducer_of. rewrite E.
            unfold teqb. destruct (list_eq_dec _ w (txt ".")); [easy|]. destruct (list_eq_dec _ w (txt "count")); [easy|]. reflexivity. }
        destruct Y as (o & v & AV & PO & TF & RO). exists (o :: os), (v :: vs). repeat split.
        + cbn [CommandLineFacts2.values map]. now rewrite AV, V.
        + now constructor.
        + now constructor.
        + cbn [map all_some]. now rewrite RO, A. }
    destruct X as (os & vs & V & P & C & A).
    assert (AO : forall os k, as_objects k (map inl os) = os) by (induction os0; intros; cbn; [auto|now rewrite IHos0]).
    assert (Y : exists ws, values (l1 ++ l2) = Some (map inl (ws ++ os)) /\
               (if inc : bool then ws = [OStr (txt "-i")] \/ ws = [OStr (txt "--incremental")] else ws = [])).
    { destruct F; items; cbn [app CommandLineFacts2.values]; 
        repeat match goal with H : stands (Word _) _ |- _ => apply (value_word compile named is_var) in H as [-> _] end; rewrite V; [exists []|eexists [_]|eexists [_]]; (split; [reflexivity|auto]). }
    destruct Y as (ws & -> & W). known. rewrite AO. rewrite parse_red with (inc := inc) (vs := vs); auto.
    destruct inc; cbn -[all_some reducer_of Group.red_op]; now rewrite A.
  - (* join *) intros fl keep l src F _ IH c ST. apply call_create in ST as (l0 & S & ->).
    destruct F; cbn [app] in S; items; cbn [CommandLineFacts2.values]; nested IH; known; reflexivity.
  - (* union *) intros ls srcs _ IH c ST. apply call_create in ST as (l0 & S & ->). rewrite (IH _ S). known. 
    destruct (pipes_values srcs) as (os & AO & P & C & A). rewrite AO.
    rewrite parse_pipes with (vs := os); auto. cbn -[all_some SetOps.union_op pipe_at]. now rewrite A.
  - (* intersect *) intros ls srcs _ IH c ST. apply call_create in ST as (l0 & S & ->). rewrite (IH _ S). known. 
    destruct (pipes_values srcs) as (os & AO & P & C & A). rewrite AO.
    rewrite parse_pipes with (vs := os); auto. cbn -[all_some SetOps.intersect_op pipe_at]. now rewrite A.
  - (* difference *) intros l src _ IH c ST. apply call_create in ST as (l0 & S & ->).
    items; cbn [CommandLineFacts2.values]; nested IH; known; reflexivity.
  - (* filter *) intros fl cmp f l src F C _ IH c ST. apply call_create in ST as (l0 & S & ->).
    assert (FL : In fl [[]; [Word (txt "-k")]; [Word (txt "--keep")]]).
    { destruct F as [F| ->]; [inversion F; subst|]; cbn; auto. }
    clear F. destruct C as [|s f C|s f C]; cbn in FL; destruct FL as [<-|[<-|[<-|[]]]]; cbn [app] in S; items; cbn [CommandLineFacts2.values];
      nested IH; rewrite ?(value_expr compile named is_var s f) by auto; known; cbn; rewrite ?C; reflexivity.
  - (* filter -d *) intros fl cmp f l src F C _ IH c ST. apply call_create in ST as (l0 & S & ->).
    assert (FL : In fl [[Word (txt "-d")]; [Word (txt "--discard")]]) by (inversion F; subst; cbn; auto).
    clear F. destruct C as [|s f C|s f C]; cbn in FL; destruct FL as [<-|[<-|[]]]; cbn [app] in S; items; cbn [CommandLineFacts2.values];
      nested IH; rewrite ?(value_expr compile named is_var s f) by auto; known; cbn; rewrite ?C; reflexivity.
  - (* gen *) intros pad pads count n start starts ops ms PD U NZ SD _ IH cs ST. inversion ST as [|? c ? cs' SC SR]; subst.
    unfold run_ops, CommandLine.run_ops. cbn [CommandLine.create_all]. rewrite (IH _ SR).
    apply call_create in SC as (l0 & S & ->). apply Forall2_app_inv_l in S as (l1 & l2 & S1 & S2 & ->). inversion S2 as [|? ac ? l3 SC S3]; subst.
    destruct (value_unsigned compile named is_var count n ac U SC) as (oc & vc & AC & (VC & IC & _) & PC).
    assert (HP : exists ps vp, values l1 = Some (map inl ps) /\ 
      match vp with None => ps = [] | Some v => exists w o, (w = txt "-p" \/ w = txt "--pad") /\ ps = [OStr w; o] /\ plain_obj o /\
         conv_of [("pad", Int); ("count", Int); ("start", Int)]%string (txt "pad") o = Some v /\ is_true v = false end /\
      int_attr compile vp = inl pad).
    { assert (G : forall w i p, (w = txt "-p" \/ w = txt "--pad") -> is_unsigned compile i p -> Forall2 stands [Word w; i] l1 -> exists o v,
        values l1 = Some (map inl [OStr w; o]) /\ plain_obj o /\ str_to_int o = Some v /\ is_true v = false /\ int_attr compile (Some v) = inl (Some p)).
      { intros w i p W UI F. items. apply (value_word compile named is_var) in H1 as [AW _].
        destruct (value_unsigned compile named is_var i p y0 UI H2) as (o & v & AV & (V & IA & T & _) & P). exists o, v. 
        cbn [CommandLineFacts2.values]. rewrite AW, AV. repeat split; auto. }
      destruct PD as [|i p UI|i p UI].
      - items. exists [], None. repeat split.
      - destruct (G (txt "-p") i p) as (o & v & V & P & C & T & I); auto. exists [OStr (txt "-p"); o], (Some v). repeat split; auto. eauto 10.
      - destruct (G (txt "--pad") i p) as (o & v & V & P & C & T & I); auto. exists [OStr (txt "--pad"); o], (Some v). repeat split; auto. eauto 10. }
    assert (HS : exists ss vs, values l3 = Some (map inl ss) /\
      match vs with None => ss = [] | Some v => exists o, ss = [o] /\ (plain_obj o \/ negative_obj o) /\
         conv_of [("pad", Int); ("count", Int); ("start", Int)]%string (txt "start") o = Some v end /\
      int_attr compile (Some (match vs with None => OInt 0 | Some v => v end)) = inl (Some (match start with Some s => s | None => 0%Z end))).
    { destruct SD as [|i z Z].
      - items. exists [], None. repeat split.
      - items. destruct (value_int compile named is_var i z y Z H1) as (o & v & AV & (V & IA & _) & P).
        exists [o], (Some v). cbn [CommandLineFacts2.values]. rewrite AV. repeat split; auto. exists o. auto. }
    destruct HP as (ps & vp & VP & HP & IP). destruct HS as (ss & vs & VS & HS & IS).
    assert (VL : values (l1 ++ ac :: l3) = Some (map inl (ps ++ oc :: ss))).
    { rewrite map_app. cbn [map]. revert VP AC VS. clear. revert ps. induction l1 as [|a l1 IH]; intros ps VP AC VS.
      - cbn in VP. destruct ps; [|discriminate]. cbn [app CommandLineFacts2.values map]. now rewrite AC, VS.
      - cbn [app CommandLineFacts2.values] in *. destruct (argument_value a); [|discriminate]. destruct (values l1) eqn:E; [|discriminate].
        destruct ps as [|p ps]; [discriminate|]. injection VP as -> ->. rewrite (IH ps); auto. }
    assert (AO : forall os k, as_objects k (map inl os) = os) by (induction os; intros; cbn; [auto|now rewrite IHos]).
    rewrite VL. known. rewrite AO. rewrite parse_gen with (pad := vp) (vc := vc) (start := vs); auto.
    assert (OP : operator "gen" (fun x => dget (txt x) ((match vp with None => [] | Some v => [(txt "pad_arg", v)] end) ++
          [(txt "count_arg", vc); (txt "start_arg", match vs with None => OInt 0 | Some v => v end)])) (pipe_at (map inl (ps ++ oc :: ss))) =
       match int_attr compile vp, int_attr compile (Some vc), int_attr compile (Some (match vs with None => OInt 0 | Some v => v end)) with
       | inl pad, inl (Some count), inl (Some start) => if Z.eqb count 0 then None else Some (B_source (Gen.gen_source count start pad))
       | _, _, _ => None
       end) by (destruct vp; reflexivity).
    rewrite OP, IP, IC, IS. apply Z.eqb_neq in NZ. rewrite NZ. cbn [run_stages].
    assert (MM : forall l, machines (map B_op l) = Some l) by (induction l; cbn; [auto|now rewrite IHl]).
    now rewrite MM.
  - intros cs ST. inversion ST; subst. reflexivity.
  - intros o m os ms _ IO _ IOS cs ST. inversion ST; subst. cbn [CommandLine.create_all map]. now rewrite (IO _ H1), (IOS _ H3).
  - intros l ST. inversion ST; subst. reflexivity.
  - intros l s ls ss _ IL _ ILS a ST. cbn [map] in ST. inversion ST; subst. cbn [CommandLineFacts2.values map].
    apply (value_nest compile named is_var _ s) in H1; [rewrite H1|exact IL]. now rewrite (ILS _ H3).
Qed.
End Meant.
