(** Creating the operators of a parsed command, one by one (C74). *)
From Verif.Syntax Require Export CommandLineFacts2.
Local Open Scope char_scope.
Local Open Scope list_scope.

(** ** The argument parser on the arguments of these operators *)
Section Parsed.
Variable conv : text -> obj -> option obj.
Notation pst f a l c k := (mkps f a l c k).

Lemma step_anon : forall d f an l c k o a v, find_flag d o = None -> (plausible o && k)%bool = false ->
  match c with None => True | Some g => is_vnone (f_value g) = true end ->
  nth_error (d_anons d) (length an) = Some a -> conv (a_name a) o = Some v ->
  extract_one conv d (pst f an l c k) o = Some (pst f (dset (a_name a) v an) l c false).
Proof.
  intros d f an l c k o a v F P C N V. unfold extract_one. cbn [ps_flags ps_anon ps_list ps_cur ps_ok]. rewrite F, P.
  assert (L : (length (d_anons d) <=? length an)%nat = false).
  { apply Nat.leb_gt. apply nth_error_Some. congruence. }
  rewrite L, N, V. destruct c as [g|]; auto. now rewrite C.
Qed.
Lemma step_list : forall d f an l c k o n tg v, find_flag d o = None -> (plausible o && k)%bool = false ->
  match c with None => True | Some g => is_vnone (f_value g) = true end ->
  d_anons d = [] -> d_list d = Some (n, tg) -> conv n o = Some v ->
  extract_one conv d (pst f an l c k) o = Some (pst f an (l ++ [v]) c false).
Proof.
  intros d f an l c k o n tg v F P C A L V. unfold extract_one. cbn [ps_flags ps_anon ps_list ps_cur ps_ok]. rewrite F, P, A. cbn [length].
  rewrite L, V. cbn [Nat.leb]. destruct c as [g|]; auto. now rewrite C.
Qed.
Lemma step_flag : forall d f an l c o g, find_flag d o = Some g -> dget (f_name g) f = None ->
  extract_one conv d (pst f an l c true) o = Some (pst (dset (f_name g) (f_default g) f) an l (Some g) true).
Proof. intros d f an l c o g F G. unfold extract_one. cbn [ps_flags ps_anon ps_list ps_cur ps_ok]. now rewrite F, G. Qed.
Lemma step_value : forall d f an l g k o v, find_flag d o = None -> (plausible o && k)%bool = false -> is_vnone (f_value g) = false ->
  conv (f_name g) o = Some v ->
  extract_one conv d (pst f an l (Some g) k) o = Some (pst (dset (f_name g) v f) an l None k).
Proof. intros d f an l g k o v F P N V. unfold extract_one. cbn [ps_flags ps_anon ps_list ps_cur ps_ok]. now rewrite F, P, N, V. Qed.

Lemma parse_simple : forall d a o v, d_flags d = [] -> d_anons d = [a] -> d_list d = None -> d_at_most d = [] -> d_exactly d = [] ->
  conv (a_name a) o = Some v -> Args.parse conv d [o] = Some [(a_target a, v)].
Proof.
  intros d a o v F A L M E V. unfold Args.parse. rewrite F. cbn [length Nat.eqb negb].
  assert (FF : forall x, find_flag d x = None) by (intros [| | | | | |]; auto; cbn; now rewrite F).
  assert (EX : expand_arg d o = [o]).
  { destruct o as [| |[|a0 [|b [|c r]]]| | | |]; auto. cbn [expand_arg]. destruct (_ && _)%bool; auto. cbn [map forallb]. now rewrite FF. }
  cbn [flat_map]. rewrite EX. cbn [app extract]. rewrite step_anon with (a := a) (v := v); auto; [|now rewrite andb_false_r|now rewrite A].
  cbn [ps_flags ps_anon ps_list map]. rewrite M, E. cbn [value_counts_ok forallb andb dset length]. rewrite A. cbn [skipn fill]. rewrite L.
  cbn [app fold_left fst snd dset]. unfold target_of, flag_named. rewrite F, A. cbn [find].
  unfold teqb. destruct (list_eq_dec Ascii.ascii_dec (a_name a) (a_name a)); [reflexivity|easy].
Qed.

(** gen *)
Lemma parse_gen : forall pad ps oc vc start ss, 
  match pad with None => ps = [] | Some v => exists w o, (w = txt "-p" \/ w = txt "--pad") /\ ps = [OStr w; o] /\ plain_obj o /\ conv (txt "pad") o = Some v /\ is_true v = false end ->
  plain_obj oc -> conv (txt "count") oc = Some vc ->
  match start with None => ss = [] | Some v => exists o, ss = [o] /\ (plain_obj o \/ negative_obj o) /\ conv (txt "start") o = Some v end ->
  Args.parse conv op_gen (ps ++ oc :: ss) =
    Some ((match pad with None => [] | Some v => [(txt "pad_arg", v)] end) ++
          [(txt "count_arg", vc); (txt "start_arg", match start with None => OInt 0 | Some v => v end)]).
Proof.
  intros pad ps oc vc start ss HP PC VC HS. unfold Args.parse.
  assert (G : forallb good_flag (d_flags op_gen) = true) by reflexivity.
  assert (ND : no_digits op_gen = true) by reflexivity.
  assert (ES : flat_map (expand_arg op_gen) ss = ss /\ match ss with [] => True | o :: _ => find_flag op_gen o = None end).
  { destruct start as [v|]; [|now subst].
    destruct HS as (o & -> & [P|P] & V); cbn [flat_map]; [rewrite expand_plain, find_plain|rewrite expand_negative, find_negative]; auto. }
  destruct ES as [ES FS].
  assert (EP : flat_map (expand_arg op_gen) ps = ps).
  { destruct pad as [v|]; [|now subst]. destruct HP as (w & o & W & -> & P & V & _). cbn [flat_map].
    rewrite (expand_plain op_gen o) by auto. now destruct W as [-> | ->]. }
  rewrite flat_map_app, EP. cbn [flat_map]. rewrite ES, expand_plain by auto. cbn [app].
  assert (S1 : exists c, extract conv op_gen (mkps [] [] [] None true) (ps ++ oc :: ss) =
            extract conv op_gen (mkps (match pad with None => [] | Some v => [(txt "pad", v)] end) [] [] None true) (oc :: ss) /\ c = 0).
  { exists 0. split; auto. destruct pad as [v|]; [|now subst]. destruct HP as (w & o & W & -> & P & V & _). cbn [app extract].
    rewrite step_flag with (g := mkflag (txt "pad") (Some (txt "-p")) (Some (txt "--pad")) VOne (OTrue) (txt "pad_arg"));
      [|now destruct W as [-> | ->]|reflexivity].
    rewrite step_value with (v := v); auto; [now apply find_plain|now rewrite plausible_plain]. }
  destruct S1 as (_ & S1 & _). change (negb (length (d_flags op_gen) =? 0)%nat) with true. rewrite S1. cbn [extract].
  rewrite step_anon with (a := mkanon (txt "count") (Some (OInt 0)) (txt "count_arg")) (v := vc); auto;
    [|now apply find_plain|now rewrite plausible_plain].
  assert (VP : match pad with Some v => is_true v = false | None => True end).
  { destruct pad as [v|]; auto. now destruct HP as (w & o & W & -> & P & V & Q). }
  destruct start as [v|].
  - destruct HS as (o & -> & P & V). cbn [extract].
    rewrite step_anon with (a := mkanon (txt "start") (Some (OInt 0)) (txt "start_arg")) (v := v); auto; [|now rewrite andb_false_r].
    destruct pad as [vp|]; cbn; rewrite ?VP; reflexivity.
  - subst ss. cbn [extract]. destruct pad as [vp|]; cbn; rewrite ?VP; reflexivity.
Qed.

(** window *)
Lemma parse_window_at : forall o v, plain_obj o -> conv (txt "predicate") o = Some v ->
  Args.parse conv op_window [o] = Some [(txt "predicate", v)].
Proof.
  intros o v P V. unfold Args.parse. cbn [flat_map]. rewrite expand_plain by auto. cbn [app extract].
  rewrite step_anon with (a := mkanon (txt "predicate") (Some ONone) (txt "predicate")) (v := v); auto;
    [now apply find_plain|now rewrite plausible_plain].
Qed.
Lemma parse_window_by : forall g w o v, In g (d_flags op_window) -> is_symbol w g = true -> plain_obj o -> conv (f_name g) o = Some v -> is_true v = false ->
  Args.parse conv op_window [OStr w; o] = Some [(f_target g, v); (txt "predicate", ONone)].
Proof.
  intros g w o v I S P V T. unfold Args.parse. cbn [flat_map]. rewrite (expand_plain op_window o) by auto.
  assert (W : In w [txt "-o"; txt "--overlap"; txt "-d"; txt "--disjoint"]).
  { unfold is_symbol in S. apply existsb_exists in S as (y & Y & E). apply teqb_eq in E. subst y. cbn in I.
    destruct I as [<-|[<-|[]]]; cbn in Y; intuition (subst; cbn; auto). }
  assert (FG : find_flag op_window (OStr w) = Some g /\ expand_arg op_window (OStr w) = [OStr w]).
  { cbn in I. destruct I as [<-|[<-|[]]]; cbn in W; destruct W as [<-|[<-|[<-|[<-|[]]]]]; try (split; reflexivity); discriminate S. }
  destruct FG as [FG EX]. rewrite EX. cbn [app extract]. rewrite step_flag with (g := g) by auto.
  rewrite step_value with (v := v); auto; [|now apply find_plain|now rewrite plausible_plain|cbn in I; now destruct I as [<-|[<-|[]]]].
  cbn in I. destruct I as [<-|[<-|[]]]; cbn; rewrite T; reflexivity.
Qed.

(** red *)
Lemma extract_list : forall d n tg os vs f l c, forallb good_flag (d_flags d) = true -> d_anons d = [] -> d_list d = Some (n, tg) ->
  match c with None => True | Some g => is_vnone (f_value g) = true end ->
  Forall plain_obj os -> Forall2 (fun o v => conv n o = Some v) os vs -> forall k,
  exists k', extract conv d (mkps f [] l c k) os = Some (mkps f [] (l ++ vs) c k').
Proof.
  intros d n tg os vs f l c G A L C P V. revert l P. induction V as [|o v os vs H V IH]; intros l P k.
  - rewrite app_nil_r. exists k. reflexivity.
  - inversion P; subst. cbn [extract]. rewrite step_list with (n := n) (tg := tg) (v := v); auto; [|now apply find_plain|now rewrite plausible_plain].
    destruct (IH (l ++ [v]) H3 false) as (k' & E). exists k'. rewrite E, <- app_assoc. reflexivity.
Qed.
Lemma flat_expand : forall d os, Forall plain_obj os -> flat_map (expand_arg d) os = os.
Proof. intros d os F. induction F; auto. cbn. now rewrite IHF, expand_plain. Qed.
Lemma parse_red : forall inc fl os vs, 
  (if inc : bool then fl = [OStr (txt "-i")] \/ fl = [OStr (txt "--incremental")] else fl = []) -> Forall plain_obj os ->
  Forall2 (fun o v => conv (txt "functions") o = Some v) os vs ->
  Args.parse conv op_red (fl ++ os) = Some ((if inc then [(txt "incremental", OTrue)] else []) ++ [(txt "functions", OList vs)]).
Proof.
  intros inc fl os vs H P V. unfold Args.parse. rewrite flat_map_app, (flat_expand op_red os) by auto.
  change (negb (length (d_flags op_red) =? 0)%nat) with true.
  set (g := mkflag (txt "incremental") (Some (txt "-i")) (Some (txt "--incremental")) VNone OTrue (txt "incremental")).
  assert (E : exists k', extract conv op_red (mkps [] [] [] None true) (flat_map (expand_arg op_red) fl ++ os) = 
            Some (mkps (if inc then [(txt "incremental", OTrue)] else []) [] vs (if inc then Some g else None) k')).
  { destruct inc.
    - assert (S : forall w, w = txt "-i" \/ w = txt "--incremental" -> exists k', extract conv op_red (mkps [] [] [] None true) (OStr w :: os) =
            Some (mkps [(txt "incremental", OTrue)] [] vs (Some g) k')).
      { intros w W. cbn [extract]. rewrite step_flag with (g := g); [|now destruct W as [-> | ->]|reflexivity].
        exact (extract_list op_red (txt "functions") (txt "functions") os vs [(txt "incremental", OTrue)] [] (Some g) eq_refl eq_refl eq_refl eq_refl P V true). }
      destruct H as [-> | ->]; apply S; auto.
    - subst fl. exact (extract_list op_red (txt "functions") (txt "functions") os vs [] [] None eq_refl eq_refl eq_refl I P V true). }
  destruct E as (k' & ->). destruct inc; reflexivity.
Qed.
(** union, intersect *)
Lemma parse_pipes : forall d os vs, d = op_union \/ d = op_intersect -> Forall plain_obj os ->
  Forall2 (fun o v => conv (txt "pipelines") o = Some v) os vs -> Args.parse conv d os = Some [(txt "pipelines", OList vs)].
Proof.
  intros d os vs D P V. unfold Args.parse. rewrite flat_expand by auto.
  destruct (extract_list d (txt "pipelines") (txt "pipelines") os vs [] [] None) with (k := negb (length (d_flags d) =? 0)%nat) as (k' & ->); auto;
    destruct D as [-> | ->]; reflexivity.
Qed.
End Parsed.
