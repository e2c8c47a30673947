(** C45: parenthesised expressions become the right kind of function. *)
From Verif.Syntax Require Import FunArgsSpec.
Local Open Scope string_scope.
Local Open Scope list_scope.

Lemma name_sym : forall t, is_name t -> fsym_of t = SName.
Proof. intros t (s & -> & H). cbn. apply String.eqb_neq in H. now rewrite H. Qed.

Lemma sym_name : forall t, fsym_of t = SName -> is_name t.
Proof.
  intros [s|s| |s] H; cbn in H; try discriminate.
  - destruct (s =? "lambda") eqn:E; [discriminate|]. exists s. split; auto. now apply String.eqb_neq.
  - destruct (s =? ","), (s =? "*"), (s =? ":"); discriminate.
Qed.
Lemma sym_op : forall t,
  (fsym_of t = SComma -> t = POp ",") /\ (fsym_of t = SStar -> t = POp "*") /\
  (fsym_of t = SColon -> t = colon) /\ (fsym_of t = SLambda -> t = lam).
Proof.
  intros [s|s| |s]; cbn; try (repeat split; discriminate).
  - destruct (s =? "lambda") eqn:E; repeat split; try discriminate. intros _. apply String.eqb_eq in E. now subst.
  - destruct (s =? ",") eqn:E1; [apply String.eqb_eq in E1; subst; repeat split; try discriminate; auto|].
    destruct (s =? "*") eqn:E2; [apply String.eqb_eq in E2; subst; repeat split; try discriminate; auto|].
    destruct (s =? ":") eqn:E3; [apply String.eqb_eq in E3; subst; repeat split; try discriminate; auto|].
    repeat split; discriminate.
Qed.

(** Reading one parameter. *)
Definition before (q : fstate) : Prop := q = FStart \/ q = FArgList.
Definition with_args (f : flags) (b : bool) : flags := Flags (explicit_lambda f) (explicit_colon f) (has_args f || b).

Definition plainb (p : list ptok) : bool := match p with [_] => true | _ => false end.

Lemma loop_param : forall p q f r, simple_param p -> before q ->
  floop q f (p ++ r) = floop FArg (with_args f (plainb p)) r.
Proof.
  intros p q f r H Q. destruct H as [t H|t H]; pose proof (name_sym _ H) as E.
  - cbn -[fsym_of]. rewrite E. unfold with_args. destruct Q as [-> | ->]; cbn; now rewrite orb_true_r.
  - cbn -[fsym_of]. change (fsym_of (POp "*")) with SStar. unfold with_args.
    assert (F : Flags (explicit_lambda f) (explicit_colon f) (has_args f || false) = f) by (destruct f as [x y [|]]; reflexivity).
    destruct Q as [-> | ->]; cbn -[fsym_of]; rewrite E; cbn; now rewrite F.
Qed.

Lemma loop_params : forall ps, params simple_param ps -> forall q f body, before q ->
  exists b, floop q f (ps ++ colon :: body) = (FEnd, Flags (explicit_lambda f) true (has_args f || b)) /\
            (has_plain ps -> b = true).
Proof.
  induction 1 as [p H|p H|p ps H _ IH]; intros q f body Q.
  - exists (plainb p). rewrite loop_param by auto. split; [reflexivity|].
    intros (t & a & r & N & E & A). destruct H; auto. destruct A as [-> | (qq & ->)].
    + cbn in E. injection E as <- _. destruct N as (s & E & _). discriminate.
    + destruct qq as [|x [|y [|z qq]]]; cbn in E; try discriminate E.
  - exists (plainb p). rewrite <- app_assoc, loop_param by auto. split; [reflexivity|].
    intros (t & a & r & N & E & A). destruct H; auto. destruct A as [-> | (qq & ->)].
    + cbn in E. injection E as <- _. destruct N as (s & E & _). discriminate.
    + destruct qq as [|x [|y [|z [|w qq]]]]; cbn in E; try discriminate E.
      injection E as _ E _. destruct H as (s & -> & _). discriminate E.
  - rewrite <- app_assoc, loop_param by auto. cbn -[fsym_of]. change (fsym_of (POp ",")) with SComma. cbn -[fsym_of].
    destruct (IH FArgList (with_args f (plainb p)) body (or_intror eq_refl)) as (b & E & B).
    exists (plainb p || b). split.
    + rewrite E. cbn. now rewrite orb_assoc.
    + intros (t & a & r & N & X & A). destruct H as [u U|u U]; auto. cbn. apply B.
      destruct A as [-> | (qq & ->)].
      * cbn in X. injection X as <- _. destruct N as (s & X & _). discriminate.
      * destruct qq as [|x [|y qq]]; cbn in X.
        -- discriminate X.
        -- injection X as _ -> _. destruct U as (s & X & _). discriminate X.
        -- injection X as <- <- X. destruct qq as [|z qq]; cbn in X.
           ++ injection X as ->. exists t, [], r. split; [auto|]. split; [reflexivity|now left].
           ++ injection X as <- ->. exists t, (qq ++ [POp ","]), r. split; [auto|]. split; [reflexivity|].
              right. now exists qq.
Qed.

(** A function with parameters x, *x: the function is what the text says, with or without
    the word lambda. In an assignment at least one parameter has to be a plain name. *)
Theorem c45_functions_partial : forall l ps body assign,
  params simple_param ps -> (assign = true -> has_plain ps) ->
  compiled (Source false (opt_lambda l ++ ps ++ colon :: body)) assign = wanted assign ps body.
Proof.
  intros l ps body assign P A. unfold compiled, fparse, stream. cbn [indented ptoks].
  destruct l; cbn [opt_lambda app].
  - cbn [floop]. change (fsym_of lam) with SLambda. cbn [ftrans fterminal explicit_colon explicit_lambda has_args].
    destruct (loop_params ps P FArgList (Flags true false false) body (or_intror eq_refl)) as (b & -> & B).
    cbn. destruct assign; cbn; [rewrite B; auto|]. now rewrite andb_false_r.
  - destruct (loop_params ps P FStart (Flags false false false) body (or_introl eq_refl)) as (b & -> & B).
    cbn. destruct assign; [rewrite B; auto|]. destruct b; reflexivity.
Qed.

(** A function without parameters, written with a colon. *)
Theorem c45_no_parameters : forall l body assign,
  compiled (Source false (opt_lambda l ++ colon :: body)) assign = thunk body.
Proof. intros [|] body assign; reflexivity. Qed.

(** From the state after a parameter or before one, reaching the end means a header. *)
Lemma loop_end : forall ts q f f', floop q f ts = (FEnd, f') ->
  match q with
  | FStart => exists l ps body, ts = opt_lambda l ++ ps ++ colon :: body /\ (ps = [] \/ params simple_param ps)
  | FArgList => exists ps body, ts = ps ++ colon :: body /\ (ps = [] \/ params simple_param ps)
  | FStar => exists t r body, is_name t /\ ts = t :: r ++ colon :: body /\
                              (r = [] \/ r = [POp ","] \/ exists ps, r = POp "," :: ps /\ params simple_param ps)
  | FArg => exists r body, ts = r ++ colon :: body /\
                              (r = [] \/ r = [POp ","] \/ exists ps, r = POp "," :: ps /\ params simple_param ps)
  | _ => True
  end.
Proof.
  assert (M : forall p r, simple_param p -> (r = [] \/ r = [POp ","] \/ exists ps, r = POp "," :: ps /\ params simple_param ps) ->
              params simple_param (p ++ r)).
  { intros p r H [-> | [-> | (ps & -> & Q)]]; [rewrite app_nil_r; now apply ps_one|now apply ps_trailing|now apply ps_more]. }
  induction ts as [|t ts IH]; intros q f f' E.
  { cbn in E. injection E as -> _. exact I. }
  cbn [floop] in E. pose proof (sym_op t) as (Sc & Ss & So & Sl). pose proof (sym_name t) as Sn.
  destruct q, (fsym_of t) eqn:Y; cbn [ftrans fterminal] in E; try discriminate E; try exact I;
    try (specialize (Sc eq_refl)); try (specialize (Ss eq_refl)); try (specialize (So eq_refl)); try (specialize (Sl eq_refl));
    try (specialize (Sn eq_refl)); try (apply IH in E); cbn in E.
  - subst t. destruct E as (ps & body & -> & D). exists true, ps, body. auto.
  - destruct E as (r & body & -> & D). exists false, (t :: r), body. split; [reflexivity|]. right.
    change (t :: r) with ([t] ++ r). apply M; [now constructor|exact D].
  - subst t. destruct E as (t & r & body & N & -> & D). exists false, (POp "*" :: t :: r), body. split; [reflexivity|]. right.
    change (POp "*" :: t :: r) with ([POp "*"; t] ++ r). apply M; [now constructor|exact D].
  - subst t. exists false, [], ts. split; [reflexivity|now left].
  - destruct E as (r & body & -> & D). exists (t :: r), body. split; [reflexivity|]. right.
    change (t :: r) with ([t] ++ r). apply M; [now constructor|exact D].
  - subst t. destruct E as (t & r & body & N & -> & D). exists (POp "*" :: t :: r), body. split; [reflexivity|]. right.
    change (POp "*" :: t :: r) with ([POp "*"; t] ++ r). apply M; [now constructor|exact D].
  - subst t. exists [], ts. split; [reflexivity|now left].
  - destruct E as (r & body & -> & D). exists t, r, body. auto.
  - subst t. destruct E as (ps & body & -> & D). exists (POp "," :: ps), body. split; [reflexivity|].
    right. destruct D as [-> | D]; [now left|right; now exists ps].
  - subst t. exists [], ts. split; [reflexivity|now left].
Qed.

(** Anything else is evaluated as it stands. *)
Theorem c45_expression : forall ts assign, ~ has_header simple_param ts -> compiled (Source false ts) assign = thunk ts.
Proof.
  intros ts assign H. unfold compiled, fparse, stream. cbn [indented ptoks].
  destruct (floop FStart (Flags false false false) ts) as [q f] eqn:E.
  destruct q; try reflexivity. apply loop_end in E. now elim H.
Qed.

(** The meaning is decided by the tokens up to the colon: strings, brackets, lambdas and colons in the
    body change nothing. *)
Theorem c45_body_irrelevant : forall l ps body body' assign,
  ps = [] \/ params simple_param ps ->
  exists pre, compiled (Source false (opt_lambda l ++ ps ++ colon :: body)) assign = pre ++ ps ++ colon :: body /\
              compiled (Source false (opt_lambda l ++ ps ++ colon :: body')) assign = pre ++ ps ++ colon :: body'.
Proof.
  intros l ps body body' assign P.
  assert (E : fparse (opt_lambda l ++ ps ++ colon :: body) = fparse (opt_lambda l ++ ps ++ colon :: body')).
  { unfold fparse. destruct P as [-> | P].
    - destruct l; reflexivity.
    - assert (R : forall q f, before q -> floop q f (ps ++ colon :: body) = floop q f (ps ++ colon :: body')).
      { clear l assign. induction P as [p H|p H|p ps H _ IH]; intros q f Q.
        - rewrite (loop_param p q f (colon :: body) H Q), (loop_param p q f (colon :: body') H Q). reflexivity.
        - rewrite <- !app_assoc, (loop_param p q f _ H Q), (loop_param p q f _ H Q). reflexivity.
        - rewrite <- !app_assoc, (loop_param p q f _ H Q), (loop_param p q f _ H Q). cbn -[fsym_of]. change (fsym_of (POp ",")) with SComma. cbn -[fsym_of].
          apply IH. now right. }
      destruct l; cbn [opt_lambda app].
      + cbn [floop]. change (fsym_of lam) with SLambda. cbn [ftrans fterminal explicit_colon explicit_lambda has_args]. rewrite R; [reflexivity|now right].
      + rewrite R; [reflexivity|now left]. }
  unfold compiled, stream. cbn [indented ptoks]. rewrite <- E.
  exists (fprefix (fparse (opt_lambda l ++ ps ++ colon :: body)) assign ++ opt_lambda l). now rewrite <- !app_assoc.
Qed.

(** ** What does not hold *)
(** A space after the parenthesis: the tokenizer reports an indentation, the parameters are not recognised. *)
Theorem c45_space_refuted : exists ps body,
  params simple_param ps /\ compiled (Source true (ps ++ colon :: body)) false <> wanted false ps body /\
  compiled (Source true (lam :: ps ++ colon :: body)) false = thunk (function ps body).
Proof.
  exists [PName "x"], [PName "x"]. split; [|split].
  - constructor. constructor. exists "x". split; [reflexivity|discriminate].
  - discriminate.
  - reflexivity.
Qed.
(** Indeed never: with a leading space every text is taken to have no parameters. *)
Theorem c45_space_always : forall ts assign, compiled (Source true ts) assign = thunk ts.
Proof. reflexivity. Qed.

(** f = ( *a: a): the assigned value is not the function but the result of calling it. *)
Theorem c45_star_refuted : exists ps body,
  params simple_param ps /\ compiled (Source false (ps ++ colon :: body)) true = function ps body /\
  compiled (Source false (ps ++ colon :: body)) true <> wanted true ps body.
Proof.
  exists [POp "*"; PName "a"], [PName "a"]. split; [|split; [reflexivity|discriminate]].
  constructor. constructor. exists "a". split; [reflexivity|discriminate].
Qed.

(** Default values and keyword parameters are not recognised. *)
Theorem c45_default_refuted : exists ps body, params param ps /\ forall assign,
  compiled (Source false (ps ++ colon :: body)) assign <> wanted assign ps body.
Proof.
  exists [PName "a"; POp "="; POther "1"], [PName "a"]. split; [|intros [|]; discriminate].
  constructor. constructor; [exists "a"; split; [reflexivity|discriminate]|].
  split; [discriminate|]. intros t [<-|[]]. repeat split; discriminate.
Qed.
Theorem c45_keywords_refuted : exists ps body, params param ps /\ forall assign,
  compiled (Source false (ps ++ colon :: body)) assign <> wanted assign ps body.
Proof.
  exists [POp "**"; PName "a"], [PName "a"]. split; [|intros [|]; discriminate].
  constructor. constructor. exists "a"; split; [reflexivity|discriminate].
Qed.

(** ** Cases *)
(** (x, *y: x + y) *)
Example c45_ex1 : params simple_param [PName "x"; POp ","; POp "*"; PName "y"] /\ has_plain [PName "x"; POp ","; POp "*"; PName "y"] /\
  compiled (Source false [PName "x"; POp ","; POp "*"; PName "y"; colon; PName "x"; POp "+"; PName "y"]) true =
  [lam; colon; lam; PName "x"; POp ","; POp "*"; PName "y"; colon; PName "x"; POp "+"; PName "y"].
Proof.
  split; [|split; [|reflexivity]].
  - apply (ps_more simple_param [PName "x"] [POp "*"; PName "y"]); repeat constructor; eexists; split; try reflexivity; discriminate.
  - exists (PName "x"), [], [POp ","; POp "*"; PName "y"]. repeat split; auto. eexists; split; [reflexivity|discriminate].
Qed.
(** (x, lambda: y) is an expression. *)
Example c45_ex2 : ~ has_header simple_param [PName "x"; POp ","; lam; colon; PName "y"].
Proof.
  intros H. destruct H as (l & ps & body & X & P).
  assert (Q : fparse (opt_lambda l ++ ps ++ colon :: body) = Flags false false false) by now rewrite <- X.
  destruct P as [-> | P].
  - destruct l; cbn in X; discriminate X.
  - unfold fparse in Q. destruct l; cbn [opt_lambda app] in Q.
    + discriminate X.
    + destruct (loop_params ps P FStart (Flags false false false) body (or_introl eq_refl)) as (b & E' & _).
      rewrite E' in Q. discriminate.
Qed.

Print Assumptions c45_functions_partial.
Print Assumptions c45_no_parameters.
Print Assumptions c45_expression.
Print Assumptions c45_body_irrelevant.
Print Assumptions c45_space_refuted.
Print Assumptions c45_space_always.
Print Assumptions c45_star_refuted.
Print Assumptions c45_default_refuted.
Print Assumptions c45_keywords_refuted.
