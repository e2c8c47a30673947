(** C72 *)
From Verif.Sys Require Import PromptSpec FileLineSpec FileLineProps.
From Coq Require Import DecimalString DecimalN.
Local Open Scope list_scope.

Lemma terminal_plain st t r : plain t -> terminal Reading st (t ++ r) = map (fun a => (a, st)) t ++ terminal Reading st r.
Proof.
  induction t as [|c t IH]; intros P; [reflexivity|]. cbn [app terminal map].
  destruct (Ascii.eqb_spec c ESC) as [->|N]; [destruct P; left; reflexivity|]. rewrite IH; [reflexivity|]. intros H; apply P; right; exact H.
Qed.
Lemma terminal_parameters p q st r : ~ In "m"%char q ->
  terminal (Parameters p) st (q ++ "m"%char :: r) = terminal Reading (select_graphic (p ++ q) st) r.
Proof.
  revert p. induction q as [|c q IH]; intros p N.
  - cbn [app terminal]. rewrite Ascii.eqb_refl, app_nil_r. reflexivity.
  - cbn [app terminal]. destruct (Ascii.eqb_spec c "m"%char) as [->|M]; [destruct N; left; reflexivity|].
    rewrite IH by (intros H; apply N; right; exact H). now rewrite <- app_assoc.
Qed.
Lemma terminal_csi p st r : ~ In "m"%char p ->
  terminal Reading st (ESC :: "["%char :: p ++ "m"%char :: r) = terminal Reading (select_graphic p st) r.
Proof. intros N. exact (terminal_parameters [] p st r N). Qed.

Lemma decimal_digits n : ~ In "m"%char (decimal n).
Proof.
  assert (D : forall u, ~ In "m"%char (tx (NilEmpty.string_of_uint u))).
  { induction u; cbn; intros H; try (destruct H as [H|H]; [discriminate|exact (IHu H)]); exact H. }
  unfold decimal, NilZero.string_of_uint. destruct (N.to_uint n) as [|u|u|u|u|u|u|u|u|u|u]; [intros [H|[]]; discriminate H|..].
  - apply (D (Decimal.D0 u)). - apply (D (Decimal.D1 u)). - apply (D (Decimal.D2 u)). - apply (D (Decimal.D3 u)). - apply (D (Decimal.D4 u)).
  - apply (D (Decimal.D5 u)). - apply (D (Decimal.D6 u)). - apply (D (Decimal.D7 u)). - apply (D (Decimal.D8 u)). - apply (D (Decimal.D9 u)).
Qed.
Lemma number_decimal n : number (decimal n) = Some n.
Proof. exact (decimal_number n). Qed.

Lemma select_color n st : select_graphic (tx "38;5;" ++ decimal n) st = mkstyle (Some n) (s_bold st) (s_italic st).
Proof.
  unfold select_graphic.
  destruct (list_eq_dec ascii_dec (tx "38;5;" ++ decimal n) (tx "0")) as [H|_]; [discriminate H|].
  destruct (list_eq_dec ascii_dec (tx "38;5;" ++ decimal n) (tx "1")) as [H|_]; [discriminate H|].
  destruct (list_eq_dec ascii_dec (tx "38;5;" ++ decimal n) (tx "3")) as [H|_].
  { exfalso. injection H as H. destruct (decimal n); discriminate H. }
  replace (firstn 5 (tx "38;5;" ++ decimal n)) with (tx "38;5;") by reflexivity.
  destruct (list_eq_dec ascii_dec (tx "38;5;") (tx "38;5;")) as [_|H]; [|contradiction].
  change (skipn 5 (tx "38;5;" ++ decimal n)) with (decimal n). now rewrite number_decimal.
Qed.

Lemma terminal_colorize t c r : plain t -> terminal Reading normal (colorize t c ++ r) = in_style c t ++ terminal Reading normal r.
Proof.
  intros P. destruct c as [c|]; [|apply terminal_plain, P].
  assert (G : forall st, s_color st = None -> s_bold st = bold c -> s_italic st = italic c ->
    terminal Reading st ((ESC :: tx "[38;5;" ++ decimal (code c) ++ tx "m" ++ t ++ ESC :: tx "[0m") ++ r) = in_style (Some c) t ++ terminal Reading normal r).
  { intros st _ B I.
    replace ((ESC :: tx "[38;5;" ++ decimal (code c) ++ tx "m" ++ t ++ ESC :: tx "[0m") ++ r)
      with (ESC :: "["%char :: (tx "38;5;" ++ decimal (code c)) ++ "m"%char :: (t ++ (ESC :: tx "[0m") ++ r))
      by (cbn; rewrite <- !app_assoc; cbn; rewrite <- !app_assoc; reflexivity).
    rewrite terminal_csi.
    - rewrite select_color, B, I. rewrite terminal_plain by exact P. unfold in_style, style_of. apply f_equal.
      change ((ESC :: tx "[0m") ++ r) with (ESC :: "["%char :: tx "0" ++ "m"%char :: r).
      rewrite terminal_csi by (intros [H|[]]; discriminate H). reflexivity.
    - intros H. apply in_app_or in H as [H|H]; [|exact (decimal_digits _ H)].
      cbn in H. intuition discriminate. }
  unfold colorize. destruct (bold c) eqn:B, (italic c) eqn:I; rewrite <- ?app_assoc.
  - change (terminal Reading normal (ESC :: "["%char :: tx "1" ++ "m"%char :: ESC :: "["%char :: tx "3" ++ "m"%char ::
       ((ESC :: tx "[38;5;" ++ decimal (code c) ++ tx "m" ++ t ++ ESC :: tx "[0m") ++ r)) = in_style (Some c) t ++ terminal Reading normal r).
    rewrite !terminal_csi by (intros [H|[]]; discriminate H). apply G; reflexivity.
  - change (terminal Reading normal (ESC :: "["%char :: tx "1" ++ "m"%char ::
       ((ESC :: tx "[38;5;" ++ decimal (code c) ++ tx "m" ++ t ++ ESC :: tx "[0m") ++ r)) = in_style (Some c) t ++ terminal Reading normal r).
    rewrite !terminal_csi by (intros [H|[]]; discriminate H). apply G; reflexivity.
  - change (terminal Reading normal (ESC :: "["%char :: tx "3" ++ "m"%char ::
       ((ESC :: tx "[38;5;" ++ decimal (code c) ++ tx "m" ++ t ++ ESC :: tx "[0m") ++ r)) = in_style (Some c) t ++ terminal Reading normal r).
    rewrite !terminal_csi by (intros [H|[]]; discriminate H). apply G; reflexivity.
  - change (terminal Reading normal (ESC :: "["%char :: tx "0" ++ "m"%char ::
       ((ESC :: tx "[38;5;" ++ decimal (code c) ++ tx "m" ++ t ++ ESC :: tx "[0m") ++ r)) = in_style (Some c) t ++ terminal Reading normal r).
    rewrite !terminal_csi by (intros [H|[]]; discriminate H). apply G; reflexivity.
Qed.

(** The texts of a prompt *)
Definition piece_text (x : piece) : text :=
  match x with Words t | Calls (Returns_text t) => t | _ => [] end.
Definition returns_color (x : piece) : bool := match x with Calls (Returns_color _ _) => true | _ => false end.

Lemma pieces_ok l c b d r : displays c l r -> (forall x, In x l -> plain (piece_text x) /\ returns_color x = false) ->
  (forall q, terminal Reading normal (b ++ q) = d ++ terminal Reading normal q) ->
  exists t, pieces c l b = Prompt t /\ terminal Reading normal t = d ++ r.
Proof.
  intros D. revert b d. induction D as [c|c c' l r D IH|c t l r D IH|c t l r D IH|c c' repr l r D IH]; intros b d P B.
  - exists b. split; [reflexivity|]. specialize (B []). rewrite app_nil_r in B. exact B.
  - cbn [pieces shown]. apply IH; [|exact B]. intros x H; apply P; right; exact H.
  - assert (PT : plain t) by (apply (P (Words t)); left; reflexivity).
    assert (Q : forall x, In x l -> plain (piece_text x) /\ returns_color x = false) by (intros x H; apply P; right; exact H).
    cbn [pieces shown]. destruct t as [|a t].
    + apply IH; [exact Q|exact B].
    + destruct (IH (b ++ colorize (a :: t) c) (d ++ in_style c (a :: t)) Q) as [t' [E F]].
      * intros q. rewrite <- app_assoc, B, terminal_colorize by exact PT. now rewrite app_assoc.
      * exists t'. split; [exact E|]. rewrite F, app_assoc. reflexivity.
  - assert (PT : plain t) by (apply (P (Calls (Returns_text t))); left; reflexivity).
    assert (Q : forall x, In x l -> plain (piece_text x) /\ returns_color x = false) by (intros x H; apply P; right; exact H).
    cbn [pieces shown]. destruct t as [|a t].
    + apply IH; [exact Q|exact B].
    + destruct (IH (b ++ colorize (a :: t) c) (d ++ in_style c (a :: t)) Q) as [t' [E F]].
      * intros q. rewrite <- app_assoc, B, terminal_colorize by exact PT. now rewrite app_assoc.
      * exists t'. split; [exact E|]. rewrite F, app_assoc. reflexivity.
  - destruct (P _ (or_introl eq_refl)) as [_ H]. discriminate H.
Qed.

(** C72: the terminal shows the texts in order, each in the last color before it *)
Theorem c72_display_partial : forall l r, displays None l r ->
  (forall x, In x l -> plain (piece_text x) /\ returns_color x = false) ->
  exists t, prompt_string (Pieces l) = Prompt t /\ terminal Reading normal t = r.
Proof. intros l r D P. exact (pieces_ok l None [] [] r D P (fun q => eq_refl)). Qed.

(** A function that evaluates to a color: its description is shown *)
Theorem c72_function_color_refuted : exists l r, displays None l r /\ (forall x, In x l -> plain (piece_text x)) /\
  prompt_string (Pieces l) = Prompt (tx "Color(5, 0, 0)$ ") /\ terminal Reading normal (tx "Color(5, 0, 0)$ ") <> r.
Proof.
  exists [Calls (Returns_color (mkcolor 196 false false) (tx "Color(5, 0, 0)")); Words (tx "$ ")]. eexists. split; [|split; [|split]].
  - apply D_function_color, D_text, D_end.
  - intros x [<-|[<-|[]]]; cbn; [intros []|]. intros [H|[H|[]]]; discriminate H.
  - reflexivity.
  - discriminate.
Qed.
(** Any Exception in a function, or a PROMPT that is not a list: the default prompt. Anything else in PROMPT ends marcel *)
Theorem c72_survives_partial : forall p, 
  (forall l, p = Pieces l -> ~ In Other l /\ ~ In (Calls Kills) l) -> prompt_string p <> Dies.
Proof.
  intros [l|] H; [|discriminate]. specialize (H l eq_refl). cbn [prompt_string]. generalize (@None color) (@nil ascii).
  induction l as [|x l IH]; intros c b; [discriminate|]. cbn [pieces].
  assert (H' : ~ In Other l /\ ~ In (Calls Kills) l) by (destruct H; split; intros I; [apply H|apply H0]; right; exact I).
  destruct (shown x) as [[t|]|o] eqn:E; [apply IH, H'|apply IH, H'|]. intros ->.
  destruct H as [H1 H2]. destruct x as [|[|]|[[|]| |[|]| |]|]; try discriminate E; [apply H2|apply H1]; left; reflexivity.
Qed.
Theorem c72_other_refuted : forall l, prompt_string (Pieces (Other :: l)) = Dies.
Proof. reflexivity. Qed.
(** The first piece that is not shown decides: an exception gives the default prompt, whatever came before it *)
Definition tame (x : piece) : Prop := match x with Other | Calls Raises | Calls Kills => False | _ => True end.
Theorem c72_first_failure : forall l x l', (forall y, In y l -> tame y) -> ~ tame x ->
  prompt_string (Pieces (l ++ x :: l')) = match x with Calls Raises => Default | _ => Dies end.
Proof.
  intros l x l' H N. cbn [prompt_string]. generalize (@None color) (@nil ascii). induction l as [|y l IH]; intros c b.
  - cbn [app pieces]. destruct x as [|[|]|[[|]| |[|]| |]|]; try (destruct N; exact I); reflexivity.
  - cbn [app pieces]. assert (T := H y (or_introl eq_refl)). specialize (IH (fun z Hz => H z (or_intror Hz))).
    destruct y as [|[|]|[[|]| |[|]| |]|]; try contradiction; apply IH.
Qed.
Theorem c72_not_a_list : prompt_string Not_iterable = Default.
Proof. reflexivity. Qed.
(** A function that returns some other object: as if it had returned the object's string; nothing, if the object is falsy *)
Theorem c72_objects : forall l l' str,
  (str <> [] -> prompt_string (Pieces (l ++ Calls (Returns_object true str) :: l')) = prompt_string (Pieces (l ++ Calls (Returns_text str) :: l'))) /\
  prompt_string (Pieces (l ++ Calls (Returns_object false str) :: l')) = prompt_string (Pieces (l ++ l')).
Proof.
  intros l l' str. cbn [prompt_string].
  assert (K : forall c b, (str <> [] -> pieces c (l ++ Calls (Returns_object true str) :: l') b = pieces c (l ++ Calls (Returns_text str) :: l') b) /\
    pieces c (l ++ Calls (Returns_object false str) :: l') b = pieces c (l ++ l') b); [|apply K].
  induction l as [|y l IH]; intros c b.
  - destruct str; split; try reflexivity; intros H; destruct H; reflexivity.
  - cbn [app pieces]. destruct (shown y) as [[t|]|o]; [apply IH|apply IH|]. split; reflexivity.
Qed.
(** If the startup script defines PROMPT_DIR, marcel ends at the first prompt *)
Theorem c72_prompt_dir_fixed_refuted : forall home ws pwd P, prompt home ws pwd true P = Dies.
Proof. reflexivity. Qed.

(** ** The directory *)
Lemma starts_with_spec p s : starts_with p s = true <-> exists r, s = p ++ r.
Proof.
  revert s. induction p as [|a p IH]; intros s; [split; [intros _; exists s; reflexivity|reflexivity]|].
  destruct s as [|b s]; [split; [discriminate|intros [r H]; discriminate]|]. cbn [starts_with]. rewrite andb_true_iff, IH. split.
  - intros [E [r ->]]. apply Ascii.eqb_eq in E as ->. exists r; reflexivity.
  - intros [r H]. injection H as -> ->. split; [apply Ascii.eqb_refl|exists r; reflexivity].
Qed.
Lemma join_app a b : a <> [] -> b <> [] -> join slash (a ++ b) = join slash a ++ slash ++ join slash b.
Proof.
  intros A B. induction a as [|x a IH]; [contradiction|]. destruct a as [|y a].
  - cbn [app]. destruct b; [contradiction|]. reflexivity.
  - change (join slash ((x :: y :: a) ++ b)) with (x ++ slash ++ join slash ((y :: a) ++ b)).
    rewrite IH by discriminate. change (join slash (x :: y :: a)) with (x ++ slash ++ join slash (y :: a)).
    now rewrite <- !app_assoc.
Qed.
Lemma relative_path_Some d b r : relative_path d b = Some r -> d = b ++ r.
Proof.
  revert d. induction b as [|x b IH]; intros d H; [injection H as H; exact H|]. destruct d as [|y d]; [discriminate|]. cbn in H.
  unfold text_eqb in H. destruct (list_eq_dec ascii_dec x y) as [->|]; [|discriminate]. rewrite (IH d H). reflexivity.
Qed.
Lemma relative_path_app b r : relative_path (b ++ r) b = Some r.
Proof.
  induction b as [|x b IH]; [reflexivity|]. cbn. unfold text_eqb. destruct (list_eq_dec ascii_dec x x); [exact IH|contradiction].
Qed.

(** In the default workspace the prompt designates the current directory, if this is the home directory, or below it, or if its name does not
    begin with that of the home directory *)
Theorem c72_directory_partial : forall home pwd, home <> [] ->
  (forall r, posix pwd = posix home ++ r -> exists d, pwd = home ++ d) ->
  designates home (prompt_dir home None pwd) pwd /\ (forall d, pwd = home ++ d -> exists t, prompt_dir home None pwd = tx "~" ++ t).
Proof.
  intros home pwd H S. unfold prompt_dir. destruct (starts_with (posix home) (posix pwd)) eqn:E.
  - apply starts_with_spec in E as [r E]. destruct (S r E) as [d ->]. split; [|intros _ _; eexists; reflexivity].
    destruct d as [|x d].
    + rewrite app_nil_r. rewrite skipn_all2 by lia. rewrite app_nil_r. apply At_home.
    + unfold posix. rewrite join_app by (assumption || discriminate). rewrite app_assoc, skipn_app.
      rewrite skipn_all2 by lia. rewrite Nat.sub_diag. apply Below_home. discriminate.
  - split; [apply In_full|]. intros d ->. assert (C : starts_with (posix home) (posix (home ++ d)) = true); [|congruence].
    apply starts_with_spec. unfold posix. destruct d as [|x d]; [exists []; now rewrite !app_nil_r|].
    exists (slash ++ join slash (x :: d)). rewrite join_app by (assumption || discriminate). now rewrite <- !app_assoc.
Qed.
(** In a named workspace it always does *)
Theorem c72_workspace_directory : forall home h pwd, designates_ws h (prompt_dir home (Some (Some h)) pwd) pwd.
Proof.
  intros home h pwd. cbn [prompt_dir]. destruct (relative_path pwd h) as [r|] eqn:E; [|apply Ws_full].
  apply relative_path_Some in E as ->. destruct r as [|x r]; [rewrite app_nil_r; apply Ws_home|]. apply Ws_below. discriminate.
Qed.

(** In a workspace without a home: the directory in full *)
Theorem c72_homeless_workspace : forall home pwd, prompt_dir home (Some None) pwd = posix pwd.
Proof. reflexivity. Qed.

(** The texts are unambiguous *)
Lemma join_inj a b : Forall part a -> Forall part b -> join slash a = join slash b -> a = b.
Proof.
  assert (K : forall s t u v, ~ In "/"%char s -> ~ In "/"%char u -> s ++ "/"%char :: t = u ++ "/"%char :: v -> s = u /\ t = v).
  { induction s as [|c s IH]; intros t u v S U E; destruct u as [|d u]; cbn in E.
    - injection E as ->. split; reflexivity.
    - injection E as <- _. destruct U; left; reflexivity.
    - injection E as -> _. destruct S; left; reflexivity.
    - injection E as -> E. destruct (IH t u v) as [-> ->]; [intros I; apply S; right; exact I|intros I; apply U; right; exact I|exact E|].
      split; reflexivity. }
  assert (NS : forall x y b, ~ In "/"%char x -> x = join slash (y :: b) -> b = []).
  { intros x y k N E. destruct k as [|z k]; [reflexivity|]. exfalso. apply N. rewrite E. cbn [join]. apply in_or_app. right; left; reflexivity. }
  revert b. induction a as [|x a IH]; intros b A B E.
  - destruct b as [|y b]; [reflexivity|]. inversion B as [|? ? [Y _]]; subst. destruct b; cbn in E; [congruence|].
    destruct y; [contradiction|discriminate].
  - inversion A as [|? ? [X NX] A']; subst. destruct b as [|y b].
    { destruct a; cbn in E; [congruence|]. destruct x; [contradiction|discriminate]. }
    inversion B as [|? ? [Y NY] B']; subst.
    destruct a as [|x' a].
    + pose proof (NS x y b NX E) as ->. cbn in E. congruence.
    + destruct b as [|y' b]; [pose proof (NS y x (x' :: a) NY (eq_sym E)); discriminate|].
      change (x ++ "/"%char :: join slash (x' :: a) = y ++ "/"%char :: join slash (y' :: b)) in E.
      apply K in E as [-> E]; [|assumption..]. rewrite (IH (y' :: b) A' B' E). reflexivity.
Qed.
Lemma join_tilde r : Forall part r -> forall s, join slash r = s -> match s with "/"%char :: _ => False | _ => True end.
Proof.
  intros F s <-. destruct r as [|x r]; [exact I|]. inversion F as [|? ? [N S]]; subst. destruct x as [|c x]; [contradiction|].
  destruct r; cbn; destruct (Ascii.eqb_spec c "/"%char) as [->|Ne]; try (destruct S; left; reflexivity).
  all: destruct c as [[] [] [] [] [] [] [] []]; try exact I; congruence.
Qed.
Theorem c72_unambiguous : forall home t d e, Forall part home -> Forall part d -> Forall part e ->
  designates home t d -> designates home t e -> d = e.
Proof.
  intros home t d e H D E A B.
  assert (F : forall r, Forall part (home ++ r) -> Forall part r) by (intros r K; apply Forall_app in K; tauto).
  destruct A as [d| |r R]; inversion B as [d' X|X|r' R' X]; subst; try reflexivity; try discriminate.
  - symmetry. apply join_inj; assumption.
  - f_equal. apply join_inj; [apply F, D|apply F, E|congruence].
Qed.
Theorem c72_unambiguous_workspace : forall h t d e, Forall part h -> Forall part d -> Forall part e ->
  designates_ws h t d -> designates_ws h t e -> d = e.
Proof.
  intros h t d e H D E A B.
  assert (F : forall r, Forall part (h ++ r) -> Forall part r) by (intros r K; apply Forall_app in K; tauto).
  assert (NE : forall r, r <> [] -> Forall part r -> join slash r <> []).
  { intros [|x r] N P; [contradiction|]. inversion P as [|? ? [X _]]; subst. destruct r; cbn; destruct x; try contradiction; discriminate. }
  destruct A as [d| |r R]; inversion B as [d' X|X|r' R' X]; subst; try reflexivity.
  - symmetry. apply join_inj; assumption.
  - exfalso. exact (join_tilde r' (F _ E) _ X).
  - exfalso. exact (NE r' R' (F _ E) X).
  - exfalso. exact (join_tilde r (F _ D) _ (eq_sym X)).
  - exfalso. exact (NE r R (F _ D) (eq_sym X)).
  - f_equal. apply join_inj; [apply F, D|apply F, E|congruence].
Qed.

(** A directory beside the home directory, whose name begins with its name *)
Theorem c72_directory_refuted : exists home pwd, Forall part home /\ Forall part pwd /\
  prompt_dir home None pwd = tx "~ice" /\ forall d, Forall part d -> ~ designates home (tx "~ice") d.
Proof.
  exists [tx "home"; tx "al"], [tx "home"; tx "alice"].
  assert (P : forall s, s <> [] -> existsb (Ascii.eqb "/"%char) s = false -> part s).
  { intros s N E. split; [exact N|]. intros I. assert (existsb (Ascii.eqb "/"%char) s = true); [|congruence].
    apply existsb_exists. exists "/"%char. split; [exact I|reflexivity]. }
  split; [repeat constructor; apply P; (discriminate || reflexivity)|]. split; [repeat constructor; apply P; (discriminate || reflexivity)|].
  split; [reflexivity|]. intros d _ D. inversion D.
Qed.

(** The example of help prompt *)
Definition red : color := mkcolor 196 true false.
Definition teal : color := mkcolor 37 true false.
Theorem c72_example : 
  let l := fun d => [Colored red; Words (tx "M "); Colored teal; Calls (Returns_text d); Words (tx "$ ")] in
  let home := [tx "home"; tx "jao"] in
  exists t, prompt home None [tx "home"; tx "jao"; tx "git"] false (fun d => Pieces (l d)) = Prompt t /\
    terminal Reading normal t = in_style (Some red) (tx "M ") ++ in_style (Some teal) (tx "~/git$ ") /\
    displays None (l (tx "~/git")) (in_style (Some red) (tx "M ") ++ in_style (Some teal) (tx "~/git") ++ in_style (Some teal) (tx "$ ") ++ []).
Proof.
  cbv zeta. eexists. split; [reflexivity|]. split; [vm_compute; reflexivity|].
  apply D_color, D_text, D_color, D_function_text, D_text, D_end.
Qed.
