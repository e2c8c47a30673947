(** C85 *)
From Verif.Sys Require Import ShownSpec FileLineSpec PromptProps.
From Verif.Sys Require Import Shown ShownSpec.
From Coq Require Import ZArith Lia.
Local Open Scope list_scope.

(** ** The codes *)
Lemma code_range c : valid c -> (16 <= color_code c <= 231)%Z.
Proof. unfold valid, color_code. lia. Qed.
Lemma code_cube c : valid c -> cube (Z.to_N (color_code c)) = Some (red c, green c, blue c).
Proof.
  intros V. pose proof (code_range c V) as R. unfold cube.
  destruct (N.leb_spec 16 (Z.to_N (color_code c))); [|lia]. destruct (N.leb_spec (Z.to_N (color_code c)) 231); [|lia]. cbn [andb].
  rewrite Z2N.id by lia. unfold color_code, valid in *. f_equal.
  assert (E1 : ((16 + red c * 36 + green c * 6 + blue c - 16) / 36 = red c)%Z)
    by (symmetry; apply (Z.div_unique _ _ _ (green c * 6 + blue c)); lia).
  assert (E2 : ((16 + red c * 36 + green c * 6 + blue c - 16) / 6 = red c * 6 + green c)%Z)
    by (symmetry; apply (Z.div_unique _ _ _ (blue c)); lia).
  assert (E3 : ((16 + red c * 36 + green c * 6 + blue c - 16) mod 6 = blue c)%Z)
    by (symmetry; apply (Z.mod_unique _ _ (red c * 6 + green c)); lia).
  assert (E4 : ((red c * 6 + green c) mod 6 = green c)%Z) by (symmetry; apply (Z.mod_unique _ _ (red c)); lia).
  now rewrite E1, E2, E3, E4.
Qed.
Lemma bits c : valid c -> is_bold c = (Z.eqb (style_bits c) 1 || Z.eqb (style_bits c) 3)%bool /\ is_italic c = (Z.eqb (style_bits c) 2 || Z.eqb (style_bits c) 3)%bool.
Proof.
  intros (_ & _ & _ & V). unfold is_bold, is_italic.
  assert (D : style_bits c = 0%Z \/ style_bits c = 1%Z \/ style_bits c = 2%Z \/ style_bits c = 3%Z) by lia.
  destruct D as [-> | [-> | [-> | ->]]]; split; reflexivity.
Qed.

(** A color that is made without complaint is a place of the cube, with its style, and different colors have different codes or styles. *)
Theorem c85_color r g b s : snd (new_color r g b s) = false <-> valid (fst (new_color r g b s)).
Proof.
  unfold new_color, valid, BOLD, ITALIC. cbn [fst snd red green blue style_bits]. change (Z.lor 1 2) with 3%Z. rewrite !Bool.orb_false_iff.
  destruct (Z.ltb_spec (Z.min r (Z.min g b)) 0), (Z.ltb_spec s 0), (Z.gtb_spec (Z.max r (Z.max g b)) 5), (Z.gtb_spec s 3);
    (split; [intros H'; destruct H' as [[[? ?] ?] ?]; try discriminate|intros H'; repeat split; try reflexivity]); lia.
Qed.
Theorem c85_cube c : valid c -> (16 <= color_code c <= 231)%Z /\ cube (Z.to_N (color_code c)) = Some (red c, green c, blue c).
Proof. intros V. split; [apply code_range|apply code_cube]; exact V. Qed.
Theorem c85_cube_refuted : exists c c', c = fst (new_color 0 0 6 0) /\ c' = fst (new_color 0 1 0 0) /\ c <> c' /\ color_code c = color_code c'.
Proof. do 2 eexists. split; [reflexivity|]. split; [reflexivity|]. split; [discriminate|reflexivity]. Qed.

(** ** A colored text on the screen *)
Definition old_color (c : rgb) : FileLine.color := mkcolor (Z.to_N (color_code c)) (is_bold c) (is_italic c).
Lemma paint_old t c : valid c -> paint t c = FileLine.colorize t (Some (old_color c)).
Proof.
  intros V. pose proof (code_range c V). unfold paint, FileLine.colorize, old_color. cbn [code bold italic].
  replace (int_text (color_code c)) with (decimal (Z.to_N (color_code c))); [reflexivity|].
  destruct (color_code c) eqn:E; [reflexivity|reflexivity|lia].
Qed.
Lemma screen_app_plain t r : ~ In ESC t -> on_screen (t ++ r) = map (fun a => (a, ordinary)) t ++ on_screen r.
Proof. intros P. unfold on_screen. rewrite terminal_plain by exact P. rewrite map_app, map_map. reflexivity. Qed.
Lemma screen_paint t c r : valid c -> ~ In ESC t -> on_screen (paint t c ++ r) = map (fun a => (a, look_of (AColor c))) t ++ on_screen r.
Proof.
  intros V P. unfold on_screen. rewrite (paint_old t c V), terminal_colorize by exact P. rewrite map_app. f_equal.
  unfold in_style. rewrite map_map. apply map_ext. intros a. cbn [fst snd]. f_equal. unfold seen, style_of, old_color, look_of. cbn [s_color s_bold s_italic code bold italic].
  destruct (bits c V) as [-> ->]. now rewrite (code_cube c V).
Qed.
Definition fine_value (v : value) : Prop := match v with Nothing => True | AColor c => valid c | _ => False end.
(** What [colorize] gives shows as a span *)
Definition good (cs : scheme) (t : text) (l : list span) : Prop :=
  Forall (fun s => ~ In ESC (fst s)) l -> forall r, on_screen (t ++ r) = in_colors cs l ++ on_screen r.
Lemma good_nil cs : good cs [] [].
Proof. intros _ r. reflexivity. Qed.
Lemma good_app cs t t' l l' : good cs t l -> good cs t' l' -> good cs (t ++ t') (l ++ l').
Proof.
  intros G G' F r. apply Forall_app in F as [F F']. rewrite <- app_assoc, (G F), (G' F'). unfold in_colors. now rewrite flat_map_app, app_assoc.
Qed.
Lemma good_plain cs t : good cs t [(t, None)].
Proof. intros F r. inversion F as [|? ? P _]; subst. rewrite (screen_app_plain t r P). cbn. now rewrite app_nil_r. Qed.
Lemma good_color cs t k : fine_value (cs (tx k)) -> exists t', colorize t (cs (tx k)) = Fine t' /\ good cs t' [(t, Some k)].
Proof.
  intros V. destruct (cs (tx k)) as [|c| |] eqn:E; try contradiction; cbn [colorize].
  - eexists. split; [reflexivity|]. intros F r. inversion F as [|? ? P _]; subst. rewrite (screen_app_plain t r P).
    cbn. unfold span_look. cbn [snd]. rewrite E, app_nil_r. reflexivity.
  - eexists. split; [reflexivity|]. intros F r. inversion F as [|? ? P _]; subst. rewrite (screen_paint t c r V P).
    cbn. unfold span_look. cbn [snd]. rewrite E, app_nil_r. reflexivity.
Qed.
Lemma good_cons cs t t' s l : good cs t [s] -> good cs t' l -> good cs (t ++ t') (s :: l).
Proof. exact (good_app cs t t' [s] l). Qed.

Section Scheme.
Variable cs : scheme.
Hypothesis C : colors_only cs.
Lemma fine k : tx k <> tx "file_extension" -> fine_value (cs (tx k)).
Proof. intros N. exact (C (tx k) N). Qed.

Lemma entries_good l : exists lines, entry_lines cs l = Fine lines /\ length lines = length l /\
  good cs (flat_map (fun t => t ++ [LF]) lines) (entry_spans l).
Proof.
  induction l as [|[k v] l (lines & E & N & G)]; [exists []; split; [reflexivity|split; [reflexivity|apply good_nil]]|].
  cbn [entry_lines].
  destruct (good_color cs k "color_scheme_key" (fine "color_scheme_key" ltac:(discriminate))) as (k' & -> & Gk).
  destruct (good_color cs (value_text v) "color_scheme_value" (fine "color_scheme_value" ltac:(discriminate))) as (v' & -> & Gv).
  cbn [bind]. rewrite E. cbn [bind]. eexists. split; [reflexivity|]. split; [cbn; now rewrite N|].
  cbn [flat_map entry_spans].
  replace (((tx "        " ++ k' ++ tx ": " ++ v' ++ match l with [] => [] | _ => tx "," end) ++ [LF]) ++ flat_map (fun t => t ++ [LF]) lines)
    with (tx "        " ++ k' ++ tx ": " ++ v' ++ (match l with [] => [] | _ => tx "," end) ++ [LF] ++ flat_map (fun t => t ++ [LF]) lines)
    by (rewrite <- !app_assoc; reflexivity).
  apply good_cons; [apply good_plain|]. apply good_cons; [exact Gk|]. apply good_cons; [apply good_plain|]. apply good_cons; [exact Gv|].
  apply good_cons; [destruct l; apply good_plain|]. apply good_cons; [apply good_plain|exact G].
Qed.
Lemma attributes_good sc keys : exists lines, attribute_lines cs sc keys = Fine lines /\
  good cs (flat_map (fun t => t ++ [LF]) lines) (attribute_spans sc keys) /\ (keys <> [] -> lines <> []).
Proof.
  induction keys as [|k keys (lines & E & G & _)]; [exists []; split; [reflexivity|split; [apply good_nil|contradiction]]|].
  cbn [attribute_lines attribute_spans].
  destruct (good_color cs k "color_scheme_key" (fine "color_scheme_key" ltac:(discriminate))) as (k' & -> & Gk). cbn [bind].
  set (comma := match keys with [] => [] | _ => tx "," end).
  assert (Gc : good cs comma [comma_unless (match keys with [] => true | _ => false end)]) by (unfold comma; destruct keys; apply good_plain).
  assert (W : exists ls, match sc k with
     | ADict l => bind (entry_lines cs (sorted_entries l)) (fun e => Fine ((tx "    " ++ k' ++ tx ": {") :: e ++ [tx "    }" ++ comma]))
     | v => bind (colorize (value_text v) (cs (tx "color_scheme_value"))) (fun v => Fine [tx "    " ++ k' ++ tx ": " ++ v ++ comma])
     end = Fine ls /\ ls <> [] /\
     good cs (flat_map (fun t => t ++ [LF]) ls) ((tx "    ", None) :: name_span k :: (tx ": ", None) ::
      match sc k with
      | ADict l => (tx "{", None) :: newline :: entry_spans (sorted_entries l) ++ [(tx "    }", None); comma_unless (match keys with [] => true | _ => false end); newline]
      | v => [value_span v; comma_unless (match keys with [] => true | _ => false end); newline]
      end)).
  { assert (V : forall v, exists ls, bind (colorize (value_text v) (cs (tx "color_scheme_value"))) (fun v => Fine [tx "    " ++ k' ++ tx ": " ++ v ++ comma]) = Fine ls /\ ls <> [] /\
      good cs (flat_map (fun t => t ++ [LF]) ls) ((tx "    ", None) :: name_span k :: (tx ": ", None) :: [value_span v; comma_unless (match keys with [] => true | _ => false end); newline])).
    { intros v. destruct (good_color cs (value_text v) "color_scheme_value" (fine "color_scheme_value" ltac:(discriminate))) as (v' & -> & Gv). cbn [bind].
      eexists. split; [reflexivity|]. split; [discriminate|]. cbn [flat_map]. rewrite app_nil_r, <- !app_assoc.
      apply good_cons; [apply good_plain|]. apply good_cons; [exact Gk|]. apply good_cons; [apply good_plain|]. apply good_cons; [exact Gv|].
      apply good_cons; [exact Gc|apply good_plain]. }
    destruct (sc k) as [|c|l|t]; [apply V|apply V| |apply V].
    destruct (entries_good (sorted_entries l)) as (es & -> & _ & Ge). cbn [bind]. eexists. split; [reflexivity|]. split; [discriminate|].
    cbn [flat_map]. rewrite flat_map_app. cbn [flat_map]. rewrite app_nil_r.
    match goal with |- good _ ?T _ => replace T with (tx "    " ++ k' ++ tx ": " ++ tx "{" ++ [LF] ++ flat_map (fun t => t ++ [LF]) es ++ tx "    }" ++ comma ++ [LF]) end.
    2: { rewrite <- !app_assoc. change (tx ": {") with (tx ": " ++ tx "{"). now rewrite <- !app_assoc. }
    apply good_cons; [apply good_plain|]. apply good_cons; [exact Gk|]. apply good_cons; [apply good_plain|]. apply good_cons; [apply good_plain|].
    apply good_cons; [apply good_plain|]. apply good_app; [exact Ge|].
    apply good_cons; [apply good_plain|]. apply good_cons; [exact Gc|apply good_plain]. }
  destruct W as (ls & W & Nn & Gw). fold comma. rewrite W. cbn [bind]. rewrite E. cbn [bind]. eexists. split; [reflexivity|]. split.
  - rewrite flat_map_app. pose proof (good_app cs _ _ _ _ Gw G) as A. cbn [app] in A. exact A.
  - intros _ H. apply app_eq_nil in H as [H _]. contradiction.
Qed.
Lemma join_lines (l : list text) : l <> [] -> join [LF] l ++ [LF] = flat_map (fun t => t ++ [LF]) l.
Proof.
  induction l as [|a l IH]; [contradiction|]. intros _. destruct l as [|b l]; [cbn; now rewrite app_nil_r|].
  change (join [LF] (a :: b :: l)) with (a ++ [LF] ++ join [LF] (b :: l)). rewrite <- !app_assoc, IH by discriminate.
  cbn [flat_map]. now rewrite <- !app_assoc.
Qed.
Lemma scheme_good sc : exists t, scheme_text cs sc = Fine t /\ good cs t (spans (AScheme sc)).
Proof.
  unfold scheme_text. destruct (attributes_good sc KEYS) as (lines & -> & G & Nn). cbn [bind]. eexists. split; [reflexivity|].
  cbn [spans]. change (LF :: tx "}") with ([LF] ++ tx "}").
  replace (tx "{" ++ LF :: join [LF] lines ++ [LF] ++ tx "}") with (tx "{" ++ [LF] ++ (join [LF] lines ++ [LF]) ++ tx "}")
    by (cbn; rewrite <- !app_assoc; reflexivity).
  rewrite join_lines by (apply Nn; discriminate).
  apply good_cons; [apply good_plain|]. apply good_cons; [apply good_plain|]. apply good_app; [exact G|apply good_plain].
Qed.

Lemma render_good x : visible x -> exists t, render (Some cs) x = Fine t /\ good cs t (spans x).
Proof.
  intros V. destruct x as [pid ppid user status cmdline|id command|label message|name home|sc|t].
  - destruct V as [Vu Vs]. destruct user as [u|]; [|contradiction]. destruct status as [s|]; [|contradiction].
    cbn [render]. unfold process_text. cbn [string_field bind optionally].
    destruct (good_color cs (right_aligned 6 (decimal pid)) "process_pid" (fine "process_pid" ltac:(discriminate))) as (t1 & -> & G1). cbn [bind].
    destruct (good_color cs (right_aligned 6 (decimal ppid)) "process_ppid" (fine "process_ppid" ltac:(discriminate))) as (t2 & -> & G2). cbn [bind].
    destruct (good_color cs (left_aligned 8 u) "process_user" (fine "process_user" ltac:(discriminate))) as (t3 & -> & G3). cbn [bind].
    destruct (good_color cs (left_aligned 10 s) "process_status" (fine "process_status" ltac:(discriminate))) as (t4 & -> & G4). cbn [bind].
    destruct (good_color cs (command_of cmdline) "process_command" (fine "process_command" ltac:(discriminate))) as (t5 & -> & G5). cbn [bind].
    eexists. split; [reflexivity|]. cbn [join]. unfold spans.
    apply good_cons; [exact G1|]. apply good_cons; [apply good_plain|]. apply good_cons; [exact G2|]. apply good_cons; [apply good_plain|].
    apply good_cons; [exact G3|]. apply good_cons; [apply good_plain|]. apply good_cons; [exact G4|]. apply good_cons; [apply good_plain|].
    exact G5.
  - cbn [render record_text].
    destruct (good_color cs (decimal id) "history_id" (fine "history_id" ltac:(discriminate))) as (t1 & -> & G1). cbn [bind].
    destruct (good_color cs command "history_command" (fine "history_command" ltac:(discriminate))) as (t2 & -> & G2). cbn [bind].
    eexists. split; [reflexivity|]. cbn [spans]. apply good_cons; [apply good_plain|]. apply good_cons; [exact G1|]. apply good_cons; [apply good_plain|exact G2].
  - cbn [render optionally]. destruct (good_color cs (error_text label message) "error" (fine "error" ltac:(discriminate))) as (t1 & -> & G1).
    exists t1. split; [reflexivity|]. destruct label; exact G1.
  - cbn [render]. eexists. split; [reflexivity|]. destruct home; apply good_plain.
  - cbn [render]. apply scheme_good.
  - eexists. split; [reflexivity|]. apply good_plain.
Qed.
End Scheme.

(** On the screen, write shows the text of each object, each part of it in its color, one after the other; no color spreads to what follows. *)
Theorem c85_screen_partial cs l : colors_only cs -> Forall visible l -> Forall printable l ->
  on_screen (written Stdout cs l) = flat_map (fun x => in_colors cs (spans x ++ [newline])) l.
Proof.
  intros C V P. induction l as [|x l IH]; [reflexivity|].
  inversion V as [|? ? Vx Vl]; subst. inversion P as [|? ? Px Pl]; subst.
  cbn [written flat_map scheme_for]. destruct (render_good cs C x Vx) as (t & -> & G).
  rewrite <- (IH Vl Pl). rewrite <- app_assoc, (G Px). unfold in_colors at 2. rewrite flat_map_app. fold (in_colors cs (spans x)).
  rewrite <- app_assoc. f_equal.
Qed.
(** So colors do not change what is shown: the letters are those that any other scheme shows. *)
Lemma letters_in_colors cs l : map fst (in_colors cs l) = letters l.
Proof.
  induction l as [|s l IH]; [reflexivity|]. cbn. rewrite map_app, map_map. unfold in_colors in IH. rewrite IH. f_equal. cbn [fst]. apply map_id.
Qed.
Theorem c85_same_letters_partial cs cs' l : colors_only cs -> colors_only cs' -> Forall visible l -> Forall printable l ->
  map fst (on_screen (written Stdout cs l)) = map fst (on_screen (written Stdout cs' l)).
Proof.
  intros C C' V P. rewrite !c85_screen_partial by assumption. clear V P.
  induction l as [|x l IH]; [reflexivity|]. cbn [flat_map]. rewrite !map_app, IH. f_equal. now rewrite !letters_in_colors.
Qed.

(** ** In files *)
Theorem c85_file_partial cs l : Forall visible l -> Forall (fun x => match x with ARecord _ _ | AScheme _ => False | _ => True end) l ->
  written AFile cs l = flat_map (fun x => letters (spans x ++ [newline])) l.
Proof.
  intros V P. induction l as [|x l IH]; [reflexivity|].
  inversion V as [|? ? Vx Vl]; subst. inversion P as [|? ? Px Pl]; subst.
  cbn [written flat_map scheme_for]. rewrite <- (IH Vl Pl). unfold written. apply f_equal2; [|reflexivity].
  unfold letters. rewrite flat_map_app. destruct x as [pid ppid user status cmdline|id command|label message|name home|sc|t]; try contradiction.
  - destruct Vx as [Vu Vs]. destruct user as [u|]; [|contradiction]. destruct status as [s|]; [|contradiction].
    cbn [render]. unfold process_text. cbn [string_field bind optionally]. apply f_equal2; [|reflexivity].
    cbn [join spans flat_map fst]. rewrite app_nil_r. reflexivity.
  - cbn [render optionally]. destruct label; cbn [spans flat_map fst error_text]; now rewrite app_nil_r.
  - cbn [render]. destruct home; cbn [spans flat_map fst workspace_text]; now rewrite app_nil_r.
  - cbn. now rewrite app_nil_r.
Qed.
(** But the history, and color schemes, cannot be written to a file: none of it gets there. *)
Theorem c85_file_refuted cs l : Forall (fun x => match x with ARecord _ _ | AScheme _ => True | _ => False end) l -> written AFile cs l = [].
Proof.
  induction 1 as [|x l P _ IH]; [reflexivity|]. cbn [written flat_map]. unfold written in IH. rewrite IH.
  destruct x; try contradiction; reflexivity.
Qed.
(** A process whose user or status is unknown is not shown at all. *)
Theorem c85_visible_refuted d cs pid ppid status cmdline : written d cs [AProcess pid ppid None status cmdline] = [].
Proof. destruct d; reflexivity. Qed.
(** The command of a process can change the colors of what follows, and hide text. *)
Theorem c85_printable_refuted : exists command, let x := AProcess 1 0 (Some (tx "me")) (Some (tx "running")) (Some [command]) in
  on_screen (written Stdout new_scheme [x; ASimple (tx "next")]) = map (fun a => (a, ordinary)) (tx "     1       0  me        running     a") ++
    map (fun a => (a, (Some (5, 0, 0)%Z, false, false))) ([LF] ++ tx "next" ++ [LF]).
Proof. exists (tx "a" ++ ESC :: tx "[38;5;196m"). vm_compute. reflexivity. Qed.

(** ** Assignments to a scheme *)
Lemma same_spec a b : same a b = true <-> a = b.
Proof. unfold same. destruct (list_eq_dec ascii_dec a b); split; congruence. Qed.
Lemma all_colors l : forallb (fun p => is_color (snd p)) l = true <-> Forall (fun p : text * value => exists c, snd p = AColor c) l.
Proof.
  rewrite forallb_forall, Forall_forall. split; intros H x Hx; specialize (H x Hx); destruct (snd x); try discriminate; try (now exists c); try reflexivity.
  - destruct H as [c H]; discriminate H. - destruct H as [c H]; discriminate H. - destruct H as [c H]; discriminate H.
Qed.
Theorem c85_assign sc key v : (exists sc', set_attribute sc key v = Fine sc') <-> In key KEYS /\ assignable v.
Proof.
  unfold set_attribute. destruct (existsb (same key) KEYS) eqn:E.
  - apply existsb_exists in E as (k & I & E). apply same_spec in E. subst k.
    destruct v as [|c|l|t]; cbn [assignable].
    + split; [intros _; split; [exact I|exact Logic.I]|intros _; eexists; reflexivity].
    + split; [intros _; split; [exact I|exact Logic.I]|intros _; eexists; reflexivity].
    + destruct (forallb _ l) eqn:F; [apply all_colors in F; split; [intros _; split; [exact I|exact F]|intros _; eexists; reflexivity]|].
      split; [intros [? H]; discriminate H|]. intros [_ H]. apply all_colors in H. rewrite H in F. discriminate F.
    + split; [intros [? H]; discriminate H|intros [_ []]].
  - split; [intros [? H]; discriminate H|]. intros [I _]. assert (X : existsb (same key) KEYS = true); [|congruence].
    apply existsb_exists. exists key. split; [exact I|]. now apply same_spec.
Qed.
Theorem c85_assigned sc key v sc' : set_attribute sc key v = Fine sc' -> sc' key = v /\ forall k, k <> key -> sc' k = sc k.
Proof.
  unfold set_attribute. destruct (existsb _ KEYS); [|discriminate]. intros H.
  assert (E : sc' = update sc key v).
  { destruct v as [| |l|]; try discriminate H; try (injection H as <-; reflexivity). destruct (forallb _ l); [injection H as <-; reflexivity|discriminate H]. }
  subst sc'. unfold update. split.
  - now rewrite (proj2 (same_spec key key) eq_refl).
  - intros k N. destruct (same k key) eqn:E; [|reflexivity]. apply same_spec in E. contradiction.
Qed.
(** A scheme that only colors were assigned to colors everything; *)
Lemma only_keys sc key c sc' : colors_only sc -> (forall k, ~ In k KEYS -> sc k = Nothing) -> valid c -> set_attribute sc key (AColor c) = Fine sc' ->
  colors_only sc' /\ (forall k, ~ In k KEYS -> sc' k = Nothing).
Proof.
  intros C K V H. assert (I : In key KEYS) by (apply (c85_assign sc key (AColor c)); eexists; exact H).
  destruct (c85_assigned _ _ _ _ H) as [H1 H2]. split; intros k N.
  - destruct (list_eq_dec ascii_dec k key) as [->|M]; [now rewrite H1|rewrite H2 by exact M; exact (C k N)].
  - rewrite H2; [exact (K k N)|]. intros ->. contradiction.
Qed.
Theorem c85_assign_colors_partial l sc : Forall (fun p => exists c, snd p = AColor c /\ valid c) l -> set_all new_scheme l = Fine sc -> colors_only sc.
Proof.
  intros F. unfold set_all. assert (C0 : colors_only new_scheme /\ forall k, ~ In k KEYS -> new_scheme k = Nothing) by (split; intros ? ?; [exact Logic.I|reflexivity]).
  revert C0. generalize new_scheme. induction F as [|p l (c & E & V) F IH]; intros s C0; cbn [fold_left].
  - intros H. injection H as <-. apply C0.
  - cbn [bind]. rewrite E. destruct (set_attribute s (tx (fst p)) (AColor c)) as [s'|] eqn:A.
    + apply IH. eapply only_keys; [apply C0|apply C0|exact V|exact A].
    + intros H. exfalso. clear -H. revert H. induction l; cbn [fold_left bind]; [discriminate|exact IHl].
Qed.
(** but a dict is accepted for the color of a process, too, and then processes are not shown. *)
Theorem c85_assign_refuted : exists sc, set_attribute new_scheme (tx "process_pid") (ADict []) = Fine sc /\
  forall pid ppid user status cmdline, written Stdout sc [AProcess pid ppid user status cmdline] = [].
Proof. eexists. split; [reflexivity|]. intros. destruct user, status; reflexivity. Qed.
(** Colors of extensions can be set one by one only after a dict was assigned, and are not checked. *)
Theorem c85_extension_refuted ext v : set_extension_color new_scheme ext v = Fails /\
  exists sc sc', set_attribute new_scheme (tx "file_extension") (ADict []) = Fine sc /\ set_extension_color sc ext v = Fine sc' /\
    sc' (tx "file_extension") = ADict [(ext, v)] /\ (~ (exists c, v = AColor c) -> ~ assignable (sc' (tx "file_extension"))).
Proof.
  split; [reflexivity|]. do 2 eexists. split; [reflexivity|]. split; [reflexivity|]. split; [reflexivity|].
  intros N A. unfold update in A. cbn in A. inversion A as [|? ? H _]; subst. exact (N H).
Qed.
Theorem c85_extension sc sc' ext v l : sc (tx "file_extension") = ADict l -> set_extension_color sc ext v = Fine sc' ->
  exists l', sc' (tx "file_extension") = ADict l' /\ In (ext, v) l' /\ (forall e w, e <> ext -> (In (e, w) l' <-> In (e, w) l)) /\
    forall k, k <> tx "file_extension" -> sc' k = sc k.
Proof.
  intros E. unfold set_extension_color. rewrite E. intros H. injection H as <-. exists (put l ext v). repeat split.
  - clear E. induction l as [|[e w] l IH]; cbn [put]; [left; reflexivity|]. destruct (same e ext) eqn:S.
    + apply same_spec in S. subst. left; reflexivity. + right; exact IH.
  - clear E. induction l as [|[e' w'] l IH]; cbn [put]; [intros [H'|[]]; injection H' as -> ->; contradiction|]. destruct (same e' ext) eqn:S.
    + apply same_spec in S. subst. intros [H'|H']; [injection H' as -> ->; contradiction|right; exact H'].
    + intros [H'|H']; [left; exact H'|right; exact (IH H')].
  - clear E. induction l as [|[e' w'] l IH]; cbn [put]; [intros []|]. destruct (same e' ext) eqn:S.
    + apply same_spec in S. subst. intros [H'|H']; [injection H' as -> ->; contradiction|right; exact H'].
    + intros [H'|H']; [left; exact H'|right; exact (IH H')].
  - intros k N. unfold update. destruct (same k _) eqn:S; [apply same_spec in S; contradiction|reflexivity].
Qed.

(** ** The extensions of the documentation, .jpg, .gif, have no effect: with such keys, every file has the color it has without any *)
Lemma rfind_last c s : forall i, rfind c s = Some i -> ~ In c (skipn (S i) s).
Proof.
  induction s as [|a s IH]; intros i H; [discriminate H|]. cbn [rfind] in H.
  destruct (rfind c s) as [j|] eqn:E; [injection H as <-; exact (IH j eq_refl)|].
  destruct (Ascii.eqb a c); [|discriminate H]. injection H as <-. cbn [skipn]. clear IH. intros I. revert E.
  induction s as [|b s IH]; [destruct I|]. cbn [rfind]. destruct (rfind c s) as [j|] eqn:E; [discriminate|].
  destruct I as [->|I]; [rewrite Ascii.eqb_refl; discriminate|]. intros _. exact (IH I eq_refl).
Qed.
Lemma lower_dot a : to_lower a = "."%char -> a = "."%char.
Proof. destruct a as [[] [] [] [] [] [] [] []]; intros H; try reflexivity; vm_compute in H; discriminate H. Qed.
Lemma skipn_1 (A : Type) i (l : list A) : skipn 1 (skipn i l) = skipn (S i) l.
Proof. revert l. induction i as [|i IH]; intros [|a l]; try reflexivity. exact (IH l). Qed.
Lemma extension_no_dot name r : skipn 1 (map to_lower (suffix name)) <> "."%char :: r.
Proof.
  unfold suffix. destruct (rfind "."%char name) as [i|] eqn:E; [|discriminate].
  destruct ((0 <? i) && (i <? length name - 1))%bool; [|discriminate]. rewrite skipn_map, skipn_1. intros H.
  apply (rfind_last _ _ _ E). destruct (skipn (S i) name) as [|a l]; [discriminate H|].
  injection H as H _. left. apply lower_dot, H.
Qed.
Theorem c85_dots_refuted (sc : FileLine.scheme) e d cwd p mode link colored : FileLine.file_extension sc = Some e ->
  (forall ext, e ext <> None -> exists r, ext = "."%char :: r) ->
  highlight (Some sc) d cwd p mode link colored =
  highlight (Some (mkscheme None (file_link sc) (file_link_broken sc) (file_executable sc) (file_dir sc) (file_file sc))) d cwd p mode link colored.
Proof.
  intros E D. unfold highlight. rewrite E. cbn [FileLine.file_extension].
  destruct (e _) eqn:X; [|reflexivity]. exfalso. edestruct D as [r R]; [intros N; rewrite N in X; discriminate X|]. exact (extension_no_dot _ _ R).
Qed.

(** ** Messages of errors *)
Theorem c85_stderr_partial cs message : colors_only cs -> ~ In ESC message ->
  exists t, print_to_stderr (Some cs) message = Fine t /\ on_screen t = in_colors cs [(message, Some "error"%string); newline].
Proof.
  intros C P. unfold print_to_stderr. cbn [optionally].
  destruct (good_color cs message "error" (fine cs C "error" ltac:(discriminate))) as (t & -> & G). cbn [bind].
  eexists. split; [reflexivity|]. rewrite G by (constructor; [exact P|constructor]). unfold in_colors. cbn [flat_map fst]. rewrite app_nil_r. reflexivity.
Qed.
(** With a dict as the color of errors, no message is shown. *)
Theorem c85_stderr_refuted : exists sc, set_attribute new_scheme (tx "error") (ADict []) = Fine sc /\ forall message, print_to_stderr (Some sc) message = Fails.
Proof. eexists. split; reflexivity. Qed.

(** ** Examples: the colors of a new configuration (defaultinitialconfig.py:20-39), and a process and a record of the history shown with them *)
Definition configured : list (string * value) :=
  [("file_file", AColor (mkrgb 5 5 5 1)); ("file_dir", AColor (mkrgb 0 2 3 1)); ("file_link", AColor (mkrgb 4 2 0 1));
   ("file_executable", AColor (mkrgb 0 4 0 1)); ("error", AColor (mkrgb 5 5 0 0)); ("process_pid", AColor (mkrgb 0 3 5 1));
   ("process_ppid", AColor (mkrgb 0 2 4 1)); ("process_status", AColor (mkrgb 3 1 0 1)); ("process_user", AColor (mkrgb 0 2 2 1));
   ("process_command", AColor (mkrgb 3 2 0 1)); ("help_reference", AColor (mkrgb 5 3 0 0)); ("help_bold", AColor (mkrgb 5 4 1 1));
   ("help_italic", AColor (mkrgb 5 5 2 2)); ("help_name", AColor (mkrgb 4 1 0 0)); ("history_id", AColor (mkrgb 0 3 5 1));
   ("history_command", AColor (mkrgb 4 3 0 1)); ("color_scheme_key", AColor (mkrgb 2 4 0 0)); ("color_scheme_value", AColor (mkrgb 0 3 4 0))]%string.
Theorem c85_example : exists sc, set_all new_scheme configured = Fine sc /\ colors_only sc /\
  (let x := ARecord 17 (tx "ls") in visible x /\ printable x /\
   on_screen (written Stdout sc [x]) =
     [(" ", ordinary); (" ", ordinary); ("1", (Some (0, 3, 5)%Z, true, false)); ("7", (Some (0, 3, 5)%Z, true, false)); (":", ordinary);
      (" ", ordinary); (" ", ordinary); ("l", (Some (4, 3, 0)%Z, true, false)); ("s", (Some (4, 3, 0)%Z, true, false)); (LF, ordinary)]%char) /\
  (let x := AProcess 4711 1 (Some (tx "ann")) (Some (tx "sleeping")) (Some [tx "vi"; tx "a.py"]) in visible x /\ printable x /\
   letters (spans x) = tx "  4711       1  ann       sleeping    vi a.py") /\
  written AFile sc [AnError None (tx "x")] = tx "Error: x" ++ [LF].
Proof.
  destruct (set_all new_scheme configured) as [sc|] eqn:E; [|vm_compute in E; discriminate E].
  assert (C : colors_only sc).
  { apply (c85_assign_colors_partial configured sc); [|exact E]. repeat constructor; eexists; (split; [reflexivity|unfold valid; cbn; lia]). }
  assert (S : forall l x, printable x -> visible x -> in_colors sc (spans x ++ [newline]) = l -> on_screen (written Stdout sc [x]) = l).
  { intros l x P V H. rewrite c85_screen_partial; [cbn [flat_map]; now rewrite app_nil_r|exact C|repeat constructor; exact V|repeat constructor; exact P]. }
  assert (P1 : printable (ARecord 17 (tx "ls"))) by (repeat constructor; cbn; intuition discriminate).
  exists sc. split; [reflexivity|]. split; [exact C|]. split; [|split].
  - split; [exact Logic.I|]. split; [exact P1|]. apply S; [exact P1|exact Logic.I|]. vm_compute in E. injection E as <-. vm_compute. reflexivity.
  - cbn zeta. split; [split; discriminate|]. split; [|vm_compute; reflexivity]. repeat constructor; vm_compute; intuition discriminate.
  - reflexivity.
Qed.

Print Assumptions c85_color. Print Assumptions c85_cube. Print Assumptions c85_cube_refuted. Print Assumptions c85_screen_partial.
Print Assumptions c85_same_letters_partial. Print Assumptions c85_file_partial. Print Assumptions c85_file_refuted. Print Assumptions c85_visible_refuted.
Print Assumptions c85_printable_refuted. Print Assumptions c85_assign. Print Assumptions c85_assigned. Print Assumptions c85_assign_colors_partial.
Print Assumptions c85_assign_refuted. Print Assumptions c85_extension. Print Assumptions c85_extension_refuted. Print Assumptions c85_dots_refuted.
Print Assumptions c85_stderr_partial. Print Assumptions c85_stderr_refuted. Print Assumptions c85_example.
