(** C59: paragraphs. *)
From Coq Require Import Lia.
From Verif.Syntax Require Import HelpSpec HelpFacts1 HelpFacts2 ScriptsProps.
Local Open Scope char_scope.
Local Open Scope list_scope.

(** ** Lines of a text *)
Lemma split_app : forall a t, split_lines (a ++ t) =
  removelast (split_lines a) ++ (last (split_lines a) [] ++ hd [] (split_lines t)) :: tl (split_lines t).
Proof.
  induction a as [|c a IH]; intros t.
  - cbn. destruct (split_lines t) eqn:E; [now destruct (split_nonempty t)|reflexivity].
  - cbn [app split_lines]. destruct (c =? newline).
    + rewrite IH. pose proof (split_nonempty a). destruct (split_lines a) as [|x xs]; [easy|]. reflexivity.
    + rewrite IH. pose proof (split_nonempty a). destruct (split_lines a) as [|x xs]; [easy|]. destruct xs; reflexivity.
Qed.
Lemma split_single : forall t, ~ In newline t -> split_lines t = [t].
Proof.
  induction t as [|c t IH]; intros N; [reflexivity|]. cbn. destruct (c =? newline) eqn:E.
  - apply Ascii.eqb_eq in E. exfalso. apply N. now left.
  - rewrite IH; [reflexivity|]. intros I. apply N. now right.
Qed.
Lemma nonblank_app : forall a b, nonblank (a ++ b) = nonblank a || nonblank b.
Proof. intros. apply existsb_app. Qed.

Lemma join_lines_app : forall a b, a <> [] -> b <> [] -> join_lines (a ++ b) = join_lines a ++ newline :: join_lines b.
Proof.
  induction a as [|x a IH]; intros b A B; [easy|]. destruct a as [|y a].
  - cbn [app]. destruct b; [easy|reflexivity].
  - cbn [app]. change (join_lines (x :: y :: a ++ b)) with (x ++ newline :: join_lines ((y :: a) ++ b)).
    rewrite IH by (auto; discriminate). change (join_lines (x :: y :: a)) with (x ++ newline :: join_lines (y :: a)).
    now rewrite <- app_assoc.
Qed.

Lemma piece_lines_nonempty : forall b, piece_lines b <> [].
Proof. destruct b as [|p b]; cbn; [discriminate|]. destruct (match p with Ch (Raw c) => c =? newline | _ => false end); [discriminate|]. destruct (piece_lines b); discriminate. Qed.

Lemma split_write : forall b, split_lines (write b) = flat_map (fun l => split_lines (write l)) (piece_lines b).
Proof.
  induction b as [|p b IH]; [reflexivity|]. cbn [piece_lines]. destruct (match p with Ch (Raw c) => c =? newline | _ => false end) eqn:E.
  - destruct p as [[c|c]|]; try discriminate. apply Ascii.eqb_eq in E. subst c. change (split_lines (write (Ch (Raw newline) :: b))) with ([] :: split_lines (write b)).
    rewrite IH. reflexivity.
  - cbn [write flat_map]. fold (write b). rewrite split_app. pose proof (piece_lines_nonempty b). destruct (piece_lines b) as [|l ls]; [easy|].
    cbn [flat_map] in IH |- *. rewrite IH. cbn [write flat_map]. fold (write l). rewrite (split_app (write_piece p) (write l)).
    pose proof (split_nonempty (write l)). destruct (split_lines (write l)) as [|x xs]; [easy|]. cbn [app hd tl].
    rewrite <- app_assoc. reflexivity.
Qed.

(** No newline outside text markup. *)
Definition inline (l : list piece) : Prop := Forall (fun p => match p with Ch (Raw c) => c <> newline | _ => True end) l.
Lemma piece_lines_inline : forall b, Forall inline (piece_lines b).
Proof.
  induction b as [|p b IH]; cbn.
  - constructor; constructor.
  - destruct (match p with Ch (Raw c) => c =? newline | _ => false end) eqn:E.
    + constructor; auto. constructor.
    + destruct (piece_lines b) as [|l ls].
      * constructor; [|constructor]. constructor; [|constructor]. destruct p as [[c|c]|]; auto. now apply Ascii.eqb_neq.
      * inversion IH; subst. constructor; auto. constructor; auto. destruct p as [[c|c]|]; auto. now apply Ascii.eqb_neq.
Qed.
Lemma piece_lines_in : forall b l p, In l (piece_lines b) -> In p l -> In p b.
Proof.
  induction b as [|q b IH]; cbn; intros l p I J.
  - destruct I as [<-|[]]. easy.
  - destruct (match q with Ch (Raw c) => c =? newline | _ => false end).
    + destruct I as [<-|I]; [easy|]. right. eauto.
    + destruct (piece_lines b) as [|l0 ls].
      * destruct I as [<-|[]]. destruct J as [<-|[]]. now left.
      * destruct I as [<-|I]; [|right; eapply IH; eauto; now right]. destruct J as [<-|J]; [now left|]. right. apply (IH l0); auto. now left.
Qed.
Lemma piece_lines_ok : forall b, Forall piece_ok b -> Forall (Forall piece_ok) (piece_lines b).
Proof.
  intros b F. rewrite Forall_forall in F. apply Forall_forall. intros l I. apply Forall_forall. intros p J. apply F. eapply piece_lines_in; eauto.
Qed.

Lemma style_code_no_newline : forall code s, style_code code s -> ~ In newline code.
Proof.
  intros code s H. destruct H; try (intros [|[]]; discriminate).
  destruct (digit_cases r) as (d1 & -> & V1 & _); auto. destruct (digit_cases g) as (d2 & -> & V2 & _); auto. destruct (digit_cases b) as (d3 & -> & V3 & _); auto.
  cbn. intros [I|[I|[I|[I|I]]]]; subst; try discriminate.
  - cbn in H. destruct H as [H|[H|[]]]; discriminate.
  - rewrite Forall_forall in H4. specialize (H4 _ I). cbn in H4. repeat destruct H4 as [H4|H4]; try easy; discriminate.
Qed.

Lemma styled_lines : forall code s content, piece_ok (Styled code s content) ->
  Forall (fun x => nonblank x = true) (split_lines (write_piece (Styled code s content))).
Proof.
  intros code s content (Sc & _ & _ & I). cbn [write_piece]. pose proof (style_code_no_newline _ _ Sc) as N.
  set (W := flat_map write_char content) in *.
  replace (obrace :: code ++ colon :: W ++ [cbrace]) with ((obrace :: code ++ [colon]) ++ (W ++ [cbrace])) by (cbn; rewrite <- app_assoc; reflexivity).
  rewrite split_app. rewrite (split_single (obrace :: code ++ [colon])).
  2:{ intros [Q|Q]; [discriminate|]. apply in_app_iff in Q. destruct Q as [Q|[Q|[]]]; [auto|discriminate]. }
  cbn [removelast last app]. rewrite split_app. change (split_lines [cbrace]) with [[cbrace]]. cbn [hd tl].
  pose proof (split_nonempty W). destruct (split_lines W) as [|w ws]; [easy|]. destruct ws as [|w' ws].
  - cbn [removelast last app hd tl]. constructor; [reflexivity|constructor].
  - change (removelast (w :: w' :: ws)) with (w :: removelast (w' :: ws)). change (last (w :: w' :: ws) []) with (last (w' :: ws) []).
    cbn [app hd tl] in *. constructor; [reflexivity|]. apply Forall_app. split; auto. constructor; auto.
    rewrite nonblank_app. apply orb_true_r.
Qed.

Lemma logical_line : forall l, Forall piece_ok l -> inline l ->
  if empty_line l then split_lines (write l) = [write l] /\ nonblank (write l) = false
  else Forall (fun x => nonblank x = true) (split_lines (write l)).
Proof.
  induction l as [|p l IH]; intros F N; [split; reflexivity|]. inversion F as [|y z Y Z]; subst. inversion N as [|y z Y' Z']; subst.
  specialize (IH Z Z'). cbn [write flat_map]. fold (write l). destruct p as [x|code s content].
  - assert (SX : split_lines (write_char x) = [write_char x]).
    { apply split_single. destruct x as [c|c]; cbn in *; [intros [Q|[]]; congruence|]. intros [Q|[Q|[]]]; [discriminate|congruence]. }
    cbn [write_piece]. rewrite split_app, SX. cbn [removelast last app]. cbn [empty_line forallb]. fold (empty_line l).
    assert (B : match x with Raw c => isspace c | Esc _ => false end = negb (nonblank (write_char x))).
    { destruct x as [c|c]; cbn; [destruct (isspace c); reflexivity|reflexivity]. }
    replace (match Ch x with Ch (Raw c) => isspace c | _ => false end) with (match x with Raw c => isspace c | Esc _ => false end) by (destruct x; reflexivity).
    rewrite B. destruct (empty_line l).
    + destruct IH as (E & NB). rewrite E. cbn [hd tl]. rewrite andb_true_r. destruct (nonblank (write_char x)) eqn:NX; cbn [negb].
      * constructor; [|constructor]. now rewrite nonblank_app, NX.
      * split; [reflexivity|]. now rewrite nonblank_app, NX, NB.
    + rewrite andb_false_r. pose proof (split_nonempty (write l)). destruct (split_lines (write l)) as [|h t]; [easy|]. cbn [hd tl].
      inversion IH as [|? ? H1 H2]; subst. constructor; auto. rewrite nonblank_app, H1. apply orb_true_r.
  - cbn [empty_line forallb andb]. rewrite split_app. pose proof (styled_lines _ _ _ Y) as SL.
    set (A := split_lines (write_piece (Styled code s content))) in *.
    assert (NA : A <> []) by apply split_nonempty. destruct (exists_last NA) as (A' & a & EA). rewrite EA in *.
    rewrite removelast_last, last_last. apply Forall_app in SL. destruct SL as (S1 & S2). inversion S2 as [|? ? S3 _]; subst.
    apply Forall_app. split; auto. constructor; [now rewrite nonblank_app, S3|].
    destruct (empty_line l).
    + destruct IH as (E & _). rewrite E. constructor.
    + destruct (split_lines (write l)); cbn; auto. now inversion IH.
Qed.

(** ** Grouping lines: consecutive ones with the same key. *)
Section Runs.
Context {A : Type} (key : A -> bool).
Definition alike (k : bool) (g : list A) : Prop := g <> [] /\ Forall (fun x => key x = k) g.
Inductive runs : bool -> list (list A) -> Prop :=
| runs_nil : forall k, runs k []
| runs_cons : forall k g gs, alike (negb k) g -> runs (negb k) gs -> runs k (g :: gs).
(** [runs k gs]: the groups differ from one another, and the first differs from [k]. *)
End Runs.

Lemma group_runs : forall ls, concat (group_lines ls) = ls /\ exists k, runs empty_line k (group_lines ls).
Proof.
  induction ls as [|l ls IH]; [split; [reflexivity|exists true; constructor]|]. destruct IH as (C & k & R). cbn [group_lines].
  destruct (group_lines ls) as [|[|l' g] gs] eqn:E.
  - cbn in *. subst ls. split; auto. exists (negb (empty_line l)). constructor; [|constructor]. split; [discriminate|].
    constructor; [|constructor]. now rewrite negb_involutive.
  - inversion R as [|? ? ? (N & _)]; subst. easy.
  - inversion R as [|? ? ? (N & F) R']; subst. destruct (Bool.eqb (empty_line l) (empty_line l')) eqn:Q.
    + apply Bool.eqb_prop in Q. split; [reflexivity|]. exists k. constructor; auto. split; [discriminate|].
      constructor; auto. inversion F; congruence.
    + split; [reflexivity|]. exists (negb (empty_line l)). constructor.
      * split; [discriminate|]. constructor; [now rewrite negb_involutive|constructor].
      * rewrite negb_involutive. constructor; [|]; inversion F as [|? ? F1 F2]; subst.
        -- assert (K : negb (empty_line l) = negb k). { destruct (empty_line l), (empty_line l'), k; cbn in *; congruence. }
           rewrite K. split; [discriminate|]. now constructor.
        -- assert (K : negb (empty_line l) = negb k). { destruct (empty_line l), (empty_line l'), k; cbn in *; congruence. }
           now rewrite K.
Qed.

(** ** Adding lines to paragraphs *)
Lemma nonblank_normalize : forall l, nonblank (normalize l) = nonblank l.
Proof. intros l. unfold normalize. destruct (nonblank l) eqn:E; auto. Qed.

Lemma append_same : forall h k f g done rest, g <> [] -> Forall (fun x => nonblank x = k) g -> Forall (fun x => nonblank x = k) h ->
  add_lines done (mkpara f g) (h ++ rest) = add_lines done (mkpara f (g ++ map normalize h)) rest.
Proof.
  induction h as [|l h IH]; intros k f g done rest N F H; cbn [app map]; [now rewrite app_nil_r|]. inversion H; subst.
  cbn [add_lines]. unfold para_append. cbn [p_lines p_format]. destruct (rev g) as [|x xs] eqn:R.
  { exfalso. apply N. rewrite <- (rev_involutive g), R. reflexivity. }
  assert (Ix : In x g) by (apply in_rev; rewrite R; now left). rewrite Forall_forall in F. rewrite (F x Ix), Bool.eqb_reflx.
  rewrite (IH (nonblank l)); auto.
  - now rewrite <- app_assoc.
  - destruct g; discriminate.
  - apply Forall_app. split; [now apply Forall_forall|]. constructor; auto. apply nonblank_normalize.
Qed.
Lemma append_first : forall h k f done rest, alike nonblank k h ->
  add_lines done (mkpara f []) (h ++ rest) = add_lines done (mkpara f (map normalize h)) rest.
Proof.
  intros [|l h] k f done rest (N & H); [easy|]. inversion H; subst. cbn [app add_lines para_append rev p_lines p_format map].
  rewrite (append_same h (nonblank l)); auto; [discriminate|]. constructor; auto. apply nonblank_normalize.
Qed.
Lemma append_other : forall h k f g done rest, g <> [] -> Forall (fun x => nonblank x = k) g -> alike nonblank (negb k) h ->
  add_lines done (mkpara f g) (h ++ rest) = add_lines (done ++ [mkpara f g]) (mkpara default_format (map normalize h)) rest.
Proof.
  intros [|l h] k f g done rest Ng F (N & H); [easy|]. inversion H as [|? ? H1 H2]; subst. cbn [app map add_lines]. unfold para_append. cbn [p_lines p_format].
  destruct (rev g) as [|x xs] eqn:R. { exfalso. apply Ng. rewrite <- (rev_involutive g), R. reflexivity. }
  assert (Ix : In x g) by (apply in_rev; rewrite R; now left). rewrite Forall_forall in F. rewrite (F x Ix), H1.
  replace (Bool.eqb k (negb k)) with false by (destruct k; reflexivity).
  rewrite (append_same h (negb k)); auto; [discriminate|]. constructor; auto. now rewrite nonblank_normalize.
Qed.

Lemma add_runs : forall gs k f g done, g <> [] -> Forall (fun x => nonblank x = k) g -> runs nonblank k gs ->
  exists done' p', add_lines done (mkpara f g) (concat gs) = (done', p') /\
    done' ++ [p'] = done ++ mkpara f g :: map (fun h => mkpara default_format (map normalize h)) gs.
Proof.
  induction gs as [|h gs IH]; intros k f g done N F R.
  - exists done, (mkpara f g). auto.
  - inversion R as [|? ? ? A R']; subst. cbn [concat]. rewrite (append_other h k); auto. destruct A as (Nh & Fh).
    destruct (IH (negb k) default_format (map normalize h) (done ++ [mkpara f g])) as (d' & p' & E & Q); auto.
    + destruct h; [easy|discriminate].
    + apply Forall_forall. intros x I. apply in_map_iff in I. destruct I as (y & <- & I). rewrite nonblank_normalize. rewrite Forall_forall in Fh. auto.
    + exists d', p'. split; auto. rewrite Q, <- app_assoc. reflexivity.
Qed.

Definition paras_of (f : pformat) (gs : list (list text)) : list para :=
  match gs with [] => [mkpara f []] | g :: gs => mkpara f (map normalize g) :: map (fun h => mkpara default_format (map normalize h)) gs end.
Lemma add_groups : forall gs k f done, runs nonblank k gs ->
  exists done' p', add_lines done (mkpara f []) (concat gs) = (done', p') /\ done' ++ [p'] = done ++ paras_of f gs.
Proof.
  intros [|g gs] k f done R; [exists done, (mkpara f []); auto|]. inversion R as [|? ? ? A R']; subst. cbn [concat].
  rewrite (append_first g (negb k)) by auto. destruct A as (N & F). apply (add_runs gs (negb k)); auto.
  - destruct g; [easy|discriminate].
  - apply Forall_forall. intros x I. apply in_map_iff in I. destruct I as (y & <- & I). rewrite nonblank_normalize. rewrite Forall_forall in F. auto.
Qed.

(** ** Logical lines and lines *)
Definition phys (g : list (list piece)) : list text := flat_map (fun l => split_lines (write l)) g.

Definition good (l : list piece) : Prop := Forall piece_ok l /\ inline l.
Lemma good_lines : forall b, Forall piece_ok b -> Forall good (piece_lines b).
Proof.
  intros b F. pose proof (piece_lines_ok b F) as A. pose proof (piece_lines_inline b) as B. rewrite Forall_forall in *. intros l I. split; [now apply A|now apply B].
Qed.

Lemma good_phys : forall l, good l -> Forall (fun x => nonblank x = negb (empty_line l)) (split_lines (write l)).
Proof.
  intros l (F & N). pose proof (logical_line l F N) as H. destruct (empty_line l); auto. destruct H as (-> & E). constructor; auto.
Qed.
Lemma phys_alike : forall g k, Forall good g -> alike empty_line k g -> alike nonblank (negb k) (phys g).
Proof.
  intros g k G (N & F). split.
  - destruct g as [|l g]; [easy|]. cbn. pose proof (split_nonempty (write l)). destruct (split_lines (write l)); [easy|discriminate].
  - unfold phys. apply Forall_forall. intros x I. apply in_flat_map in I. destruct I as (l & I & J). rewrite Forall_forall in G, F.
    pose proof (good_phys l (G l I)) as P. rewrite Forall_forall in P. rewrite (P x J). now rewrite (F l I).
Qed.
Lemma phys_runs : forall gs k, Forall (Forall good) gs -> runs empty_line k gs -> runs nonblank (negb k) (map phys gs).
Proof.
  induction gs as [|g gs IH]; intros k G R; cbn; [constructor|]. inversion R; subst. inversion G; subst. constructor.
  - now apply phys_alike.
  - apply IH; auto.
Qed.
Lemma phys_concat : forall gs, concat (map phys gs) = phys (concat gs).
Proof. induction gs as [|g gs IH]; [reflexivity|]. cbn. rewrite IH. unfold phys. now rewrite flat_map_app. Qed.

(** The last line. *)
Lemma block_lines_ok : forall b, Forall piece_ok b ->
  block_lines (write b) = phys (let ls := piece_lines b in if empty_line (last ls []) then removelast ls else ls).
Proof.
  intros b F. unfold block_lines. rewrite split_write. cbv zeta. pose proof (good_lines b F) as G. destruct (exists_last (piece_lines_nonempty b)) as (ls & l & E).
  rewrite E in *. rewrite last_last, removelast_last. apply Forall_app in G. destruct G as (_ & G). inversion G as [|? ? (F1 & N1) _]; subst.
  rewrite flat_map_app. cbn [flat_map]. rewrite app_nil_r. pose proof (logical_line l F1 N1) as H. destruct (empty_line l).
  - destruct H as (Q & B). rewrite Q, last_last, B, removelast_last. reflexivity.
  - destruct (exists_last (split_nonempty (write l))) as (xs & x & Q). rewrite Q in *. rewrite app_assoc, last_last.
    apply Forall_app in H. destruct H as (_ & H). inversion H as [|? ? H1 _]; subst. rewrite H1. unfold phys. rewrite flat_map_app. cbn [flat_map]. now rewrite Q, app_nil_r, <- app_assoc.
Qed.

Definition para_of (fg : pformat * list (list piece)) : para := mkpara (fst fg) (map normalize (phys (snd fg))).
Lemma body_ok : forall b f done, Forall piece_ok b ->
  exists done' p', add_lines done (mkpara f []) (block_lines (write b)) = (done', p') /\
    done' ++ [p'] = done ++ map para_of (body_paragraphs f b).
Proof.
  intros b f done F. rewrite block_lines_ok by auto. unfold body_paragraphs, body_groups. cbv zeta.
  set (ls := if empty_line (last (piece_lines b) []) then removelast (piece_lines b) else piece_lines b).
  assert (G : Forall good ls).
  { pose proof (good_lines b F) as G. unfold ls. cbv zeta. destruct (empty_line _); auto. rewrite Forall_forall in *. intros x I. apply G.
    destruct (exists_last (piece_lines_nonempty b)) as (l0 & y & E). rewrite E in *. rewrite removelast_last in I. apply in_or_app. now left. }
  clearbody ls. destruct (group_runs ls) as (C & k & R). replace (phys ls) with (phys (concat (group_lines ls))) by (now rewrite C). rewrite <- phys_concat.
  assert (GG : Forall (Forall good) (group_lines ls)).
  { apply Forall_forall. intros g I. apply Forall_forall. intros l J. rewrite Forall_forall in G. apply G. rewrite <- C. apply in_concat. eauto. }
  destruct (add_groups (map phys (group_lines ls)) (negb k) f done (phys_runs _ _ GG R)) as (d' & p' & E & Q).
  exists d', p'. split; auto. rewrite Q. f_equal. destruct (group_lines ls) as [|g gs]; [reflexivity|]. cbn. f_equal.
  rewrite !map_map. apply map_ext. reflexivity.
Qed.

(** ** One paragraph *)
Definition trimmed (l : list piece) : list piece := if empty_line l then [] else l.
Fixpoint rejoin (g : list (list piece)) : list piece :=
  match g with [] => [] | [l] => trimmed l | l :: r => trimmed l ++ Ch (Raw newline) :: rejoin r end.
Lemma show_rejoin : forall g, show (rejoin g) = show_lines g.
Proof.
  assert (T : forall l, show (trimmed l) = if empty_line l then [] else show l) by (intros l; unfold trimmed; destruct (empty_line l); reflexivity).
  induction g as [|l g IH]; [reflexivity|]. destruct g as [|l' g]; [apply T|].
  change (rejoin (l :: l' :: g)) with (trimmed l ++ Ch (Raw newline) :: rejoin (l' :: g)).
  change (show_lines (l :: l' :: g)) with ((if empty_line l then [] else show l) ++ (newline, None) :: show_lines (l' :: g)).
  unfold show at 1. rewrite flat_map_app. fold (show (trimmed l)). rewrite T. cbn [flat_map show_piece app]. f_equal. f_equal. exact IH.
Qed.
Lemma normalize_phys : forall l, good l -> map normalize (split_lines (write l)) = split_lines (write (trimmed l)).
Proof.
  intros l (F & N). pose proof (logical_line l F N) as H. unfold trimmed. destruct (empty_line l).
  - destruct H as (-> & B). cbn. unfold normalize. now rewrite B.
  - induction H as [|x xs X H IH]; [reflexivity|]. cbn. rewrite IH. f_equal. unfold normalize. now rewrite X.
Qed.
Lemma join_split : forall t, join_lines (split_lines t) = t.
Proof. intros t. destruct (split_spec t) as (_ & J & _). exact J. Qed.
Lemma phys_text : forall g, Forall good g -> join_lines (map normalize (phys g)) = write (rejoin g).
Proof.
  induction g as [|l g IH]; intros G; [reflexivity|]. inversion G; subst. unfold phys. cbn [flat_map]. fold (phys g). rewrite map_app, normalize_phys by auto.
  destruct g as [|l' g].
  - cbn. rewrite app_nil_r. apply join_split.
  - rewrite join_lines_app; [|apply split_nonempty|].
    + change (rejoin (l :: l' :: g)) with (trimmed l ++ Ch (Raw newline) :: rejoin (l' :: g)).
      rewrite IH, join_split by auto. unfold write. rewrite flat_map_app. reflexivity.
    + cbn. pose proof (split_nonempty (write l')). destruct (split_lines (write l')); [easy|discriminate].
Qed.
Lemma rejoin_ok : forall g, Forall good g -> Forall piece_ok (rejoin g).
Proof.
  assert (T : forall l, good l -> Forall piece_ok (trimmed l)) by (intros l (F & _); unfold trimmed; destruct (empty_line l); auto).
  induction g as [|l g IH]; intros G; [constructor|]. inversion G; subst. destruct g as [|l' g]; [now apply T|].
  change (rejoin (l :: l' :: g)) with (trimmed l ++ Ch (Raw newline) :: rejoin (l' :: g)). apply Forall_app. split; auto. constructor; auto.
  cbn. repeat split; discriminate.
Qed.

Lemma paragraph_ok : forall columns f g, (0 < columns)%nat -> Forall good g ->
  exists out, format_para columns (para_of (f, g)) = HOk out /\ displayed columns (f, g) (seen out).
Proof.
  intros columns f g C G. unfold format_para, para_of. cbn [p_lines p_format fst snd]. rewrite phys_text by auto.
  pose proof (rejoin_ok g G) as R. rewrite remove_markup_ok by auto. cbn [hbind app].
  destruct (wrap_paragraph_ok columns f (plain (show (rejoin g))) C) as (w & -> & NW & D). cbn [hbind].
  destruct (format_marks_ok _ _ _ (marks_of_marked (rejoin g) 0 R) w) as (out & E & P & I). { now rewrite NW, plain_ink. }
  exists out. split; auto. unfold displayed. rewrite show_rejoin in *. rewrite P. split; auto. 
Qed.
