(** C83: streams kept in variables. *)
From Verif.Sys Require Export StreamsSpec.
Import ListNotations.
Local Open Scope string_scope.
Local Open Scope list_scope.

Lemma upd_same : forall A (f : string -> A) x a, upd f x a x = a.
Proof. intros. unfold upd. now rewrite String.eqb_refl. Qed.
Lemma upd_other : forall A (f : string -> A) x a y, y <> x -> upd f x a y = f y.
Proof. intros A f x a y N. unfold upd. destruct (String.eqb_spec y x); [contradiction | reflexivity]. Qed.

(** Every variable has its own file, and every file its variable *)
Record own (s : state) (m : memory) : Prop := {
  o_res : forall x p, vars s x = Some (Res p) -> p = x;
  o_file : forall x, files s x <> None <-> vars s x = Some (Res x);
  o_shown : forall x, shown x s = m x }.

Lemma own_cases : forall s m x, own s m ->
  (exists v, vars s x = Some (Plain v) /\ m x = Some (Ordinary v) /\ files s x = None) \/
  (exists l, vars s x = Some (Res x) /\ m x = Some (Stream l) /\ files s x = Some l) \/
  (vars s x = None /\ m x = None /\ files s x = None).
Proof.
  intros s m x O. pose proof (o_shown _ _ O x) as SH. pose proof (o_file _ _ O x) as FI. unfold shown in SH.
  destruct (vars s x) as [[v | p] | ] eqn:E.
  - left. exists v. repeat split; auto. destruct (files s x); [exfalso; assert (Q : Some (Plain v) = Some (Res x)) by (apply FI; discriminate); discriminate | reflexivity].
  - right. left. assert (p = x) as -> by (now apply (o_res _ _ O x p)). destruct (files s x) as [l | ] eqn:F; [exists l; auto | ].
    exfalso. now apply FI.
  - right. right. repeat split; auto. destruct (files s x); [exfalso; assert (Q : None = Some (Res x)) by (apply FI; discriminate); discriminate | reflexivity].
Qed.

(** Only what belongs to [x] differs *)
Lemma own_change : forall s m s' m' x, own s m ->
  (forall y, y <> x -> vars s' y = vars s y) -> (forall y, y <> x -> files s' y = files s y) -> (forall y, y <> x -> m' y = m y) ->
  (forall p, vars s' x = Some (Res p) -> p = x) -> (files s' x <> None <-> vars s' x = Some (Res x)) -> shown x s' = m' x -> own s' m'.
Proof.
  intros s m s' m' x O V FF M R FX SH. constructor.
  - intros y p E. destruct (string_dec y x) as [-> | N]; [auto | ]. rewrite V in E by auto. now apply (o_res _ _ O).
  - intros y. destruct (string_dec y x) as [-> | N]; [auto | ]. rewrite V, FF by auto. apply (o_file _ _ O).
  - intros y. destruct (string_dec y x) as [-> | N]; [auto | ]. rewrite M by auto. rewrite <- (o_shown _ _ O y). unfold shown. rewrite V by auto.
    destruct (vars s y) as [[v | p] | ] eqn:E; auto. assert (p = y) as -> by (now apply (o_res _ _ O y p)). now rewrite FF.
Qed.

Ltac look := repeat first [rewrite upd_same | rewrite upd_other by assumption | rewrite String.eqb_refl | progress cbn].
Ltac value_of x := repeat match goal with H : vars _ x = _ |- context [vars _ x] => rewrite H | H : files _ x = _ |- context [files _ x] => rewrite H end.
Ltac changed O x := apply (own_change _ _ _ _ x O); unfold shown, setvar, delvar, unlink, write, put; cbn; value_of x; look;
  [intros y0 N0; look; reflexivity | intros y0 N0; look; reflexivity | intros y0 N0; look; reflexivity | value_of x; look .. ];
  first [reflexivity | intros q0 Q0; congruence | split; congruence | idtac].

Lemma own_run1 : forall jobs c s m, own s m -> careful1 jobs c m = true ->
  fst (run1 jobs c s) = fst (spec1 jobs c m) /\ own (snd (run1 jobs c s)) (snd (spec1 jobs c m)).
Proof.
  intros jobs c s m O C. destruct c as [x ap rows f | x [y | ] ap rows | x | x v | x y | x]; cbn in C; cbn [run1 spec1].
  - unfold store, stored. destruct (own_cases s m x O) as [(v & V & M & FX) | [(l & V & M & FX) | (V & M & FX)]]; rewrite V, M in *; cbn [target].
    + assert (W : forall ap', own (setvar x (Res x) (mks (vars s) (files (write x ap' (arrived f rows) (setvar x (Res x) s))))) (put x (Stream (arrived f rows)) m)
        /\ own (write x ap' (arrived f rows) (setvar x (Res x) s)) (put x (Stream (arrived f rows)) m)).
      { intros ap'. split; changed O x; destruct ap'; reflexivity. }
      destruct f as [ | k].
      * destruct v; destruct ap; cbn [fst snd]; try (split; [reflexivity | exact O]); destruct jobs; cbn [fst snd]; (split; [reflexivity | apply W]).
      * rewrite orb_false_r in C. destruct jobs; [discriminate | ].
        destruct v; destruct ap; cbn [fst snd]; try (split; [reflexivity | exact O]); (split; [reflexivity | apply W]).
    + assert (W : own (setvar x (Res x) (mks (vars s) (files (write x ap (arrived f rows) (setvar x (Res x) s))))) (put x (Stream ((if ap then l else []) ++ arrived f rows)) m)
        /\ own (write x ap (arrived f rows) (setvar x (Res x) s)) (put x (Stream ((if ap then l else []) ++ arrived f rows)) m)
        /\ own (mks (vars s) (files (write x ap (arrived f rows) (setvar x (Res x) s)))) (put x (Stream ((if ap then l else []) ++ arrived f rows)) m)).
      { split; [ | split]; changed O x. }
      destruct f; destruct jobs; cbn [fst snd]; (split; [reflexivity | apply W]).
    + assert (W : own (setvar x (Res x) (mks (vars s) (files (write x ap (arrived f rows) (setvar x (Res x) s))))) (put x (Stream (arrived f rows)) m)
        /\ own (write x ap (arrived f rows) (setvar x (Res x) s)) (put x (Stream (arrived f rows)) m)).
      { split; changed O x; destruct ap; reflexivity. }
      destruct f as [ | k]; [destruct jobs; cbn [fst snd]; (split; [reflexivity | apply W]) | ].
      rewrite orb_false_r in C. destruct jobs; [discriminate | ]. cbn [fst snd]. split; [reflexivity | apply W].
  - apply andb_prop in C. destruct C as [_ C]. unfold store_param.
    destruct (own_cases s m y O) as [(v & V & M & FX) | [(l & V & M & FX) | (V & M & FX)]]; rewrite M in *; try discriminate. rewrite V. cbn [target fst snd].
    split; [reflexivity | ]. changed O y.
  - now rewrite andb_false_r in C.
  - unfold load. destruct (own_cases s m x O) as [(v & V & M & FX) | [(l & V & M & FX) | (V & M & FX)]]; rewrite V, M, ?FX; cbn; auto.
  - split; [reflexivity | ]. cbn [snd]. destruct (own_cases s m x O) as [(w & V & M & FX) | [(l & V & M & FX) | (V & M & FX)]]; changed O x.
  - destruct (String.eqb_spec x y) as [<- | N].
    + destruct (own_cases s m x O) as [(w & V & M & FX) | [(l & V & M & FX) | (V & M & FX)]]; rewrite V, M; cbn [fst snd]; (split; [reflexivity | ]); try exact O; changed O x.
    + rewrite orb_false_r in C. destruct (own_cases s m y O) as [(w & V & M & FX) | [(l & V & M & FX) | (V & M & FX)]]; rewrite V, M in *; try discriminate; cbn [fst snd];
        (split; [reflexivity | ]); try exact O. clear FX. destruct (own_cases s m x O) as [(w' & V' & M' & FX') | [(l' & V' & M' & FX') | (V' & M' & FX')]]; changed O x.
  - split; [reflexivity | ]. cbn [snd]. destruct (own_cases s m x O) as [(w & V & M & FX) | [(l & V & M & FX) | (V & M & FX)]]; changed O x.
Qed.

Lemma own_start : own empty nothing.
Proof. constructor; cbn; intros; try discriminate; [split; [now intros [] | discriminate] | reflexivity]. Qed.
Lemma own_run : forall jobs cs s m, own s m -> careful jobs cs m = true ->
  fst (run jobs cs s) = fst (spec jobs cs m) /\ own (snd (run jobs cs s)) (snd (spec jobs cs m)).
Proof.
  intros jobs. induction cs as [ | c cs IH]; intros s m O C; cbn; [auto | ]. cbn in C. apply andb_prop in C. destruct C as [C1 C2].
  destruct (own_run1 jobs c s m O C1) as [E O1]. destruct (run1 jobs c s) as [o s1], (spec1 jobs c m) as [o' m1]. cbn in *. subst o'.
  destruct (IH s1 m1 O1 C2) as [E O2]. destruct (run jobs cs s1) as [os s2], (spec jobs cs m1) as [os' m2]. cbn in *. now subst os'.
Qed.

(** What every load gives, and every command that is refused, is as if every variable had a stream of its own *)
Theorem c83_streams_partial : forall jobs cs, careful jobs cs nothing = true ->
  fst (run jobs cs empty) = fst (spec jobs cs nothing) /\ forall x, shown x (snd (run jobs cs empty)) = snd (spec jobs cs nothing) x.
Proof. intros jobs cs C. destruct (own_run jobs cs empty nothing own_start C) as [E O]. split; [exact E | apply (o_shown _ _ O)]. Qed.

(** No file is left behind when the session ends *)
Theorem c83_files_partial : forall jobs cs p, careful jobs cs nothing = true -> ~ left_behind (snd (run jobs cs empty)) p.
Proof.
  intros jobs cs p C [FP N]. destruct (own_run jobs cs empty nothing own_start C) as [_ O]. apply (N p). now apply (o_file _ _ O).
Qed.

(** In any state, store and then load give what was stored; with --append, after what load gave before *)
Theorem c83_store_load : forall jobs x append rows s s', run1 jobs (Store x append rows Done) s = (Quiet, s') ->
  (append = false -> fst (run1 jobs (Load x) s') = Rows rows) /\
  (forall l, append = true -> fst (run1 jobs (Load x) s) = Rows l -> fst (run1 jobs (Load x) s') = Rows (l ++ rows)).
Proof.
  intros jobs x append rows s s' R. cbn [run1] in *. unfold store in R.
  assert (T : exists p, target x append (vars s x) = Some p /\ (forall q, vars s x = Some (Res q) -> p = q)).
  { destruct (target x append (vars s x)) as [p | ] eqn:T; [ | discriminate R]. exists p. split; [reflexivity | ]. intros q E. rewrite E in T. cbn in T. congruence. }
  destruct T as (p & T & Q). rewrite T in R.
  assert (FS : files (setvar x (Res p) s) = files s).
  { unfold setvar. destruct (vars s x) as [[v | q] | ] eqn:E; try reflexivity. rewrite (Q q eq_refl). cbn. now rewrite String.eqb_refl. }
  assert (L : load x s' = (Rows ((if append then match files s p with Some l => l | None => [] end else []) ++ rows), s')).
  { destruct jobs; lazy beta iota zeta in R; cbn [arrived] in R; apply (f_equal snd) in R; cbn [snd] in R; subst s'.
    - set (w := mks (vars s) _). assert (FW : files (setvar x (Res p) w) = files w).
      { unfold setvar. change (vars w) with (vars s). destruct (vars s x) as [[v | q] | ] eqn:E; try reflexivity. rewrite (Q q eq_refl). cbn. now rewrite String.eqb_refl. }
      unfold load. replace (vars (setvar x (Res p) w) x) with (Some (Res p)) by (unfold setvar; cbn [vars]; now rewrite upd_same). rewrite FW. unfold w, write. cbn [files vars]. rewrite FS. now rewrite upd_same.
    - unfold load. replace (vars (write p append rows (setvar x (Res p) s)) x) with (Some (Res p)) by (unfold write, setvar; cbn [vars]; now rewrite upd_same).
      unfold write. cbn [files vars]. rewrite FS. now rewrite upd_same. }
  rewrite L. cbn [fst]. split; [intros ->; reflexivity | ]. intros l -> LD. unfold load in LD. destruct (vars s x) as [[v | q] | ] eqn:E; try discriminate LD.
  rewrite (Q q eq_refl). destruct (files s q); [now injection LD as -> | discriminate LD].
Qed.

(** In any state, a command leaves alone a variable that it does not assign, if neither a variable it names has the same stream, nor was
    the stream made for a variable of such a name *)
Theorem c83_frame : forall jobs c s z, ~ assigns c z ->
  (forall x p, names c x -> vars s z = Some (Res p) -> vars s x <> Some (Res p) /\ x <> p) ->
  shown z (snd (run1 jobs c s)) = shown z s.
Proof.
  intros jobs c s z NA H.
  assert (SV : forall x v s1, z <> x -> (forall p q, vars s1 z = Some (Res p) -> vars s1 x = Some (Res q) -> p <> q) ->
    vars (setvar x v s1) z = vars s1 z /\ (forall p, vars s1 z = Some (Res p) -> files (setvar x v s1) p = files s1 p)).
  { intros x v s1 N D. unfold setvar. destruct (vars s1 x) as [[w | q] | ] eqn:E; cbn; rewrite ?upd_other by auto; try (split; reflexivity).
    destruct (same v (Res q)); cbn; rewrite ?upd_other by auto; (split; [reflexivity | ]); intros p P; [reflexivity | ]. apply upd_other. exact (D p q P eq_refl). }
  assert (SH : forall s1 s2, vars s2 z = vars s1 z -> (forall p, vars s1 z = Some (Res p) -> files s2 p = files s1 p) -> shown z s2 = shown z s1).
  { intros s1 s2 V FF. unfold shown. rewrite V. destruct (vars s1 z) as [[w | p] | ]; auto. now rewrite FF. }
  destruct c as [x ap rows f | x [y | ] ap rows | x | x v | x y | x]; cbn [run1 assigns names] in *.
  - assert (D : forall p q, vars s z = Some (Res p) -> vars s x = Some (Res q) -> p <> q).
    { intros p q P Q ->. destruct (H x q eq_refl P) as [A _]. congruence. }
    unfold store. destruct (target x ap (vars s x)) as [t | ] eqn:T; [ | reflexivity].
    assert (DT : forall p, vars s z = Some (Res p) -> p <> t).
    { intros p P. destruct (H x p eq_refl P) as [A B]. destruct (vars s x) as [[w | q] | ]; cbn in T; [ | congruence | congruence].
      destruct w; try (destruct ap; congruence); congruence. }
    destruct (SV x (Res t) s NA D) as [V1 F1].
    assert (FI : forall p, vars s z = Some (Res p) -> files (write t ap (arrived f rows) (setvar x (Res t) s)) p = files s p).
    { intros p P. unfold write. cbn [files]. rewrite upd_other by auto. auto. }
    destruct jobs.
    + destruct f as [ | k]; cbn [snd].
      * set (w := mks (vars s) _). destruct (SV x (Res t) w NA D) as [V2 F2]. apply SH; [exact V2 | ]. intros p P. rewrite F2 by exact P. unfold w. cbn [files]. now apply FI.
      * apply SH; [reflexivity | ]. intros p P. cbn [files]. now apply FI.
    + cbn [snd]. apply SH; [exact V1 | exact FI].
  - unfold store_param. destruct (vars s y) as [u | ] eqn:Y; [ | reflexivity]. destruct (target x ap (Some u)) as [t | ] eqn:T; [ | reflexivity]. cbn [snd].
    apply SH; [reflexivity | ]. intros p P. cbn. apply upd_other. intros ->. destruct (H x t (or_introl eq_refl) P) as [_ B].
    destruct (H y t (or_intror eq_refl) P) as [A _]. destruct u as [w | q]; cbn in T; [ | congruence]. destruct w; try (destruct ap; congruence); congruence.
  - unfold store_param. cbn. apply SH; [reflexivity | ]. intros p P. cbn. apply upd_other. intros ->. destruct (H x x (or_introl eq_refl) P) as [_ B]. congruence.
  - unfold load. destruct (vars s x) as [[w | q] | ]; try reflexivity. now destruct (files s q).
  - cbn [snd]. destruct (SV x (Plain v) s NA) as [V FF]; [ | now apply SH]. intros p q P Q ->. destruct (H x q eq_refl P) as [A _]. congruence.
  - destruct (vars s y) as [u | ]; [ | reflexivity]. cbn [snd]. destruct (SV x u s NA) as [V FF]; [ | now apply SH].
    intros p q P Q ->. destruct (H x q eq_refl P) as [A _]. congruence.
  - cbn [snd]. unfold delvar. destruct (vars s x) as [[w | q] | ] eqn:E; [ | | reflexivity]; apply SH; cbn; rewrite ?upd_other by auto; auto.
    intros p P. apply upd_other. intros ->. destruct (H x q eq_refl P) as [A _]. congruence.
Qed.

(** ** Where it fails *)
(** y = (x), and then a store to y replaces the stream of x *)
Theorem c83_alias_refuted : forall jobs r r', 
  fst (run jobs [Store "x" false r Done; Copy "y" "x"; Store "y" false r' Done; Load "x"] empty) = [Quiet; Quiet; Quiet; Rows r'] /\
  fst (spec jobs [Store "x" false r Done; Copy "y" "x"; Store "y" false r' Done; Load "x"] nothing) = [Quiet; Quiet; Quiet; Rows r].
Proof. intros [] r r'; split; reflexivity. Qed.
(** y = (x), and then assigning x, or deleting it, makes the stream of y unreadable; and a new stream for x is also that of y *)
Theorem c83_deleted_refuted : forall jobs r r' v,
  fst (run jobs [Store "x" false r Done; Copy "y" "x"; Assign "x" v; Load "y"] empty) = [Quiet; Quiet; Quiet; Refused] /\
  fst (run jobs [Store "x" false r Done; Copy "y" "x"; Delete "x"; Load "y"] empty) = [Quiet; Quiet; Quiet; Refused] /\
  fst (run jobs [Store "x" false r Done; Copy "y" "x"; Delete "x"; Store "x" false r' Done; Load "y"] empty) = [Quiet; Quiet; Quiet; Quiet; Rows r'] /\
  fst (spec jobs [Store "x" false r Done; Copy "y" "x"; Delete "x"; Store "x" false r' Done; Load "y"] nothing) = [Quiet; Quiet; Quiet; Quiet; Rows r].
Proof. intros [] r r' v; repeat split; reflexivity. Qed.
(** A job that fails leaves a file to which a later store --append is appended, though x did not exist; and which stays for ever *)
Theorem c83_failed_job_refuted : forall r k r',
  fst (run true [Store "x" false r (Failed k); Load "x"; Store "x" true r' Done; Load "x"] empty) = [Refused; Refused; Quiet; Rows (firstn k r ++ r')] /\
  fst (spec true [Store "x" false r (Failed k); Load "x"; Store "x" true r' Done; Load "x"] nothing) = [Refused; Refused; Quiet; Rows r'] /\
  left_behind (snd (run true [Store "x" false r (Failed k)] empty)) "x".
Proof. intros r k r'. repeat split; try reflexivity; cbn; discriminate. Qed.
(** A store to a parameter to which no stream was passed replaces the stream of the variable of the same name *)
Theorem c83_parameter_refuted : forall r r' v,
  fst (run true [Store "x" false r Done; StoreParam "x" None false r'; Load "x"] empty) = [Quiet; Quiet; Rows r'] /\
  fst (run true [Store "x" false r Done; Assign "y" v; StoreParam "x" (Some "y") false r'; Load "x"] empty) = [Quiet; Quiet; Quiet; Rows r'] /\
  fst (spec true [Store "x" false r Done; Assign "y" v; StoreParam "x" (Some "y") false r'; Load "x"] nothing) = [Quiet; Quiet; Quiet; Rows r] /\
  left_behind (snd (run true [StoreParam "x" None false r'] empty)) "x".
Proof. intros r r' v. repeat split; try reflexivity; try discriminate; destruct v; reflexivity. Qed.

(** ** Cases *)
Example c83_case :
  let cs := [Store "x" false [VInt 1; VInt 2] Done; Assign "y" (VInt 7); Store "y" true [VInt 3] Done; Store "y" false [VInt 3] Done; Store "x" true [VInt 4; VInt 5] (Failed 1);
             StoreParam "p" (Some "y") true [VInt 6]; Load "x"; Load "y"; Assign "x" VNone; Load "x"; Store "x" true [VInt 8] Done; Load "x"; Delete "y"; Load "y"] in
  careful true cs nothing = true /\
  fst (run true cs empty) = [Quiet; Quiet; Refused; Quiet; Refused; Quiet; Rows [VInt 1; VInt 2; VInt 4]; Rows [VInt 3; VInt 6]; Quiet; Refused; Quiet; Rows [VInt 8]; Quiet; Refused].
Proof. split; reflexivity. Qed.
Example c83_store_load_case : exists s', run1 true (Store "x" true [VInt 2] Done) (snd (run true [Store "x" false [VInt 1] Done] empty)) = (Quiet, s') /\
  fst (run1 true (Load "x") (snd (run true [Store "x" false [VInt 1] Done] empty))) = Rows [VInt 1].
Proof. eexists. split; reflexivity. Qed.
Example c83_frame_case : let s := snd (run true [Store "x" false [VInt 1] Done; Copy "y" "x"; Store "z" false [VInt 2] Done] empty) in
  ~ assigns (Assign "y" VNone) "z" /\ (forall x p, names (Assign "y" VNone) x -> vars s "z" = Some (Res p) -> vars s x <> Some (Res p) /\ x <> p) /\
  shown "z" s = Some (Stream [VInt 2]) /\ shown "x" (snd (run1 true (Assign "y" VNone) s)) = None.
Proof.
  cbn. split; [discriminate | ]. split; [ | split; reflexivity]. intros x p -> E. injection E as <-. split; discriminate.
Qed.

Print Assumptions c83_streams_partial.
Print Assumptions c83_files_partial.
Print Assumptions c83_store_load.
Print Assumptions c83_frame.
Print Assumptions c83_alias_refuted.
Print Assumptions c83_deleted_refuted.
Print Assumptions c83_failed_job_refuted.
Print Assumptions c83_parameter_refuted.
