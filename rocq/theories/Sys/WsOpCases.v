(** Sessions of ws commands: concrete cases. *)
From Verif.Sys Require Export WsOpProps.
Local Open Scope string_scope.
Local Open Scope list_scope.

(** A first start of marcel: the default workspace only *)
Definition fresh : session := mks fst_run default "{}" None.
Definition nothing : state := mkst (fun _ => None) "{}" None.
Example fresh_represents : represents 5 alive5 (fun _ => None) fresh nothing.
Proof.
  constructor; cbn [disk here vars home fresh current shelf base nothing]; try reflexivity; try discriminate; try congruence.
  - apply tidyb_ok. vm_compute. reflexivity.
  - intros [ | ]; reflexivity.
  - exists "S". vm_compute. reflexivity.
  - intros n [PR ND]. change (absent n fst_run). intros b r. destruct (look (place b n ++ r) fst_run) eqn:E; [ | reflexivity]. exfalso.
    assert (I : In (place b n ++ r) (map fst fst_run)) by (apply look_in; congruence). vm_compute in I.
    repeat (destruct I as [I | I]; [destruct b; cbn in I; try discriminate I; injection I; intros; subst; try congruence; now apply ND | ]). destruct I.
Qed.

Definition w (l : list string) : event := Ws (map word l).
Definition home_of (s : string) : string := ("/u/" ++ s)%string.
Definition lines : list event :=
  [Assign "{a:1}"; w ["-n"; "foo"]; Assign "{x:1}"; w ["--home"; "src"]; w ["--new"; "bar"]; Assign "{y:2}"; w ["--new"; "foo"];
   w ["--list"]; w ["foo"]; w []; w ["-d"; "foo"]; w ["-d"; "bar"]; w ["-l"]; w ["bar"]; w ["-c"]; w ["--home"; "src"]].
Example c77_session_case :
  Forall (fair (fun _ => None)) lines /\
  exists v, execute 5 alive5 home_of fresh lines =
    ([Shown [("foo", None)]; Shown [("foo", Some "/u/src")]; Shown [("bar", None)]; Refused;
      Shown [("", None); ("bar", None); ("foo", Some "/u/src")]; Shown [("foo", None)]; Shown [("foo", Some "/u/src")]; Refused; Shown [];
      Shown [("", None); ("foo", Some "/u/src")]; Refused; Shown [("", None)]; Refused],
     Going (mks v default "{a:1}" None)).
Proof.
  assert (US : usable "foo" /\ usable "bar") by (split; (split; [apply properb_ok; reflexivity | discriminate])). destruct US as [UF UB].
  split; [ | eexists; vm_compute; reflexivity].
  assert (PL : forall s, match s with String "-" _ => false | _ => true end = true -> plain s) by (intros s H r ->; discriminate H).
  repeat (constructor; [try discriminate; match goal with
    | |- fair _ (w ["-n"; ?n]) => exists (New n); split; [constructor; [cbn; auto | now apply PL] | assumption]
    | |- fair _ (w ["--new"; ?n]) => exists (New n); split; [constructor; [cbn; auto | now apply PL] | assumption]
    | |- fair _ (w ["-d"; ?n]) => exists (Delete n); split; [constructor; [cbn; auto | now apply PL] | assumption]
    | |- fair _ (w ["--home"; ?n]) => exists (Home n); split; [constructor; [cbn; auto | now apply PL] | exact I]
    | |- fair _ (w ["--list"]) => exists All; split; [constructor; cbn; auto | exact I]
    | |- fair _ (w ["-l"]) => exists All; split; [constructor; cbn; auto | exact I]
    | |- fair _ (w ["-c"]) => exists Close; split; [constructor; cbn; auto | exact I]
    | |- fair _ (w []) => exists Which; split; [constructor | exact I]
    | |- fair _ (w [?n]) => exists (Open n); split; [constructor; now apply PL | split; [assumption | reflexivity]]
    end | ]).
  constructor.
Qed.

(** Process 5 has workspace bar open, process 6 has foo *)
Definition alive56 (q : nat) : bool := Nat.eqb q 5 || Nat.eqb q 6.
Definition by_6 (n : string) : option nat := if String.eqb n "foo" then Some 6 else None.
Definition two : fs := Eval vm_compute in
  match execute 6 alive56 home_of (mks fst_run default "{}" None) [w ["-n"; "foo"]] with
  | (_, Going s) => match execute 5 alive56 home_of (mks (disk s) default "{}" None) [w ["-n"; "bar"]] with (_, Going s') => disk s' | _ => [] end
  | _ => []
  end.
Example c77_busy_case : exists v,
  execute 5 alive56 home_of (mks two (named "bar") "{y:2}" None) [w ["-d"; "foo"]; w ["foo"]] = ([Refused; Shown [("foo", None)]], Ended v) /\
  look (env_file 5 (named "bar")) v = Some (F "{y:2}").
Proof. eexists. split; vm_compute; reflexivity. Qed.

(** The hypotheses of the theorem about it *)
Definition shelf2 (n : string) : option (string * option string) := if String.eqb n "foo" || String.eqb n "bar" then Some ("{}", None) else None.
Example two_represents : represents 5 alive56 by_6 (mks two (named "bar") "{}" None) (mkst shelf2 "{}" (Some "bar")).
Proof.
  assert (US : usable "foo" /\ usable "bar") by (split; (split; [apply properb_ok; reflexivity | discriminate])). destruct US as [UF UB].
  assert (ON : forall n, shelf2 n <> None -> n = "foo" \/ n = "bar").
  { intros n H. unfold shelf2 in H. destruct (String.eqb_spec n "foo"); [auto | ]. destruct (String.eqb_spec n "bar"); [auto | ]. now destruct H. }
  constructor; cbn [disk here vars home current shelf base]; try reflexivity; try discriminate.
  - apply tidyb_ok. vm_compute. reflexivity.
  - intros [ | ]; reflexivity.
  - exists "S". vm_compute. reflexivity.
  - intros n [PR ND]. unfold on_disk. cbn [shelf current]. unfold marks_of. cbn [current]. unfold shelf2.
    assert (OUT : n <> "foo" -> n <> "bar" -> absent n two).
    { intros N1 N2 b r. destruct (look (place b n ++ r) two) eqn:E; [ | reflexivity]. exfalso.
      assert (I : In (place b n ++ r) (map fst two)) by (apply look_in; congruence). vm_compute in I.
      repeat (destruct I as [I | I]; [destruct b; cbn in I; try discriminate I; injection I; intros; subst; try congruence; try (now apply ND); try (now apply N1); now apply N2 | ]). destruct I. }
    assert (IN : forall n, n = "foo" \/ n = "bar" -> contents n (if String.eqb n "foo" then held 6 else held 5) "S" "{}" "N" "" no_reservoirs two).
    { intros m E. split; intros r.
      - destruct (look (place Config m ++ r) two) eqn:L.
        + assert (I : In (place Config m ++ r, e) two) by (apply look_some; exact L). vm_compute in I.
          repeat (destruct I as [I | I]; [cbn in I; destruct E; subst m; cbn in I; try discriminate I; injection I; intros; subst; try discriminate; reflexivity | ]). destruct I.
        + destruct r as [ | [z | k | q] [ | y r]]; try reflexivity; [destruct E; subst m; vm_compute in L; discriminate L | | ].
          * cbn [config_files]. destruct (String.eqb_spec z "startup.py") as [-> | ]; [ | reflexivity]. destruct E; subst m; vm_compute in L; discriminate L.
          * cbn [config_files]. destruct ((if String.eqb m "foo" then held 6 else held 5) k) eqn:HK; [ | reflexivity].
            destruct k as [q | ]; [ | destruct E; subst m; cbn in HK; discriminate HK].
            destruct E; subst m; cbn [String.eqb Ascii.eqb Bool.eqb] in HK; unfold held in HK; apply Nat.eqb_eq in HK; subst q; vm_compute in L; discriminate L.
      - destruct (look (place Data m ++ r) two) eqn:L.
        + assert (I : In (place Data m ++ r, e) two) by (apply look_some; exact L). vm_compute in I.
          repeat (destruct I as [I | I]; [cbn in I; destruct E; subst m; cbn in I; try discriminate I; injection I; intros; subst; try discriminate; reflexivity | ]). destruct I.
        + destruct r as [ | [z | k | q] [ | y r]]; try reflexivity; [destruct E; subst m; vm_compute in L; discriminate L | | ].
          * cbn [data_files]. destruct (String.eqb_spec z "env.pickle") as [-> | ]; [destruct E; subst m; vm_compute in L; discriminate L | ].
            destruct (String.eqb_spec z "properties.pickle") as [-> | ]; [destruct E; subst m; vm_compute in L; discriminate L | ].
            destruct (String.eqb_spec z "history") as [-> | ]; [destruct E; subst m; vm_compute in L; discriminate L | ].
            destruct (String.eqb_spec z "reservoirs") as [-> | ]; [destruct E; subst m; vm_compute in L; discriminate L | ]. reflexivity.
          * destruct r; cbn [data_files]; [ | reflexivity]. destruct (String.eqb z "reservoirs"); reflexivity. }
    destruct (String.eqb_spec n "foo") as [-> | N1]; cbn [orb].
    + split; [discriminate | ]. exists "S", "{}", "", no_reservoirs. split; [ | auto]. apply (IN "foo"). auto.
    + destruct (String.eqb_spec n "bar") as [-> | N2]; [ | auto]. split; [discriminate | ]. exists "S", "{}", "", no_reservoirs. split; [ | auto]. apply (IN "bar"). auto.
  - intros n H. destruct (ON n H); subst; assumption.
  - intros n E. injection E as <-. split; [discriminate | reflexivity].
  - intros n q E. unfold by_6 in E. destruct (String.eqb_spec n "foo") as [-> | ]; [ | discriminate E]. injection E as <-. split; [reflexivity | ]. split; [discriminate | discriminate].
  - intros _. right. vm_compute. reflexivity.
Qed.
Example c77_busy_hypotheses : usable "foo" /\ by_6 "foo" = Some 6 /\ written [word "foo"] (Open "foo").
Proof. split; [split; [apply properb_ok; reflexivity | discriminate] | ]. split; [reflexivity | ]. constructor. intros r E. discriminate E. Qed.

(** Two names *)
Example c77_extra_name_case : fst (command 5 alive5 home_of fresh (map word ["--new"; "foo"; "bar"])) = Shown [("foo", None)].
Proof. vm_compute. reflexivity. Qed.
Example c77_not_implemented_case : exists m, parse (map word ["--rename"; "foo"; "bar"]) = Some m /\ choose m = WsRename.
Proof. eexists. split; vm_compute; reflexivity. Qed.

Print Assumptions c77_session_partial.
Print Assumptions c77_variables_kept_partial.
Print Assumptions c77_delete_broken.
Print Assumptions c77_busy_refuted.
Print Assumptions c77_extra_name_refuted.
Print Assumptions c77_not_implemented_refuted.
Print Assumptions c77_api_refuted.
