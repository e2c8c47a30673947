(** What a call of an API function asks for. *)
From Verif.Syntax Require Export ArgsSpec ApiCalls.
Local Open Scope char_scope.
Local Open Scope list_scope.

(** The arguments that the caller gives by name. A parameter has the name that the operator's command line uses for it; [depth] stands
    for the flags [-0] and [-1]. A switch is on, or not mentioned; a parameter that is None is not mentioned either. *)
Definition on (n : text) (b : bool) : list (text * obj) := if b then [(n, OTrue)] else [].
Definition with_value (n : text) (v : obj) : list (text * obj) := match v with ONone => [] | _ => [(n, v)] end.
Definition at_depth (v : obj) : list (text * obj) :=
  match v with
  | OInt 0%Z => [(txt "d0", OTrue)]
  | OInt 1%Z => [(txt "d1", OTrue)]
  | _ => []
  end.
(** A positional parameter that may be left out *)
Definition if_given (v : obj) : list obj := match v with ONone => [] | _ => [v] end.

Definition by_name (c : call) : list (text * obj) :=
  match c with
  | CArgs _ all => on (txt "all") all
  | CBash _ interactive => on (txt "interactive") interactive
  | CDirs clear => on (txt "clear") (match clear with Some b => b | None => false end)
  | CEnv _ delete pattern os builtins =>
      with_value (txt "delete") delete ++ with_value (txt "pattern") pattern ++ on (txt "os") os ++ on (txt "builtins") builtins
  | CFilt _ compare keep discard => on (txt "keep") keep ++ on (txt "discard") discard ++ with_value (txt "compare") compare
  | CGen _ _ pad => with_value (txt "pad") pad
  | CJoin _ keep => on (txt "keep") keep
  | CLs _ depth recursive file dir symlink =>
      at_depth depth ++ on (txt "dr") recursive ++ on (txt "file") file ++ on (txt "dir") dir ++ on (txt "symlink") symlink
  | CRead _ depth recursive csv tsv headings skip_headings pickle json label =>
      at_depth depth ++ on (txt "dr") recursive ++ on (txt "csv") csv ++ on (txt "tsv") tsv ++ on (txt "headings") headings ++
      on (txt "skip_headings") skip_headings ++ on (txt "pickle") pickle ++ on (txt "json") json ++ on (txt "label") label
  | CRed _ incremental => on (txt "incremental") incremental
  | CSql _ db autocommit update_counts commit =>
      with_value (txt "db") db ++ on (txt "autocommit") autocommit ++ on (txt "update_counts") update_counts ++ with_value (txt "commit") commit
  | CStore _ append => on (txt "append") append
  | CTrace off on_ file => on (txt "off") off ++ on (txt "on") on_ ++ with_value (txt "file") file
  | CUnique consecutive => on (txt "consecutive") consecutive
  | CWindow _ overlap disjoint => with_value (txt "overlap") overlap ++ with_value (txt "disjoint") disjoint
  | CWrite _ csv tsv pickle format append =>
      on (txt "csv") csv ++ on (txt "tsv") tsv ++ on (txt "pickle") pickle ++ with_value (txt "format") format ++ on (txt "append") append
  | _ => []
  end.

(** The operator that a function stands for: the declarations of its arguments *)
Definition declared (c : call) : decl :=
  match c with
  | CArgs _ _ => op_args | CAssign _ _ => op_assign | CBash _ _ => op_bash | CCase _ => op_case | CCast _ => op_cast | CCd _ => op_cd
  | CDifference _ => op_difference | CDirs _ => op_dirs | CDownload _ _ _ => op_download | CEnv _ _ _ _ _ => op_env
  | CExpand _ => op_expand | CFilt _ _ _ _ => op_filter | CFork _ _ => op_fork | CGen _ _ _ => op_gen | CHead _ => op_head
  | CIntersect _ => op_intersect | CJoin _ _ => op_join | CLoad _ => op_load | CLs _ _ _ _ _ _ => op_ls | CMap _ => op_map
  | CPopd => op_popd | CPushd _ => op_pushd | CPwd => op_pwd | CRead _ _ _ _ _ _ _ _ _ _ => op_read | CRed _ _ => op_red
  | CRemote _ _ => op_remote | CReverse => op_reverse | CSelect _ => op_select | CSort _ => op_sort | CSql _ _ _ _ _ => op_sql
  | CSquish _ => op_squish | CStore _ _ => op_store | CSudo _ _ => op_sudo | CTail _ => op_tail | CTimer _ => op_timer
  | CTrace _ _ _ => op_trace | CUnion _ => op_union | CUnique _ => op_unique | CUpload _ _ _ => op_upload | CVersion => op_version
  | CWindow _ _ _ => op_window | CWrite _ _ _ _ _ _ => op_write
  end.

(** The arguments given by position. In [red], None stands for the grouping function. *)
Definition by_position (r_group : obj) (c : call) : list obj :=
  match c with
  | CArgs f _ => [f]
  | CAssign var value => [var; value]
  | CBash args _ => args
  | CCase args => args
  | CCast functions => functions
  | CCd directory => if_given directory
  | CDifference p => [p]
  | CDownload dir cluster paths => dir :: cluster :: paths
  | CEnv var _ _ _ _ => if_given var
  | CExpand position => if_given position
  | CFilt p _ _ _ => [p]
  | CFork forkgen p => [forkgen; p]
  | CGen count start _ => [count; start]
  | CHead n => [n]
  | CIntersect p => [p]
  | CJoin p _ => [p]
  | CLoad target => [target]
  | CLs paths _ _ _ _ _ => paths
  | CMap f => if_given f
  | CPushd directory => if_given directory
  | CRead filenames _ _ _ _ _ _ _ _ _ => filenames
  | CRed functions _ => map (fun f => match f with ONone => r_group | _ => f end) functions
  | CRemote cluster p => [cluster; p]
  | CSelect f => if_given f
  | CSort key => if_given key
  | CSql args _ _ _ _ => args
  | CSquish f => if_given f
  | CStore var _ => [var]
  | CSudo p args => args ++ [p]
  | CTail n => [n]
  | CTimer interval => [interval]
  | CUnion ps => ps
  | CUpload cluster dir paths => cluster :: dir :: paths
  | CWindow predicate _ _ => if_given predicate
  | CWrite filename _ _ _ _ _ => if_given filename
  | _ => []
  end.

(** [granted conv d named pos attrs]: the operator declared by [d] gets the attributes [attrs], for the arguments [named] and [pos]. The
    restrictions on combinations of arguments are met; a switch sets its attribute to True; a named argument its attribute to the
    converted value; the positional arguments are converted and used in order, those left out having their defaults. *)
Definition flag_gets (conv : text -> obj -> option obj) (d : decl) (a : text * obj) (tv : text * obj) : Prop :=
  exists f, In f (d_flags d) /\ f_name f = fst a /\ fst tv = f_target f /\
    match f_value f with
    | VNone => snd tv = OTrue
    | _ => conv (fst a) (snd a) = Some (snd tv) /\ (f_value f = VOne -> snd tv <> OTrue)
    end.

Definition granted (conv : text -> obj -> option obj) (d : decl) (named : list (text * obj)) (pos : list obj) (attrs : list (text * obj)) : Prop :=
  let names := map fst named ++ map a_name (firstn (length pos) (d_anons d)) in
  (forall g, In g (d_at_most d) -> at_most_one_of g names) /\
  (forall g, In g (d_exactly d) -> at_most_one_of g names /\ one_of g names) /\
  exists ftvs avs rest,
    Forall2 (flag_gets conv d) named ftvs /\
    fills conv (d_anons d) pos avs rest /\
    match d_list d with
    | None => rest = [] /\ attrs = ftvs ++ combine (map a_target (d_anons d)) avs
    | Some (n, t) => exists lvs, Forall2 (fun o v => conv n o = Some v) rest lvs /\
        attrs = ftvs ++ combine (map a_target (d_anons d)) avs ++ [(t, OList lvs)]
    end.

(** ** The calls that the functions can pass on *)

(** No value looks like a flag, where that matters: the value of a named argument, or the first positional argument of an operator
    that has flags, is no string that starts with a dash (and is longer); the others are no flags of the operator. *)
Definition no_flags (d : decl) (named : list (text * obj)) (pos : list obj) : Prop :=
  (forall n v, In (n, v) named -> ~ dash_word v) /\
  (forall v r, pos = v :: r -> d_flags d <> [] -> ~ dash_word v) /\
  (forall v, In v pos -> ~ known d v /\ forall cs, ~ cluster d v cs).

(** Parameters that are given have values other than 0 and the empty string, where the functions only test that; clear is not False, and
    the depth, if given, is 0 or 1. *)
Definition given_or_none (v : obj) : Prop := v = ONone \/ truthy v = true.
Definition plain_values (c : call) : Prop :=
  match c with
  | CDirs clear => clear <> Some false
  | CEnv var delete pattern _ _ => given_or_none var /\ given_or_none delete /\ given_or_none pattern
  | CFilt _ compare _ _ => given_or_none compare
  | CGen _ _ pad => given_or_none pad
  | CLs _ depth _ _ _ _ => depth = ONone \/ depth = OInt 0 \/ depth = OInt 1
  | CRead _ depth _ _ _ _ _ _ _ _ => depth = ONone \/ depth = OInt 0 \/ depth = OInt 1
  | CSql _ db _ _ _ => given_or_none db
  | CTrace _ _ file => given_or_none file
  | CWindow predicate _ _ => given_or_none predicate
  | CWrite filename _ _ _ format _ => given_or_none filename /\ given_or_none format
  | _ => True
  end.

(** Arguments of the kinds that the functions insist on *)
Definition right_kinds (oplist callable str_or_reservoir : obj -> bool) (c : call) : Prop :=
  match c with
  | CArgs f _ => callable f = true
  | CDifference p | CFilt p _ _ _ | CIntersect p | CJoin p _ | CRemote _ p | CSudo p _ => oplist p = true
  | CFork _ p => oplist p = true \/ callable p = true
  | CLoad v | CStore v _ => str_or_reservoir v = true
  | CUnion ps => forall p, In p ps -> oplist p = true
  | CSql args _ _ _ _ => args <> []
  | _ => True
  end.
