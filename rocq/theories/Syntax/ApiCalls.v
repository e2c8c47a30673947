(** The functions of the Python API (marcel/api.py): the argument lists they give to the argument parser. *)
From Verif.Syntax Require Export Args ArgsTable.
Local Open Scope list_scope.

(** A call of an API function, with its actual parameters; a parameter left out has its default value. Parameters that are only
    tested ([if all:]) are booleans, the truth value of what is passed. (api.py:108-234: each function passes its arguments on to the
    function of the same name in op/*.py.) *)
Inductive call : Type :=
| CArgs (pipeline_function : obj) (all : bool)
| CAssign (var value : obj)
| CBash (bash_args : list obj) (interactive : bool)
| CCase (args : list obj)
| CCast (functions : list obj)
| CCd (directory : obj)
| CDifference (pipeline : obj)
| CDirs (clear : option bool)
| CDownload (dir cluster : obj) (paths : list obj)
| CEnv (var delete pattern : obj) (os builtins : bool)
| CExpand (position : obj)
| CFilt (pipeline compare : obj) (keep discard : bool)
| CFork (forkgen pipeline : obj)
| CGen (count start pad : obj)
| CHead (n : obj)
| CIntersect (pipeline : obj)
| CJoin (pipeline : obj) (keep : bool)
| CLoad (target : obj)
| CLs (paths : list obj) (depth : obj) (recursive file dir symlink : bool)
| CMap (function : obj)
| CPopd
| CPushd (directory : obj)
| CPwd
| CRead (filenames : list obj) (depth : obj) (recursive csv tsv headings skip_headings pickle json label : bool)
| CRed (functions : list obj) (incremental : bool)
| CRemote (cluster pipeline : obj)
| CReverse
| CSelect (function : obj)
| CSort (key : obj)
| CSql (args : list obj) (db : obj) (autocommit update_counts : bool) (commit : obj)
| CSquish (function : obj)
| CStore (var : obj) (append : bool)
| CSudo (pipeline : obj) (args : list obj)
| CTail (n : obj)
| CTimer (interval : obj)
| CTrace (off on : bool) (file : obj)
| CUnion (pipelines : list obj)
| CUnique (consecutive : bool)
| CUpload (cluster dir : obj) (paths : list obj)
| CVersion
| CWindow (predicate overlap disjoint : obj)
| CWrite (filename : obj) (csv tsv pickle : bool) (format : obj) (append : bool).

(** The operator: the declarations of its arguments *)
Definition operator (c : call) : decl :=
  match c with
  | CArgs _ _ => op_args | CAssign _ _ => op_assign | CBash _ _ => op_bash | CCase _ => op_case | CCast _ => op_cast | CCd _ => op_cd
  | CDifference _ => op_difference | CDirs _ => op_dirs | CDownload _ _ _ => op_download | CEnv _ _ _ _ _ => op_env
  | CExpand _ => op_expand | CFilt _ _ _ _ => op_filter | CFork _ _ => op_fork | CGen _ _ _ => op_gen | CHead _ => op_head
  | CIntersect _ => op_intersect | CJoin _ _ => op_join | CLoad _ => op_load | CLs _ _ _ _ _ _ => op_ls | CMap _ => op_map
  | CPopd => op_popd | CPushd _ => op_pushd | CPwd => op_pwd | CRead _ _ _ _ _ _ _ _ _ _ => op_read | CRed _ _ => op_red
  | CRemote _ _ => op_remote | CReverse => op_reverse | CSelect _ => op_select | CSort _ => op_sort | CSql _ _ _ _ _ => op_sql
  | CSquish _ => op_squish | CStore _ _ => op_store | CSudo _ _ => op_sudo | CTail _ => op_tail | CTimer _ => op_timer
  | CTrace _ _ _ => op_trace | CUnion _ => op_union | CUnique _ => op_unique | CUpload _ _ _ => op_upload | CVersion => op_version
  | CWindow _ _ _ => op_window | CWrite _ _ _ _ _ _ => op_write
  end.

(** bool(x). (Simplification: other objects, OOther, count as true: functions, pipelines, files and clusters do.) *)
Definition truthy (o : obj) : bool :=
  match o with
  | ONone => false
  | OStr [] => false
  | OInt n => negb (Z.eqb n 0)
  | OList [] => false
  | _ => true
  end.
Definition is_none (o : obj) : bool := match o with ONone => true | _ => false end.
Definition equals (o : obj) (n : Z) : bool := match o with OInt m => Z.eqb m n | OTrue => Z.eqb 1 n | _ => false end.
(** [if b: args.append(s)]; [if b: args.extend([s, v])]; [if b: args.append(v)] *)
Definition add (b : bool) (s : text) : list obj := if b then [OStr s] else [].
Definition add2 (b : bool) (s : text) (v : obj) : list obj := if b then [OStr s; v] else [].
Definition add1 (b : bool) (v : obj) : list obj := if b then [v] else [].

Section Api.
(** isinstance(x, OpList), callable(x), isinstance(x, (str, Reservoir)) *)
Variable oplist callable str_or_reservoir : obj -> bool.
(** reduction.r_group *)
Variable r_group : obj.

(** The argument list, None: an exception. The functions are those of op/*.py: args.py:47-51, assign.py:24-25, bash.py:71-74, case.py:60-61,
    cast.py:34-35, cd.py:34-35, difference.py:52-54, dirs.py:31-32, download.py:54-55, env.py:65-77, expand.py:72-73, filter.py:64-74,
    fork.py:94-96, gen.py:39-43, head.py:33-34, intersect.py:42-44, join.py:73-77, load.py:54-58, ls.py:57-72, map.py:37-38,
    popd.py:29-30, pushd.py:37-38, pwd.py:28-29, read.py:93-125, red.py:115-118, remote.py:65-68, reverse.py:26-27, select.py:34-35,
    sort.py:36-37, sql.py:72-89, squish.py:43-44, store.py:58-67, sudo.py:45-49, tail.py:34-35, timer.py:34-35, trace.py:49-58,
    union.py:38-43, unique.py:37-38, upload.py:55-56, version.py:28-29, window.py:99-107, write.py:69-83. ([remote]: the pipeline is an
    OpList, and so not callable, and passed as it is.) *)
Definition arglist (c : call) : option (list obj) :=
  match c with
  | CArgs f all => if callable f then Some (add all (txt "--all") ++ [f]) else None
  | CAssign var value => Some [var; value]
  | CBash args interactive => Some (add interactive (txt "--interactive") ++ args)
  | CCase args => Some args
  | CCast functions => Some functions
  | CCd directory => Some (add1 (negb (is_none directory)) directory)
  | CDifference p => if oplist p then Some [p] else None
  | CDirs clear => Some (match clear with None => [] | Some _ => [OStr (txt "--clear")] end)
  | CDownload dir cluster paths => Some ([dir; cluster] ++ paths)
  | CEnv var delete pattern os builtins =>
      Some (add2 (truthy delete) (txt "-d") delete ++ add2 (truthy pattern) (txt "-p") pattern ++ add os (txt "--os") ++
            add builtins (txt "--builtins") ++ add1 (truthy var) var)
  | CExpand position => Some (add1 (negb (is_none position)) position)
  | CFilt p compare keep discard =>
      if oplist p then Some (add keep (txt "--keep") ++ add discard (txt "--discard") ++ add2 (truthy compare) (txt "--compare") compare ++ [p])
      else None
  | CFork forkgen p => if oplist p || callable p then Some [forkgen; p] else None
  | CGen count start pad => Some (add2 (truthy pad) (txt "--pad") pad ++ [count; start])
  | CHead n => Some [n]
  | CIntersect p => if oplist p then Some [p] else None
  | CJoin p keep => if oplist p then Some (add keep (txt "--keep") ++ [p]) else None
  | CLoad target => if str_or_reservoir target then Some [target] else None
  | CLs paths depth recursive file dir symlink =>
      Some ((if equals depth 0 then [OStr (txt "-0")] else if equals depth 1 then [OStr (txt "-1")] else []) ++
            add recursive (txt "--recursive") ++ add file (txt "--file") ++ add dir (txt "--dir") ++ add symlink (txt "--symlink") ++ paths)
  | CMap f => Some (add1 (negb (is_none f)) f)
  | CPopd => Some []
  | CPushd directory => Some (add1 (negb (is_none directory)) directory)
  | CPwd => Some []
  | CRead filenames depth recursive csv tsv headings skip_headings pickle json label =>
      Some ((if equals depth 0 then [OStr (txt "-0")] else if equals depth 1 then [OStr (txt "-1")] else []) ++
            add recursive (txt "--recursive") ++ add csv (txt "--csv") ++ add tsv (txt "--tsv") ++ add headings (txt "--headings") ++
            add skip_headings (txt "--skip-headings") ++ add pickle (txt "--pickle") ++ add json (txt "--json") ++
            add label (txt "--label") ++ filenames)
  | CRed functions incremental =>
      Some (add incremental (txt "--incremental") ++ map (fun f => if is_none f then r_group else f) functions)
  | CRemote cluster p => if oplist p then Some [cluster; p] else None
  | CReverse => Some []
  | CSelect f => Some (add1 (negb (is_none f)) f)
  | CSort key => Some (add1 (negb (is_none key)) key)
  | CSql args db autocommit update_counts commit =>
      match args with
      | [] => None
      | statement :: args =>
          Some (add2 (truthy db) (txt "--db") db ++ add autocommit (txt "--autocommit") ++ add update_counts (txt "--update-counts") ++
                add2 (negb (is_none commit)) (txt "--commit") commit ++ [statement] ++ args)
      end
  | CSquish f => Some (add1 (negb (is_none f)) f)
  | CStore var append => if str_or_reservoir var then Some (add append (txt "--append") ++ [var]) else None
  | CSudo p args => if oplist p then Some (args ++ [p]) else None
  | CTail n => Some [n]
  | CTimer interval => Some [interval]
  | CTrace off on file => Some (add off (txt "--off") ++ add on (txt "--on") ++ add2 (truthy file) (txt "--file") file)
  | CUnion ps => if forallb oplist ps then Some ps else None
  | CUnique consecutive => Some (add consecutive (txt "--consecutive"))
  | CUpload cluster dir paths => Some ([cluster; dir] ++ paths)
  | CVersion => Some []
  | CWindow predicate overlap disjoint =>
      Some (add2 (negb (is_none overlap)) (txt "--overlap") overlap ++ add2 (negb (is_none disjoint)) (txt "--disjoint") disjoint ++
            add1 (truthy predicate) predicate)
  | CWrite filename csv tsv pickle format append =>
      Some (add csv (txt "--csv") ++ add tsv (txt "--tsv") ++ add pickle (txt "--pickle") ++ add2 (truthy format) (txt "--format") format ++
            add append (txt "--append") ++ add1 (truthy filename) filename)
  end.

(** api.py:239-243 [_generate_op]: the attributes that the operator gets; None: an exception. *)
Definition generate_op (conv : text -> obj -> option obj) (c : call) : option (list (text * obj)) :=
  match arglist c with
  | Some args => parse conv (operator c) args
  | None => None
  end.
End Api.
