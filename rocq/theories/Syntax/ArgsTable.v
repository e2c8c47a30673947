(** The declarations of the operators' arguments (marcel/op/*.py), transcribed mechanically. Left out:
    the conversions, which the theorems quantify over. *)
From Verif.Syntax Require Import Args.
Local Open Scope list_scope.

(** op/args.py:54-60 *)
Definition op_args : decl := mkdecl
    [mkflag (txt "all") (Some (txt "-a")) (Some (txt "--all")) VNone (OTrue) (txt "all")]
    [mkanon (txt "pipeline") (None) (txt "pipeline")]
    None
    []
    [].

(** op/assign.py:28-34 *)
Definition op_assign : decl := mkdecl
    []
    [mkanon (txt "var") (None) (txt "var");
     mkanon (txt "value") (None) (txt "value")]
    None
    []
    [].

(** op/bash.py:77-83 *)
Definition op_bash : decl := mkdecl
    [mkflag (txt "interactive") (Some (txt "-i")) (Some (txt "--interactive")) VNone (OTrue) (txt "interactive")]
    []
    (Some (txt "args", txt "args_arg"))
    []
    [].

(** op/bg.py:32-32 *)
Definition op_bg : decl := mkdecl
    [mkflag (txt "jid") (Some (txt "-j")) (Some (txt "--job")) VOne (OTrue) (txt "jid");
     mkflag (txt "pid") (Some (txt "-p")) (Some (txt "--process")) VOne (OTrue) (txt "pid")]
    [mkanon (txt "job_id") (None) (txt "job_id")]
    None
    []
    [[txt "jid"; txt "pid"; txt "job_id"]].

(** op/case.py:64-69 *)
Definition op_case : decl := mkdecl
    []
    []
    (Some (txt "args", txt "args"))
    []
    [].

(** op/cast.py:38-43 *)
Definition op_cast : decl := mkdecl
    []
    []
    (Some (txt "types", txt "types"))
    []
    [].

(** op/cd.py:38-43 *)
Definition op_cd : decl := mkdecl
    []
    [mkanon (txt "directory") (Some (OStr (txt "~"))) (txt "directory_arg")]
    None
    []
    [].

(** op/difference.py:57-62 *)
Definition op_difference : decl := mkdecl
    []
    [mkanon (txt "pipeline") (None) (txt "pipeline")]
    None
    []
    [].

(** op/dirs.py:35-40 *)
Definition op_dirs : decl := mkdecl
    [mkflag (txt "clear") (Some (txt "-c")) (Some (txt "--clear")) VNone (OTrue) (txt "clear")]
    []
    None
    []
    [].

(** op/download.py:58-65 *)
Definition op_download : decl := mkdecl
    []
    [mkanon (txt "dir") (None) (txt "dir_arg");
     mkanon (txt "cluster") (None) (txt "cluster")]
    (Some (txt "filenames", txt "filenames_arg"))
    []
    [].

(** op/edit.py:58-65 *)
Definition op_edit : decl := mkdecl
    [mkflag (txt "startup") (Some (txt "-s")) (Some (txt "--startup")) VOptional (OTrue) (txt "startup")]
    [mkanon (txt "command") (Some (ONone)) (txt "command")]
    None
    [[txt "startup"; txt "command"]]
    [].

(** op/env.py:80-92 *)
Definition op_env : decl := mkdecl
    [mkflag (txt "delete") (Some (txt "-d")) (Some (txt "--delete")) VOne (OTrue) (txt "delete");
     mkflag (txt "pattern") (Some (txt "-p")) (Some (txt "--pattern")) VOne (OTrue) (txt "pattern");
     mkflag (txt "builtins") (Some (txt "-b")) (Some (txt "--builtins")) VNone (OTrue) (txt "builtins");
     mkflag (txt "os") (Some (txt "-o")) (Some (txt "--os")) VNone (OTrue) (txt "os")]
    [mkanon (txt "var") (Some (ONone)) (txt "var")]
    None
    [[txt "delete"; txt "var"; txt "pattern"]; [txt "delete"; txt "os"]; [txt "builtins"; txt "os"]]
    [].

(** op/exit.py:27-31 *)
Definition op_exit : decl := mkdecl
    []
    []
    None
    []
    [].

(** op/expand.py:76-81 *)
Definition op_expand : decl := mkdecl
    []
    [mkanon (txt "position") (Some (ONone)) (txt "position_arg")]
    None
    []
    [].

(** op/fg.py:31-31 *)
Definition op_fg : decl := mkdecl
    [mkflag (txt "jid") (Some (txt "-j")) (Some (txt "--job")) VOne (OTrue) (txt "jid");
     mkflag (txt "pid") (Some (txt "-p")) (Some (txt "--process")) VOne (OTrue) (txt "pid")]
    [mkanon (txt "job_id") (None) (txt "job_id")]
    None
    []
    [[txt "jid"; txt "pid"; txt "job_id"]].

(** op/filter.py:77-86 *)
Definition op_filter : decl := mkdecl
    [mkflag (txt "keep") (Some (txt "-k")) (Some (txt "--keep")) VNone (OTrue) (txt "keep");
     mkflag (txt "discard") (Some (txt "-d")) (Some (txt "--discard")) VNone (OTrue) (txt "discard");
     mkflag (txt "compare") (Some (txt "-c")) (Some (txt "--compare")) VOne (OTrue) (txt "compare")]
    [mkanon (txt "pipeline") (None) (txt "pipeline")]
    None
    [[txt "keep"; txt "discard"]]
    [].

(** op/fork.py:100-106 *)
Definition op_fork : decl := mkdecl
    []
    [mkanon (txt "forkgen") (None) (txt "forkgen");
     mkanon (txt "pipeline") (None) (txt "pipeline_arg")]
    None
    []
    [].

(** op/gen.py:46-53 *)
Definition op_gen : decl := mkdecl
    [mkflag (txt "pad") (Some (txt "-p")) (Some (txt "--pad")) VOne (OTrue) (txt "pad_arg")]
    [mkanon (txt "count") (Some (OInt 0)) (txt "count_arg");
     mkanon (txt "start") (Some (OInt 0)) (txt "start_arg")]
    None
    []
    [].

(** op/head.py:37-42 *)
Definition op_head : decl := mkdecl
    []
    [mkanon (txt "n") (None) (txt "n_arg")]
    None
    []
    [].

(** op/help.py:41-46 *)
Definition op_help : decl := mkdecl
    []
    [mkanon (txt "topic") (Some (OStr (txt "marcel"))) (txt "topic")]
    None
    []
    [].

(** op/history.py:53-61 *)
Definition op_history : decl := mkdecl
    [mkflag (txt "pattern") (Some (txt "-c")) (Some (txt "--command")) VOne (OTrue) (txt "pattern");
     mkflag (txt "all") (Some (txt "-a")) (Some (txt "--all")) VNone (OTrue) (txt "all")]
    [mkanon (txt "n") (Some (ONone)) (txt "n")]
    None
    [[txt "all"; txt "n"]]
    [].

(** op/import.py:51-58 *)
Definition op_import : decl := mkdecl
    [mkflag (txt "as") (Some (txt "-a")) (Some (txt "--as")) VOne (OTrue) (txt "name")]
    [mkanon (txt "module") (None) (txt "module");
     mkanon (txt "symbol") (Some (ONone)) (txt "symbol")]
    None
    []
    [].

(** op/intersect.py:47-52 *)
Definition op_intersect : decl := mkdecl
    []
    []
    (Some (txt "pipelines", txt "pipelines"))
    []
    [].

(** op/jobs.py:40-44 *)
Definition op_jobs : decl := mkdecl
    []
    []
    None
    []
    [].

(** op/join.py:80-87 *)
Definition op_join : decl := mkdecl
    [mkflag (txt "keep") (Some (txt "-k")) (Some (txt "--keep")) VNone (OTrue) (txt "keep")]
    [mkanon (txt "pipeline") (None) (txt "pipeline")]
    None
    []
    [].

(** op/load.py:61-66 *)
Definition op_load : decl := mkdecl
    []
    [mkanon (txt "var") (None) (txt "var")]
    None
    []
    [].

(** op/ls.py:75-82 *)
Definition op_ls : decl := mkdecl
    [mkflag (txt "d0") (Some (txt "-0")) None VNone (OTrue) (txt "d0");
     mkflag (txt "d1") (Some (txt "-1")) None VNone (OTrue) (txt "d1");
     mkflag (txt "dr") (Some (txt "-r")) (Some (txt "--recursive")) VNone (OTrue) (txt "dr");
     mkflag (txt "file") (Some (txt "-f")) (Some (txt "--file")) VNone (OTrue) (txt "file");
     mkflag (txt "dir") (Some (txt "-d")) (Some (txt "--dir")) VNone (OTrue) (txt "dir");
     mkflag (txt "symlink") (Some (txt "-s")) (Some (txt "--symlink")) VNone (OTrue) (txt "symlink")]
    []
    (Some (txt "filenames", txt "filenames_arg"))
    [[txt "d0"; txt "d1"; txt "dr"]]
    [].

(** op/map.py:41-46 *)
Definition op_map : decl := mkdecl
    []
    [mkanon (txt "function") (None) (txt "function")]
    None
    []
    [].

(** op/popd.py:33-37 *)
Definition op_popd : decl := mkdecl
    []
    []
    None
    []
    [].

(** op/ps.py:96-105 *)
Definition op_ps : decl := mkdecl
    [mkflag (txt "user") (Some (txt "-u")) (Some (txt "--user")) VOptional (OTrue) (txt "user");
     mkflag (txt "group") (Some (txt "-g")) (Some (txt "--group")) VOptional (OTrue) (txt "group");
     mkflag (txt "pid") (Some (txt "-p")) (Some (txt "--pid")) VOne (OTrue) (txt "pid");
     mkflag (txt "command") (Some (txt "-c")) (Some (txt "--command")) VOne (OTrue) (txt "command")]
    []
    None
    [[txt "user"; txt "group"; txt "pid"; txt "command"]]
    [].

(** op/pushd.py:41-46 *)
Definition op_pushd : decl := mkdecl
    []
    [mkanon (txt "directory") (Some (ONone)) (txt "directory_arg")]
    None
    []
    [].

(** op/pwd.py:32-36 *)
Definition op_pwd : decl := mkdecl
    []
    []
    None
    []
    [].

(** op/read.py:128-141 *)
Definition op_read : decl := mkdecl
    [mkflag (txt "d0") (Some (txt "-0")) None VNone (OTrue) (txt "d0");
     mkflag (txt "d1") (Some (txt "-1")) None VNone (OTrue) (txt "d1");
     mkflag (txt "dr") (Some (txt "-r")) (Some (txt "--recursive")) VNone (OTrue) (txt "dr");
     mkflag (txt "csv") (Some (txt "-c")) (Some (txt "--csv")) VNone (OTrue) (txt "csv");
     mkflag (txt "tsv") (Some (txt "-t")) (Some (txt "--tsv")) VNone (OTrue) (txt "tsv");
     mkflag (txt "headings") (Some (txt "-h")) (Some (txt "--headings")) VNone (OTrue) (txt "headings");
     mkflag (txt "skip_headings") (Some (txt "-s")) (Some (txt "--skip-headings")) VNone (OTrue) (txt "skip_headings");
     mkflag (txt "pickle") (Some (txt "-p")) (Some (txt "--pickle")) VNone (OTrue) (txt "pickle");
     mkflag (txt "json") (Some (txt "-j")) (Some (txt "--json")) VNone (OTrue) (txt "json");
     mkflag (txt "label") (Some (txt "-l")) (Some (txt "--label")) VNone (OTrue) (txt "label")]
    []
    (Some (txt "filenames", txt "filenames_arg"))
    [[txt "d0"; txt "d1"; txt "dr"]; [txt "csv"; txt "tsv"; txt "pickle"; txt "json"]; [txt "headings"; txt "skip_headings"]]
    [].

(** op/red.py:121-127 *)
Definition op_red : decl := mkdecl
    [mkflag (txt "incremental") (Some (txt "-i")) (Some (txt "--incremental")) VNone (OTrue) (txt "incremental")]
    []
    (Some (txt "functions", txt "functions"))
    []
    [].

(** op/remote.py:72-78 *)
Definition op_remote : decl := mkdecl
    []
    [mkanon (txt "cluster") (None) (txt "cluster");
     mkanon (txt "pipeline") (None) (txt "pipeline")]
    None
    []
    [].

(** op/reverse.py:30-34 *)
Definition op_reverse : decl := mkdecl
    []
    []
    None
    []
    [].

(** op/run.py:45-50 *)
Definition op_run : decl := mkdecl
    []
    [mkanon (txt "id") (Some (ONone)) (txt "id")]
    None
    []
    [].

(** op/select.py:38-43 *)
Definition op_select : decl := mkdecl
    []
    [mkanon (txt "function") (None) (txt "function")]
    None
    []
    [].

(** op/sort.py:40-45 *)
Definition op_sort : decl := mkdecl
    []
    [mkanon (txt "key") (Some (ONone)) (txt "key")]
    None
    []
    [].

(** op/sql.py:92-103 *)
Definition op_sql : decl := mkdecl
    [mkflag (txt "db") (Some (txt "-d")) (Some (txt "--db")) VOne (OTrue) (txt "dbvar");
     mkflag (txt "autocommit") (Some (txt "-a")) (Some (txt "--autocommit")) VNone (OTrue) (txt "autocommit");
     mkflag (txt "update_counts") (Some (txt "-u")) (Some (txt "--update-counts")) VNone (OTrue) (txt "update_counts");
     mkflag (txt "commit") (Some (txt "-c")) (Some (txt "--commit")) VOne (OTrue) (txt "commit")]
    [mkanon (txt "statement") (None) (txt "statement_arg")]
    (Some (txt "args", txt "args_arg"))
    [[txt "autocommit"; txt "commit"]]
    [].

(** op/squish.py:47-52 *)
Definition op_squish : decl := mkdecl
    []
    [mkanon (txt "function") (Some (ONone)) (txt "function")]
    None
    []
    [].

(** op/store.py:70-76 *)
Definition op_store : decl := mkdecl
    [mkflag (txt "append") (Some (txt "-a")) (Some (txt "--append")) VNone (OTrue) (txt "append")]
    [mkanon (txt "var") (None) (txt "var")]
    None
    []
    [].

(** op/sudo.py:57-62 *)
Definition op_sudo : decl := mkdecl
    []
    []
    (Some (txt "args", txt "args"))
    []
    [].

(** op/tail.py:38-43 *)
Definition op_tail : decl := mkdecl
    []
    [mkanon (txt "n") (None) (txt "n_arg")]
    None
    []
    [].

(** op/timer.py:38-43 *)
Definition op_timer : decl := mkdecl
    []
    [mkanon (txt "interval") (None) (txt "interval")]
    None
    []
    [].

(** op/trace.py:61-69 *)
Definition op_trace : decl := mkdecl
    [mkflag (txt "off") (Some (txt "-0")) (Some (txt "--off")) VNone (OTrue) (txt "off");
     mkflag (txt "on") (Some (txt "-1")) (Some (txt "--on")) VNone (OTrue) (txt "on");
     mkflag (txt "file") (Some (txt "-f")) (Some (txt "--file")) VOne (OTrue) (txt "filename")]
    []
    None
    [[txt "on"; txt "off"; txt "file"]]
    [].

(** op/union.py:46-51 *)
Definition op_union : decl := mkdecl
    []
    []
    (Some (txt "pipelines", txt "pipelines"))
    []
    [].

(** op/unique.py:41-46 *)
Definition op_unique : decl := mkdecl
    [mkflag (txt "consecutive") (Some (txt "-c")) (Some (txt "--consecutive")) VNone (OTrue) (txt "consecutive")]
    []
    None
    []
    [].

(** op/upload.py:59-66 *)
Definition op_upload : decl := mkdecl
    []
    [mkanon (txt "cluster") (None) (txt "cluster");
     mkanon (txt "dir") (None) (txt "dir_arg")]
    (Some (txt "filenames", txt "filenames_arg"))
    []
    [].

(** op/version.py:32-36 *)
Definition op_version : decl := mkdecl
    []
    []
    None
    []
    [].

(** op/window.py:110-118 *)
Definition op_window : decl := mkdecl
    [mkflag (txt "overlap") (Some (txt "-o")) (Some (txt "--overlap")) VOne (OTrue) (txt "overlap_arg");
     mkflag (txt "disjoint") (Some (txt "-d")) (Some (txt "--disjoint")) VOne (OTrue) (txt "disjoint_arg")]
    [mkanon (txt "predicate") (Some (ONone)) (txt "predicate")]
    None
    []
    [[txt "overlap"; txt "disjoint"; txt "predicate"]].

(** op/write.py:86-97 *)
Definition op_write : decl := mkdecl
    [mkflag (txt "csv") (Some (txt "-c")) (Some (txt "--csv")) VNone (OTrue) (txt "csv");
     mkflag (txt "tsv") (Some (txt "-t")) (Some (txt "--tsv")) VNone (OTrue) (txt "tsv");
     mkflag (txt "pickle") (Some (txt "-p")) (Some (txt "--pickle")) VNone (OTrue) (txt "pickle");
     mkflag (txt "format") (Some (txt "-f")) (Some (txt "--format")) VOne (OTrue) (txt "format");
     mkflag (txt "append") (Some (txt "-a")) (Some (txt "--append")) VNone (OTrue) (txt "append")]
    [mkanon (txt "filename") (Some (ONone)) (txt "filename_arg")]
    None
    [[txt "csv"; txt "tsv"; txt "pickle"; txt "format"]]
    [].

(** op/ws.py:126-144 *)
Definition op_ws : decl := mkdecl
    [mkflag (txt "list") (Some (txt "-l")) (Some (txt "--list")) VNone (OTrue) (txt "list");
     mkflag (txt "new") (Some (txt "-n")) (Some (txt "--new")) VOne (OTrue) (txt "new");
     mkflag (txt "open") (Some (txt "-o")) (Some (txt "--open")) VOne (OTrue) (txt "open");
     mkflag (txt "close") (Some (txt "-c")) (Some (txt "--close")) VNone (OTrue) (txt "close");
     mkflag (txt "delete") (Some (txt "-d")) (Some (txt "--delete")) VOne (OTrue) (txt "delete");
     mkflag (txt "delete_broken") (Some (txt "-b")) (Some (txt "--delete-broken")) VNone (OTrue) (txt "delete_broken");
     mkflag (txt "home") (Some (txt "-h")) (Some (txt "--home")) VOne (OTrue) (txt "home");
     mkflag (txt "rename") (Some (txt "-r")) (Some (txt "--rename")) VOne (OTrue) (txt "rename");
     mkflag (txt "copy") (Some (txt "-2")) (Some (txt "--copy")) VOne (OTrue) (txt "copy");
     mkflag (txt "export") (Some (txt "-e")) (Some (txt "--export")) VOne (OTrue) (txt "exp");
     mkflag (txt "import") (Some (txt "-i")) (Some (txt "--import")) VOne (OTrue) (txt "imp")]
    [mkanon (txt "name") (Some (ONone)) (txt "name")]
    None
    [[txt "list"; txt "new"; txt "open"; txt "close"; txt "delete"; txt "delete_broken"; txt "home"; txt "rename"; txt "copy"; txt "export"; txt "import"]]
    [].

Definition all_ops : list decl :=
  [op_args; op_assign; op_bash; op_bg; op_case; op_cast; op_cd; op_difference; op_dirs; op_download; op_edit; op_env; op_exit; op_expand; op_fg; op_filter; op_fork; op_gen; op_head; op_help; op_history; op_import; op_intersect; op_jobs; op_join; op_load; op_ls; op_map; op_popd; op_ps; op_pushd; op_pwd; op_read; op_red; op_remote; op_reverse; op_run; op_select; op_sort; op_sql; op_squish; op_store; op_sudo; op_tail; op_timer; op_trace; op_union; op_unique; op_upload; op_version; op_window; op_write; op_ws].
