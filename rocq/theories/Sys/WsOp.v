(** The operator ws: what its arguments are, which of its twelve forms they choose, and what each does in a session:
    op/ws.py (86-425), object/workspace.py (62-104, 280-283, 310-349, 538-539), main.py (69-88, 281-329).

    Builds on Workspaces.v (programs on the file system) and on Args.v (arguments).

    Simplifications: as in Workspaces.v; the properties of a workspace are its home only (the times are left out); an exception
    other than KillCommandException is reported like one; the check of all workspaces that every restart makes is left out
    (c57_start is about it); arguments that are functions or the like (op/ws.py does not convert them) are not modelled. *)
From Verif.Sys Require Export Workspaces.
From Verif.Syntax Require Args ArgsTable.
Local Open Scope string_scope.
Local Open Scope list_scope.

(** ** Arguments *)
Definition text := list Ascii.ascii.

(** WsArgsParser (126-144) has no conversions *)
Definition parse (words : list text) : option (list (text * Args.obj)) :=
  Args.parse (fun _ o => Some o) ArgsTable.op_ws (map Args.OStr words).

(** The attributes of Ws (149-163): None unless set *)
Definition attr (k : string) (m : list (text * Args.obj)) : Args.obj :=
  match Args.dget (list_ascii_of_string k) m with Some o => o | None => Args.ONone end.
Definition truthy (o : Args.obj) : bool := match o with Args.OTrue => true | _ => false end.
Definition given (o : Args.obj) : bool := match o with Args.ONone => false | _ => true end.
Definition value (o : Args.obj) : string := match o with Args.OStr t => string_of_list_ascii t | _ => "" end.

Inductive impl : Type :=
| WsIdentify | WsList | WsNew (n : string) | WsOpen (n : string) | WsClose | WsDelete (n : string) | WsDeleteBroken
| WsHome (d : string) | WsRename | WsCopy | WsExport | WsImport.

(** Ws.setup (170-199), without the call of impl.setup *)
Definition choose (m : list (text * Args.obj)) : impl :=
  if truthy (attr "list" m) then WsList
  else if given (attr "new" m) then WsNew (value (attr "new" m))
  else if given (attr "open" m) then WsOpen (value (attr "open" m))
  else if truthy (attr "close" m) then WsClose
  else if given (attr "delete" m) then WsDelete (value (attr "delete" m))
  else if given (attr "delete_broken" m) then WsDeleteBroken
  else if given (attr "home" m) then WsHome (value (attr "home" m))
  else if given (attr "rename" m) then WsRename
  else if given (attr "copy" m) then WsCopy
  else if given (attr "exp" m) then WsExport
  else if given (attr "imp" m) then WsImport
  else if given (attr "name" m) then WsOpen (value (attr "name" m))
  else WsIdentify.

(** The setup of each (244-245, 256-257, 272-273, 294-295, 314-315, 332-333, 351-352, 366-367, 383-384, 395-396, 407-408, 419-420):
    check_anon_arg_absent (230-232), check_anon_arg_present (234-236) *)
Definition checks (i : impl) (m : list (text * Args.obj)) : bool :=
  match i with
  | WsIdentify | WsList | WsClose | WsDeleteBroken => negb (given (attr "name" m))
  | WsNew _ | WsOpen _ | WsDelete _ | WsHome _ => true
  | WsRename | WsCopy | WsExport | WsImport => given (attr "name" m)
  end.

(** ** Properties (object/workspace.py 62-104): home *)
Definition pickle_home (h : option string) : string := match h with None => "N" | Some d => String "H" d end.
Definition unpickle_home (t : string) : option string := match t with String c d => if Ascii.ascii_dec c "H" then Some d else None | _ => None end.

(** ** The session *)
(** Workspaces as they are written: name and home (219-227, 310-312) *)
Definition shown := list (string * option string).
Record session := mks { disk : fs; here : wsobj; vars : string; home : option string }.

Section Op.
Variable pid : nat.
Variable alive : nat -> bool.
Variable absolute : string -> string.   (* pathlib.Path(...).absolute() *)

(** Workspace.list (328-340): sorted by name; the default workspace has no home *)
Definition list_homes : prog shown :=
  Read (fun w => do l <- list_dirs (children config_ws w);
                 Ret (map (fun x => (fst x, unpickle_home (snd x))) (fold_right insert [] (("", "") :: l)))).

(** Workspace.delete_broken (342-349): shutil.rmtree of each (the order in which it removes files is left out) *)
Definition rmtree (p : path) : prog unit :=
  Read (fun w => each (filter (fun q => match after p q with Some _ => true | None => false end) (map fst w)) (fun q => Do (Del q) (Ret tt))).
Definition delete_subdirs (dir : path) : prog unit :=
  Read (fun w => if is_dir dir w then each (children dir w) (fun n => rmtree (dir ++ [n])) else Fail OSError).
Definition delete_broken : prog unit := delete_subdirs config_bws ;; delete_subdirs data_bws.

(** What a command leads to: what was sent, the home, and the workspace to open next (ReconfigureException, 227-228) *)
Definition effect : Type := (shown * option string * option wsobj)%type.
Definition perform (s : session) (i : impl) : prog effect :=
  match i with
  | WsIdentify => Ret ([(wname (here s), home s)], home s, None)                                   (* 247-248 *)
  | WsList => do l <- list_homes; Ret (l, home s, None)                                            (* 259-261 *)
  | WsNew n =>                                                                                     (* 275-283 *)
    Read (fun w => if ws_exists (named n) w then Fail KillCommand
                   else create pid (named n) (pickle_home None) ;; Ret ([(n, None)], home s, Some (named n)))
  | WsOpen n =>                                                                                    (* 297-306 *)
    Read (fun w => if ws_exists (named n) w
                   then if String.eqb (wname (here s)) n then Ret ([], home s, None) else Ret ([(n, None)], home s, Some (named n))
                   else Fail KillCommand)
  | WsClose =>                                                                                     (* 317-321 *)
    if default_class (here s) then Ret ([], home s, None) else Ret ([("", None)], home s, Some default)
  | WsDelete n =>                                                                                  (* 335-340 *)
    if String.eqb n (wname (here s)) then Fail KillCommand
    else delete pid alive (named n) ;; Ret ([], home s, None)
  | WsDeleteBroken => delete_broken ;; Ret ([], home s, None)                                      (* 354-355 *)
  | WsHome d =>                                                                                    (* 369-372; workspace.py 280-283, 538-539 *)
    if default_class (here s) then Fail KillCommand
    else write_file (prop_file (here s)) (pickle_home (Some (absolute d))) ;;
         Ret ([(wname (here s), Some (absolute d))], Some (absolute d), None)
  | WsRename | WsCopy | WsExport | WsImport => Fail KillCommand                                    (* 222-223 *)
  end.

(** main.py 319-329 and 285-298.  The home is that of the properties read (424-430); the default workspace has none (310-312) *)
Definition reopen (s : session) (o : wsobj) : prog (wsobj * string * option string) :=
  do r <- switch pid alive (here s) (vars s) (pickle_home (home s)) o;
  Read (fun w => Ret (r, if default_class (fst r) then None
                         else match look (prop_file (fst r)) w with Some (F t) => unpickle_home t | _ => None end)).

(** What the user sees of a command *)
Inductive reply : Type := Shown (l : shown) | Refused.
(** An exception on the way to another workspace, if it isn't an Exception, ends marcel *)
Inductive life : Type := Going (s : session) | Ended (w : fs).

Definition command (s : session) (words : list text) : reply * life :=
  match parse words with
  | None => (Refused, Going s)
  | Some m =>
    let i := choose m in
    if checks i m then
      match run (perform s i) (disk s) with
      | (Raise _, w) => (Refused, Going (mks w (here s) (vars s) (home s)))
      | (Ok (l, h, None), w) => (Shown l, Going (mks w (here s) (vars s) h))
      | (Ok (l, h, Some o), w) =>
        match run (reopen s o) w with
        | (Ok (o', v, h'), w') => (Shown l, Going (mks w' o' v h'))
        | (Raise _, w') => (Shown l, Ended w')
        end
      end
    else (Refused, Going s)
  end.

(** A session: ws commands, with the variables changing in between ([Assign]: their new values, as they would be pickled) *)
Inductive event : Type := Ws (words : list text) | Assign (v : string).
Fixpoint execute (s : session) (es : list event) : list reply * life :=
  match es with
  | [] => ([], Going s)
  | Assign v :: es => execute (mks (disk s) (here s) v (home s)) es
  | Ws words :: es =>
    let (r, l) := command s words in
    match l with
    | Ended w => ([r], Ended w)
    | Going s' => let (rs, l') := execute s' es in (r :: rs, l')
    end
  end.

(** The Python function ws (86-123; marcel.api does not export it): the arguments it passes.  (Strings are given or None; the others True or not) *)
Record api := mkapi { a_list : bool; a_new : option string; a_open : option string; a_close : bool; a_delete : option string; a_broken : bool;
                      a_home : option string; a_rename : option string; a_copy : option string; a_exp : option string;
                      a_imp : option string; a_name : option string }.
Definition api_args (a : api) : list text :=
  let no (b : bool) (flag : string) := if b then [flag] else [] in
  let one (v : option string) (flag : string) := match v with Some (String c s) => [flag; String c s] | _ => [] end in
  map list_ascii_of_string
    (no (a_list a) "--list" ++ one (a_new a) "--new" ++ one (a_open a) "--open" ++ no (a_close a) "--close" ++
     one (a_delete a) "--delete" ++ no (a_broken a) "--delete-broken" ++ one (a_home a) "--home" ++
     one (a_rename a) "--rename" ++ one (a_copy a) "--copy" ++ one (a_exp a) "--exp" ++ one (a_imp a) "--imp" ++
     match a_name a with Some (String _ _) => ["name"] | _ => [] end).
End Op.
