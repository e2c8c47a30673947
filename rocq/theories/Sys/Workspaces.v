(** Workspaces on disk: creating, opening, closing, deleting and listing them, and what every start of marcel does with
    damaged ones: object/workspace.py (Marker 34-60, Workspace 203-503, WorkspaceValidater 561-643), locations.py (98-171),
    persistence/persistence.py (validate_all), main.py (138-166, 284-335), op/ws.py (240-347).

    Programs are sequences of changes to the file system, each of which happens at once; a crash is a stop between two of them.
    Writing a file is two changes: it is emptied, then it has its content.  Renaming a file or a directory is one.

    Simplifications: file names are strings without a slash, except for the marker files .WORKSPACE and .WORKSPACE.<pid> and
    the files <pid>.env.pickle, which are constructors; a pickled value is a non-empty text; permissions and links are left
    out; temporary files of the default workspace (WorkspaceDefaultValidater.validate) are not cleaned up; the startup script
    of a workspace always runs without errors; other processes do nothing while a program runs (WsLock.v is about those). *)
From Coq Require Export Ascii String List Bool Arith Lia.
Export ListNotations.
Local Open Scope string_scope.
Local Open Scope list_scope.

(** * File system *)
Inductive name : Type := Nm (s : string) | Mark (owner : option nat) | EnvOf (pid : nat).
Definition path := list name.
Inductive entry : Type := D | F (t : string).
Definition fs := list (path * entry).

Definition name_dec : forall a b : name, {a = b} + {a <> b}.
Proof. decide equality; try apply string_dec; try apply Nat.eq_dec. decide equality. apply Nat.eq_dec. Defined.
Definition path_dec : forall p q : path, {p = q} + {p <> q} := list_eq_dec name_dec.

Fixpoint look (p : path) (w : fs) : option entry :=
  match w with
  | [] => None
  | (q, e) :: w => if path_dec p q then Some e else look p w
  end.
Definition remove (p : path) (w : fs) : fs := filter (fun x => if path_dec p (fst x) then false else true) w.
Definition set (p : path) (e : entry) (w : fs) : fs := (p, e) :: remove p w.

(** The rest of [q] after [p] *)
Fixpoint after (p q : path) : option path :=
  match p, q with
  | [], _ => Some q
  | a :: p, b :: q => if name_dec a b then after p q else None
  | _ :: _, [] => None
  end.
Definition move (p q : path) (w : fs) : fs :=
  map (fun x => match after p (fst x) with Some r => (q ++ r, snd x) | None => x end) w.

(** Path.iterdir *)
Definition children (p : path) (w : fs) : list name :=
  nodup name_dec (flat_map (fun x => match after p (fst x) with Some [n] => [n] | _ => [] end) w).

Definition exists_ (p : path) (w : fs) : bool := match look p w with Some _ => true | None => false end.
Definition is_dir (p : path) (w : fs) : bool := match look p w with Some D => true | _ => false end.

(** * Programs *)
Inductive change : Type := Mk (p : path) | Put (p : path) (t : string) | Del (p : path) | Mv (p q : path).
Definition apply (x : change) (w : fs) : fs :=
  match x with Mk p => set p D w | Put p t => set p (F t) w | Del p => remove p w | Mv p q => move p q w end.

Inductive exn : Type :=
| KillCommand            (* reported; the command ends *)
| EOFError               (* unpickling an empty file *)
| OSError | Assertion.   (* other exceptions *)

Inductive prog (A : Type) : Type :=
| Ret (a : A)
| Fail (e : exn)
| Do (x : change) (k : prog A)
| Read (k : fs -> prog A).
Arguments Ret {A}. Arguments Fail {A}. Arguments Do {A}. Arguments Read {A}.

Fixpoint bind {A B} (p : prog A) (f : A -> prog B) : prog B :=
  match p with
  | Ret a => f a
  | Fail e => Fail e
  | Do x k => Do x (bind k f)
  | Read k => Read (fun w => bind (k w) f)
  end.
Notation "'do' x <- r ; k" := (bind r (fun x => k)) (at level 200, x name, r at level 100, k at level 200).
Notation "r ;; k" := (bind r (fun _ => k)) (at level 199, right associativity).
Fixpoint catch {A} (p : prog A) (h : exn -> prog A) : prog A :=
  match p with
  | Ret a => Ret a
  | Fail e => h e
  | Do x k => Do x (catch k h)
  | Read k => Read (fun w => catch (k w) h)
  end.

Inductive res (A : Type) : Type := Ok (a : A) | Raise (e : exn).
Arguments Ok {A}. Arguments Raise {A}.

(** The end of a program *)
Fixpoint run {A} (p : prog A) (w : fs) : res A * fs :=
  match p with
  | Ret a => (Ok a, w)
  | Fail e => (Raise e, w)
  | Do x k => run k (apply x w)
  | Read k => run (k w) w
  end.
(** The states it goes through *)
Fixpoint states {A} (p : prog A) (w : fs) : list fs :=
  match p with
  | Ret _ | Fail _ => [w]
  | Do x k => w :: states k (apply x w)
  | Read k => states (k w) w
  end.

(** * pathlib and shutil *)
Definition unlink (p : path) (missing_ok : bool) : prog unit :=
  Read (fun w => match look p w with
                 | Some (F _) => Do (Del p) (Ret tt)
                 | Some D => Fail OSError
                 | None => if missing_ok then Ret tt else Fail OSError
                 end).
Definition rmdir (p : path) : prog unit :=
  Read (fun w => match look p w, children p w with Some D, [] => Do (Del p) (Ret tt) | _, _ => Fail OSError end).
Definition write_file (p : path) (t : string) : prog unit :=
  Read (fun w => if is_dir (removelast p) w then Do (Put p "") (Do (Put p t) (Ret tt)) else Fail OSError).
Definition touch (p : path) : prog unit :=
  Read (fun w => if exists_ p w then Ret tt else if is_dir (removelast p) w then Do (Put p "") (Ret tt) else Fail OSError).
Definition rename (p q : path) : prog unit :=
  Read (fun w => if exists_ p w then Do (Mv p q) (Ret tt) else Fail OSError).
(** dir.mkdir(parents=True), if it does not exist: 376-384, locations.py:143-149 *)
Fixpoint make_dirs (base rel : path) : prog unit :=
  match rel with
  | [] => Ret tt
  | n :: rel =>
    let p := base ++ [n] in
    Read (fun w => match look p w with
                   | Some D => make_dirs p rel
                   | Some (F _) => Fail OSError
                   | None => Do (Mk p) (make_dirs p rel)
                   end)
  end.
Definition read_text (p : path) : prog string :=
  Read (fun w => match look p w with Some (F t) => Ret t | _ => Fail OSError end).
Definition unpickle (p : path) : prog string :=
  do t <- read_text p; if string_dec t "" then Fail EOFError else Ret t.
Fixpoint each {A} (l : list A) (f : A -> prog unit) : prog unit :=
  match l with [] => Ret tt | x :: l => f x ;; each l f end.

(** * Locations (locations.py:98-171) *)
Definition slash : Ascii.ascii := "/"%char.
(** The components of a relative path, as pathlib sees them *)
Fixpoint split (cur s : string) : list string :=
  match s with
  | EmptyString => [cur]
  | String c s => if Ascii.ascii_dec c slash then cur :: split "" s else split (cur ++ String c "")%string s
  end.
Definition comps (s : string) : path :=
  map Nm (filter (fun x => if string_dec x "" then false else if string_dec x "." then false else true) (split "" s)).

(** A Workspace object: its name, and whether its class is WorkspaceDefault *)
Record wsobj := mkws { wname : string; default_class : bool }.
Definition default : wsobj := mkws "" true.
Definition named (s : string) : wsobj := mkws s false.
Definition DEF : string := "__DEFAULT__".
(** 169-171 *)
Definition dir_name (o : wsobj) : string := if default_class o then DEF else wname o.

Definition config_ws : path := [Nm "config"; Nm "workspace"].
Definition data_ws : path := [Nm "data"; Nm "workspace"].
Definition config_bws : path := [Nm "config"; Nm "broken"].
Definition data_bws : path := [Nm "data"; Nm "broken"].
Definition config_dir (o : wsobj) : path := config_ws ++ comps (dir_name o).
Definition data_dir (o : wsobj) : path := data_ws ++ comps (dir_name o).
Definition startup_file (o : wsobj) : path := config_dir o ++ [Nm "startup.py"].
Definition marker (o : wsobj) (owner : option nat) : path := config_dir o ++ [Mark owner].
Definition prop_file (o : wsobj) : path := data_dir o ++ [Nm "properties.pickle"].
Definition hist_file (o : wsobj) : path := data_dir o ++ [Nm "history"].
Definition res_dir (o : wsobj) : path := data_dir o ++ [Nm "reservoirs"].

Section Workspaces.
Variable pid : nat.                (* this process *)
Variable alive : nat -> bool.      (* util.process_exists *)
Variable now : string.             (* the time, as the name of a directory *)

Definition env_file (o : wsobj) : path := data_dir o ++ [if default_class o then EnvOf pid else Nm "env.pickle"].

(** Marker.exists (40-46) *)
Definition is_mark (n : name) : bool := match n with Mark _ => true | _ => false end.
Definition marker_exists (o : wsobj) (w : fs) : bool := existsb is_mark (children (config_dir o) w).
(** 226-227, 520-521 *)
Definition ws_exists (o : wsobj) (w : fs) : bool := if default_class o then true else marker_exists o w.

(** delete_abandoned_markers (487-492) *)
Definition delete_abandoned_markers (o : wsobj) : prog unit :=
  Read (fun w => each (children (config_dir o) w)
                      (fun n => match n with
                                | Mark (Some q) => if alive q then Ret tt else unlink (config_dir o ++ [n]) false
                                | _ => Ret tt
                                end)).

(** owner (449-468) *)
Definition owner (o : wsobj) : prog (option nat) :=
  Read (fun w =>
    if exists_ (marker o None) w then Ret None
    else if negb (exists_ (config_dir o) w) then Ret None
    else delete_abandoned_markers o ;;
         Read (fun w => match filter is_mark (children (config_dir o) w) with
                        | [Mark (Some q)] => Ret (Some q)
                        | _ => Fail Assertion
                        end)).

(** lock_workspace (386-411, 551-552).  (A lock held by the parent process is left out: WsLock.v.) *)
Definition lock (o : wsobj) : prog bool :=
  if default_class o then Ret true else
  do q <- owner o;
  match q with
  | None => rename (marker o None) (marker o (Some pid)) ;; Read (fun w => Ret (exists_ (marker o (Some pid)) w))
  | Some q => if Nat.eqb q pid then Ret true
              else if alive q then Ret false
              else rename (marker o (Some q)) (marker o (Some pid)) ;; Read (fun w => Ret (exists_ (marker o (Some pid)) w))
  end.

(** unlock_workspace (413-426) *)
Definition unlock (o : wsobj) : prog unit :=
  do q <- owner o;
  match q with
  | None => Ret tt
  | Some q => if Nat.eqb q pid then rename (marker o (Some pid)) (marker o None) else Fail Assertion
  end.

Definition empty_env : string := "{}".
(** create_on_disk (353-374).  [props]: the new properties, pickled *)
Definition create_on_disk (o : wsobj) (startup props : string) : prog unit :=
  make_dirs config_ws (comps (dir_name o)) ;;
  write_file (startup_file o) startup ;;
  touch (marker o None) ;;
  make_dirs data_ws (comps (dir_name o)) ;;
  make_dirs (data_dir o) [Nm "reservoirs"] ;;
  write_file (env_file o) empty_env ;;
  (if default_class o then Ret tt else write_file (prop_file o) props) ;;
  touch (hist_file o).

(** create (237-240) *)
Definition create (o : wsobj) (props : string) : prog unit :=
  do s <- read_text (startup_file default); create_on_disk o s props.

(** open (242-259): the variables.  WorkspaceDefault.read_environment (541-549) *)
Definition open (o : wsobj) : prog string :=
  Read (fun w =>
    if ws_exists o w then
      do b <- lock o;
      if b : bool then
        (if default_class o then Ret "" else unpickle (prop_file o)) ;;
        catch (read_text (startup_file o)) (fun _ => Fail KillCommand) ;;
        (if default_class o then Read (fun w => if exists_ (env_file o) w then unpickle (env_file o) else Ret empty_env)
         else unpickle (env_file o))
      else Fail KillCommand
    else Fail KillCommand).

(** close (261-280, 526-536), without what concerns reservoirs.  [env]: the variables; [restart]: another workspace will be opened *)
Definition close (o : wsobj) (env props : string) (restart : bool) : prog unit :=
  if default_class o then (if restart then write_file (env_file o) env else unlink (env_file o) true)
  else do b <- lock o;
       if b : bool then write_file (prop_file o) props ;; write_file (env_file o) env ;; unlock o
       else Fail Assertion.

(** delete (287-309) *)
Definition delete (o : wsobj) : prog unit :=
  Read (fun w =>
    if ws_exists o w then
      do b <- lock o;
      if b : bool then
        unlink (marker o (Some pid)) false ;;
        unlink (startup_file o) true ;;
        rmdir (config_dir o) ;;
        unlink (hist_file o) true ;;
        unlink (prop_file o) true ;;
        unlink (env_file o) true ;;
        Read (fun w => if is_dir (res_dir o) w
                       then each (children (res_dir o) w) (fun n => unlink (res_dir o ++ [n]) false) ;; rmdir (res_dir o)
                       else Fail OSError) ;;
        rmdir (data_dir o)
      else Fail KillCommand
    else Fail KillCommand).

(** list (329-341), by name; each with its properties *)
Fixpoint insert (x : string * string) (l : list (string * string)) : list (string * string) :=
  match l with [] => [x] | y :: l => if String.leb (fst x) (fst y) then x :: y :: l else y :: insert x l end.
Fixpoint list_dirs (l : list name) : prog (list (string * string)) :=
  match l with
  | [] => Ret []
  | Nm s :: l =>
    Read (fun w =>
      if is_dir (config_ws ++ [Nm s]) w && negb (String.eqb s DEF) && marker_exists (named s) w
      then do p <- unpickle (prop_file (named s)); do r <- list_dirs l; Ret ((s, p) :: r)
      else list_dirs l)
  | _ :: l => list_dirs l
  end.
Definition list_workspaces : prog (list string) :=
  Read (fun w => do l <- list_dirs (children config_ws w); Ret (map fst (fold_right insert [] (("", "") :: l)))).

(** ** The operator ws (op/ws.py), and the restart it leads to (main.py:311-335) *)

(** Exceptions other than KillCommandException and its like are Exceptions *)
Definition is_exception (e : exn) : bool := match e with KillCommand => false | _ => true end.
(** env_and_main (285-295): if opening fails, the default workspace is used *)
Definition start (o : wsobj) : prog (wsobj * string) :=
  catch (do v <- open o; Ret (o, v))
        (fun e => if is_exception e then (do v <- open default; Ret (default, v)) else Fail e).
(** main.shutdown(restart=True) (62-68) and on *)
Definition switch (cur : wsobj) (env props : string) (o : wsobj) : prog (wsobj * string) :=
  catch (close cur env props true) (fun _ => Ret tt) ;; start o.

(** ws --new (259-284).  [props']: the properties of the new workspace *)
Definition ws_new (cur : wsobj) (env props props' n : string) : prog (wsobj * string) :=
  Read (fun w => if ws_exists (named n) w then Fail KillCommand
                 else create (named n) props' ;; switch cur env props (named n)).
(** ws --open (287-309).  Nothing happens if it is open already *)
Definition ws_open (cur : wsobj) (env props n : string) : prog (wsobj * string) :=
  Read (fun w => if ws_exists (named n) w
                 then if String.eqb (wname cur) n then Ret (cur, env) else switch cur env props (named n)
                 else Fail KillCommand).
(** ws --delete (325-344) *)
Definition ws_delete (cur : wsobj) (n : string) : prog unit :=
  if String.eqb n (wname cur) then Fail KillCommand else delete (named n).

(** ** What every start does *)

(** WorkspaceValidater.validate (580-623, 670-677): whether there are errors *)
Definition allowed_data (n : name) : bool :=
  match n with
  | EnvOf _ => true
  | Nm s => String.eqb s "properties.pickle" || String.eqb s "env.pickle" || String.eqb s "history" || String.eqb s "reservoirs"
  | _ => false
  end.
Definition flaws (o : wsobj) (w : fs) : bool :=
  negb (exists_ (startup_file o) w)
  || Nat.ltb 2 (List.length (children (config_dir o) w))
  || negb (exists_ (data_dir o) w)
  || (negb (default_class o) && (negb (exists_ (env_file o) w) || negb (exists_ (prop_file o) w)))
  || negb (exists_ (hist_file o) w)
  || negb (is_dir (res_dir o) w)
  || negb (forallb allowed_data (children (data_dir o) w)).
Definition validate (o : wsobj) : prog bool :=
  delete_abandoned_markers o ;;
  Read (fun w => if marker_exists o w then Ret tt else touch (marker o None)) ;;
  Read (fun w => Ret (flaws o w)).

(** persistence.py:50-79: the names of the damaged workspaces, as they are in the errors.  (One error for each is kept; handling
    the others does nothing more.) *)
Definition obj_of (s : string) : wsobj := if String.eqb s DEF then default else named s.
Definition names (l : list name) : list string := flat_map (fun n => match n with Nm s => [s] | _ => [] end) l.
Fixpoint validate_each (l : list string) : prog (list string) :=
  match l with
  | [] => Ret []
  | s :: l => do b <- validate (obj_of s); do r <- validate_each l; Ret (if b : bool then wname (obj_of s) :: r else r)
  end.
Definition mem (s : string) (l : list string) : bool := existsb (String.eqb s) l.
Definition validate_all : prog (list string) :=
  Read (fun w =>
    let cn := names (children config_ws w) in
    let dn := names (children data_ws w) in
    do l <- validate_each (filter (fun s => mem s dn) cn);
    Ret (filter (fun s => negb (mem s dn)) cn ++ filter (fun s => negb (mem s cn)) dn ++ l)).

(** mark_broken (474-485): shutil.move into a directory *)
Definition put_aside (source target_base rel : path) : prog unit :=
  Read (fun w => if exists_ source w
                 then make_dirs target_base rel ;; rename source (target_base ++ rel ++ [last source (Nm "")])
                 else Ret tt).
Definition mark_broken (o : wsobj) : prog unit :=
  put_aside (config_dir o) config_bws (Nm now :: comps (dir_name o)) ;;
  put_aside (data_dir o) data_bws (Nm now :: comps (dir_name o)).

(** main.py:138-166, for each error: Workspace(ws_name) *)
Definition startup : prog (list string) :=
  do l <- validate_all; each l (fun s => mark_broken (named s)) ;; Ret l.
End Workspaces.
