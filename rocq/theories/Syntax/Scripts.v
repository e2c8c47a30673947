(** Scripts as commands (marcel/main.py:262-273 and 353-357), and the arguments of scripts
    (marcel/cliargs.py). *)
From Verif.Syntax Require Export Args.
Local Open Scope char_scope.
Local Open Scope list_scope.

Definition newline : ascii := "010".

(** str.split: never empty. *)
Fixpoint split_lines (t : text) : list text :=
  match t with
  | [] => [[]]
  | c :: r =>
    if c =? newline then [] :: split_lines r
    else match split_lines r with
         | l :: ls => (c :: l) :: ls
         | [] => [[c]]
         end
  end.

(** len(line.strip()) > 0 *)
Definition nonblank (l : text) : bool := existsb (fun c => negb (isspace c)) l.
(** The line ends in a backslash. *)
Definition ends_bslash (l : text) : bool :=
  match rev l with c :: _ => c =? bslash | [] => false end.

(** main.py:262-273 [commands_in_script]; [command] is what has been gathered. *)
Fixpoint gather_commands (command : text) (lines : list text) : list text :=
  match lines with
  | [] => match command with [] => [] | _ => [command] end
  | l :: r =>
    if nonblank l then
      if ends_bslash l then gather_commands (command ++ removelast l) r
      else (command ++ l) :: gather_commands [] r
    else gather_commands command r
  end.

Definition commands_in_script (script : text) : list text := gather_commands [] (split_lines script).

(** str.strip *)
Fixpoint drop_ws (l : text) : text :=
  match l with c :: r => if isspace c then drop_ws r else l | [] => [] end.
Definition strip (l : text) : text := rev (drop_ws (rev (drop_ws l))).

(** main.py:353-357 [read_heredoc]: the lines of standard input up to the first blank one, stripped. *)
Fixpoint heredoc_lines (lines : list text) : list text :=
  match lines with
  | [] => []
  | l :: r => match strip l with [] => [] | s => s :: heredoc_lines r end
  end.
Fixpoint join_lines (ls : list text) : text :=
  match ls with
  | [] => []
  | [l] => l
  | l :: r => l ++ newline :: join_lines r
  end.
Definition read_heredoc (input : text) : text := join_lines (heredoc_lines (split_lines input)).

(** ** cliargs.py. An argument of a script: cliargs.py:41-156. *)
Inductive ckind : Type := CString | CBool | CInt.
Inductive carg : Type :=
| CAnon
| CFlag (short long : option text) (k : ckind) (default : obj) (required : bool).

Definition csymbols (a : carg) : list text :=
  match a with
  | CAnon => []
  | CFlag s l _ _ _ => (match s with Some x => [x] | None => [] end) ++ (match l with Some x => [x] | None => [] end)
  end.
Definition is_anon (a : carg) : bool := match a with CAnon => true | _ => false end.

(** cliargs.py:161-182 (and 67-136: flags start with a dash): what the constructor accepts. (Keyword arguments have distinct names.) *)
Definition cli_ok (d : list (text * carg)) : bool :=
  distinct (map fst d) &&
  (length (filter (fun va => is_anon (snd va)) d) <=? 1)%nat &&
  distinct (flat_map (fun va => csymbols (snd va)) d) &&
  forallb (starts ["-"]) (flat_map (fun va => csymbols (snd va)) d).

Definition isflag (t : text) : bool := starts ["-"] t.  (* 186-187 *)

Definition arg_of (d : list (text * carg)) (t : text) : option (text * carg) :=  (* 189-193 *)
  find (fun va => existsb (teqb t) (csymbols (snd va))) d.

(** 206-229 [token_scan]; [Err] is KillShellException; [to_int] is Python's [int] (ValueError: [Crash]). *)
Fixpoint token_scan (to_int : text -> option Z) (d : list (text * carg)) (argv : list text)
  : res (list (option text * obj)) :=
  let more x r := match r with Ok l => Ok (x :: l) | e => e end in
  match argv with
  | [] => Ok []
  | t :: r =>
    if isflag t then
      match arg_of d t with
      | Some (var, CFlag _ _ k _ _) =>
        match k with
        | CBool => more (Some var, OTrue) (token_scan to_int d r)
        | _ =>
          match r with
          | [] => Err
          | v :: r' =>
            if isflag v then Err
            else match k with
                 | CInt => match to_int v with
                           | Some z => more (Some var, OInt z) (token_scan to_int d r')
                           | None => Crash
                           end
                 | _ => more (Some var, OStr v) (token_scan to_int d r')
                 end
          end
        end
      | _ => Err
      end
    else more (None, OStr t) (token_scan to_int d r)
  end.

(** 185-250 [parse]. *)
Definition defaults (d : list (text * carg)) : list (text * obj) :=
  flat_map (fun va => match snd va with
                      | CAnon => [(fst va, OList [])]
                      | CFlag _ _ _ def req => if req then [] else [(fst va, def)]
                      end) d.

Definition positionals (l : list (option text * obj)) : list obj :=
  flat_map (fun x => match fst x with None => [snd x] | Some _ => [] end) l.
Definition flag_values (l : list (option text * obj)) : list (text * obj) :=
  flat_map (fun x => match fst x with None => [] | Some var => [(var, snd x)] end) l.

Definition cli_parse (to_int : text -> option Z) (d : list (text * carg)) (argv : list text)
  : res (list (text * obj)) :=
  match token_scan to_int d argv with
  | Ok l =>
    let values := fold_left (fun m kv => dset (fst kv) (snd kv) m) (flag_values l) (defaults d) in
    let values := match find (fun va => is_anon (snd va)) d with
                  | Some (var, _) => dset var (OList (skipn 2 (positionals l))) values
                  | None => values
                  end in
    if forallb (fun va => match snd va with
                          | CFlag _ _ _ _ true => match dget (fst va) values with Some _ => true | None => false end
                          | _ => true
                          end) d
    then Ok values else Err
  | Err => Err | Crash => Crash | Fuel => Fuel
  end.
