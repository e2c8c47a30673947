(** Operators' arguments (marcel/argsparser.py). *)
From Coq Require Export ZArith.
From Verif.Syntax Require Export Lexer.
Local Open Scope char_scope.
Local Open Scope list_scope.

(** ** Values. Arguments as given, and as converted: strings, and everything else that matters here.
    ([OFun]: a function written as an expression in parentheses. Simplification: pipelines, files, ... are [OOther n].) *)
Inductive obj : Type :=
| OTrue
| ONone
| OStr (s : text)
| OInt (n : Z)
| OFun (source : text)
| OOther (n : nat)
| OList (l : list obj).

Definition teqb (a b : text) : bool := if list_eq_dec Ascii.ascii_dec a b then true else false.

(** argsparser.py:42-45 *)
Inductive vkind : Type := VNone | VOne | VOptional.

(** argsparser.py:73-87 [Flag], 104-108 [Anon], 111-114 [AnonList] (name, target), 121-150
    [ArgsParser]. The conversions are kept apart: see [conv] below. *)
Record flag := mkflag { f_name : text; f_short : option text; f_long : option text;
                        f_value : vkind; f_default : obj; f_target : text }.
Record anon := mkanon { a_name : text; a_default : option obj; a_target : text }.
Record decl := mkdecl { d_flags : list flag; d_anons : list anon; d_list : option (text * text);
                        d_at_most : list (list text); d_exactly : list (list text) }.

(** ** Declarations that [validate] accepts: argsparser.py:152-157 and 361-404; with the assertions of
    [Flag] (77-80) and of [name_set] (332-339), and the defaults that [add_flag_no_value] and
    [add_flag_one_value] give (133-137). *)
Fixpoint distinct (l : list text) : bool :=
  match l with
  | [] => true
  | x :: r => negb (existsb (teqb x) r) && distinct r
  end.

Definition symbols (f : flag) : list text :=
  (match f_short f with Some s => [s] | None => [] end) ++ (match f_long f with Some s => [s] | None => [] end).

Definition good_short (s : text) : bool :=
  match s with [a; b] => (a =? "-") && negb (b =? "-") | _ => false end.
Definition good_long (s : text) : bool :=
  match s with a :: b :: c :: _ => (a =? "-") && (b =? "-") && negb (c =? "-") | _ => false end.
Definition is_true (o : obj) : bool := match o with OTrue => true | _ => false end.
Definition good_flag (f : flag) : bool :=
  negb (match f_short f, f_long f with None, None => true | _, _ => false end) &&
  (match f_short f with Some s => good_short s | None => true end) &&
  (match f_long f with Some s => good_long s | None => true end) &&
  (match f_value f with VOptional => true | _ => is_true (f_default f) end).

Fixpoint defaults_last (as_ : list anon) : bool :=  (* 388-394 check_anon_order *)
  match as_ with
  | [] => true
  | a :: r => match a_default a with
              | None => defaults_last r
              | Some _ => forallb (fun b => match a_default b with None => false | _ => true end) r
              end
  end.

Definition all_names (d : decl) : list text :=
  map f_name (d_flags d) ++ map a_name (d_anons d) ++
  (match d_list d with Some (n, _) => [n] | None => [] end).

Definition validate (d : decl) : bool :=
  distinct (flat_map symbols (d_flags d)) &&
  distinct (all_names d) &&
  defaults_last (d_anons d) &&
  (match d_list d with
   | Some _ => forallb (fun a => match a_default a with None => true | _ => false end) (d_anons d)
   | None => true
   end) &&
  forallb good_flag (d_flags d) &&
  forallb distinct (d_at_most d ++ d_exactly d).

(** ** Recognizing flags: argsparser.py:311-317 [find_flag], 95-101 [Flag.plausible], 341-353
    [expand_arg]. *)
Definition is_symbol (x : text) (f : flag) : bool := existsb (teqb x) (symbols f).

Definition find_flag (d : decl) (o : obj) : option flag :=
  match o with
  | OStr x => find (is_symbol x) (d_flags d)
  | _ => None
  end.

Definition plausible (o : obj) : bool :=
  match o with
  | OStr (a :: _ :: _) => a =? "-"
  | _ => false
  end.

Definition expand_arg (d : decl) (o : obj) : list obj :=
  match o with
  | OStr (a :: b :: c :: r) =>
    if (a =? "-") && negb (b =? "-") then
      let fs := map (fun x => OStr ["-"; x]) (b :: c :: r) in
      if forallb (fun f => match find_flag d f with Some _ => true | None => false end) fs then fs else [o]
    else [o]
  | _ => [o]
  end.

(** ** Dictionaries in insertion order. *)
Fixpoint dget (k : text) (m : list (text * obj)) : option obj :=
  match m with
  | [] => None
  | (k', v) :: r => if teqb k k' then Some v else dget k r
  end.
Fixpoint dset (k : text) (v : obj) (m : list (text * obj)) : list (text * obj) :=
  match m with
  | [] => [(k, v)]
  | (k', v') :: r => if teqb k k' then (k', v) :: r else (k', v') :: dset k v r
  end.

(** ** argsparser.py:410-460 [extract_flags_and_anon]. [conv name] is the conversion of the argument
    with the given name; [None]: it raises, which is reported as an ArgsError (453-459). *)
Record pstate := mkps { ps_flags : list (text * obj); ps_anon : list (text * obj); ps_list : list obj;
                        ps_cur : option flag; ps_ok : bool }.

Definition is_vnone (v : vkind) : bool := match v with VNone => true | _ => false end.

Section Parser.
Variable conv : text -> obj -> option obj.
Variable d : decl.

Definition extract_one (s : pstate) (o : obj) : option pstate :=
  match find_flag d o with
  | Some f =>
    if ps_ok s then
      match dget (f_name f) (ps_flags s) with
      | None => Some (mkps (dset (f_name f) (f_default f) (ps_flags s)) (ps_anon s) (ps_list s) (Some f) (ps_ok s))
      | Some _ => None
      end
    else None
  | None =>
    if plausible o && ps_ok s then None
    else
      let as_anon :=
        if (length (d_anons d) <=? length (ps_anon s))%nat then
          match d_list d with
          | Some (n, _) =>
            match conv n o with
            | Some v => Some (mkps (ps_flags s) (ps_anon s) (ps_list s ++ [v]) (ps_cur s) false)
            | None => None
            end
          | None => None
          end
        else
          match nth_error (d_anons d) (length (ps_anon s)) with
          | Some a =>
            match conv (a_name a) o with
            | Some v => Some (mkps (ps_flags s) (dset (a_name a) v (ps_anon s)) (ps_list s) (ps_cur s) false)
            | None => None
            end
          | None => None
          end in
      match ps_cur s with
      | None => as_anon
      | Some f =>
        if is_vnone (f_value f) then as_anon
        else match conv (f_name f) o with
             | Some v => Some (mkps (dset (f_name f) v (ps_flags s)) (ps_anon s) (ps_list s) None (ps_ok s))
             | None => None
             end
      end
  end.

Fixpoint extract (s : pstate) (os : list obj) : option pstate :=
  match os with
  | [] => Some s
  | o :: r => match extract_one s o with Some s' => extract s' r | None => None end
  end.

(** ** The checks: 463-490, with [find_by_name] (319-330). *)
Definition flag_named (n : text) : option flag := find (fun f => teqb (f_name f) n) (d_flags d).

Definition value_counts_ok (flags : list (text * obj)) : bool :=
  forallb (fun kv => match flag_named (fst kv) with
                     | None => false   (* unreachable: AssertionError *)
                     | Some f => match f_value f with
                                 | VOne => negb (is_true (snd kv))
                                 | VNone => is_true (snd kv)
                                 | VOptional => true
                                 end
                     end) flags.

Definition count_in (names group : list text) : nat :=
  length (filter (fun n => existsb (teqb n) names) group).

(** 494-504 [complete_anon_processing] *)
Fixpoint fill (as_ : list anon) (m : list (text * obj)) : option (list (text * obj)) :=
  match as_ with
  | [] => Some m
  | a :: r => match a_default a with
              | None => None
              | Some v => fill r (dset (a_name a) v m)
              end
  end.

Definition target_of (n : text) : text :=
  match flag_named n with
  | Some f => f_target f
  | None => match find (fun a => teqb (a_name a) n) (d_anons d) with
            | Some a => a_target a
            | None => match d_list d with Some (_, t) => t | None => [] end
            end
  end.

(** ** argsparser.py:281-305 [parse]: the attributes it sets on the operator, in order; [None] is an
    ArgsError. *)
Definition parse (args : list obj) : option (list (text * obj)) :=
  match extract (mkps [] [] [] None (negb (length (d_flags d) =? 0)%nat)) (flat_map (expand_arg d) args) with
  | None => None
  | Some s =>
    let names := map fst (ps_flags s) ++ map fst (ps_anon s) in
    if value_counts_ok (ps_flags s) &&
       forallb (fun g => (count_in names g <=? 1)%nat) (d_at_most d) &&
       forallb (fun g => (count_in names g =? 1)%nat) (d_exactly d)
    then
      match fill (skipn (length (ps_anon s)) (d_anons d)) (ps_anon s) with
      | None => None
      | Some anon =>
        let anon := match d_list d with
                    | Some (n, _) => dset n (OList (ps_list s)) anon
                    | None => anon
                    end in
        Some (fold_left (fun m kv => dset (target_of (fst kv)) (snd kv) m) (ps_flags s ++ anon) [])
      end
    else None
  end.
End Parser.

(** ** argsparser.py:507-541 [PipelineArgsParser]: the arguments of a pipeline bound to a variable.
    [str.isidentifier] for 7-bit characters. *)
Definition is_letter (c : ascii) : bool :=
  let n := nat_of_ascii c in
  (((65 <=? n) && (n <=? 90)) || ((97 <=? n) && (n <=? 122)) || (n =? 95))%nat.
Definition is_digit (c : ascii) : bool :=
  let n := nat_of_ascii c in ((48 <=? n) && (n <=? 57))%nat.
Definition isidentifier (t : text) : bool :=
  match t with
  | [] => false
  | c :: r => is_letter c && forallb (fun c => is_letter c || is_digit c) r
  end.

Definition pflag_name (o : obj) : option text :=  (* 534-541 *)
  match o with
  | OStr x =>
    let name := if starts ["-"; "-"] x then skipn 2 x else if starts ["-"] x then skipn 1 x else [] in
    if isidentifier name then Some name else None
  | _ => None
  end.

Record ppstate := mkpps { pp_args : list obj; pp_kwargs : list (text * obj); pp_param : option text; pp_done : bool }.

Definition pipeline_arg (s : ppstate) (o : obj) : option ppstate :=
  match pflag_name o with
  | Some n => if pp_done s then None else Some (mkpps (pp_args s) (pp_kwargs s) (Some n) (pp_done s))
  | None =>
    match pp_param s with
    | None => Some (mkpps (pp_args s ++ [o]) (pp_kwargs s) None true)
    | Some n => match dget n (pp_kwargs s) with
                | Some _ => None
                | None => Some (mkpps (pp_args s) (dset n o (pp_kwargs s)) None (pp_done s))
                end
    end
  end.

Fixpoint pipeline_args (s : ppstate) (os : list obj) : option ppstate :=
  match os with
  | [] => Some s
  | o :: r => match pipeline_arg s o with Some s' => pipeline_args s' r | None => None end
  end.

Definition parse_pipeline_args (os : list obj) : option (list obj * list (text * obj)) :=
  match pipeline_args (mkpps [] [] None false) os with
  | Some s => Some (pp_args s, pp_kwargs s)
  | None => None
  end.

(** ** op/runpipeline.py:50-56 (the check of the number of arguments) and 108-130 [bindings]. [Err]:
    KillCommandException. *)
Fixpoint bind_all (ps : list text) (m : list (text * obj)) : list (text * obj) :=
  match ps with
  | [] => m
  | p :: r => bind_all r (match dget p m with Some _ => m | None => dset p ONone m end)
  end.

Fixpoint bind_positional (ps : list text) (args : list obj) (m : list (text * obj)) : list (text * obj) :=
  match ps, args with
  | p :: ps', a :: args' => bind_positional ps' args' (dset p a m)
  | _, _ => m
  end.

Definition bindings (params : list text) (args : list obj) (kwargs : list (text * obj)) : res (list (text * obj)) :=
  if (length params <? length args + length kwargs)%nat then Err
  else
    let b := bind_positional params args [] in
    if existsb (fun kv => match dget (fst kv) b with Some _ => true | None => false end) kwargs then Err
    else
      let b := fold_left (fun m kv => dset (fst kv) (snd kv) m) kwargs b in
      Ok (bind_all params b).

(** [first]: the pipeline is the first operator of its command, so it is run by [run_pipeline], which
    asserts that exactly the parameters are bound (pipeline.py:313-316). Otherwise it receives input, and
    the bindings are used as they are (runpipeline.py:78-83). *)
Definition call_pipeline (first : bool) (params : list text) (os : list obj) : res (list (text * obj)) :=
  match parse_pipeline_args os with
  | Some (args, kwargs) =>
    match bindings params args kwargs with
    | Ok b => if first && negb (forallb (fun kv => existsb (teqb (fst kv)) params) b) then Crash else Ok b
    | e => e
    end
  | None => Err
  end.
