(** From the text of a command to what running it sends: marcel/parser.py:1262-1298 (create_op, create_op_builtin), 344-379
    (Expression.value), marcel/argsparser.py:174-275 (conversions), marcel/core.py:167-192 (eval_function), and the declarations and setups of
    the operators below (C74).  The lexer and the parser are those of Lexer.v and Parser.v, the argument parser that of Args.v, the operators those
    of Verif.Ops.

    Not modelled here: commands whose first operator is not gen or is endless, variables and executables as operators, pipelines with
    parameters; such commands are [None], as are the rejected ones. *)
From Verif.Syntax Require Export Parser Args ArgsTable.
From Verif.Ops Require SetOps Gen.
Local Open Scope char_scope.
Local Open Scope list_scope.

Notation machine := Machine.machine.
Notation source := Machine.source.
Notation func := Machine.func.

(** ** int(s), base 10 *)
Definition digit_of (c : ascii) : option Z :=
  let n := Z.of_nat (nat_of_ascii c) in if ((48 <=? n) && (n <=? 57))%Z then Some (n - 48)%Z else None.
(** After a digit; an underscore must be followed by a digit *)
Fixpoint more_digits (acc : Z) (t : text) : option Z :=
  match t with
  | [] => Some acc
  | c :: r =>
      match digit_of c with
      | Some d => more_digits (10 * acc + d)%Z r
      | None => if c =? "_" then
                  match r with
                  | d :: r' => match digit_of d with Some d => more_digits (10 * acc + d)%Z r' | None => None end
                  | [] => None
                  end
                else None
      end
  end.
Definition unsigned (t : text) : option Z :=
  match t with c :: r => match digit_of c with Some d => more_digits d r | None => None end | [] => None end.
Definition int_of_text (t : text) : option Z :=
  match strip t with
  | c :: r => if c =? "-" then option_map Z.opp (unsigned r) else if c =? "+" then unsigned r else unsigned (c :: r)
  | [] => None
  end.

Section Command_line.
(** The function that Python makes of an expression (344-379); None: it does not compile. *)
Variable compile : text -> option func.
(** The function that a word names: a symbol, or a function in the environment (argsparser.py:263-272); None: neither. *)
Variable named : text -> option func.
(** The variables that are set (String.is_var, parser.py:427-428), and Parser's shell_args. *)
Variable is_var : text -> bool.
Variable shell_args : text -> bool.

(** ** Conversions *)
(** argsparser.py:174-182 [str_to_int] *)
Definition str_to_int (o : obj) : option obj :=
  match o with
  | OInt _ | OFun _ => Some o
  | OStr t => option_map OInt (int_of_text t)
  | _ => None
  end.
(** argsparser.py:257-275 [function]; the result is represented by the expression or the word, without its escapes (util.py:226-) *)
Definition to_function (o : obj) : option obj :=
  match o with
  | OFun _ => Some o
  | OStr t => match unescape t with
              | Ok w => match named w with Some _ => Some (OStr w) | None => None end
              | _ => None
              end
  | _ => None
  end.
(** argsparser.py:223-228 [check_pipeline]; a pipeline is OOther *)
Definition to_pipeline (o : obj) : option obj := match o with OOther _ => Some o | _ => None end.

(** The operators, with their declarations and conversions *)
Inductive conversion : Type := Int | Fun | Pipes | As_is.
Definition convert (c : conversion) (o : obj) : option obj :=
  match c with Int => str_to_int o | Fun => to_function o | Pipes => to_pipeline o | As_is => Some o end.
Definition operators : list (string * (decl * list (string * conversion))) :=
  [("gen", (op_gen, [("pad", Int); ("count", Int); ("start", Int)]));              (* gen.py:46-53 *)
   ("map", (op_map, [("function", Fun)]));                                         (* map.py:41-46 *)
   ("select", (op_select, [("function", Fun)]));                                   (* select.py *)
   ("squish", (op_squish, [("function", Fun)]));                                   (* squish.py *)
   ("head", (op_head, [("n", Int)]));                                              (* head.py:37-42 *)
   ("tail", (op_tail, [("n", Int)]));                                              (* tail.py *)
   ("reverse", (op_reverse, []));                                                  (* reverse.py:30-34 *)
   ("sort", (op_sort, [("key", Fun)]));                                            (* sort.py:40-45 *)
   ("unique", (op_unique, []));                                                    (* unique.py:41-46 *)
   ("window", (op_window, [("overlap", Int); ("disjoint", Int); ("predicate", Fun)]));   (* window.py *)
   ("expand", (op_expand, [("position", Int)]));                                   (* expand.py:76-81 *)
   ("red", (op_red, [("functions", Fun)]));                                        (* red.py:121-127 *)
   ("join", (op_join, [("pipeline", Pipes)]));                                     (* join.py:80-87 *)
   ("union", (op_union, [("pipelines", Pipes)]));                                  (* union.py *)
   ("intersect", (op_intersect, [("pipelines", Pipes)]));                          (* intersect.py:47-52 *)
   ("difference", (op_difference, [("pipeline", Pipes)]));                         (* difference.py:57-62 *)
   ("filter", (op_filter, [("compare", As_is); ("pipeline", Pipes)]))]%string.     (* filter.py:77-86 *)
Fixpoint by_name {A : Type} (t : text) (l : list (string * A)) : option A :=
  match l with [] => None | (n, a) :: l => if teqb t (txt n) then Some a else by_name t l end.

(** ** Attributes *)
(** core.py:167-192 [eval_function] with type int; inr: KillCommandException *)
Definition int_attr (o : option obj) : option Z + unit :=
  match o with
  | None | Some ONone => inl None
  | Some (OInt n) => inl (Some n)
  | Some (OFun s) => match compile s with
                     | Some f => match f [] with Some (Val.VInt n) => inl (Some n) | _ => inr tt end
                     | None => inr tt
                     end
  | _ => inr tt
  end.
Definition fun_attr (o : option obj) : option func :=
  match o with Some (OFun s) => compile s | Some (OStr w) => named w | _ => None end.
(** Function.is_grouping, is_count (function.py:109-110) *)
Definition reducer_of (o : obj) : option Group.reducer :=
  match o with
  | OFun s => option_map (fun f => Group.MkRed f false false) (compile s)
  | OStr w => option_map (fun f => Group.MkRed f (teqb w (txt ".")) (teqb w (txt "count"))) (named w)
  | _ => None
  end.
Definition set_ (o : option obj) : bool := match o with Some OTrue => true | _ => false end.
Fixpoint all_some {A : Type} (l : list (option A)) : option (list A) :=
  match l with [] => Some [] | Some a :: l => option_map (cons a) (all_some l) | None :: _ => None end.

Inductive stage_built : Type := B_source (s : source) | B_op (m : machine).

(** What an operator is after setup; [attr]: its attributes; [pipe_no]: its pipelines *)
Definition with_int (o : option Z + unit) (k : option Z -> machine) : option stage_built :=
  Some (B_op (match o with inl n => k n | inr _ => Basic.fail_setup end)).
Definition operator (name : string) (attr : string -> option obj) (pipe_no : nat -> option source) : option stage_built :=
  let pipeline_of o := match o with Some (OOther i) => pipe_no i | _ => None end in
  let pipelines_of o := match o with Some (OList l) => all_some (map (fun o => pipeline_of (Some o)) l) | _ => None end in
  match name with
  | "gen" =>                                                                       (* gen.py:77-101 *)
      match int_attr (attr "pad_arg"), int_attr (attr "count_arg"), int_attr (attr "start_arg") with
      | inl pad, inl (Some count), inl (Some start) => if Z.eqb count 0 then None else Some (B_source (Gen.gen_source count start pad))
      | _, _, _ => None
      end
  | "map" => option_map (fun f => B_op (Basic.map_op f)) (fun_attr (attr "function"))
  | "select" => option_map (fun f => B_op (Basic.select_op f)) (fun_attr (attr "function"))
  | "squish" =>                                                                    (* squish.py: SymbolFunction('+') if there is none *)
      match attr "function" with
      | None | Some ONone => option_map (fun f => B_op (Basic.squish_op f)) (named (txt "+"))
      | o => option_map (fun f => B_op (Basic.squish_op f)) (fun_attr o)
      end
  | "head" => with_int (int_attr (attr "n_arg")) (fun n => match n with Some n => Basic.head_op n | None => Basic.fail_setup end)
  | "tail" => with_int (int_attr (attr "n_arg")) (fun n => match n with Some n => Basic.tail_op n | None => Basic.fail_setup end)
  | "reverse" => Some (B_op Basic.reverse_op)
  | "sort" =>
      match attr "key" with
      | None | Some ONone => Some (B_op (Basic.sort_op None))
      | o => option_map (fun f => B_op (Basic.sort_op (Some f))) (fun_attr o)
      end
  | "unique" => Some (B_op (if set_ (attr "consecutive") then Basic.unique_consecutive_op else Basic.unique_op))
  | "window" =>
      match int_attr (attr "overlap_arg"), int_attr (attr "disjoint_arg") with
      | inl o, inl d =>
          match attr "predicate" with
          | None | Some ONone => Some (B_op (Group.window_op None o d))
          | p => option_map (fun f => B_op (Group.window_op (Some f) o d)) (fun_attr p)
          end
      | _, _ => Some (B_op Basic.fail_setup)
      end
  | "expand" => with_int (int_attr (attr "position_arg")) Group.expand_op
  | "red" =>
      match attr "functions" with
      | Some (OList l) => option_map (fun rs => B_op (Group.red_op (set_ (attr "incremental")) rs)) (all_some (map reducer_of l))
      | _ => None
      end
  | "join" => option_map (fun p => B_op (SetOps.join_op (set_ (attr "keep")) p)) (pipeline_of (attr "pipeline"))
  | "union" => option_map (fun ps => B_op (SetOps.union_op ps)) (pipelines_of (attr "pipelines"))
  | "intersect" => option_map (fun ps => B_op (SetOps.intersect_op ps)) (pipelines_of (attr "pipelines"))
  | "difference" => option_map (fun p => B_op (SetOps.difference_op p)) (pipeline_of (attr "pipeline"))
  | "filter" =>
      match attr "compare" with
      | None => option_map (fun p => B_op (SetOps.filter_op None (set_ (attr "discard")) p)) (pipeline_of (attr "pipeline"))
      | Some (OFun s) =>
          match compile s, pipeline_of (attr "pipeline") with
          | Some f, Some p => Some (B_op (SetOps.filter_op (Some f) (set_ (attr "discard")) p))
          | _, _ => None
          end
      | _ => None
      end
  | _ => None
  end%string.

(** ** create_op_builtin (parser.py:1280-1298), given the values of the arguments: objects, or what pipelines send when run *)
Fixpoint as_objects (i : nat) (vs : list (obj + source)) : list obj :=
  match vs with [] => [] | inl o :: vs => o :: as_objects (S i) vs | inr _ :: vs => OOther i :: as_objects (S i) vs end.
Definition pipe_at (vs : list (obj + source)) (i : nat) : option source := match nth_error vs i with Some (inr s) => Some s | _ => None end.
Definition name_text (o : opname) : option text :=
  match o with OWord k => if is_word k then Some (word_value k) else None | OMade s => Some (txt s) end.
Definition create (name : text) (vs : list (obj + source)) : option stage_built :=
  if is_var name then None else
  match by_name name (map (fun x => (fst x, x)) operators) with
  | None => None
  | Some (n, (d, convs)) =>
      match Args.parse (fun a => convert (match by_name a convs with Some c => c | None => As_is end)) d (as_objects 0 vs) with
      | None => None
      | Some attrs => operator n (fun x => dget (txt x) attrs) (pipe_at vs)
      end
  end.
(** PipelineExecutable.setup and run (pipeline.py:50-69): gen, and only gen, is first *)
Fixpoint machines (l : list stage_built) : option (list machine) :=
  match l with [] => Some [] | B_op m :: l => option_map (cons m) (machines l) | B_source _ :: _ => None end.
Definition run_stages (l : list stage_built) : option source :=
  match l with
  | B_source s :: l => option_map (fun ms => Machine.exec (Machine.pipe ms) s) (machines l)
  | _ => None
  end.

(** ** The arguments (1293-1296), and create_op for the operators of a pipeline *)
Fixpoint argument_value (a : arg) : option (obj + source) :=
  match a with
  | AToken k => match tkind k with
                | KString cs => Some (inl (OStr cs))
                | KExpr s => match compile s with Some _ => Some (inl (OFun s)) | None => None end
                | _ => None
                end
  | AMade s => Some (inl (OStr (txt s)))
  | APipe [] ops _ => option_map inr
      match (fix go (l : list call) : option (list stage_built) :=
               match l with
               | [] => Some []
               | c :: l => match create_op c, go l with Some b, Some bs => Some (b :: bs) | _, _ => None end
               end) ops with
      | Some l => run_stages l
      | None => None
      end
  | APipe _ _ _ => None
  end
with create_op (c : call) : option stage_built :=
  match c with
  | Call o args =>
      match name_text o, (fix go (l : list arg) : option (list (obj + source)) :=
               match l with
               | [] => Some []
               | a :: l => match argument_value a, go l with Some v, Some vs => Some (v :: vs) | _, _ => None end
               end) args with
      | Some n, Some vs => create n vs
      | _, _ => None
      end
  end.
Fixpoint create_all (l : list call) : option (list stage_built) :=
  match l with
  | [] => Some []
  | c :: l => match create_op c, create_all l with Some b, Some bs => Some (b :: bs) | _, _ => None end
  end.
Definition run_ops (l : list call) : option source := match create_all l with Some l => run_stages l | None => None end.

(** What running the command of this text sends, and how it ends *)
Definition run_line (t : text) : option source :=
  match Parser.parse shell_args t with
  | Ok (CRun [] ops) => run_ops ops
  | _ => None
  end.
End Command_line.
