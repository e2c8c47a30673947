(** What variables should mean, independently of how the namespace is stored. *)
From Verif.Env Require Export Namespace.
Local Open Scope string_scope.
Local Open Scope list_scope.

(** A variable environment: the global variables and, for each pipeline call in progress (innermost
    first), the values of its parameters. *)
Definition frame := list (string * val).
Record senv := mksenv { globals : string -> option val; frames : list frame }.

Fixpoint lookup (fr : frame) (x : string) : option val :=
  match fr with
  | [] => None
  | (y, v) :: r => if String.eqb x y then Some v else lookup r x
  end.

(** The variable a name denotes: the innermost parameter of that name, else the global. *)
Fixpoint sread (g : string -> option val) (fs : list frame) (x : string) : option val :=
  match fs with
  | [] => g x
  | fr :: r => match lookup fr x with Some v => Some v | None => sread g r x end
  end.

Definition update (g : string -> option val) (x : string) (v : option val) : string -> option val :=
  fun y => if String.eqb x y then v else g y.

Definition overwrite (fr : frame) (x : string) (v : val) : frame :=
  map (fun kv => if String.eqb x (fst kv) then (fst kv, v) else kv) fr.

Fixpoint swrite (g : string -> option val) (fs : list frame) (x : string) (v : val)
  : (string -> option val) * list frame :=
  match fs with
  | [] => (update g x (Some v), [])
  | fr :: r => match lookup fr x with
               | Some _ => (g, overwrite fr x v :: r)
               | None => let '(g', r') := swrite g r x v in (g', fr :: r')
               end
  end.

Definition is_param (fs : list frame) (x : string) : bool :=
  existsb (fun fr => match lookup fr x with Some _ => true | None => false end) fs.

(** Running a command against this meaning of variables. [locked] are the names that cannot be
    assigned or deleted. The result is [None] when the command does one of two things the code gets
    wrong: binding a parameter whose name is a global variable, or deleting a parameter. *)
Fixpoint sexec (locked : string -> bool) (p : prog) (g : string -> option val) (fs : list frame)
  : option ((string -> option val) * list frame * list (option val) * bool) :=
  match p with
  | PDone => Some (g, fs, [], true)
  | PFail => Some (g, fs, [], false)
  | PSet x v k | PImport x v k =>
    if locked x then Some (g, fs, [], false)
    else let '(g', fs') := swrite g fs x v in sexec locked k g' fs'
  | PDel x k =>
    if locked x then Some (g, fs, [], false)
    else if is_param fs x then None
    else sexec locked k (update g x None) fs
  | PRead x k =>
    match sexec locked (k (sread g fs x)) g fs with
    | Some (g', fs', rs, ok) => Some (g', fs', sread g fs x :: rs, ok)
    | None => None
    end
  | PCall b p k =>
    if existsb (fun x => match g x with Some _ => true | None => false end) (map fst b) then None
    else match sexec locked p g (b :: fs) with
         | None => None
         | Some (g1, fs1, rs, ok) =>
           if ok
           then match sexec locked k g1 (tl fs1) with
                | Some (g2, fs2, rs', ok') => Some (g2, fs2, rs ++ rs', ok')
                | None => None
                end
           else Some (g1, tl fs1, rs, false)
         end
  end.

(** [touches p x]: the command may assign, import or delete [x] outside the parameters of the
    pipelines it calls. *)
Fixpoint touches (p : prog) (x : string) : Prop :=
  match p with
  | PDone | PFail => False
  | PSet y _ k | PImport y _ k | PDel y k => y = x \/ touches k x
  | PRead _ k => exists r, touches (k r) x
  | PCall b p k => (touches p x /\ ~ In x (map fst b)) \/ touches k x
  end.

(** [binds p x]: the command may call a pipeline with a parameter named [x]. *)
Fixpoint binds (p : prog) (x : string) : Prop :=
  match p with
  | PDone | PFail => False
  | PSet _ _ k | PImport _ _ k | PDel _ k => binds k x
  | PRead _ k => exists r, binds (k r) x
  | PCall b p k => In x (map fst b) \/ binds p x \/ binds k x
  end.

(** Deletion-free commands. *)
Fixpoint deletes (p : prog) (x : string) : Prop :=
  match p with
  | PDone | PFail => False
  | PDel y k => y = x \/ deletes k x
  | PSet _ _ k | PImport _ _ k => deletes k x
  | PRead _ k => exists r, deletes (k r) x
  | PCall b p k => deletes p x \/ deletes k x
  end.

Fixpoint imports (p : prog) (x : string) : Prop :=
  match p with
  | PDone | PFail => False
  | PImport y _ k => y = x \/ imports k x
  | PSet _ _ k | PDel _ k => imports k x
  | PRead _ k => exists r, imports (k r) x
  | PCall b p k => imports p x \/ imports k x
  end.

(** Calls bind each parameter once (pipeline.py:316 asserts that the bindings are a dict keyed by the
    parameters). *)
Fixpoint calls_ok (p : prog) : Prop :=
  match p with
  | PDone | PFail => True
  | PSet _ _ k | PImport _ _ k | PDel _ k => calls_ok k
  | PRead _ k => forall r, calls_ok (k r)
  | PCall b p k => NoDup (map fst b) /\ calls_ok p /\ calls_ok k
  end.

(** Parameter names are kept apart from global names: a name used for a parameter is not a global
    variable, is not assigned outside the pipelines it is a parameter of, and is not deleted. *)
Definition well_named (p : prog) (g : string -> option val) : Prop :=
  forall x, binds p x -> g x = None /\ ~ touches p x /\ ~ deletes p x.

(** Nothing is running: no pipeline call in progress. *)
Definition at_top (h : handler) : Prop := inner (nsp h) = [].

(** The environment inside pipelines called with bindings [bs], outermost first. *)
Definition inside (h : handler) (bs : list dict) : handler :=
  with_ns h (fold_left push_scope bs (nsp h)).

(** A name the user cannot assign or delete. *)
Definition protected (h : handler) (x : string) : bool := enforce h && mem x (immutable h).

(** The variables just after a workspace has been opened ([perm]: those defined by marcel and by the
    startup script) are the permanent and the saved ones. *)
Definition as_opened (perm : dict) (h : handler) : Prop :=
  exists saved, nsp h = reopen perm saved.

Definition saved_and_reopened (perm : dict) (h : handler) : handler :=
  with_ns h (reopen perm (persistent (nsp h))).
