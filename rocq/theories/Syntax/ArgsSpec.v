(** What it means to read the arguments of an operator. *)
From Verif.Syntax Require Export Args.
Local Open Scope char_scope.
Local Open Scope list_scope.

(** A flag of the operator, in its short or long form. *)
Definition known (d : decl) (o : obj) : Prop :=
  exists x f, o = OStr x /\ In f (d_flags d) /\ In x (symbols f).

(** A string that looks like a flag. *)
Definition dash_word (o : obj) : Prop := exists b r, o = OStr ("-" :: b :: r).

(** [-xyz] is short for [-x -y -z], if these are all flags. *)
Definition cluster (d : decl) (o : obj) (cs : text) : Prop :=
  o = OStr ("-" :: cs) /\ 2 <= length cs /\ hd "-" cs <> "-" /\ forall c, In c cs -> known d (OStr ["-"; c]).

Inductive stands_for (d : decl) : obj -> list obj -> Prop :=
| stands_itself : forall o, (forall cs, ~ cluster d o cs) -> stands_for d o [o]
| stands_cluster : forall o cs, cluster d o cs -> stands_for d o (map (fun c => OStr ["-"; c]) cs).

(** A flag as used in a command, with its value, if it is given one. *)
Record use := mkuse { u_sym : text; u_flag : flag; u_val : option obj }.

Definition written (u : use) : list obj :=
  OStr (u_sym u) :: match u_val u with Some v => [v] | None => [] end.

(** A flag is of this operator, and has a value if it needs one, and none if it takes none. *)
Definition use_ok (d : decl) (u : use) : Prop :=
  In (u_flag u) (d_flags d) /\ In (u_sym u) (symbols (u_flag u)) /\
  match f_value (u_flag u), u_val u with
  | VNone, Some _ => False
  | VOne, None => False
  | _, _ => True
  end /\
  forall v, u_val u = Some v -> ~ dash_word v.

(** The value that the flag's attribute gets. *)
Definition use_value (conv : text -> obj -> option obj) (u : use) (v : obj) : Prop :=
  match u_val u with
  | Some o => conv (f_name (u_flag u)) o = Some v
  | None => v = f_default (u_flag u)
  end /\
  (f_value (u_flag u) = VOne -> v <> OTrue).

(** The positional arguments [pos] give the declared ones their values [vs], in order; [rest] is left
    over; declared ones not reached get their defaults. *)
Inductive fills (conv : text -> obj -> option obj) : list anon -> list obj -> list obj -> list obj -> Prop :=
| fills_done : forall rest, fills conv [] rest [] rest
| fills_given : forall a o v as_ pos vs rest, conv (a_name a) o = Some v ->
    fills conv as_ pos vs rest -> fills conv (a :: as_) (o :: pos) (v :: vs) rest
| fills_default : forall a v as_ vs rest, a_default a = Some v ->
    fills conv as_ [] vs rest -> fills conv (a :: as_) [] (v :: vs) rest.

(** The names of the arguments given. *)
Definition given (d : decl) (us : list use) (pos : list obj) : list text :=
  map (fun u => f_name (u_flag u)) us ++ map a_name (firstn (length pos) (d_anons d)).

Definition at_most_one_of (g names : list text) : Prop :=
  forall n m, In n g -> In m g -> In n names -> In m names -> n = m.
Definition one_of (g names : list text) : Prop := exists n, In n g /\ In n names.

(** [reading conv d ts us pos attrs]: the words [ts] are the uses [us] of distinct flags, followed by
    the positional arguments [pos]; and the attributes [attrs] are their values. Every word has
    exactly one role. *)
Record reading (conv : text -> obj -> option obj) (d : decl) (ts : list obj) (us : list use) (pos : list obj)
  (attrs : list (text * obj)) : Prop := mkreading {
  r_words : ts = flat_map written us ++ pos;
  r_uses : Forall (use_ok d) us;
  r_once : NoDup (map u_flag us);
  (* a flag whose value is optional takes the next word if it can *)
  r_taken : forall us' u, us = us' ++ [u] -> u_val u = None -> f_value (u_flag u) <> VNone -> pos = [];
  r_pos : forall o, In o pos -> ~ known d o;
  r_first : forall o r, pos = o :: r -> d_flags d <> [] -> ~ dash_word o;
  r_at_most : forall g, In g (d_at_most d) -> at_most_one_of g (given d us pos);
  r_exactly : forall g, In g (d_exactly d) -> at_most_one_of g (given d us pos) /\ one_of g (given d us pos);
  r_attrs : exists fvs avs rest,
    Forall2 (use_value conv) us fvs /\
    fills conv (d_anons d) pos avs rest /\
    match d_list d with
    | None => rest = [] /\
        attrs = combine (map (fun u => f_target (u_flag u)) us) fvs ++ combine (map a_target (d_anons d)) avs
    | Some (n, t) => exists lvs, Forall2 (fun o v => conv n o = Some v) rest lvs /\
        attrs = combine (map (fun u => f_target (u_flag u)) us) fvs ++ combine (map a_target (d_anons d)) avs ++
                [(t, OList lvs)]
    end }.

(** The attributes that arguments are stored in. *)
Definition targets (d : decl) : list text :=
  map f_target (d_flags d) ++ map a_target (d_anons d) ++ (match d_list d with Some (_, t) => [t] | None => [] end).

(** ** Pipeline arguments *)

(** A word that names a parameter: [-p] or [--p]. *)
Definition names_param (o : obj) (p : text) : Prop :=
  isidentifier p = true /\ (o = OStr ("-" :: p) \/ o = OStr ("-" :: "-" :: p)).

(** A named argument, or a parameter named without a value. *)
Inductive named : list obj -> option (text * obj) -> Prop :=
| named_value : forall o p v, names_param o p -> (forall q, ~ names_param v q) -> named [o; v] (Some (p, v))
| named_alone : forall o p, names_param o p -> named [o] None.

Definition somes {A : Type} (l : list (option A)) : list A :=
  flat_map (fun x => match x with Some a => [a] | None => [] end) l.
