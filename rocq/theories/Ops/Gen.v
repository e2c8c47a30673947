(** gen (op/gen.py) *)
From Verif.Py Require Export Dec.
From Verif.Ops Require Export Nested.
Set Implicit Arguments.
Local Open Scope list_scope.

(** setup 78-90; [None]: KillCommand. The result is the format function applied to each number. *)
Definition gen_setup (count start : Z) (pad : option Z) : option (Z -> val) :=
  match pad with
  | None => Some VInt
  | Some p =>
    if Z.eqb count 0 then None                                                         (* 83-84 *)
    else if Z.ltb start 0 then None                                                    (* 85-86 *)
    else if Z.ltb p (Z.of_nat (String.length (dec (start + count - 1)))) then None     (* 87-89 *)
    else Some (fun x => VStr (zero_pad (Z.to_nat p) (dec x)))
  end.

(** range(start, start + count) *)
Definition zrange (start count : Z) : list Z :=
  map (fun i => (start + Z.of_nat i)%Z) (seq 0 (Z.to_nat count)).

(** run 99-101, for count <> 0 *)
Definition gen_source (count start : Z) (pad : option Z) : source :=
  match gen_setup count start pad with
  | None => ([], Kill)
  | Some fmt => (map (fun x => Data (fmt x)) (zrange start count), Ok)
  end.

(** run 94-98: [count = 0].  The loop has no exit: after k sends it goes on unless a send raised.
    [gen_forever start k]: the events of the first k sends. *)
Definition gen_forever (start : Z) (k : nat) : list event :=
  map (fun i => Data (VInt (start + Z.of_nat i))) (seq 0 k).
