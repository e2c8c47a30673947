(** C78: cases that meet the hypotheses of the theorems. *)
From Verif.Ops Require Import PosRefuted PosOutput.
Local Open Scope Z_scope.
Local Open Scope list_scope.

(** (f: (f, pos())), (f, p1: f % 2 == 0) and (f, p1: (f, p1, pos())) *)
Definition with_pos : pfunc := fun p args => match p with Some n => Some (VTuple (args ++ [VInt n])) | None => None end.
Definition even_first : pfunc := fun _ args => match args with VInt z :: _ => Some (VBool (Z.even z)) | _ => None end.
Definition five : list val := map VInt [0; 1; 2; 3; 4].

(** test/test_ops.py:1986: gen 5 | (f: (f, pos())) | select (f, p1: f % 2 == 0) | (f, p1: (f, p1, pos())) *)
Example c78_test_pos :
  let l := [(0%nat, SMap with_pos); (1%nat, SSelect even_first); (2%nat, SMap with_pos)] in
  NoDup (map fst l) /\ usual_pipeline false (made l) /\
  seen (trace (run five (made l) (new_world None (fun _ => [])))) =
  map D [VTuple (map VInt [0; 0; 0]); VTuple (map VInt [2; 2; 1]); VTuple (map VInt [4; 4; 2])].
Proof. cbv zeta. split; [ | split]; [repeat constructor; cbn; intuition discriminate | repeat constructor | reflexivity]. Qed.

(** An error takes no position in the stream that it is in: select fails for strings *)
Example c78_errors :
  seen (trace (run [VInt 0; VStr "a"; VInt 2] (made [(0%nat, SSelect even_first); (1%nat, SMap with_pos)]) (new_world None (fun _ => [])))) =
  [D (VTuple (map VInt [0; 0])); E; D (VTuple (map VInt [2; 1]))].
Proof. reflexivity. Qed.

(** window and red, by position: windows of two, and the sum of the positions *)
Definition every_other : pfunc := fun p _ => match p with Some n => Some (VBool (Z.even n)) | None => None end.
Definition add_pos : pfunc := fun p args => match p, args with
  | Some n, VNone :: _ => Some (VInt n) | Some n, VInt z :: _ => Some (VInt (z + n)) | _, _ => None end.
Example c78_windows :
  seen (trace (run five (made [(0%nat, SWindow every_other); (1%nat, SRed true [add_pos])]) (new_world None (fun _ => [])))) =
  [D (VTuple [VInt 0; VInt 1; VInt 0]); D (VTuple [VInt 2; VInt 3; VInt 1]); D (VTuple [VInt 4; VInt 3])].
Proof. vm_compute. reflexivity. Qed.

(** A session: the same pipeline, with a case and an args, is run twice *)
Definition nested : pipeline :=
  Cons (Case 0 (Branch even_first (Cons (Prim 1 (map_b with_pos)) (only (redirect 2))) (Default (only (redirect 3)))))
       (only (Args 4 (fun x => [x; x]) (Cons (Prim 5 (squish_b add_pos)) (only (redirect 6))))).
Example c78_session_case :
  Forall (fun r => usual_pipeline true (snd r)) [(five, nested); (five, nested)] /\
  length (filter (fun e => match e with Called _ _ => true | _ => false end) (trace (session [(five, nested); (five, nested)] (new_world None (fun _ => []))))) = 48%nat.
Proof.
  split; [ | vm_compute; reflexivity].
  assert (U : usual_pipeline true nested).
  { unfold nested, only, redirect.
    repeat first [apply u_nil | apply u_cons | apply u_map | apply u_squish | apply u_case | apply u_branch | apply u_default | apply u_plain | (apply u_args; [reflexivity | ])]. }
  apply Forall_cons; [exact U | ]. apply Forall_cons; [exact U | apply Forall_nil].
Qed.

(** The hypotheses of the refuted ones *)
Example c78_rerun_case :
  seen (trace (session [(five, only (Prim 0 (map_b with_pos))); ([VInt 7], only (Prim 0 (map_b with_pos)))] (new_world None (fun _ => [])))) =
  map D [VTuple (map VInt [0; 0]); VTuple (map VInt [1; 1]); VTuple (map VInt [2; 2]); VTuple (map VInt [3; 3]); VTuple (map VInt [4; 4]); VTuple (map VInt [7; 5])].
Proof. reflexivity. Qed.
Example c78_first_case :
  run_first 0 (map_b (fun p _ => match p with Some n => Some (VInt n) | None => None end)) Nil (new_world None (fun _ => [])) =
  note (Failed 0) (keep 0 [] (note (Called 0 None) (keep 0 [] (note (Setup 0) (new_world None (fun _ => [])))))).
Proof. reflexivity. Qed.
