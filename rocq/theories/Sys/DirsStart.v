(** C31: where a session begins (Environment.go_to_current_dir, env.py:226-236, called by MainInteractive.run, main.py:220). *)
From Verif.Sys Require Import DirsSpec DirsProps.
Local Open Scope string_scope.
Local Open Scope list_scope.

(** env.py:226-236. PWD and DIRS are those of the workspace that is opened (or of the process, [startup]). os.chdir needs a
    directory that can be entered; an exception here is not handled, and ends marcel ([DCrash]).
    The process's directory is the one the path leads to (links followed). *)
Definition go_to_current_dir (f : fsys) (home : path) (s : dstate) : dstate * dout :=
  let d := if negb (pwd s =? "") && (f_exists f (pwd s) && f_isdir f (pwd s)) then pwd s else home in
  if f_isdir f d && f_access f d
  then change_current_dir f home d (Dstate (f_resolve f d) (pwd s) (dirs s))
  else (s, DCrash).

Lemma go_ok : forall f home s d, fs_ok f -> reachable f d ->
  (if negb (pwd s =? "") && (f_exists f (pwd s) && f_isdir f (pwd s)) then pwd s else home) = d ->
  exists s', go_to_current_dir f home s = (s', DOk) /\ consistent s' /\ cwd s' = f_resolve f d /\
    stack s' = f_resolve f d :: tl (kept f (stack s)).
Proof.
  intros f home s d F R E. unfold go_to_current_dir. rewrite E, (reach_true _ _ R).
  destruct (ccd_ok f home d (Dstate (f_resolve f d) (pwd s) (dirs s)) F R) as (s' & X & C & P & T).
  exists s'. split; [exact X|]. split; [split; [congruence|]|split; [exact C|exact T]]. rewrite T, C. eauto.
Qed.

(** A session begins in the directory in which the workspace was left, with the directories of the stack that can still be
    used, if one can still go there. *)
Theorem c31_start_same : forall f home s r, fs_ok f -> pwd s <> "" -> reachable f (pwd s) -> resolved f (pwd s) ->
  stack s = pwd s :: r ->
  exists s', go_to_current_dir f home s = (s', DOk) /\ consistent s' /\ cwd s' = pwd s /\ stack s' = pwd s :: kept f r.
Proof.
  intros f home s r F N R Q T.
  destruct (go_ok f home s (pwd s) F R) as (s' & X & C & W & K).
  { rewrite (proj2 (String.eqb_neq _ _) N). destruct R as (D & A). now rewrite (isdir_exists f F _ D), D. }
  exists s'. repeat split; auto; try apply C; try congruence.
  rewrite K, T, Q. cbn [kept filter]. destruct R as (D & A). rewrite (isdir_exists f F _ D), A. reflexivity.
Qed.

(** Otherwise it begins in the home directory, the top of the stack. *)
Theorem c31_start_home : forall f home s, fs_ok f -> f_isdir f (pwd s) = false -> reachable f home ->
  exists s' r, go_to_current_dir f home s = (s', DOk) /\ consistent s' /\ cwd s' = f_resolve f home /\
    stack s' = f_resolve f home :: r /\ forall p, In p r -> In p (stack s) /\ f_exists f p = true /\ f_access f p = true.
Proof.
  intros f home s F D R. destruct (go_ok f home s home F R) as (s' & X & C & W & K).
  { rewrite D, andb_false_r, andb_false_r. reflexivity. }
  exists s', (tl (kept f (stack s))). repeat split; auto; try apply C.
  all: assert (I : In p (kept f (stack s))) by (destruct (kept f (stack s)); [contradiction|now right]); apply kept_in in I; tauto.
Qed.

(** But then the directory below it in the stack is lost, although nothing happened to it: the directory that is gone is
    removed from the stack first, and then home takes the place of another. *)
Theorem c31_start_loses_refuted : forall f home s a r, fs_ok f -> f_exists f (pwd s) = false -> reachable f home ->
  stack s = pwd s :: a :: r -> f_exists f a = true -> f_access f a = true ->
  exists s', go_to_current_dir f home s = (s', DOk) /\ stack s' = f_resolve f home :: kept f r.
Proof.
  intros f home s a r F E R T EA AA.
  destruct (go_ok f home s home F R) as (s' & X & C & W & K).
  { rewrite E, andb_false_r. reflexivity. }
  exists s'. split; auto. rewrite K, T. cbn [kept filter]. rewrite E, EA, AA. reflexivity.
Qed.

(** And a directory that exists but can no longer be entered ends marcel, whenever the workspace is opened. *)
Theorem c31_start_dies_refuted : forall f home s, fs_ok f -> pwd s <> "" -> f_isdir f (pwd s) = true -> f_access f (pwd s) = false ->
  snd (go_to_current_dir f home s) = DCrash.
Proof.
  intros f home s F N D A. unfold go_to_current_dir.
  rewrite (proj2 (String.eqb_neq _ _) N), (isdir_exists f F _ D), D. cbn [negb andb]. rewrite D, A. reflexivity.
Qed.

(** ** Cases: /a is pushed on /b; later /b is gone, or cannot be entered. *)
Definition fs2 (gone shut : path) : fsys :=
  Fsys (fun p => negb (p =? gone)) (fun p => negb (p =? gone)) (fun p => negb (p =? gone) && negb (p =? shut)) (fun p => p).
Lemma fs2_ok : forall g s, fs_ok (fs2 g s). Proof. constructor; auto. Qed.
Definition left_at : dstate := session "/" [(fs2 "" "", CPushd (Some ["/b"]))] (startup "/a").
Example c31_start_case :
  (pwd left_at = "/b" /\ stack left_at = ["/b"; "/a"]) /\
  (reachable (fs2 "/a" "") (pwd left_at) /\ stack (fst (go_to_current_dir (fs2 "/a" "") "/" left_at)) = ["/b"]) /\
  (reachable (fs2 "/b" "") "/" /\ stack (fst (go_to_current_dir (fs2 "/b" "") "/" left_at)) = ["/"]) /\
  snd (go_to_current_dir (fs2 "" "/b") "/" left_at) = DCrash.
Proof. vm_compute. repeat split. Qed.

Print Assumptions c31_start_same.
Print Assumptions c31_start_home.
Print Assumptions c31_start_loses_refuted.
Print Assumptions c31_start_dies_refuted.
